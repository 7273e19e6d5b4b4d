(** The bit tricks of [next_down]. *)
From Coq Require Import ZArith NArith List Arith Lia.
From Verif Require Import ModelHeap LemHeap.
Set Implicit Arguments.

Definition ctzN (n : N) : N := match n with N0 => 0%N | Npos p => ctz_pos p end.

Local Open Scope N_scope.

Lemma low_not_bit w i j : N.testbit (low_not w i) j = (N.ltb j w && negb (N.testbit i j))%bool.
Proof.
  unfold low_not. rewrite N.lxor_spec. destruct (N.ltb_spec j w) as [L|L].
  - rewrite N.mod_pow2_bits_low, N.ones_spec_low by auto. now destruct (N.testbit i j).
  - rewrite N.mod_pow2_bits_high, N.ones_spec_high by auto. reflexivity.
Qed.

Lemma low_not_even w i : low_not (N.succ w) (2 * i) = 2 * low_not w i + 1.
Proof.
  apply N.bits_inj. intros j. rewrite low_not_bit. destruct j as [|p] using N.peano_ind.
  - rewrite N.testbit_even_0, N.testbit_odd_0. destruct (N.ltb_spec 0 (N.succ w)); auto. lia.
  - rewrite N.testbit_even_succ, N.testbit_odd_succ, low_not_bit by lia.
    destruct (N.ltb_spec p w), (N.ltb_spec (N.succ p) (N.succ w)); auto; lia.
Qed.

Lemma low_not_odd w i : low_not (N.succ w) (2 * i + 1) = 2 * low_not w i.
Proof.
  apply N.bits_inj. intros j. rewrite low_not_bit. destruct j as [|p] using N.peano_ind.
  - rewrite N.testbit_even_0, N.testbit_odd_0. now destruct (N.ltb_spec 0 (N.succ w)).
  - rewrite N.testbit_even_succ, N.testbit_odd_succ, low_not_bit by lia.
    destruct (N.ltb_spec p w), (N.ltb_spec (N.succ p) (N.succ w)); auto; lia.
Qed.

Lemma low_not_0 w i : low_not w i = 0 <-> i mod 2 ^ w = 2 ^ w - 1.
Proof.
  unfold low_not. rewrite N.lxor_eq_0_iff, N.ones_equiv. split; intros H; lia.
Qed.

Lemma ctzN_double n : n <> 0 -> ctzN (2 * n) = N.succ (ctzN n).
Proof. destruct n; [contradiction|reflexivity]. Qed.
Lemma ctzN_odd n : ctzN (2 * n + 1) = 0.
Proof. now destruct n. Qed.

Definition next_w (w idx : N) : option N :=
  let x := low_not w idx in if N.eqb x 0 then None else Some (N.shiftr idx (ctzN x) + 1).

Lemma next_w_even w i : next_w (N.succ w) (2 * i) = Some (2 * i + 1).
Proof.
  unfold next_w. rewrite low_not_even, ctzN_odd.
  destruct (N.eqb_spec (2 * low_not w i + 1) 0); [lia|]. now rewrite N.shiftr_0_r.
Qed.

Lemma next_w_odd w i : next_w (N.succ w) (2 * i + 1) = next_w w i.
Proof.
  unfold next_w. rewrite low_not_odd.
  destruct (N.eqb_spec (low_not w i) 0) as [->|H]; [reflexivity|].
  destruct (N.eqb_spec (2 * low_not w i) 0); [lia|].
  rewrite ctzN_double by auto. do 2 f_equal.
  rewrite <- N.add_1_l, <- N.shiftr_shiftr. f_equal.
  rewrite N.shiftr_div_pow2. change (2 ^ 1) with 2. symmetry. apply N.div_unique with 1; lia.
Qed.

Lemma next_w_loop : forall (w : nat) (i : nat), (1 <= i)%nat ->
  N.of_nat i mod 2 ^ N.of_nat w <> 2 ^ N.of_nat w - 1 ->
  next_w (N.of_nat w) (N.of_nat i) = option_map N.of_nat (next_down i).
Proof.
  induction w as [|w IH]; intros i Hi H.
  - elim H. cbn. rewrite N.mod_1_r. reflexivity.
  - rewrite Nat2N.inj_succ in *.
    destruct (Nat.Even_or_Odd i) as [[q ->]|[q ->]].
    + replace (N.of_nat (2 * q)) with (2 * N.of_nat q) by lia. rewrite next_w_even, next_down_even.
      cbn [option_map]. f_equal. lia.
    + replace (N.of_nat (2 * q + 1)) with (2 * N.of_nat q + 1) in * by lia. rewrite next_w_odd.
      destruct (Nat.eq_dec q 0) as [->|Hq].
      * cbn [Nat.mul Nat.add]. rewrite next_down_1. destruct w as [|w]; [now elim H|].
        rewrite Nat2N.inj_succ. change (N.of_nat 0) with (2 * 0). rewrite next_w_even. reflexivity.
      * rewrite next_down_odd by lia. apply IH; [lia|]. intros E. apply H. clear H IH.
        apply low_not_0 in E. apply low_not_0. rewrite low_not_odd, E. reflexivity.
Qed.

Lemma next_down_gcc_w i : next_down_gcc i = next_w bits32 i.
Proof. unfold next_down_gcc, next_w. now destruct (low_not bits32 i). Qed.

Lemma next_down_cuda_gcc i : next_down_cuda i = next_down_gcc i.
Proof.
  unfold next_down_cuda, next_down_gcc. destruct (low_not bits32 i); auto. now rewrite N.pred_succ.
Qed.

Lemma gcc_loop i : (1 <= i)%nat -> N.of_nat i mod 2 ^ 32 <> 2 ^ 32 - 1 ->
  next_down_gcc (N.of_nat i) = option_map N.of_nat (next_down i).
Proof. intros Hi H. rewrite next_down_gcc_w. exact (@next_w_loop 32%nat i Hi H). Qed.

Lemma gcc_undefined i : i mod 2 ^ 32 = 2 ^ 32 - 1 -> next_down_gcc i = None.
Proof.
  intros H. unfold next_down_gcc. apply (low_not_0 bits32) in H. now rewrite H.
Qed.

Lemma gcc_next_spec size : N.of_nat size < 2 ^ 32 -> next_spec next_down_gcc_nat size.
Proof.
  intros Hs.
  assert (G : forall i, (1 <= i < size)%nat -> next_down_gcc_nat i = next_down i).
  { intros i Hi. unfold next_down_gcc_nat. rewrite gcc_loop; [|lia|].
    - destruct (next_down i); cbn [option_map]; auto. now rewrite Nat2N.id.
    - assert (N.of_nat i < 2 ^ 32 - 1) by lia. rewrite N.mod_small by lia. lia. }
  destruct (next_down_spec size) as (A & B & C).
  split; [|split].
  - intros i H1 H2. rewrite G by lia. apply A; auto.
  - intros i H1 H2. rewrite !G by lia. apply B; auto.
  - intros H. rewrite G by lia. apply C; auto.
Qed.
