(** [synchronize_sum] and the exchanges through the host. *)
From Coq Require Import ZArith Reals List Arith Lia Lra Bool Permutation.
From Verif Require Import Num Arr ArrLemmas SpecPhys RLemmas LemEngine ModelParallel SpecPar
  LemParallel LemOmp ModelGpu SpecGpu LemGpu.
Import ListNotations.
Set Implicit Arguments.

Lemma mod_2 x D : x < 2 * D -> x mod D = if x <? D then x else x - D.
Proof.
  intros H. destruct (Nat.ltb_spec x D); [now apply Nat.mod_small|].
  symmetry. apply Nat.mod_unique with 1; lia.
Qed.

Section Sum.
  Context {T : Type} (U : NumOps T).
  Variables (D size launched : nat).
  Hypothesis HL : launched <= size.

  (** what device [j] holds before round [e] *)
  Fixpoint ring (f : nat -> T) (e j : nat) : T :=
    match e with
    | O => f j
    | S e => nadd U (ring f e j) (nmul U (ring f e ((j + D - 2 ^ e) mod D)) (nlit U 1))
    end.

  Lemma in_buffers (m : mem T) n a i : buffers m n size -> a < n -> i < size -> mrd m a i <> None.
  Proof.
    intros [H1 H2] Ha Hi. unfold mrd, rd. rewrite <- H1 in Ha.
    destruct (nth_error m a) as [b|] eqn:E; [|apply nth_error_None in E; lia].
    cbn [obind]. apply nth_error_Some. apply nth_error_In in E.
    now rewrite (proj1 (Forall_forall _ _) H2 b E).
  Qed.

  Lemma buffers_shape' (m m' : mem T) n : shape m' = shape m -> buffers m n size -> buffers m' n size.
  Proof.
    intros E [H1 H2]. assert (EL : length m' = length m).
    { unfold shape in E. apply (f_equal (@length nat)) in E. now rewrite !map_length in E. }
    split; [congruence|]. apply Forall_forall. intros b Hb.
    apply (in_map (@length T)) in Hb. fold (shape m') in Hb. rewrite E in Hb.
    apply in_map_iff in Hb. destruct Hb as (b' & <- & Hb').
    apply (proj1 (Forall_forall _ _) H2). auto.
  Qed.

  Lemma in_sum_copy s c : In c (sum_copy_cells D size s) <->
    exists n i, n < D /\ i < size /\ c = Cell n i (D + (n + s) mod D) i.
  Proof.
    unfold sum_copy_cells. rewrite in_flat_map. split.
    - intros (n & Hn & Hc). apply in_seq in Hn. apply in_map_iff in Hc.
      destruct Hc as (i & <- & Hi). apply in_seq in Hi. exists n, i.
      repeat match goal with |- _ /\ _ => split end; auto; lia.
    - intros (n & i & Hn & Hi & ->). exists n. split; [apply in_seq; lia|].
      apply in_map_iff. exists i. split; auto. apply in_seq. lia.
  Qed.

  Lemma sum_copy_ok s (m : mem T) : s < D -> buffers m (2 * D) size ->
    every_schedule (map cell_copy (sum_copy_cells D size s)) m (fun m' =>
      buffers m' (2 * D) size /\
      forall j i, j < D -> i < size ->
        mrd m' j i = mrd m j i /\ mrd m' (D + j) i = mrd m ((j + D - s) mod D) i).
  Proof.
    intros Hs HB. eapply schedule_weaken; [|apply cells_schedules].
    - cbv beta. intros m' (S & Hw & Ho). split; [now apply (@buffers_shape' m m')|].
      intros j i Hj Hi. split.
      + apply Ho. intros Hin. apply in_map_iff in Hin. destruct Hin as (c & E & Hc).
        apply in_sum_copy in Hc. destruct Hc as (n & i' & _ & _ & ->).
        unfold c_w in E. cbn [c_dst c_di] in E. injection E as E _. lia.
      + assert (Hn : (j + D - s) mod D < D) by (apply Nat.mod_upper_bound; lia).
        assert (Hin : In (Cell ((j + D - s) mod D) i (D + ((j + D - s) mod D + s) mod D) i)
                         (sum_copy_cells D size s)).
        { apply in_sum_copy. eauto. }
        apply Hw in Hin. cbn [c_src c_si c_dst c_di] in Hin. rewrite <- Hin. f_equal. f_equal.
        rewrite Nat.add_mod_idemp_l by lia. replace (j + D - s + s) with (j + 1 * D) by lia.
        rewrite Nat.mod_add by lia. symmetry. now apply Nat.mod_small.
    - unfold sum_copy_cells. rewrite map_flat_map. apply NoDup_flat_map.
      + apply seq_NoDup.
      + intros n _. rewrite map_map. apply FinFun.Injective_map_NoDup.
        * intros x y [= E]. lia.
        * apply seq_NoDup.
      + intros n n' b Hn Hn' Hb Hb'. apply in_seq in Hn, Hn'.
        rewrite map_map in Hb, Hb'. apply in_map_iff in Hb, Hb'.
        destruct Hb as (i & <- & Hi), Hb' as (i' & E & Hi').
        unfold c_w in E. cbn [c_dst c_di] in E. injection E as E _.
        rewrite !mod_2 in E by lia.
        destruct (Nat.ltb_spec (n' + s) D), (Nat.ltb_spec (n + s) D); lia.
    - intros c c' Hc Hc' E. apply in_sum_copy in Hc, Hc'.
      destruct Hc as (n & i & Hn & Hi & ->), Hc' as (n' & i' & Hn' & Hi' & ->).
      unfold c_w, c_r in E. cbn [c_src c_si c_dst c_di] in E. injection E as E _. lia.
    - intros c Hc. apply in_sum_copy in Hc. destruct Hc as (n & i & Hn & Hi & ->).
      cbn [c_src c_si c_dst c_di].
      assert (X : (n + s) mod D < D) by (apply Nat.mod_upper_bound; lia).
      split; apply (@in_buffers m (2 * D)); auto; lia.
  Qed.

  Lemma sum_add_ok (m : mem T) : buffers m (2 * D) size ->
    every_schedule (sum_add_progs U D launched) m (fun m' =>
      buffers m' (2 * D) size /\
      forall j i, j < D -> i < size ->
        mrd m' j i = if i <? launched then
            match mrd m j i, mrd m (D + j) i with
            | Some x, Some y => Some (nadd U x (nmul U y (nlit U 1)))
            | _, _ => None
            end
          else mrd m j i).
  Proof.
    intros HB.
    set (L := flat_map (fun d => map (fun i => (d, i)) (seq 0 launched)) (seq 0 D)).
    set (P := fun x : nat * nat => omp_fmadd_inplace U (fst x) (D + fst x) (nlit U 1) (snd x)).
    assert (EL : sum_add_progs U D launched = map P L).
    { unfold sum_add_progs, L. rewrite map_flat_map. apply flat_map_ext. intros d.
      rewrite map_map. reflexivity. }
    rewrite EL.
    assert (HIn : forall x, In x L <-> fst x < D /\ snd x < launched).
    { intros [d i]. unfold L. rewrite in_flat_map. simpl. split.
      - intros (d' & Hd & Hi). apply in_map_iff in Hi. destruct Hi as (i' & [= <- <-] & Hi).
        apply in_seq in Hd, Hi. lia.
      - intros [Hd Hi]. exists d. split; [apply in_seq; lia|]. apply in_map_iff. exists i.
        split; auto. apply in_seq. lia. }
    assert (HND : NoDup L).
    { unfold L. apply NoDup_flat_map.
      - apply seq_NoDup.
      - intros d _. apply FinFun.Injective_map_NoDup; [|apply seq_NoDup]. intros x y [= E]. auto.
      - intros d d' b _ _ Hb Hb'. apply in_map_iff in Hb, Hb'.
        destruct Hb as (? & <- & _), Hb' as (? & [= E _] & _). auto. }
    assert (Ex : forall x, In x L -> exists m', exec (P x) m = Some m' /\
       mrd m' (fst x) (snd x) =
       match mrd m (fst x) (snd x), mrd m (D + fst x) (snd x) with
       | Some a, Some b => Some (nadd U a (nmul U b (nlit U 1)))
       | _, _ => None
       end).
    { intros x Hx. apply HIn in Hx. destruct Hx as [H1 H2].
      assert (N1 : mrd m (fst x) (snd x) <> None) by (apply (@in_buffers m (2 * D)); auto; lia).
      assert (N2 : mrd m (D + fst x) (snd x) <> None) by (apply (@in_buffers m (2 * D)); auto; lia).
      unfold P, omp_fmadd_inplace. cbn [exec].
      destruct (mrd m (fst x) (snd x)) as [a|] eqn:E1; [|congruence].
      destruct (mrd m (D + fst x) (snd x)) as [b|] eqn:E2; [|congruence].
      destruct (@mwr_some T m (fst x) (snd x) (nadd U a (nmul U b (nlit U 1)))) as [m' E']; eauto.
      rewrite E'. exists m'. split; auto. rewrite (mrd_mwr _ _ _ _ _ _ E').
      now rewrite !Nat.eqb_refl. }
    set (mk := fun x => match exec (P x) m with Some m' => m' | None => m end).
    eapply schedule_weaken; [|apply (@list_schedules T (nat * nat) (0, 0) L P
      (fun x => one (D + fst x, snd x)) (fun x => one x) m mk)].
    - cbv beta. intros m' (S & Hw & Ho). split; [now apply (@buffers_shape' m m')|].
      intros j i Hj Hi. destruct (Nat.ltb_spec i launched).
      + assert (Hx : In (j, i) L) by (apply HIn; auto).
        rewrite (Hw (j, i) j i Hx) by (now apply one_true).
        unfold mk. destruct (Ex (j, i) Hx) as (m2 & -> & E). exact E.
      + apply Ho. intros x Hx. apply HIn in Hx. destruct (one x j i) eqn:E; auto.
        apply one_true in E. subst x. simpl in Hx. lia.
    - intros x Hx. unfold P, omp_fmadd_inplace. cbn [fp]. destruct x as [d i]. cbn [fst snd].
      split; [right; now apply one_true|]. intros v. split; [left; now apply one_true|].
      intros v'. split; [now apply one_true|exact I].
    - intros j k c c' a i Hne Hj Hk Hw. apply one_true in Hw. subst c.
      assert (Hc := nth_error_In _ _ Hj). assert (Hc' := nth_error_In _ _ Hk).
      apply HIn in Hc, Hc'. destruct c' as [a' i']. cbn [fst snd] in *. split.
      + destruct (one (D + a', i') a i) eqn:E; auto. apply one_true in E. injection E as E _. lia.
      + destruct (one (a', i') a i) eqn:E; auto. apply one_true in E. exfalso. apply Hne.
        apply (proj1 (NoDup_nth_error L) HND); [apply nth_error_Some; congruence|congruence].
    - intros x Hx. unfold mk. destruct (Ex x Hx) as (m' & E & _). now rewrite E.
  Qed.

  Definition holds (m : mem T) (f : nat -> nat -> T) (e : nat) : Prop :=
    forall j i, j < D -> i < size ->
      mrd m j i = Some (if i <? launched then ring (fun q => f q i) e j else f j i).

  Lemma sum_loop_ok d (HD : D = 2 ^ d) f : forall t e m fuel,
    d = e + t -> t <= fuel -> buffers m (2 * D) size -> holds m f e ->
    every_round (sum_loop U fuel D size launched (2 ^ e)) m
      (fun m' => buffers m' (2 * D) size /\ holds m' f d).
  Proof.
    induction t as [|t IH]; intros e m fuel Hd Hf HB HV.
    - assert (e = d) by lia. subst e.
      assert (EN : sum_loop U fuel D size launched (2 ^ d) = []).
      { destruct fuel; simpl; auto. rewrite HD, Nat.ltb_irrefl. reflexivity. }
      rewrite EN. cbn [every_round]. auto.
    - destruct fuel as [|fuel]; [lia|]. cbn [sum_loop].
      assert (Hlt : 2 ^ e < D). { rewrite HD. apply Nat.pow_lt_mono_r; lia. }
      rewrite (proj2 (Nat.ltb_lt _ _) Hlt). cbn [every_round].
      eapply schedule_weaken; [|apply (@sum_copy_ok (2 ^ e)); auto].
      cbv beta. intros m1 [HB1 HV1].
      eapply schedule_weaken; [|apply sum_add_ok; auto].
      cbv beta. intros m2 [HB2 HV2].
      replace (2 ^ e * 2) with (2 ^ S e) by (simpl; lia).
      apply IH; auto; try lia. intros j i Hj Hi. rewrite HV2 by auto.
      destruct (HV1 j i Hj Hi) as [-> ->].
      assert (X : (j + D - 2 ^ e) mod D < D) by (apply Nat.mod_upper_bound; lia).
      rewrite !HV by auto. destruct (Nat.ltb_spec i launched); reflexivity.
  Qed.

  Lemma sum_all d (HD : D = 2 ^ d) f m :
    buffers m (2 * D) size -> (forall j i, j < D -> i < size -> mrd m j i = Some (f j i)) ->
    every_round (sum_loop U D D size launched 1) m
      (fun m' => buffers m' (2 * D) size /\ holds m' f d).
  Proof.
    intros HB H. change 1 with (2 ^ 0). apply (@sum_loop_ok d HD f d 0); auto.
    - rewrite HD. clear. induction d; simpl; [lia|]. assert (X := Nat.pow_nonzero 2 d ltac:(lia)). lia.
    - intros j i Hj Hi. rewrite H by auto. destruct (i <? launched); reflexivity.
  Qed.
End Sum.

(** in exact arithmetic the ring adds up all devices *)
Local Open Scope R_scope.

Lemma rsum_app n m f : rsum (n + m) f = rsum n f + rsum m (fun k => f (n + k)%nat).
Proof.
  induction m as [|m IH]; simpl.
  - rewrite Nat.add_0_r. lra.
  - rewrite Nat.add_succ_r. simpl. rewrite IH. lra.
Qed.

Lemma rsum_rev n f : rsum n f = rsum n (fun k => f (n - 1 - k)%nat).
Proof.
  induction n as [|n IH]; [reflexivity|].
  change (S n) with (1 + n)%nat at 2. rewrite rsum_app. cbn [rsum].
  rewrite IH. rewrite Rplus_0_l, Rplus_comm. f_equal.
  - f_equal. lia.
  - apply rsum_ext. intros k Hk. f_equal. lia.
Qed.

Lemma ring_R mind D (f : nat -> R) e j :
  (j < D)%nat -> (2 ^ e <= D)%nat ->
  ring (Rops mind) D f e j = rsum (2 ^ e) (fun q => f ((j + D - q) mod D)%nat).
Proof.
  revert j. induction e as [|e IH]; intros j Hj He.
  - simpl. rewrite Rplus_0_l. f_equal. rewrite mod_2 by lia.
    destruct (Nat.ltb_spec (j + D - 0) D); lia.
  - cbn [ring]. assert (He' : (2 ^ e <= D)%nat) by (simpl in He; lia).
    assert (HP := Nat.pow_nonzero 2 e ltac:(lia)).
    assert (Hm : ((j + D - 2 ^ e) mod D < D)%nat) by (apply Nat.mod_upper_bound; lia).
    rewrite !IH by auto.
    replace (2 ^ S e)%nat with (2 ^ e + 2 ^ e)%nat by (simpl; lia).
    rewrite rsum_app. cbn [nadd nmul nlit Rops]. rewrite Rmult_1_r. f_equal.
    apply rsum_ext. intros q Hq. f_equal.
    simpl in He.
    rewrite (@mod_2 (j + D - 2 ^ e) D) by lia. rewrite (@mod_2 (j + D - (2 ^ e + q)) D) by lia.
    destruct (Nat.ltb_spec (j + D - 2 ^ e) D).
    + rewrite mod_2 by lia.
      destruct (Nat.ltb_spec (j + D - 2 ^ e + D - q) D), (Nat.ltb_spec (j + D - (2 ^ e + q)) D); lia.
    + rewrite mod_2 by lia.
      destruct (Nat.ltb_spec (j + D - 2 ^ e - D + D - q) D), (Nat.ltb_spec (j + D - (2 ^ e + q)) D); lia.
Qed.

Lemma ring_full mind D d (f : nat -> R) j :
  D = (2 ^ d)%nat -> (j < D)%nat -> ring (Rops mind) D f d j = rsum D f.
Proof.
  intros HD Hj. rewrite ring_R by (auto; lia). rewrite <- HD.
  rewrite (rsum_rev D f).
  (* q < D: f ((j + D - q) mod D); split at q <= j *)
  assert (E1 : forall g, rsum D g = rsum (S j) g + rsum (D - S j) (fun k => g (S j + k)%nat)).
  { intros g. rewrite <- rsum_app. f_equal. lia. }
  assert (E2 : forall g, rsum D g = rsum (D - S j) g + rsum (S j) (fun k => g (D - S j + k)%nat)).
  { intros g. rewrite <- rsum_app. f_equal. lia. }
  rewrite (E1 (fun q => f ((j + D - q) mod D)%nat)), (E2 (fun k => f (D - 1 - k)%nat)).
  rewrite Rplus_comm. f_equal.
  - apply rsum_ext. intros k Hk. f_equal. rewrite mod_2 by lia.
    destruct (Nat.ltb_spec (j + D - (S j + k)) D); lia.
  - apply rsum_ext. intros k Hk. f_equal. rewrite mod_2 by lia.
    destruct (Nat.ltb_spec (j + D - k) D); lia.
Qed.
