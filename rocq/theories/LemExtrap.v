(** Lemmas about the extrapolators and the substep sequence. *)
From Coq Require Import ZArith Reals List Arith Lia Lra.
From Verif Require Import Num Arr ArrLemmas SpecPhys SpecEngine RLemmas ModelVertex ModelForce ModelSum
  ModelEngine ModelSolverBase ModelButcher ModelExtrap ModelSolver LemOk LemBufR SpecSolver SpecExtrap.
Import ListNotations.
Set Implicit Arguments.

(** ** The substep sequence *)

Lemma bs_seq_double i : bs_seq (S (S (S i))) = 2 * bs_seq (S i).
Proof.
  unfold bs_seq. rewrite Nat.even_succ_succ.
  replace (S (S i) / 2) with (S (i / 2)).
  - destruct (Nat.even i).
    + replace (S (i / 2) + 2) with (S (i / 2 + 2)) by lia. now rewrite Nat.pow_succ_r'.
    + replace (S (i / 2) + 1) with (S (i / 2 + 1)) by lia. rewrite Nat.pow_succ_r'. lia.
  - replace (S (S i)) with (i + 1 * 2) by lia. rewrite Nat.div_add by lia. lia.
Qed.

Lemma bs_more_ok c : forall j l, 3 <= j -> l = map bs_seq (seq 0 j) ->
  bs_more c j l = Some (map bs_seq (seq 0 (j + c))).
Proof.
  induction c as [|c IH]; intros j l Hj ->; cbn [bs_more].
  - now rewrite Nat.add_0_r.
  - rewrite rd_map by lia. cbn [obind]. replace (j + S c) with (S j + c) by lia. apply IH; [lia|].
    replace (S j) with (j + 1) by lia. rewrite seq_app, map_app. f_equal. cbn [seq map Nat.add].
    f_equal. destruct j as [|[|[|j]]]; try lia. replace (S (S (S j)) - 2) with (S j) by lia.
    symmetry. apply (bs_seq_double j).
Qed.

Lemma init_steps_ok n : init_steps n = Some (map bs_seq (seq 0 n)).
Proof.
  unfold init_steps. destruct n as [|[|[|n]]]; try reflexivity.
  replace (S (S (S n)) - 3) with n by lia. now rewrite (@bs_more_ok n 3).
Qed.

Lemma bs_seq_step j : bs_seq j < bs_seq (S j).
Proof.
  destruct j as [|i]; [cbn; lia|]. unfold bs_seq at 1 2. rewrite Nat.even_succ.
  rewrite <- Nat.negb_even.
  destruct (Nat.even i) eqn:E; cbn [negb].
  - apply Nat.even_spec in E. destruct E as [m ->].
    replace (2 * m / 2) with m by (symmetry; rewrite Nat.mul_comm; apply Nat.div_mul; lia).
    replace (S (2 * m) / 2) with m.
    2: { apply Nat.div_unique with 1; lia. }
    rewrite !Nat.pow_add_r. cbn [Nat.pow Nat.mul Nat.add]. pose proof (Nat.pow_nonzero 2 m). lia.
  - assert (O : Nat.odd i = true) by (rewrite <- Nat.negb_even, E; reflexivity).
    apply Nat.odd_spec in O. destruct O as [m ->].
    replace ((2 * m + 1) / 2) with m by (apply Nat.div_unique with 1; lia).
    replace (S (2 * m + 1) / 2) with (S m).
    2: { apply Nat.div_unique with 0; lia. }
    rewrite !Nat.pow_add_r. cbn [Nat.pow Nat.mul Nat.add]. pose proof (Nat.pow_nonzero 2 m). lia.
Qed.

Lemma bs_seq_lt i j : i < j -> bs_seq i < bs_seq j.
Proof. induction 1; [apply bs_seq_step|]. pose proof (bs_seq_step m). lia. Qed.

Lemma bs_seq_even j : Nat.Even (bs_seq j) /\ 0 < bs_seq j.
Proof.
  assert (P : forall k, 0 < 2 ^ k) by (intros; apply Nat.neq_0_lt_0, Nat.pow_nonzero; lia).
  destruct j as [|i]; cbn -[Nat.div Nat.pow]; [split; [now exists 1|lia]|].
  destruct (Nat.even i).
  - replace (i / 2 + 2) with (S (i / 2 + 1)) by lia. rewrite Nat.pow_succ_r'. split; [eexists; reflexivity|].
    pose proof (P (i / 2 + 1)). lia.
  - replace (i / 2 + 1) with (S (i / 2)) by lia. rewrite Nat.pow_succ_r'. split.
    + exists (3 * 2 ^ (i / 2)). lia.
    + pose proof (P (i / 2)). lia.
Qed.

Lemma bs_counts_good n : good_counts (map bs_seq (seq 0 n)).
Proof.
  split.
  - apply FinFun.Injective_map_NoDup; [|apply seq_NoDup]. intros i j H.
    destruct (Nat.lt_trichotomy i j) as [L|[L|L]]; auto; apply bs_seq_lt in L; lia.
  - intros k H. apply in_map_iff in H. destruct H as (j & <- & _). apply bs_seq_even.
Qed.

Lemma init_steps_other_good n : good_counts (init_steps_other n).
Proof.
  unfold init_steps_other. split.
  - apply FinFun.Injective_map_NoDup; [|apply seq_NoDup]. intros i j H. lia.
  - intros k H. apply in_map_iff in H. destruct H as (j & <- & _). lia.
Qed.

Lemma bs_counts_prop n : exists counts, init_steps n = Some counts /\ length counts = n /\
  forall j c, nth_error counts j = Some c ->
    0 < c /\ Nat.Even c /\ forall i d, i < j -> nth_error counts i = Some d -> d < c.
Proof.
  exists (map bs_seq (seq 0 n)). rewrite init_steps_ok, map_length, seq_length. split; auto. split; auto.
  intros j c Hj.
  assert (Lj : j < n).
  { rewrite <- (seq_length n 0), <- (map_length bs_seq (seq 0 n)). apply nth_error_Some. congruence. }
  rewrite nth_map in Hj by auto. injection Hj as <-. destruct (bs_seq_even j). split; auto. split; auto.
  intros i d Hi Hd. rewrite nth_map in Hd by lia. injection Hd as <-. now apply bs_seq_lt.
Qed.

Local Open Scope R_scope.

(** ** Neville's triangle at 0 in the variables 1 / s_i *)
Section Tri.
  Variable s : nat -> R.
  Fixpoint tri (f : nat -> R) (k j : nat) : R :=
    match j with
    | O => f k
    | S j' => (s k * tri f k j' - s (k - j' - 1)%nat * tri f (k - 1) j') / (s k - s (k - j' - 1)%nat)
    end.

  Lemma tri_ext f g j : forall k, (forall i, (i <= k)%nat -> f i = g i) -> tri f k j = tri g k j.
  Proof.
    induction j as [|j IH]; intros k H; cbn [tri]; [apply H; lia|].
    rewrite (IH k), (IH (k - 1)%nat); auto. intros. apply H. lia.
  Qed.

  Variable m : nat.
  Hypothesis pos : forall i, (i < m)%nat -> s i <> 0.
  Hypothesis dif : forall i j, (i < j < m)%nat -> s j - s i <> 0.

  Lemma tri_plus f g j : forall k, tri (fun i => f i + g i) k j = tri f k j + tri g k j.
  Proof. induction j as [|j IH]; intros k; cbn [tri]; auto. rewrite !IH. unfold Rdiv. ring. Qed.
  Lemma tri_scal c f j : forall k, tri (fun i => c * f i) k j = c * tri f k j.
  Proof. induction j as [|j IH]; intros k; cbn [tri]; auto. rewrite !IH. unfold Rdiv. ring. Qed.
  Lemma tri_const c j : forall k, (j <= k < m)%nat -> tri (fun _ => c) k j = c.
  Proof.
    induction j as [|j IH]; intros k Hk; cbn [tri]; auto. rewrite !IH by lia. field. apply dif. lia.
  Qed.

  (** dropping a node *)
  Lemma tri_drop q j : forall k, (S j <= k < m)%nat ->
    tri (fun i => (/ s i - / s k) * q i) k (S j) = - / s k * tri q (k - 1) j /\
    tri (fun i => (/ s i - / s (k - S j)%nat) * q i) k (S j) = - / s (k - S j)%nat * tri q k j.
  Proof.
    induction j as [|j IH]; intros k Hk.
    - cbn [tri]. replace (k - 0 - 1)%nat with (k - 1)%nat by lia.
      assert (A : s k - s (k - 1)%nat <> 0) by (apply dif; lia).
      assert (B1 : s k <> 0) by (apply pos; lia).
      assert (B2 : s (k - 1)%nat <> 0) by (apply pos; lia).
      split; field; auto.
    - destruct (IH k ltac:(lia)) as [R1 L1]. destruct (IH (k - 1)%nat ltac:(lia)) as [R2 L2].
      set (a := (k - S j - 1)%nat) in *.
      replace (k - 1 - S j)%nat with a in * by lia.
      replace (k - S (S j))%nat with a by lia.
      assert (A : s k - s a <> 0) by (apply dif; lia).
      assert (B1 : s k <> 0) by (apply pos; lia).
      assert (B2 : s a <> 0) by (apply pos; lia).
      assert (SH : forall c d p i, tri (fun i => (/ s i - c) * q i) p i =
                   tri (fun i => (/ s i - d) * q i) p i + (d - c) * tri q p i).
      { intros c d p i. rewrite <- tri_scal, <- tri_plus. apply tri_ext. intros. ring. }
      split.
      + change (tri (fun i => (/ s i - / s k) * q i) k (S (S j))) with
          ((s k * tri (fun i => (/ s i - / s k) * q i) k (S j)
            - s a * tri (fun i => (/ s i - / s k) * q i) (k - 1) (S j)) / (s k - s a)).
        rewrite R1, (SH _ (/ s a) (k - 1)%nat (S j)), L2. field. auto.
      + change (tri (fun i => (/ s i - / s a) * q i) k (S (S j))) with
          ((s k * tri (fun i => (/ s i - / s a) * q i) k (S j)
            - s a * tri (fun i => (/ s i - / s a) * q i) (k - 1) (S j)) / (s k - s a)).
        rewrite L2, (SH _ (/ s k) k (S j)), R1. field. auto.
  Qed.

  (** synthetic division *)
  Fixpoint pquo (c : list R) (a : R) : list R :=
    match c with
    | [] => []
    | _ :: r => match r with [] => [] | _ => peval r a :: pquo r a end
    end.
  Lemma pquo_length c a : length (pquo c a) = (length c - 1)%nat.
  Proof.
    induction c as [|x [|y r] IH]; auto. cbn [pquo length] in *. rewrite IH. lia.
  Qed.
  Lemma pquo_eval c a x : peval c x = peval c a + (x - a) * peval (pquo c a) x.
  Proof.
    induction c as [|c0 [|y r] IH].
    - cbn. ring.
    - cbn. ring.
    - change (pquo (c0 :: y :: r) a) with (peval (y :: r) a :: pquo (y :: r) a).
      change (peval (c0 :: y :: r) x) with (c0 + x * peval (y :: r) x).
      change (peval (c0 :: y :: r) a) with (c0 + a * peval (y :: r) a).
      change (peval (peval (y :: r) a :: pquo (y :: r) a) x) with
        (peval (y :: r) a + x * peval (pquo (y :: r) a) x).
      rewrite IH. ring.
  Qed.

  Lemma tri_poly j : forall c k, (length c <= S j)%nat -> (j <= k < m)%nat ->
    tri (fun i => peval c (/ s i)) k j = peval c 0.
  Proof.
    induction j as [|j IH]; intros c k Hc Hk.
    - destruct c as [|x [|y r]]; cbn [length] in Hc; try lia; cbn; ring.
    - rewrite (@tri_ext _ (fun i => peval c (/ s k) + (/ s i - / s k) * peval (pquo c (/ s k)) (/ s i))).
      2: { intros i Hi. apply pquo_eval. }
      rewrite tri_plus, tri_const by lia. 
      destruct (@tri_drop (fun i => peval (pquo c (/ s k)) (/ s i)) j k Hk) as [-> _].
      rewrite IH; [|rewrite pquo_length; lia|lia].
      rewrite (pquo_eval c (/ s k) 0). ring.
  Qed.
End Tri.

(** ** The Neville table *)
Section Neville.
  Variables (mind : R) (ps : nat).
  Notation N := (Rops mind).
  Local Notation V := (V ps).
  Notation lin := (lin ps).

  (** the node of level [i] *)
  Definition node (counts : list nat) (i : nat) : R := INR (nth i counts O).

  Notation neville_ok := (neville_bufs ps).

  (** the first [S k] cells of the table are row [k] of the triangle of [ys] *)
  Definition neville_row (counts : list nat) (ys : nat -> list R) (k : nat) (t : list (list R)) : Prop :=
    forall j w, (j <= k)%nat ->
      lin w (nth j t []) = tri (node counts) (fun i => lin w (ys i)) k j.

  Lemma Forall_upd A (P : A -> Prop) l i v : Forall P l -> P v -> Forall P (upd l i v).
  Proof.
    intros H Hv. apply Forall_forall. intros x Hx. apply In_nth_error in Hx. destruct Hx as (j & Hj).
    rewrite upd_nth in Hj. destruct (j =? i); [destruct (i <? length l); [congruence|discriminate]|].
    rewrite Forall_forall in H. apply H. eapply nth_error_In; eauto.
  Qed.

  Lemma nth_upd A (l : list A) i j v d : (i < length l)%nat ->
    nth j (upd l i v) d = if Nat.eqb j i then v else nth j l d.
  Proof.
    intros Hi. destruct (Nat.eqb_spec j i).
    - subst. apply nth_error_nth. now apply upd_nth_same.
    - destruct (Nat.lt_ge_cases j (length l)).
      + apply nth_error_nth. rewrite upd_nth_other by auto. now apply nth_error_nth'.
      + rewrite !nth_overflow; auto. now rewrite upd_length.
  Qed.

  Lemma nnat_R n : nnat N n = INR n.
  Proof. unfold nnat. cbn [nlit Rops]. now rewrite INR_IZR_INZ. Qed.

  Lemma neville_update_ok mf counts sz n k y ys :
    neville_ok sz n -> (k < sz)%nat -> (k < length counts)%nat -> V y -> ys k = y ->
    (k <> O -> neville_row counts ys (k - 1) (ne_table n)) ->
    ok mf (neville_update N ps counts n k y)
      (fun n' => neville_ok sz n' /\ neville_row counts ys k (ne_table n') /\ ne_prev n' = ne_table n).
  Proof.
    intros (L1 & L2 & F1 & F2 & Hd) Hk Hc Hy Ey Hrow. unfold neville_update.
    eapply ok_bind with (Q := fun r => V r).
    { apply ok_rd. exists (nth 0 (ne_prev n) []). split; [apply nth_error_nth'; lia|].
      apply Forall_V_nth; auto. lia. }
    intros t0 Ht0. eapply ok_bind; [apply (ok_copy mind); auto|]. intros r ->.
    eapply ok_bind; [apply ok_wr; lia|]. intros tb ->.
    eapply ok_bind with (Q := fun t => length t = sz /\ Forall V t /\
       forall j w, (j <= k)%nat -> lin w (nth j t []) = tri (node counts) (fun i => lin w (ys i)) k j).
    2: { intros t (A & B & C). apply ok_some. cbn. repeat split; auto. }
    apply (@ok_for0 _ mf (fun c t => length t = sz /\ Forall V t /\
       forall j w, (j <= c)%nat -> lin w (nth j t []) = tri (node counts) (fun i => lin w (ys i)) k j)).
    - rewrite upd_length. split; auto. split; [now apply Forall_upd|].
      intros j w Hj. assert (j = O) by lia. subst j. rewrite nth_upd by lia. cbn. now rewrite Ey.
    - intros c t Hck (A & B & C). unfold neville_column.
      rewrite !(rd_nth counts O) by lia. cbn [obind]. rewrite !nnat_R.
      rewrite !(rd_nth t []) by lia. rewrite (rd_nth (ne_table n) []) by lia. cbn [obind].
      eapply ok_bind.
      { apply ok_fmaddn_none.
        - apply Forall_V_nth; auto. lia.
        - constructor; [apply Forall_V_nth; auto; lia|]. constructor; [|constructor].
          apply Forall_V_nth; auto. lia.
        - cbn. lia.
        - cbn. lia. }
      intros r (Hr & Hl). eapply ok_mono; [apply ok_wr; lia|]. intros t' ->.
      rewrite upd_length. split; auto. split; [now apply Forall_upd|].
      intros j w Hj. rewrite nth_upd by lia. destruct (Nat.eqb_spec j (c + 1)) as [->|].
      + rewrite Hl. unfold wsum. cbn [rsum nth]. rewrite C by lia.
        rewrite (Hrow ltac:(lia) c w) by lia. cbn [ndiv nsub nopp Rops].
        replace (c + 1)%nat with (S c) by lia. cbn [tri]. unfold node. unfold Rdiv. ring.
      + apply C. lia.
  Qed.

  Lemma neville_error_ok mf sz n k : neville_ok sz n -> (k < sz)%nat -> (0 < ps)%nat ->
    ok mf (neville_error N ps n k)
      (fun r => neville_ok sz (snd r) /\ ne_table (snd r) = ne_table n /\ ne_prev (snd r) = ne_prev n /\
         match fst r with
         | None => k = O
         | Some m => k <> O /\ exists i, (i < ps)%nat /\
             m = Rabs (nth i (nth k (ne_table n) []) 0 - nth i (nth (k - 1) (ne_table n) []) 0) /\
             forall i, (i < ps)%nat ->
               Rabs (nth i (nth k (ne_table n) []) 0 - nth i (nth (k - 1) (ne_table n) []) 0) <= m
         end).
  Proof.
    intros (L1 & L2 & F1 & F2 & Hd) Hk Hp. destruct k as [|k]; cbn [neville_error].
    - apply ok_some. cbn. repeat split; auto.
    - rewrite !(rd_nth _ []) by lia. cbn [obind].
      eapply ok_bind; [apply ok_fmadd; auto; apply Forall_V_nth; auto; lia|]. intros d (Vd & Ld).
      assert (Cd : forall i, (i < ps)%nat -> nth i d 0 =
         nth i (nth (S k) (ne_table n) []) 0 - nth i (nth k (ne_table n) []) 0).
      { intros i Hi. pose proof (Ld (unit_w i)) as E. rewrite !lin_unit in E by auto. rewrite E.
        cbn [nlit Rops]. lra. }
      eapply ok_bind; [apply ok_fmaxabs; auto|]. intros m (M1 & i0 & M2 & M3). apply ok_some. cbn [fst snd].
      split; [repeat split; auto|]. split; auto. split; auto. split; auto.
      replace (S k - 1)%nat with k by lia.
      exists i0. split; auto. rewrite <- Cd by auto. split; auto. intros i Hi.
      rewrite <- Cd by auto. auto.
  Qed.

  Lemma neville_extrapolate_ok mf sz n k y : neville_ok sz n -> (k < sz)%nat -> V y ->
    ok mf (neville_extrapolate ps n k y) (fun r => r = nth k (ne_table n) []).
  Proof.
    intros (L1 & L2 & F1 & F2 & Hd) Hk Hy. unfold neville_extrapolate.
    rewrite (rd_nth _ []) by lia. cbn [obind]. apply (ok_copy mind); auto. apply Forall_V_nth; auto. lia.
  Qed.

  Lemma node_good counts : good_counts counts ->
    (forall i, (i < length counts)%nat -> node counts i <> 0) /\
    (forall i j, (i < j < length counts)%nat -> node counts j - node counts i <> 0).
  Proof.
    intros [ND P]. unfold node. split.
    - intros i Hi. apply not_0_INR. pose proof (P _ (nth_In counts O Hi)). lia.
    - intros i j H E. assert (X : INR (nth j counts O) = INR (nth i counts O)) by lra.
      apply INR_eq in X. apply (proj1 (NoDup_nth counts O) ND) in X; lia.
  Qed.

  Lemma ext_counts_length o counts : length (ext_counts o counts) = length counts.
  Proof. unfold ext_counts. destruct (Nat.eqb o 1); auto. apply map_length. Qed.

  Lemma ext_counts_nth o counts i : (i < length counts)%nat ->
    nth i (ext_counts o counts) O = (nth i counts O ^ o)%nat.
  Proof.
    intros Hi. unfold ext_counts. destruct (Nat.eqb_spec o 1) as [->|].
    - now rewrite Nat.pow_1_r.
    - apply nth_error_nth. rewrite nth_error_map, (nth_error_nth' counts O Hi). reflexivity.
  Qed.

  Lemma ext_counts_good o counts : (0 < o)%nat -> good_counts counts -> good_counts (ext_counts o counts).
  Proof.
    intros Ho [ND P]. unfold ext_counts. destruct (Nat.eqb_spec o 1); [split; auto|]. split.
    - apply FinFun.Injective_map_NoDup; auto. intros a b H.
      destruct (Nat.lt_trichotomy a b) as [L|[L|L]]; auto.
      + apply (Nat.pow_lt_mono_l a b o) in L; lia.
      + apply (Nat.pow_lt_mono_l b a o) in L; lia.
    - intros k H. apply in_map_iff in H. destruct H as (j & <- & Hj). apply P in Hj.
      apply Nat.neq_0_lt_0. apply Nat.pow_nonzero. lia.
  Qed.

  Lemma neville_feed_ok mf counts sz all : forall ys n k,
    neville_ok sz n -> (k + length ys <= sz)%nat -> (k + length ys <= length counts)%nat ->
    Forall V ys -> (forall i, (i < length ys)%nat -> all (k + i)%nat = nth i ys []) ->
    (k <> O -> neville_row counts all (k - 1) (ne_table n)) ->
    ok mf (neville_feed N ps counts n k ys)
      (fun n' => neville_ok sz n' /\
         (k + length ys <> O -> neville_row counts all (k + length ys - 1) (ne_table n')))%nat.
  Proof.
    induction ys as [|y r IH]; intros n k Hn H1 H2 F E Hrow; cbn [neville_feed length].
    - apply ok_some. rewrite Nat.add_0_r. auto.
    - cbn [length] in *. inversion F; subst. eapply ok_bind.
      { apply (@neville_update_ok mf counts sz n k y all); auto; try lia.
        rewrite <- (Nat.add_0_r k). apply (E 0%nat). lia. }
      intros n' (A & B & _). eapply ok_mono.
      { apply IH; auto; try lia.
        - intros i Hi. replace (S k + i)%nat with (k + S i)%nat by lia. apply (E (S i)). lia.
        - intros _. replace (S k - 1)%nat with k by lia. auto. }
      cbn beta. intros n2 (C & D). split; auto. replace (k + S (length r))%nat with (S k + length r)%nat by lia.
      auto.
  Qed.
End Neville.

Section Corollaries.
  Variables (mind : R) (ps : nat).
  Notation N := (Rops mind).

  (** C36 *)
  Lemma neville_poly order counts sz n ys coef ext_y : (0 < order)%nat -> good_counts counts ->
    ys <> [] -> (length ys <= sz)%nat -> (length ys <= length counts)%nat ->
    neville_bufs ps sz n -> Forall (V ps) ys -> V ps ext_y ->
    (forall c, (c < ps)%nat -> (length (coef c) <= length ys)%nat) ->
    (forall c i, (c < ps)%nat -> (i < length ys)%nat ->
       nth c (nth i ys []) 0 = peval (coef c) ((/ INR (nth i counts O)) ^ order)) ->
    exists n' r, neville_feed N ps (ext_counts order counts) n 0 ys = Some n' /\
      neville_extrapolate ps n' (length ys - 1) ext_y = Some r /\ V ps r /\
      forall c, (c < ps)%nat -> nth c r 0 = peval (coef c) 0.
  Proof.
    intros Ho Hg Hne H1 H2 Hn Hy Hext Hlen Hval.
    assert (Hl : length ys <> O) by (destruct ys; cbn; congruence).
    pose proof (@neville_feed_ok mind ps False (ext_counts order counts) sz (fun i => nth i ys []) ys n 0 Hn) as K.
    rewrite ext_counts_length in K. specialize (K H1 H2 Hy (fun i _ => eq_refl) ltac:(lia)).
    apply ok_exists in K. destruct K as (n' & E & Hn' & Hrow). cbn [Nat.add] in Hrow. specialize (Hrow Hl).
    pose proof (@neville_extrapolate_ok mind ps False sz n' (length ys - 1) ext_y Hn' ltac:(lia) Hext) as X.
    apply ok_exists in X. destruct X as (r & E2 & Hr).
    exists n', r. split; auto. split; auto. split.
    { subst r. destruct Hn' as (A1 & A2 & A3 & _). apply Forall_V_nth; auto. lia. }
    intros c Hc. subst r. specialize (Hrow (length ys - 1)%nat (unit_w c) (le_n _)).
    rewrite lin_unit in Hrow by auto. rewrite Hrow.
    destruct (node_good (ext_counts_good Ho Hg)) as [P D].
    rewrite (@tri_ext _ _ (fun i => peval (coef c) (/ node (ext_counts order counts) i))).
    - rewrite (@tri_poly (node (ext_counts order counts)) (length ys)); auto; try lia.
      + intros i Hi. apply P. rewrite ext_counts_length. lia.
      + intros i j Hij. apply D. rewrite ext_counts_length. lia.
      + specialize (Hlen c Hc). lia.
    - intros i Hi. rewrite lin_unit by auto. rewrite Hval by (auto; lia). f_equal.
      unfold node. rewrite ext_counts_nth by lia. rewrite pow_INR. symmetry.
      rewrite pow_inv. reflexivity.
  Qed.

  (** ** Berrut *)
  Lemma berrut_raw_ok mf counts level : (level <= length counts)%nat ->
    ok mf (berrut_raw N counts level)
      (fun r => r = map (fun i => (-1) ^ (i + 1) * INR (nth i counts O)) (seq 0 level)).
  Proof.
    intros H. unfold berrut_raw. apply ok_collect. intros k Hk.
    rewrite (rd_nth _ O) by lia. cbn [obind]. rewrite nnat_R. cbn [nmul nlit Rops].
    f_equal. f_equal. rewrite Nat.add_1_r. destruct (Nat.even (S k)) eqn:E.
    - apply Nat.even_spec in E. destruct E as [m ->]. rewrite pow_1_even. reflexivity.
    - assert (O : Nat.odd (S k) = true) by (rewrite <- Nat.negb_even, E; reflexivity).
      apply Nat.odd_spec in O. destruct O as [m ->]. rewrite Nat.add_1_r, pow_1_odd. reflexivity.
  Qed.

  Lemma fold_left_map_rsum (h : nat -> R) level :
    fold_left (nadd N) (map h (seq 0 level)) (nlit N 0) = rsum level h.
  Proof.
    cbn [nlit nadd Rops]. rewrite fold_left_map. rewrite fold_left_rsum. lra.
  Qed.

  Lemma berrut_weights_ok mf counts level : (level <= length counts)%nat ->
    ok mf (berrut_weights N counts level)
      (fun r => length r = level /\ forall i, (i < level)%nat ->
          nth i r 0 = (-1) ^ (i + 1) * INR (nth i counts O) / alt_sum counts level).
  Proof.
    intros H. unfold berrut_weights. eapply ok_bind; [apply berrut_raw_ok; auto|].
    intros r ->. apply ok_some. rewrite fold_left_map_rsum. rewrite !map_length, seq_length.
    split; auto. intros i Hi. apply nth_error_nth. rewrite nth_error_map, nth_map by auto. reflexivity.
  Qed.

  Lemma alt_sum_sign counts : (forall i d, (S i < length counts)%nat -> (nth i counts d < nth (S i) counts d)%nat) ->
    (forall i, (i < length counts)%nat -> 0 < nth i counts O)%nat ->
    forall level, (S level <= length counts)%nat ->
      0 < (-1) ^ (S level) * alt_sum counts (S level) <= INR (nth level counts O).
  Proof.
    intros Hi Hp. induction level as [|l IH]; intros Hl.
    - unfold alt_sum. cbn [rsum pow Nat.add]. specialize (Hp O ltac:(lia)). apply lt_INR in Hp. cbn [INR] in Hp. lra.
    - specialize (IH ltac:(lia)). specialize (Hi l O ltac:(lia)). apply lt_INR in Hi.
      change (alt_sum counts (S (S l))) with
        (alt_sum counts (S l) + (-1) ^ (S l + 1) * INR (nth (S l) counts O)).
      replace (S l + 1)%nat with (S (S l)) by lia.
      replace ((-1) ^ S (S l) * (alt_sum counts (S l) + (-1) ^ S (S l) * INR (nth (S l) counts O)))
        with (- ((-1) ^ S l * alt_sum counts (S l)) + INR (nth (S l) counts O)).
      + lra.
      + rewrite Rmult_plus_distr_l, <- Rmult_assoc, <- pow_add.
        replace (S (S l) + S (S l))%nat with (2 * S (S l))%nat by lia. rewrite pow_1_even.
        replace ((-1) ^ S (S l)) with (- (-1) ^ S l) by (cbn [pow]; ring). ring.
  Qed.

  Lemma alt_sum_nonzero counts level :
    (forall i d, (S i < length counts)%nat -> (nth i counts d < nth (S i) counts d)%nat) ->
    (forall i, (i < length counts)%nat -> 0 < nth i counts O)%nat ->
    (0 < level <= length counts)%nat -> alt_sum counts level <> 0.
  Proof.
    intros H1 H2 [H3 H4] E. destruct level as [|l]; [lia|].
    pose proof (@alt_sum_sign counts H1 H2 l H4) as K. rewrite E in K. lra.
  Qed.

  Lemma berrut_extrapolate_ok mf counts s level y : (level <= length counts)%nat ->
    (level <= length (be_table s))%nat -> Forall (V ps) (be_table s) -> V ps y ->
    ok mf (berrut_extrapolate N ps counts s level y)
      (fun r => V ps r /\ forall w, lin ps w r =
         rsum level (fun i => (-1) ^ (i + 1) * INR (nth i counts O) / alt_sum counts level *
                              lin ps w (nth i (be_table s) []))).
  Proof.
    intros H1 H2 F Hy. unfold berrut_extrapolate. eapply ok_bind; [apply berrut_weights_ok; auto|].
    intros wt (L & W). eapply ok_bind; [apply (ok_fill mind ps)|]. intros z (L0 & Z0 & _).
    assert (Vz : V ps z) by (unfold V in *; congruence).
    assert (K : ok mf (fmaddn_inplace N ps z (be_table s) wt level) (fun r => V ps r /\ forall w, lin ps w r =
         rsum level (fun i => (-1) ^ (i + 1) * INR (nth i counts O) / alt_sum counts level *
                              lin ps w (nth i (be_table s) [])))).
    { eapply ok_mono; [apply ok_fmaddn_inplace; auto; lia|]. intros r (Vr & Lr). split; auto.
      intros w. rewrite Lr, Z0, Rplus_0_l. unfold wsum. apply rsum_ext. intros i Hi. now rewrite W. }
    destruct level; auto.
  Qed.

  Lemma berrut_error_ok mf counts s level : (S level <= length counts)%nat -> (0 < ps)%nat ->
    (S level <= length (be_table s))%nat -> Forall (V ps) (be_table s) -> V ps (be_diff s) ->
    forall y a b, V ps y ->
    berrut_extrapolate N ps counts s (S level) y = Some a ->
    berrut_extrapolate N ps counts s level y = Some b ->
    ok mf (berrut_error N ps counts s (S level))
      (fun r => exists m, fst r = Some m /\ be_table (snd r) = be_table s /\ V ps (be_diff (snd r)) /\
         (exists c, (c < ps)%nat /\ m = Rabs (nth c a 0 - nth c b 0)) /\
         (forall c, (c < ps)%nat -> Rabs (nth c a 0 - nth c b 0) <= m)).
  Proof.
    intros H1 Hp H2 F Hd y a b Hy Ea Eb.
    pose proof (@berrut_extrapolate_ok True counts s (S level) y H1 H2 F Hy) as A. rewrite Ea in A.
    pose proof (@berrut_extrapolate_ok True counts s level y ltac:(lia) ltac:(lia) F Hy) as B. rewrite Eb in B.
    destruct A as [Va La], B as [Vb Lb]. cbn [berrut_error].
    eapply ok_bind; [apply berrut_weights_ok; lia|]. intros w0 (L0 & W0).
    eapply ok_bind; [apply berrut_weights_ok; auto|]. intros w1 (L1 & W1).
    eapply ok_bind with (Q := fun w => length w = S level /\ forall i, (i < S level)%nat ->
       nth i w 0 = nth i w1 0 - (if Nat.ltb i level then nth i w0 0 else 0)).
    { rewrite L0. eapply ok_mono.
      - apply (@ok_for0 _ mf (fun k w => length w = S level /\ forall i, (i < S level)%nat ->
          nth i w 0 = nth i w1 0 - (if Nat.ltb i k then nth i w0 0 else 0))).
        + split; auto. intros i Hi. cbn. lra.
        + intros k w Hk (Lw & Hw). rewrite !(rd_nth _ 0) by lia. cbn [obind].
          eapply ok_mono; [apply ok_wr; lia|]. intros w' ->. rewrite upd_length. split; auto.
          intros i Hi. rewrite nth_upd by lia. destruct (Nat.eqb_spec i k) as [->|Hik].
          * rewrite Hw by lia. cbn [nsub Rops].
            destruct (Nat.ltb_spec k k); [lia|]. destruct (Nat.ltb_spec k (S k)); [|lia]. lra.
          * rewrite Hw by lia. destruct (Nat.ltb_spec i k), (Nat.ltb_spec i (S k)); auto; lia.
      - auto. }
    intros w (Lw & Hw). eapply ok_bind; [apply (ok_fill mind ps)|]. intros z (Lz & Z0 & _).
    assert (Vz : V ps z) by (unfold V in *; congruence).
    eapply ok_bind; [apply ok_fmaddn_inplace; auto; lia|]. intros d (Vd & Ld).
    assert (Cd : forall c, (c < ps)%nat -> nth c d 0 = nth c a 0 - nth c b 0).
    { intros c Hc. rewrite <- !(lin_unit _ Hc). rewrite Ld, La, Lb, Z0. unfold wsum. cbn [rsum].
      rewrite Hw by lia. rewrite Nat.ltb_irrefl. rewrite W1 by lia.
      rewrite (rsum_ext level (fun k => nth k w 0 * _) (fun k =>
         (-1) ^ (k + 1) * INR (nth k counts O) / alt_sum counts (S level) *
            lin ps (unit_w c) (nth k (be_table s) []) -
         (-1) ^ (k + 1) * INR (nth k counts O) / alt_sum counts level *
            lin ps (unit_w c) (nth k (be_table s) []))).
      - rewrite rsum_minus. lra.
      - intros k Hk. rewrite Hw by lia. destruct (Nat.ltb_spec k level); [|lia].
        rewrite W1, W0 by lia. lra. }
    eapply ok_bind; [apply ok_fmaxabs; auto|]. intros m (M1 & i0 & M2 & M3). apply ok_some.
    exists m. cbn [fst snd be_table be_diff]. split; auto. split; auto. split; auto. split.
    - exists i0. rewrite <- Cd by auto. split; auto.
    - intros c Hc. rewrite <- Cd by auto. auto.
  Qed.

  (** C37 *)
  Lemma berrut_affine counts s level y :
    (forall i d, (S i < length counts)%nat -> (nth i counts d < nth (S i) counts d)%nat) ->
    (forall i, (i < length counts)%nat -> 0 < nth i counts O)%nat ->
    (0 < level <= length counts)%nat -> (level <= length (be_table s))%nat ->
    Forall (fun b => length b = ps) (be_table s) -> length y = ps ->
    exists wt r, berrut_weights N counts level = Some wt /\
      berrut_extrapolate N ps counts s level y = Some r /\
      length wt = level /\ length r = ps /\
      rsum level (fun i => nth i wt 0) = 1 /\
      (forall c, (c < ps)%nat ->
         nth c r 0 = rsum level (fun i => nth i wt 0 * nth c (nth i (be_table s) []) 0)) /\
      (forall (u : nat -> R) P,
         (forall i, (i < level)%nat -> rsum ps (fun c => u c * nth c (nth i (be_table s) []) 0) = P) ->
         rsum ps (fun c => u c * nth c r 0) = P).
  Proof.
    intros I1 I2 Hl Ht F Hy.
    pose proof (@alt_sum_nonzero counts level I1 I2 Hl) as NZ.
    pose proof (@berrut_weights_ok False counts level ltac:(lia)) as A. apply ok_exists in A.
    destruct A as (wt & E1 & L1 & W).
    pose proof (@berrut_extrapolate_ok False counts s level y ltac:(lia) Ht F Hy) as B.
    apply ok_exists in B. destruct B as (r & E2 & Vr & Lr).
    assert (S1 : rsum level (fun i => nth i wt 0) = 1).
    { rewrite (rsum_ext _ _ (fun i => (-1) ^ (i + 1) * INR (nth i counts O) * / alt_sum counts level)).
      - rewrite rsum_scal_r. fold (alt_sum counts level). field. auto.
      - intros i Hi. now rewrite W. }
    exists wt, r. split; auto. split; auto. split; auto. split; auto. split; auto. split.
    - intros c Hc. rewrite <- (lin_unit r Hc), Lr. apply rsum_ext. intros i Hi.
      rewrite W by auto. now rewrite lin_unit.
    - intros u P HP. change (lin ps u r = P). rewrite Lr.
      rewrite (rsum_ext _ _ (fun i => nth i wt 0 * P)).
      + rewrite rsum_scal_r, S1. lra.
      + intros i Hi. rewrite W by auto. f_equal. apply HP. auto.
  Qed.

  Lemma berrut_error_prop counts s level y :
    (S level <= length counts)%nat -> (0 < ps)%nat ->
    (S level <= length (be_table s))%nat -> Forall (fun b => length b = ps) (be_table s) ->
    length (be_diff s) = ps -> length y = ps ->
    exists a b m s', berrut_extrapolate N ps counts s (S level) y = Some a /\
      berrut_extrapolate N ps counts s level y = Some b /\
      berrut_error N ps counts s (S level) = Some (Some m, s') /\ be_table s' = be_table s /\
      (exists c, (c < ps)%nat /\ m = Rabs (nth c a 0 - nth c b 0)) /\
      (forall c, (c < ps)%nat -> Rabs (nth c a 0 - nth c b 0) <= m).
  Proof.
    intros H1 Hp H2 F Hd Hy.
    pose proof (@berrut_extrapolate_ok False counts s (S level) y H1 H2 F Hy) as A. apply ok_exists in A.
    pose proof (@berrut_extrapolate_ok False counts s level y ltac:(lia) ltac:(lia) F Hy) as B.
    apply ok_exists in B. destruct A as (a & Ea & _), B as (b & Eb & _).
    pose proof (@berrut_error_ok False counts s level H1 Hp H2 F Hd y a b Hy Ea Eb) as K.
    apply ok_exists in K. destruct K as ([o s'] & E & m & Eo & A1 & A2 & A3 & A4). cbn [fst snd] in *. subst o.
    exists a, b, m, s'. auto 10.
  Qed.

  Lemma neville_error_prop sz n k : neville_bufs ps sz n -> (S k < sz)%nat -> (0 < ps)%nat ->
    exists m n', neville_error N ps n (S k) = Some (Some m, n') /\
      ne_table n' = ne_table n /\ ne_prev n' = ne_prev n /\
      (exists c, (c < ps)%nat /\
         m = Rabs (nth c (nth (S k) (ne_table n) []) 0 - nth c (nth k (ne_table n) []) 0)) /\
      (forall c, (c < ps)%nat ->
         Rabs (nth c (nth (S k) (ne_table n) []) 0 - nth c (nth k (ne_table n) []) 0) <= m).
  Proof.
    intros Hn Hk Hp. pose proof (@neville_error_ok mind ps False sz n (S k) Hn Hk Hp) as K.
    apply ok_exists in K. destruct K as ([[m|] n'] & E & A & B & C & D); cbn [fst snd] in *; [|lia].
    destruct D as (_ & c & Hc & D1 & D2). replace (S k - 1)%nat with k in * by lia.
    exists m, n'. split; auto. split; auto. split; auto. split; eauto.
  Qed.

  (** the approximation of the level itself is not used by Berrut *)
  Lemma berrut_newest_unused T (M : NumOps T) ps' counts tb tb' d d' level y :
    (level < length tb)%nat -> length tb' = length tb ->
    (forall i, i <> level -> nth_error tb' i = nth_error tb i) ->
    berrut_extrapolate M ps' counts (mkBerrut tb' d') level y =
    berrut_extrapolate M ps' counts (mkBerrut tb d) level y.
  Proof.
    intros H1 H2 H3. unfold berrut_extrapolate. destruct (berrut_weights M counts level) as [wt|]; auto.
    cbn [obind]. destruct (fill_buffer y (nlit M 0)) as [z|]; auto. cbn [obind].
    destruct level as [|lv]; auto. unfold fmaddn_inplace. cbn [be_table]. rewrite H2.
    destruct (Nat.ltb (length tb) (S lv)); auto. apply for_ext. intros k a Hk.
    destruct (rd wt k) as [t|]; auto. cbn [obind]. destruct (neqb M t (nlit M 0)); auto.
    unfold rd. now rewrite H3 by lia.
  Qed.
End Corollaries.
