(** The dense force kernels under every schedule. *)
From Coq Require Import ZArith Reals List Arith Lia Lra Bool.
From Verif Require Import Num Arr ArrLemmas ModelVertex SpecPhys RLemmas LemEngine ModelParallel
  SpecPar LemParallel LemOmp ModelGpu SpecGpu LemGpu LemGpuSum ModelGpuForce.
Import ListNotations.
Set Implicit Arguments.

Section Exec.
  Context {T : Type}.
  Implicit Types m : mem T.

  Lemma exec_rd_ m a i v k : mrd m a i = Some v -> exec (PRd a i k) m = exec (k v) m.
  Proof. intros H. cbn [exec]. now rewrite H. Qed.

  Lemma exec_wr_ m a i v k : mrd m a i <> None ->
    exists m', exec (PWr a i v k) m = exec k m' /\ shape m' = shape m /\
      forall b j, mrd m' b j = if (b =? a) && (j =? i) then Some v else mrd m b j.
  Proof.
    intros H. destruct (@mwr_some T m a i v) as [m' E].
    { destruct (mrd m a i); [eauto|congruence]. }
    exists m'. cbn [exec]. rewrite E. split; auto. split; [eapply mwr_shape; eauto|].
    intros b j. now apply mrd_mwr.
  Qed.

  Lemma shape_some m m' a i : shape m' = shape m -> mrd m a i <> None -> mrd m' a i <> None.
  Proof. intros E H X. apply H. now apply (@mrd_shape T m' m E a i). Qed.

  (** a round whose threads are numbered *)
  Lemma phase n (P : nat -> prog T) (R : region) (W : nat -> region) m (Q : nat -> mem T -> Prop) :
    (forall t, t < n -> fp R (W t) (P t)) ->
    (forall t t' a i, t < n -> t' < n -> W t a i = true ->
       R a i = false /\ (W t' a i = true -> t' = t)) ->
    (forall t, t < n -> exists m', exec (P t) m = Some m' /\ Q t m') ->
    every_schedule (map P (seq 0 n)) m (fun m' => shape m' = shape m /\
      (forall t, t < n -> exists mt, Q t mt /\ forall a i, W t a i = true -> mrd m' a i = mrd mt a i) /\
      (forall a i, (forall t, t < n -> W t a i = false) -> mrd m' a i = mrd m a i)).
  Proof.
    intros Hfp Hd Hex.
    set (mk := fun t => match exec (P t) m with Some m' => m' | None => m end).
    eapply schedule_weaken; [|apply (@list_schedules T nat 0 (seq 0 n) P (fun _ => R) W m mk)].
    - cbv beta. intros m' (S & Hw & Ho). split; auto. split.
      + intros t Ht. destruct (Hex t Ht) as (mt & E & HQ). exists mt. split; auto.
        intros a i HW. rewrite (Hw t a i); auto; [|apply in_seq; lia]. unfold mk. now rewrite E.
      + intros a i H. apply Ho. intros t Ht. apply H. apply in_seq in Ht. lia.
    - intros t Ht. apply Hfp. apply in_seq in Ht. lia.
    - intros j k t t' a i Hne Hj Hk HW.
      assert (Et : t = j /\ j < n).
      { assert (j < n). { rewrite <- (seq_length n 0). apply nth_error_Some. congruence. }
        split; auto. rewrite (nth_error_nth' (seq 0 n) 0) in Hj by (now rewrite seq_length).
        rewrite seq_nth in Hj by auto. injection Hj as <-. lia. }
      assert (Et' : t' = k /\ k < n).
      { assert (k < n). { rewrite <- (seq_length n 0). apply nth_error_Some. congruence. }
        split; auto. rewrite (nth_error_nth' (seq 0 n) 0) in Hk by (now rewrite seq_length).
        rewrite seq_nth in Hk by auto. injection Hk as <-. lia. }
      destruct Et as [-> Hjn], Et' as [-> Hkn].
      destruct (Hd j k a i Hjn Hkn HW) as [HR HW']. split; auto.
      destruct (W k a i) eqn:E; auto. specialize (HW' eq_refl). congruence.
    - intros t Ht. apply in_seq in Ht. unfold mk. destruct (Hex t) as (m' & E & _); [lia|]. now rewrite E.
  Qed.

  Lemma round_app r1 r2 m (g : mem T -> Prop) :
    every_round r1 m (fun m' => every_round r2 m' g) -> every_round (r1 ++ r2) m g.
  Proof.
    revert m. induction r1 as [|ps r IH]; intros m; simpl; auto.
    apply schedule_weaken. intros m'. apply IH.
  Qed.
End Exec.
Arguments shape_some {T m m' a i} _ _ _.
Arguments exec_rd_ {T m a i v k} _.

(** the six result rows *)
Definition fcell (n n1 : nat) (ks : list nat) : region :=
  fun a i => (a =? aF) && existsb (fun k => i =? k * n + n1) ks.
Definition own (lo hi t : nat) : region := fun a i => (lo <=? a) && (a <=? hi) && (i =? t).

Lemma fcell_true n n1 ks a i : fcell n n1 ks a i = true <->
  a = aF /\ exists k, In k ks /\ i = k * n + n1.
Proof.
  unfold fcell. rewrite andb_true_iff, Nat.eqb_eq, existsb_exists. split.
  - intros (H & k & Hk & E). apply Nat.eqb_eq in E. eauto.
  - intros (H & k & Hk & E). split; auto. exists k. split; auto. now apply Nat.eqb_eq.
Qed.
Lemma own_true lo hi t a i : own lo hi t a i = true <-> lo <= a <= hi /\ i = t.
Proof. unfold own. rewrite !andb_true_iff, !Nat.leb_le, Nat.eqb_eq. tauto. Qed.

Section Kernel.
  Context {T : Type} (U : NumOps T).
  Variables (n B : nat) (gy gm : nat -> T) (m0 : mem T).
  Hypothesis HB : 0 < B.
  Hypothesis HF : forall i, i < 6 * n -> mrd m0 aF i <> None.
  Hypothesis HS : forall a t, 3 <= a <= 15 -> t < B -> mrd m0 a t <> None.
  Implicit Types m : mem T.

  Definition base m : Prop :=
    shape m = shape m0 /\
    (forall i, i < 6 * n -> mrd m aY i = Some (gy i)) /\
    (forall i, i < n -> mrd m aM i = Some (gm i)).

  Definition p1 (i : nat) : vec3 T := V3 (gy i) (gy (n + i)) (gy (2 * n + i)).
  (** what one tile adds *)
  Definition tile_sum (i b : nat) : vec3 T :=
    fold_left (fun l k => gpu_pair U (p1 i) (p1 (b + k)) (gm (b + k)) l) (seq 0 B) (vzero U).
  (** the result after [q] tiles *)
  Definition total (i q : nat) : vec3 T :=
    fold_left (fun r j => vadd U r (tile_sum i (j * B))) (seq 0 q) (vzero U).

  Definition vec_at m (a t : nat) (v : vec3 T) : Prop :=
    mrd m a t = Some (vx v) /\ mrd m (S a) t = Some (vy v) /\ mrd m (S (S a)) t = Some (vz v).

  Lemma exists_cell m a t : base m -> 3 <= a <= 15 -> t < B -> mrd m a t <> None.
  Proof. intros (S0 & _ & _) Ha Ht. apply (shape_some (m := m0)); auto. Qed.
  Lemma exists_f m i : base m -> i < 6 * n -> mrd m aF i <> None.
  Proof. intros (S0 & _ & _) Hi. apply (shape_some (m := m0)); auto. Qed.

  (** [m'] is [m] but for the cells of thread [t] in the arrays [a], [a+1], [a+2] *)
  Definition sets3 m m' (a t : nat) (v : vec3 T) : Prop :=
    shape m' = shape m /\ vec_at m' a t v /\
    forall b j, own a (a + 2) t b j = false -> mrd m' b j = mrd m b j.

  Lemma wr3_own m a t v k : 3 <= a -> a + 2 <= 15 -> base m -> t < B ->
    exists m', exec (PWr a t (vx v) (PWr (S a) t (vy v) (PWr (S (S a)) t (vz v) k))) m = exec k m' /\
      sets3 m m' a t v.
  Proof.
    intros Ha Ha' Hb Ht.
    destruct (@exec_wr_ T m a t (vx v) (PWr (S a) t (vy v) (PWr (S (S a)) t (vz v) k)))
      as (m1 & E1 & S1 & V1); [apply exists_cell; auto; lia|].
    destruct (@exec_wr_ T m1 (S a) t (vy v) (PWr (S (S a)) t (vz v) k))
      as (m2 & E2 & S2 & V2); [apply (shape_some S1); apply exists_cell; auto; lia|].
    destruct (@exec_wr_ T m2 (S (S a)) t (vz v) k)
      as (m3 & E3 & S3 & V3); [apply (shape_some S2); apply (shape_some S1); apply exists_cell; auto; lia|].
    exists m3. split; [congruence|]. split; [congruence|]. split.
    - unfold vec_at. rewrite !V3, !V2, !V1, !Nat.eqb_refl.
      assert (X1 : a =? S (S a) = false) by (apply Nat.eqb_neq; lia).
      assert (X2 : a =? S a = false) by (apply Nat.eqb_neq; lia).
      assert (X3 : S a =? S (S a) = false) by (apply Nat.eqb_neq; lia).
      rewrite X1, X2, X3. auto.
    - intros b j Ho. assert (N : ~ (a <= b <= a + 2 /\ j = t)).
      { intros H. apply own_true in H. congruence. }
      rewrite V3, V2, V1.
      destruct (Nat.eqb_spec b (S (S a))), (Nat.eqb_spec b (S a)), (Nat.eqb_spec b a),
        (Nat.eqb_spec j t); simpl; auto; exfalso; apply N; lia.
  Qed.

  Lemma base_sets m m' a t v : 3 <= a -> base m -> sets3 m m' a t v -> base m'.
  Proof.
    intros Ha (S & HY & HM) (S' & _ & Ho). split; [congruence|]. split; intros i Hi; rewrite Ho; auto.
    - unfold own. destruct (Nat.leb_spec a aY); auto. unfold aY in *. lia.
    - unfold own. destruct (Nat.leb_spec a aM); auto. unfold aM in *. lia.
  Qed.

  (** the pieces, one thread alone *)
  Lemma exec_init n1 t k m : base m -> n1 < n -> t < B ->
    exists m', exec (k_init U n n1 t k) m = exec k m' /\ shape m' = shape m /\
      vec_at m' gX t (p1 n1) /\ vec_at m' rX t (vzero U) /\
      forall b j, own 7 12 t b j = false -> mrd m' b j = mrd m b j.
  Proof.
    intros Hb Hn Ht. unfold k_init. destruct Hb as (S0 & HY & HM).
    assert (Hb : base m) by (split; auto).
    rewrite (exec_rd_ (v := gy n1)) by (apply HY; lia).
    match goal with |- context [exec (PWr ?a ?i ?v ?k0) m] =>
      destruct (@exec_wr_ T m a i v k0) as (m1 & -> & S1 & V1); [apply exists_cell; auto; unfold gX; lia|] end.
    rewrite (exec_rd_ (v := gy (n + n1))).
    2:{ rewrite V1. cbn [Nat.eqb aY gX andb]. apply HY. lia. }
    match goal with |- context [exec (PWr ?a ?i ?v ?k0) m1] =>
      destruct (@exec_wr_ T m1 a i v k0) as (m2 & -> & S2 & V2) end.
    { apply (shape_some S1). apply exists_cell; auto; unfold gY; lia. }
    rewrite (exec_rd_ (v := gy (2 * n + n1))).
    2:{ rewrite V2, V1. cbn [Nat.eqb aY gX gY andb]. apply HY. lia. }
    match goal with |- context [exec (PWr ?a ?i ?v ?k0) m2] =>
      destruct (@exec_wr_ T m2 a i v k0) as (m3 & -> & S3 & V3) end.
    { apply (shape_some S2), (shape_some S1). apply exists_cell; auto; unfold gZ; lia. }
    assert (Hb3 : base m3).
    { split; [congruence|]. split; intros i Hi; rewrite V3, V2, V1; cbn [Nat.eqb aY aM gX gY gZ andb]; auto. }
    destruct (@wr3_own m3 rX t (vzero U) k) as (m4 & E4 & S4 & R4 & O4); auto; try (unfold rX; lia).
    change (S (S rX)) with rZ in E4. change (S rX) with rY in E4. cbn [vzero vx vy vz] in E4. rewrite E4. exists m4. split; auto. split; [congruence|]. split; [|split; auto].
    - unfold vec_at. rewrite !O4 by reflexivity. rewrite !V3, !V2, !V1, !Nat.eqb_refl.
      cbn [Nat.eqb gX gY gZ andb p1 vx vy vz]. auto.
    - intros b j Hbj. assert (N : ~ (7 <= b <= 12 /\ j = t)) by (intros X; apply own_true in X; congruence).
      rewrite O4.
      + rewrite V3, V2, V1. unfold gX, gY, gZ.
        destruct (Nat.eqb_spec b 9), (Nat.eqb_spec b 8), (Nat.eqb_spec b 7), (Nat.eqb_spec j t);
          cbn [andb]; auto; exfalso; apply N; lia.
      + destruct (own rX (rX + 2) t b j) eqn:E; auto. apply own_true in E. unfold rX in E.
        exfalso. apply N. lia.
  Qed.

  Lemma exec_load b2 t k m : base m -> b2 + t < n -> t < B ->
    exists m', exec (k_load n b2 t k) m = exec k m' /\ shape m' = shape m /\
      vec_at m' sX t (p1 (b2 + t)) /\ mrd m' sM t = Some (gm (b2 + t)) /\
      forall b j, own 3 6 t b j = false -> mrd m' b j = mrd m b j.
  Proof.
    intros Hb Hn Ht. unfold k_load. destruct Hb as (S0 & HY & HM).
    assert (Hb : base m) by (split; auto).
    rewrite (exec_rd_ (v := gy (b2 + t))) by (apply HY; lia).
    match goal with |- context [exec (PWr ?a ?i ?v ?k0) m] =>
      destruct (@exec_wr_ T m a i v k0) as (m1 & -> & S1 & V1); [apply exists_cell; auto; unfold sX; lia|] end.
    rewrite (exec_rd_ (v := gy (n + (b2 + t)))).
    2:{ rewrite V1. cbn [Nat.eqb aY sX andb]. apply HY. lia. }
    match goal with |- context [exec (PWr ?a ?i ?v ?k0) m1] =>
      destruct (@exec_wr_ T m1 a i v k0) as (m2 & -> & S2 & V2) end.
    { apply (shape_some S1). apply exists_cell; auto; unfold sY; lia. }
    rewrite (exec_rd_ (v := gy (2 * n + (b2 + t)))).
    2:{ rewrite V2, V1. cbn [Nat.eqb aY sX sY andb]. apply HY. lia. }
    match goal with |- context [exec (PWr ?a ?i ?v ?k0) m2] =>
      destruct (@exec_wr_ T m2 a i v k0) as (m3 & -> & S3 & V3) end.
    { apply (shape_some S2), (shape_some S1). apply exists_cell; auto; unfold sZ; lia. }
    rewrite (exec_rd_ (v := gm (b2 + t))).
    2:{ rewrite V3, V2, V1. cbn [Nat.eqb aM sX sY sZ andb]. apply HM. lia. }
    match goal with |- context [exec (PWr ?a ?i ?v ?k0) m3] =>
      destruct (@exec_wr_ T m3 a i v k0) as (m4 & -> & S4 & V4) end.
    { apply (shape_some S3), (shape_some S2), (shape_some S1). apply exists_cell; auto; unfold sM; lia. }
    exists m4. split; auto. split; [congruence|]. split; [|split].
    - unfold vec_at. rewrite !V4, !V3, !V2, !V1, !Nat.eqb_refl.
      cbn [Nat.eqb sX sY sZ sM andb p1 vx vy vz]. auto.
    - rewrite V4. now rewrite !Nat.eqb_refl.
    - intros b j Hbj. assert (N : ~ (3 <= b <= 6 /\ j = t)) by (intros X; apply own_true in X; congruence).
      rewrite V4, V3, V2, V1. unfold sX, sY, sZ, sM.
      destruct (Nat.eqb_spec b 6), (Nat.eqb_spec b 5), (Nat.eqb_spec b 4), (Nat.eqb_spec b 3), (Nat.eqb_spec j t);
          cbn [andb]; auto; exfalso; apply N; lia.
  Qed.

  Definition tile_loaded m b : Prop :=
    forall t, t < B -> vec_at m sX t (p1 (b + t)) /\ mrd m sM t = Some (gm (b + t)).

  Lemma exec_tile m b i : tile_loaded m b -> forall cnt j l k, j + cnt <= B ->
    exec (k_tile U (p1 i) cnt j l k) m =
    exec (k (fold_left (fun l q => gpu_pair U (p1 i) (p1 (b + q)) (gm (b + q)) l) (seq j cnt) l)) m.
  Proof.
    intros HT. induction cnt as [|cnt IH]; intros j l k Hj; [reflexivity|].
    cbn [k_tile]. destruct (HT j ltac:(lia)) as ((E1 & E2 & E3) & E4).
    rewrite (exec_rd_ E1), (exec_rd_ E2), (exec_rd_ E3), (exec_rd_ E4).
    cbn [p1 vx vy vz seq fold_left]. rewrite IH by lia. reflexivity.
  Qed.

  Lemma exec_compute m b t i : base m -> tile_loaded m b -> t < B -> vec_at m gX t (p1 i) ->
    exists m', exec (k_compute U B t) m = Some m' /\ sets3 m m' lX t (tile_sum i b).
  Proof.
    intros Hb HT Ht (E1 & E2 & E3). unfold k_compute.
    rewrite (exec_rd_ E1), (exec_rd_ E2), (exec_rd_ E3). cbn [p1 vx vy vz].
    change (V3 (gy i) (gy (n + i)) (gy (2 * n + i))) with (p1 i).
    rewrite (@exec_tile m b i HT) by lia. fold (tile_sum i b).
    destruct (@wr3_own m lX t (tile_sum i b) PRet) as (m' & E & HS'); auto; try (unfold lX; lia).
    exists m'. split; auto.
  Qed.

  Lemma exec_accum m t k r l : base m -> t < B -> vec_at m rX t r -> vec_at m lX t l ->
    exists m', exec (k_accum U t k) m = exec k m' /\ sets3 m m' rX t (vadd U r l).
  Proof.
    intros Hb Ht (E1 & E2 & E3) (F1 & F2 & F3). unfold k_accum.
    rewrite (exec_rd_ E1), (exec_rd_ F1).
    match goal with |- context [exec (PWr ?a ?i ?v ?k0) m] =>
      destruct (@exec_wr_ T m a i v k0) as (m1 & -> & S1 & V1); [apply exists_cell; auto; unfold rX; lia|] end.
    rewrite (exec_rd_ (v := vy r)) by (rewrite V1; exact E2).
    rewrite (exec_rd_ (v := vy l)) by (rewrite V1; exact F2).
    match goal with |- context [exec (PWr ?a ?i ?v ?k0) m1] =>
      destruct (@exec_wr_ T m1 a i v k0) as (m2 & -> & S2 & V2) end.
    { apply (shape_some S1). apply exists_cell; auto; unfold rY; lia. }
    rewrite (exec_rd_ (v := vz r)) by (rewrite V2, V1; exact E3).
    rewrite (exec_rd_ (v := vz l)) by (rewrite V2, V1; exact F3).
    match goal with |- context [exec (PWr ?a ?i ?v ?k0) m2] =>
      destruct (@exec_wr_ T m2 a i v k0) as (m3 & -> & S3 & V3) end.
    { apply (shape_some S2), (shape_some S1). apply exists_cell; auto; unfold rZ; lia. }
    exists m3. split; auto. split; [congruence|]. split.
    - unfold vec_at. rewrite !V3, !V2, !V1, !Nat.eqb_refl. cbn [Nat.eqb rX rY rZ andb vadd vx vy vz]. auto.
    - intros b j Hbj. assert (N : ~ (10 <= b <= 12 /\ j = t)).
      { intros X. unfold rX in Hbj. rewrite (proj2 (own_true 10 (10 + 2) t b j)) in Hbj; [discriminate|]. exact X. }
      rewrite V3, V2, V1. unfold rX, rY, rZ.
      destruct (Nat.eqb_spec b 12), (Nat.eqb_spec b 11), (Nat.eqb_spec b 10), (Nat.eqb_spec j t);
          cbn [andb]; auto; exfalso; apply N; lia.
  Qed.

  Lemma exec_store_v m n1 t k v : base m -> n1 < n -> t < B -> vec_at m rX t v ->
    exists m', exec (k_store_v n n1 t k) m = exec k m' /\ shape m' = shape m /\
      mrd m' aF (3 * n + n1) = Some (vx v) /\ mrd m' aF (4 * n + n1) = Some (vy v) /\
      mrd m' aF (5 * n + n1) = Some (vz v) /\
      forall b j, fcell n n1 [3; 4; 5] b j = false -> mrd m' b j = mrd m b j.
  Proof.
    intros Hb Hn Ht (E1 & E2 & E3). unfold k_store_v.
    rewrite !(Nat.add_comm n1).
    rewrite (exec_rd_ E1).
    match goal with |- context [exec (PWr ?a ?i ?v ?k0) m] =>
      destruct (@exec_wr_ T m a i v k0) as (m1 & -> & S1 & V1); [apply exists_f; auto; lia|] end.
    rewrite (exec_rd_ (v := vy v)) by (rewrite V1; exact E2).
    match goal with |- context [exec (PWr ?a ?i ?v ?k0) m1] =>
      destruct (@exec_wr_ T m1 a i v k0) as (m2 & -> & S2 & V2) end.
    { apply (shape_some S1). apply exists_f; auto; lia. }
    rewrite (exec_rd_ (v := vz v)) by (rewrite V2, V1; exact E3).
    match goal with |- context [exec (PWr ?a ?i ?v ?k0) m2] =>
      destruct (@exec_wr_ T m2 a i v k0) as (m3 & -> & S3 & V3) end.
    { apply (shape_some S2), (shape_some S1). apply exists_f; auto; lia. }
    exists m3. split; auto. split; [congruence|].
    assert (X1 : 3 * n + n1 =? 5 * n + n1 = false) by (apply Nat.eqb_neq; lia).
    assert (X2 : 3 * n + n1 =? 4 * n + n1 = false) by (apply Nat.eqb_neq; lia).
    assert (X3 : 4 * n + n1 =? 5 * n + n1 = false) by (apply Nat.eqb_neq; lia).
    rewrite !V3, !V2, !V1, X1, X2, X3, !Nat.eqb_refl. cbn [aF Nat.eqb andb].
    repeat match goal with |- _ /\ _ => split end; auto.
    intros b j Hbj. rewrite V3, V2, V1.
    assert (N : ~ (b = aF /\ (j = 3 * n + n1 \/ j = 4 * n + n1 \/ j = 5 * n + n1))).
    { intros [X Y]. assert (Z : fcell n n1 [3; 4; 5] b j = true); [|congruence].
      apply fcell_true. split; auto.
      destruct Y as [Y|[Y|Y]]; [exists 3|exists 4|exists 5]; split; simpl; auto. }
    destruct (Nat.eqb_spec b aF); cbn [andb]; auto.
    destruct (Nat.eqb_spec j (5 * n + n1)), (Nat.eqb_spec j (4 * n + n1)), (Nat.eqb_spec j (3 * n + n1));
      auto; exfalso; apply N; auto.
  Qed.

  Lemma exec_store_r m n1 k : base m -> n1 < n ->
    exists m', exec (k_store_r n n1 k) m = exec k m' /\ shape m' = shape m /\
      (forall c, c < 3 -> mrd m' aF (c * n + n1) = Some (gy ((c + 3) * n + n1))) /\
      forall b j, fcell n n1 [0; 1; 2] b j = false -> mrd m' b j = mrd m b j.
  Proof.
    intros Hb Hn. unfold k_store_r. destruct Hb as (S0 & HY & HM).
    assert (Hb : base m) by (split; auto).
    rewrite (exec_rd_ (v := gy (3 * n + n1))) by (apply HY; lia).
    match goal with |- context [exec (PWr ?a ?i ?v ?k0) m] =>
      destruct (@exec_wr_ T m a i v k0) as (m1 & -> & S1 & V1); [apply exists_f; auto; lia|] end.
    rewrite (exec_rd_ (v := gy (4 * n + n1))) by (rewrite V1; cbn [aY aF Nat.eqb andb]; apply HY; lia).
    match goal with |- context [exec (PWr ?a ?i ?v ?k0) m1] =>
      destruct (@exec_wr_ T m1 a i v k0) as (m2 & -> & S2 & V2) end.
    { apply (shape_some S1). apply exists_f; auto; lia. }
    rewrite (exec_rd_ (v := gy (5 * n + n1))) by (rewrite V2, V1; cbn [aY aF Nat.eqb andb]; apply HY; lia).
    match goal with |- context [exec (PWr ?a ?i ?v ?k0) m2] =>
      destruct (@exec_wr_ T m2 a i v k0) as (m3 & -> & S3 & V3) end.
    { apply (shape_some S2), (shape_some S1). apply exists_f; auto; lia. }
    exists m3. split; auto. split; [congruence|]. split.
    - intros c Hc. rewrite V3, V2, V1. cbn [aF Nat.eqb andb].
      assert (X : c = 0 \/ c = 1 \/ c = 2) by lia. destruct X as [->|[->| ->]]; cbn [Nat.add Nat.mul];
        rewrite ?Nat.add_0_r;
      destruct (Nat.eqb_spec n1 (n + n + n1)), (Nat.eqb_spec n1 (n + n1)), (Nat.eqb_spec n1 n1),
        (Nat.eqb_spec (n + n1) (n + n + n1)), (Nat.eqb_spec (n + n1) (n + n1)),
        (Nat.eqb_spec (n + n + n1) (n + n + n1)); try lia; f_equal; f_equal; lia.
    - intros b j Hbj. rewrite V3, V2, V1.
      assert (N : ~ (b = aF /\ (j = n1 \/ j = n + n1 \/ j = 2 * n + n1))).
      { intros [X Y]. assert (Z : fcell n n1 [0; 1; 2] b j = true); [|congruence].
        apply fcell_true. split; auto.
        destruct Y as [Y|[Y|Y]]; [exists 0|exists 1|exists 2]; split; simpl; auto; lia. }
      destruct (Nat.eqb_spec b aF); cbn [andb]; auto.
      destruct (Nat.eqb_spec j (2 * n + n1)), (Nat.eqb_spec j (n + n1)), (Nat.eqb_spec j n1);
        auto; exfalso; apply N; auto.
  Qed.

  (** regions of the phases *)
  Definition Rg : region := fun a _ => (a =? aY) || (a =? aM).
  Definition Rc : region := fun a _ => (3 <=? a) && (a <=? 6).
  Definition Wp first ks t : region := fun a i => own 3 15 t a i || fcell n (first + t) ks a i.

  Lemma fcell_in n1 ks k : In k ks -> fcell n n1 ks aF (k * n + n1) = true.
  Proof. intros H. apply fcell_true. eauto. Qed.
  Lemma own_in lo hi t a : lo <= a <= hi -> own lo hi t a t = true.
  Proof. intros H. apply own_true. auto. Qed.

  Lemma fp_init (R W : region) n1 t k : (forall i, R aY i = true) -> (forall a, 3 <= a <= 15 -> W a t = true) ->
    fp R W k -> fp (T:=T) R W (k_init U n n1 t k).
  Proof.
    intros HR HW Hk. unfold k_init. cbn [fp].
    repeat match goal with |- _ /\ _ => split | |- forall _, _ => intros ? end; auto;
      apply HW; unfold gX, gY, gZ, rX, rY, rZ; lia.
  Qed.
  Lemma fp_load (R W : region) b2 t k : (forall i, R aY i = true) -> (forall i, R aM i = true) ->
    (forall a, 3 <= a <= 15 -> W a t = true) ->
    fp R W k -> fp (T:=T) R W (k_load n b2 t k).
  Proof.
    intros HR HR' HW Hk. unfold k_load. cbn [fp].
    repeat match goal with |- _ /\ _ => split | |- forall _, _ => intros ? end; auto;
      apply HW; unfold sX, sY, sZ, sM; lia.
  Qed.
  Lemma fp_tile (R W : region) v cnt : (forall a i, 3 <= a <= 6 -> R a i = true) ->
    forall j l k, (forall l, fp R W (k l)) -> fp (T:=T) R W (k_tile U v cnt j l k).
  Proof.
    intros HR. induction cnt as [|cnt IH]; intros j l k Hk; cbn [k_tile fp]; auto.
    repeat match goal with |- _ /\ _ => split | |- forall _, _ => intros ? end; auto;
      left; apply HR; unfold sX, sY, sZ, sM; lia.
  Qed.
  Lemma fp_compute (R W : region) t : (forall a i, 3 <= a <= 6 -> R a i = true) ->
    (forall a, 7 <= a <= 15 -> W a t = true) -> fp (T:=T) R W (k_compute U B t).
  Proof.
    intros HR HW. unfold k_compute. cbn [fp].
    repeat match goal with |- _ /\ _ => split | |- forall _, _ => intros ? end;
      try (right; apply HW; unfold gX, gY, gZ; lia).
    apply fp_tile; auto. intros l. cbn [fp].
    repeat match goal with |- _ /\ _ => split end; auto; apply HW; unfold lX, lY, lZ; lia.
  Qed.
  Lemma fp_accum (R W : region) t k : (forall a, 3 <= a <= 15 -> W a t = true) ->
    fp R W k -> fp (T:=T) R W (k_accum U t k).
  Proof.
    intros HW Hk. unfold k_accum. cbn [fp].
    repeat match goal with |- _ /\ _ => split | |- forall _, _ => intros ? end; auto;
      try right; apply HW; unfold rX, rY, rZ, lX, lY, lZ; lia.
  Qed.
  Lemma fp_store_v (R W : region) n1 t k : (forall a, 3 <= a <= 15 -> W a t = true) ->
    (forall c, 3 <= c <= 5 -> W aF (c * n + n1) = true) ->
    fp R W k -> fp (T:=T) R W (k_store_v n n1 t k).
  Proof.
    intros HW HF' Hk. unfold k_store_v. rewrite !(Nat.add_comm n1). cbn [fp].
    repeat match goal with |- _ /\ _ => split | |- forall _, _ => intros ? end; auto;
      try (apply HF'; lia); right; apply HW; unfold rX, rY, rZ; lia.
  Qed.
  Lemma fp_store_r (R W : region) n1 k : (forall i, R aY i = true) ->
    (forall c, c < 3 -> W aF (c * n + n1) = true) ->
    fp R W k -> fp (T:=T) R W (k_store_r n n1 k).
  Proof.
    intros HR HF' Hk. unfold k_store_r. cbn [fp].
    repeat match goal with |- _ /\ _ => split | |- forall _, _ => intros ? end; auto.
    all: first [apply (HF' 0); lia | apply (HF' 2); lia
               | replace (n + n1) with (1 * n + n1) by lia; apply HF'; lia].
  Qed.

  Lemma fcell_inj ks first t t' a i : first + t < n -> first + t' < n ->
    fcell n (first + t) ks a i = true -> fcell n (first + t') ks a i = true -> t' = t.
  Proof.
    intros H H' E E'. apply fcell_true in E. apply fcell_true in E'.
    destruct E as (_ & k & _ & E). destruct E' as (_ & k' & _ & E').
    assert (k = k') by nia. subst. lia.
  Qed.

  Lemma Wp_disj first ks : first + B <= n ->
    forall t t' a i, t < B -> t' < B -> Wp first ks t a i = true ->
      Rg a i = false /\ (Wp first ks t' a i = true -> t' = t).
  Proof.
    intros Hf t t' a i Ht Ht' H. unfold Wp in *. apply orb_true_iff in H. destruct H as [H|H].
    - apply own_true in H. destruct H as [Ha ->]. split.
      + unfold Rg, aY, aM. destruct (Nat.eqb_spec a 0), (Nat.eqb_spec a 2); auto; lia.
      + intros H. apply orb_true_iff in H. destruct H as [H|H].
        * apply own_true in H. lia.
        * apply fcell_true in H. unfold aF in H. lia.
    - split.
      + apply fcell_true in H. destruct H as [-> _]. reflexivity.
      + intros H'. apply orb_true_iff in H'. destruct H' as [H'|H'].
        * apply own_true in H'. apply fcell_true in H. unfold aF in H. lia.
        * eapply fcell_inj; [| |exact H|exact H']; lia.
  Qed.

  Lemma Rg_Y i : Rg aY i = true. Proof. reflexivity. Qed.
  Lemma Rg_M i : Rg aM i = true. Proof. reflexivity. Qed.
  Lemma Wp_own first ks t a : 3 <= a <= 15 -> Wp first ks t a t = true.
  Proof. intros H. unfold Wp. rewrite own_in; auto. Qed.
  Lemma Wp_f first ks t c : In c ks -> Wp first ks t aF (c * n + (first + t)) = true.
  Proof. intros H. unfold Wp. rewrite fcell_in; auto using orb_true_r. Qed.

  (** what is known between two barriers *)
  Record inv (first q b : nat) (mb m : mem T) : Prop := mkInv {
    i_base : base m;
    i_regs : forall t, t < B -> vec_at m gX t (p1 (first + t));
    i_res : forall t, t < B -> vec_at m rX t (total (first + t) q);
    i_tile : tile_loaded m b;
    i_f : forall i, mrd m aF i = mrd mb aF i }.

  Lemma base_keep m m' : shape m' = shape m ->
    (forall i, mrd m' aY i = mrd m aY i) -> (forall i, mrd m' aM i = mrd m aM i) -> base m -> base m'.
  Proof.
    intros E HY HM (S0 & H1 & H2). split; [congruence|]. split; intros i Hi; [rewrite HY|rewrite HM]; auto.
  Qed.

  Lemma Wp_glob first ks t a i : a = aY \/ a = aM -> Wp first ks t a i = false.
  Proof.
    intros H. unfold Wp. apply orb_false_iff. split.
    - destruct (own 3 15 t a i) eqn:E; auto. apply own_true in E. unfold aY, aM in H. lia.
    - destruct (fcell n (first + t) ks a i) eqn:E; auto. apply fcell_true in E. unfold aY, aM, aF in *. lia.
  Qed.
  Lemma Wp_nof first t i : Wp first [] t aF i = false.
  Proof. unfold Wp, own, fcell, aF. cbn. now rewrite ?andb_false_r. Qed.

  Lemma vec_keep m m' a t v : (forall b, a <= b <= a + 2 -> mrd m' b t = mrd m b t) ->
    vec_at m a t v -> vec_at m' a t v.
  Proof.
    intros H (E1 & E2 & E3). unfold vec_at. rewrite !H by lia. auto.
  Qed.

  Lemma own_false lo hi t a j : (a < lo \/ hi < a) \/ j <> t -> own lo hi t a j = false.
  Proof. intros H. destruct (own lo hi t a j) eqn:E; auto. apply own_true in E. lia. Qed.

  (** first round of a block with at least one tile *)
  Lemma phase_first first mb : base mb -> first + B <= n ->
    every_schedule (map (fun tid => k_init U n (first + tid) tid (k_load n 0 tid PRet)) (seq 0 B)) mb
      (inv first 0 0 mb).
  Proof.
    intros Hb Hf.
    eapply schedule_weaken; [|apply (@phase T B _ Rg (Wp first [])) with (Q := fun t m' =>
      vec_at m' gX t (p1 (first + t)) /\ vec_at m' rX t (vzero U) /\
      vec_at m' sX t (p1 (0 + t)) /\ mrd m' sM t = Some (gm (0 + t)))].
    - cbv beta. intros m' (S1 & Hw & Ho).
      assert (Hb' : base m').
      { apply (@base_keep mb); auto; intros i; apply Ho; intros; apply Wp_glob; auto. }
      split; [exact Hb'| | | |].
      + intros t Ht. destruct (Hw t Ht) as (mt & (H1 & H2 & H3 & H4) & Hm).
        apply (@vec_keep mt); auto. intros b Hbb. apply Hm. apply Wp_own. unfold gX in Hbb. lia.
      + intros t Ht. destruct (Hw t Ht) as (mt & (H1 & H2 & H3 & H4) & Hm).
        apply (@vec_keep mt); auto. intros b Hbb. apply Hm. apply Wp_own. unfold rX in Hbb. lia.
      + intros t Ht. destruct (Hw t Ht) as (mt & (H1 & H2 & H3 & H4) & Hm). split.
        * apply (@vec_keep mt); auto. intros b Hbb. apply Hm. apply Wp_own. unfold sX in Hbb. lia.
        * rewrite Hm; auto. apply Wp_own. unfold sM; lia.
      + intros i. apply Ho. intros. apply Wp_nof.
    - intros t Ht. apply fp_init; [apply Rg_Y|intros; now apply Wp_own|].
      apply fp_load; [apply Rg_Y|apply Rg_M|intros; now apply Wp_own|exact I].
    - now apply Wp_disj.
    - intros t Ht. destruct (@exec_init (first + t) t (k_load n 0 t PRet) mb) as (m1 & E1 & S1 & A1 & A2 & O1);
        auto; [lia|].
      assert (Hb1 : base m1).
      { apply (@base_keep mb); auto; intros i; apply O1; apply own_false; unfold aY, aM; lia. }
      destruct (@exec_load 0 t PRet m1) as (m2 & E2 & S2 & A3 & A4 & O2); auto; [lia|].
      exists m2. rewrite E1, E2. split; [reflexivity|]. repeat match goal with |- _ /\ _ => split end; auto.
      + apply (@vec_keep m1); auto. intros b Hbb. apply O2. apply own_false. unfold gX in Hbb. lia.
      + apply (@vec_keep m1); auto. intros b Hbb. apply O2. apply own_false. unfold rX in Hbb. lia.
  Qed.

  Lemma phase_compute first q b mb m : first + B <= n -> inv first q b mb m ->
    every_schedule (map (k_compute U B) (seq 0 B)) m
      (fun m' => inv first q b mb m' /\ forall t, t < B -> vec_at m' lX t (tile_sum (first + t) b)).
  Proof.
    intros Hf [Hb Hr Hs Ht0 Hff].
    eapply schedule_weaken; [|apply (@phase T B _ Rc (fun t => own 7 15 t)) with (Q := fun t m' =>
      sets3 m m' lX t (tile_sum (first + t) b))].
    - cbv beta. intros m' (S1 & Hw & Ho).
      assert (G : forall a i, a < 7 -> mrd m' a i = mrd m a i).
      { intros a i Ha. apply Ho. intros t Ht. apply own_false. lia. }
      assert (G2 : forall a t, t < B -> 7 <= a < 13 -> mrd m' a t = mrd m a t).
      { intros a t Ht Ha. destruct (Hw t Ht) as (mt & (_ & _ & O) & Hm). rewrite Hm by (apply own_in; lia).
        apply O. apply own_false. unfold lX. lia. }
      split.
      + split.
        * apply (@base_keep m); auto; intros i; apply G; unfold aY, aM; lia.
        * intros t Ht. apply (@vec_keep m); auto. intros a Ha. apply G2; auto. unfold gX in Ha. lia.
        * intros t Ht. apply (@vec_keep m); auto. intros a Ha. apply G2; auto. unfold rX in Ha. lia.
        * intros t Ht. destruct (Ht0 t Ht) as [H1 H2]. split.
          -- apply (@vec_keep m); auto. intros a Ha. apply G. unfold sX in Ha. lia.
          -- rewrite G; auto; unfold sM; lia.
        * intros i. rewrite G; auto; unfold aF; lia.
      + intros t Ht. destruct (Hw t Ht) as (mt & (_ & A & _) & Hm). apply (@vec_keep mt); auto.
        intros a Ha. apply Hm. apply own_in. unfold lX in Ha. lia.
    - intros t Ht. apply fp_compute.
      + intros a i Ha. unfold Rc. destruct (Nat.leb_spec 3 a), (Nat.leb_spec a 6); auto; lia.
      + intros a Ha. now apply own_in.
    - intros t t' a i Ht Ht' H. apply own_true in H. split.
      + unfold Rc. destruct (Nat.leb_spec 3 a), (Nat.leb_spec a 6); auto; lia.
      + intros H'. apply own_true in H'. lia.
    - intros t Ht. destruct (@exec_compute m b t (first + t)) as (m' & E & HS'); auto.
      exists m'. auto.
  Qed.

  Lemma total_S i q : total i (S q) = vadd U (total i q) (tile_sum i (q * B)).
  Proof. unfold total. rewrite seq_S, fold_left_app. reflexivity. Qed.

  Lemma phase_next first q mb m : first + B <= n -> S q * B + B <= n ->
    inv first q (q * B) mb m -> (forall t, t < B -> vec_at m lX t (tile_sum (first + t) (q * B))) ->
    every_schedule (map (fun tid => k_accum U tid (k_load n (q * B + B) tid PRet)) (seq 0 B)) m
      (inv first (S q) (S q * B) mb).
  Proof.
    intros Hf Hq [Hb Hr Hs Ht0 Hff] Hl.
    eapply schedule_weaken; [|apply (@phase T B _ Rg (Wp first [])) with (Q := fun t m' =>
      vec_at m' gX t (p1 (first + t)) /\ vec_at m' rX t (total (first + t) (S q)) /\
      vec_at m' sX t (p1 (S q * B + t)) /\ mrd m' sM t = Some (gm (S q * B + t)))].
    - cbv beta. intros m' (S1 & Hw & Ho).
      assert (Hb' : base m').
      { apply (@base_keep m); auto; intros i; apply Ho; intros; apply Wp_glob; auto. }
      split; [exact Hb'| | | |].
      + intros t Ht. destruct (Hw t Ht) as (mt & (H1 & H2 & H3 & H4) & Hm).
        apply (@vec_keep mt); auto. intros b Hbb. apply Hm. apply Wp_own. unfold gX in Hbb. lia.
      + intros t Ht. destruct (Hw t Ht) as (mt & (H1 & H2 & H3 & H4) & Hm).
        apply (@vec_keep mt); auto. intros b Hbb. apply Hm. apply Wp_own. unfold rX in Hbb. lia.
      + intros t Ht. destruct (Hw t Ht) as (mt & (H1 & H2 & H3 & H4) & Hm). split.
        * apply (@vec_keep mt); auto. intros b Hbb. apply Hm. apply Wp_own. unfold sX in Hbb. lia.
        * rewrite Hm; auto. apply Wp_own. unfold sM; lia.
      + intros i. rewrite <- Hff. apply Ho. intros. apply Wp_nof.
    - intros t Ht. apply fp_accum; [intros; now apply Wp_own|].
      apply fp_load; [apply Rg_Y|apply Rg_M|intros; now apply Wp_own|exact I].
    - now apply Wp_disj.
    - intros t Ht.
      destruct (@exec_accum m t (k_load n (q * B + B) t PRet) (total (first + t) q) (tile_sum (first + t) (q * B)))
        as (m1 & E1 & S1 & A1 & O1); auto.
      assert (Hb1 : base m1).
      { apply (@base_keep m); auto; intros i; apply O1; apply own_false; unfold aY, aM, rX; lia. }
      destruct (@exec_load (q * B + B) t PRet m1) as (m2 & E2 & S2 & A3 & A4 & O2); auto; [cbn [Nat.mul] in Hq; lia|].
      exists m2. rewrite E1, E2. split; [reflexivity|]. repeat match goal with |- _ /\ _ => split end; auto.
      + apply (@vec_keep m1).
        * intros b Hbb. apply O2. apply own_false. unfold gX in Hbb. lia.
        * apply (@vec_keep m); auto. intros b Hbb. apply O1. apply own_false. unfold gX, rX in *. lia.
      + rewrite total_S. apply (@vec_keep m1); auto. intros b Hbb. apply O2. apply own_false. unfold rX in Hbb. lia.
      + replace (S q * B) with (q * B + B) by (cbn [Nat.mul]; lia). auto.
      + replace (S q * B) with (q * B + B) by (cbn [Nat.mul]; lia). auto.
  Qed.

  (** what a store does *)
  Definition store_ok (store : nat -> nat -> prog T) (ks : list nat) (val : nat -> nat -> vec3 T -> T) : Prop :=
    (forall n1 t (W : region), (forall a, 3 <= a <= 15 -> W a t = true) ->
       (forall c, In c ks -> W aF (c * n + n1) = true) -> fp Rg W (store n1 t)) /\
    (forall m n1 t v, base m -> n1 < n -> t < B -> vec_at m rX t v ->
       exists m', exec (store n1 t) m = Some m' /\
         (forall c, In c ks -> mrd m' aF (c * n + n1) = Some (val c n1 v))).

  Definition vcomp (c : nat) (v : vec3 T) : T :=
    match c with 3 => vx v | 4 => vy v | _ => vz v end.

  Lemma store_v_ok : store_ok (fun n1 tid => k_store_v n n1 tid PRet) [3; 4; 5] (fun c _ v => vcomp c v).
  Proof.
    split.
    - intros n1 t W HW Hf. apply fp_store_v; auto; [|exact I]. intros c Hc. apply Hf. simpl. lia.
    - intros m n1 t v Hb Hn Ht Hv.
      destruct (@exec_store_v m n1 t PRet v) as (m' & E & _ & H1 & H2 & H3 & _); auto.
      exists m'. split; [exact E|]. intros c [<-|[<-|[<-|[]]]]; auto.
  Qed.
  Lemma store_rv_ok : store_ok (fun n1 tid => k_store_r n n1 (k_store_v n n1 tid PRet)) [0; 1; 2; 3; 4; 5]
    (fun c n1 v => if c <? 3 then gy ((c + 3) * n + n1) else vcomp c v).
  Proof.
    split.
    - intros n1 t W HW Hf. apply fp_store_r; [apply Rg_Y|intros c Hc; apply Hf; simpl; lia|].
      apply fp_store_v; auto; [|exact I]. intros c Hc. apply Hf. simpl. lia.
    - intros m n1 t v Hb Hn Ht Hv.
      destruct (@exec_store_r m n1 (k_store_v n n1 t PRet)) as (m1 & E1 & S1 & H0 & O1); auto.
      assert (Hb1 : base m1).
      { apply (@base_keep m); auto; intros i; apply O1; reflexivity. }
      destruct (@exec_store_v m1 n1 t PRet v) as (m' & E & _ & H1 & H2 & H3 & O2); auto.
      { apply (@vec_keep m); auto. intros b Hbb. apply O1. unfold rX in Hbb. unfold fcell, aF.
        destruct (Nat.eqb_spec b 1); auto. lia. }
      exists m'. split; [rewrite E1; exact E|].
      assert (G : forall c, c < 3 -> mrd m' aF (c * n + n1) = Some (gy ((c + 3) * n + n1))).
      { intros c Hc. rewrite O2; auto. destruct (fcell n n1 [3; 4; 5] aF (c * n + n1)) eqn:X; auto.
        apply fcell_true in X. destruct X as (_ & k & Hk & X). assert (3 <= k) by (simpl in Hk; lia). nia. }
      intros c Hc. simpl in Hc.
      destruct Hc as [<-|[<-|[<-|[<-|[<-|[<-|[]]]]]]]; cbn [Nat.ltb Nat.leb vcomp]; auto;
        apply (G _); lia.
  Qed.

  Definition stored_block (ks : list nat) (val : nat -> nat -> vec3 T -> T) (first cnt q : nat) (mb m : mem T) : Prop :=
    base m /\
    (forall n1 c, first <= n1 < first + cnt -> In c ks -> mrd m aF (c * n + n1) = Some (val c n1 (total n1 q))) /\
    (forall i, (forall n1, first <= n1 < first + cnt -> fcell n n1 ks aF i = false) -> mrd m aF i = mrd mb aF i).

  Lemma phase_last store ks val first q mb m : store_ok store ks val -> first + B <= n ->
    inv first q (q * B) mb m -> (forall t, t < B -> vec_at m lX t (tile_sum (first + t) (q * B))) ->
    every_schedule (map (fun tid => k_accum U tid (store (first + tid) tid)) (seq 0 B)) m
      (stored_block ks val first B (S q) mb).
  Proof.
    intros [Hfp Hst] Hf [Hb Hr Hs Ht0 Hff] Hl.
    eapply schedule_weaken; [|apply (@phase T B _ Rg (Wp first ks)) with (Q := fun t m' =>
      forall c, In c ks -> mrd m' aF (c * n + (first + t)) = Some (val c (first + t) (total (first + t) (S q))))].
    - cbv beta. intros m' (S1 & Hw & Ho). split; [|split].
      + apply (@base_keep m); auto; intros i; apply Ho; intros; apply Wp_glob; auto.
      + intros n1 c Hn1 Hc. destruct (Hw (n1 - first)) as (mt & H1 & Hm); [lia|].
        specialize (H1 c Hc). replace (first + (n1 - first)) with n1 in H1 by lia. rewrite <- H1.
        apply Hm. pose proof (@Wp_f first ks (n1 - first) c Hc) as X.
        replace (first + (n1 - first)) with n1 in X by lia. exact X.
      + intros i Hi. rewrite <- Hff. apply Ho. intros t Ht. unfold Wp. rewrite Hi by lia.
        rewrite own_false; auto; unfold aF; lia.
    - intros t Ht. apply fp_accum; [intros; now apply Wp_own|].
      apply Hfp; [intros; now apply Wp_own|]. intros c Hc. now apply Wp_f.
    - now apply Wp_disj.
    - intros t Ht.
      destruct (@exec_accum m t (store (first + t) t) (total (first + t) q) (tile_sum (first + t) (q * B)))
        as (m1 & E1 & S1 & A1 & O1); auto.
      rewrite <- total_S in A1.
      assert (Hb1 : base m1).
      { apply (@base_keep m); auto; intros i; apply O1; apply own_false; unfold aY, aM, rX; lia. }
      destruct (Hst m1 (first + t) t (total (first + t) (S q))) as (m2 & E2 & H2); auto; [lia|].
      exists m2. split; [congruence|exact H2].
  Qed.

  Lemma tiles_rounds store ks val first mb : store_ok store ks val -> first + B <= n ->
    forall rest q m, (q + S rest) * B <= n -> inv first q (q * B) mb m ->
    every_round (map (fun P => map P (seq 0 B)) (k_tiles U n B (fun tid => store (first + tid) tid) (S rest) (q * B))) m
      (stored_block ks val first B (q + S rest) mb).
  Proof.
    intros Hst Hf. induction rest as [|rest IH]; intros q m Hq Hi.
    - cbn [k_tiles map every_round]. eapply schedule_weaken; [|apply phase_compute; eauto].
      cbv beta. intros m1 [H1 H2]. replace (q + 1) with (S q) by lia.
      eapply phase_last; eauto.
    - cbn [k_tiles]. cbn [map every_round]. eapply schedule_weaken; [|apply phase_compute; eauto].
      cbv beta. intros m1 [H1 H2]. eapply schedule_weaken; [|apply phase_next; eauto; nia].
      intros m2 H3. replace (q + S (S rest)) with (S q + S rest) by lia.
      replace (q * B + B) with (S q * B) by (cbn [Nat.mul]; lia).
      apply IH; auto. lia.
  Qed.

  Lemma block_rounds store ks val first q mb : store_ok store ks val -> n = q * B -> first + B <= n -> base mb ->
    every_round (k_block U n B store n first) mb (stored_block ks val first B q mb).
  Proof.
    intros Hst Hn Hf Hb. unfold k_block.
    assert (Eq : (n + B - 1) / B = q).
    { rewrite Hn. symmetry. apply Nat.div_unique with (r := B - 1); [lia|]. lia. }
    rewrite Eq. destruct q as [|q]; [lia|]. cbn [map every_round].
    eapply schedule_weaken; [|apply phase_first; auto].
    intros m1 H1. apply (@tiles_rounds store ks val first mb Hst Hf q 0 m1); [lia|exact H1].
  Qed.

  Lemma grid_rounds store ks val off q mb : store_ok store ks val -> n = q * B -> base mb ->
    forall G, off + G * B <= n ->
    every_round (flat_map (fun b => k_block U n B store n (B * b + off)) (seq 0 G)) mb
      (stored_block ks val off (G * B) q mb).
  Proof.
    intros Hst Hn Hb. induction G as [|G IH]; intros HG.
    - simpl. split; auto. split; auto. intros n1 c H. lia.
    - rewrite seq_S, flat_map_app. simpl flat_map at 2. rewrite app_nil_r. apply round_app.
      eapply round_weaken; [|apply IH; cbn [Nat.mul] in HG; lia].
      intros m1 (Hb1 & V1 & O1). cbv beta.
      eapply round_weaken; [|apply (@block_rounds store ks val (B * G + off) q m1 Hst Hn); auto; nia].
      intros m2 (Hb2 & V2 & O2). split; auto. split.
      + intros n1 c H1 Hc. destruct (le_lt_dec (B * G + off) n1).
        * apply V2; auto. nia.
        * rewrite O2; [apply V1; auto; nia|]. intros n2 Hn2.
          destruct (fcell n n2 ks aF (c * n + n1)) eqn:X; auto.
          apply fcell_true in X. destruct X as (_ & k & _ & X). assert (c = k) by nia. nia.
      + intros i Hi. rewrite O2; [apply O1|]; intros n1 Hn1; apply Hi; nia.
  Qed.

  (** the copy of the velocities on a CUDA device *)
  Lemma xyz_rounds off cnt mb : base mb -> off + cnt <= n ->
    every_round (cuda_xyz n B off cnt) mb
      (stored_block [0; 1; 2] (fun c n1 _ => gy ((c + 3) * n + n1)) off (cnt / B * B) 0 mb).
  Proof.
    intros Hb Hf. unfold cuda_xyz. cbn [every_round]. set (w := cnt / B * B).
    assert (Hw0 : w <= cnt) by (unfold w; rewrite Nat.mul_comm; apply Nat.mul_div_le; lia). clearbody w.
    eapply schedule_weaken; [|apply (@phase T w _ Rg (fun t => fcell n (off + t) [0; 1; 2])) with (Q := fun t m' =>
      forall c, c < 3 -> mrd m' aF (c * n + (off + t)) = Some (gy ((c + 3) * n + (off + t))))].
    - cbv beta. intros m' (S1 & Hw & Ho). split; [|split].
      + apply (@base_keep mb); auto; intros i; apply Ho; intros; reflexivity.
      + intros n1 c Hn1 Hc. destruct (Hw (n1 - off)) as (mt & H1 & Hm); [lia|].
        specialize (H1 c). replace (off + (n1 - off)) with n1 in H1 by lia. rewrite <- H1 by (simpl in Hc; lia).
        apply Hm. replace (off + (n1 - off)) with n1 by lia. now apply fcell_in.
      + intros i Hi. apply Ho. intros t Ht. apply Hi. lia.
    - intros t Ht. apply fp_store_r; [apply Rg_Y| |exact I]. intros c Hc. apply fcell_in. simpl. lia.
    - intros t t' a i Ht Ht' H. split.
      + apply fcell_true in H. destruct H as [-> _]. reflexivity.
      + intros H'. eapply fcell_inj; [| |exact H|exact H']; lia.
    - intros t Ht. destruct (@exec_store_r mb (off + t) PRet) as (m' & E & _ & H1 & _); auto; [lia|].
      exists m'. split; [exact E|exact H1].
  Qed.

  (** one device of either kind *)
  Definition device_done (off cnt q : nat) (mb m : mem T) : Prop :=
    base m /\
    (forall n1 c, off <= n1 < off + cnt -> c < 3 ->
       mrd m aF (c * n + n1) = Some (gy ((c + 3) * n + n1)) /\
       mrd m aF ((c + 3) * n + n1) = Some (vcomp (c + 3) (total n1 q))) /\
    (forall i, (forall n1 c, off <= n1 < off + cnt -> c < 6 -> i <> c * n + n1) -> mrd m aF i = mrd mb aF i).

  Lemma cuda_device_ok D dev q mb : base mb -> n = q * B -> 0 < D -> dev < D -> (n / D) mod B = 0 ->
    every_round (cuda_device U n B D dev) mb (device_done (n / D * dev) (n / D) q mb).
  Proof.
    intros Hb Hn HD Hdev Hmod. unfold cuda_device. set (cnt := n / D) in *.
    assert (HDc : D * cnt <= n) by (apply Nat.mul_div_le; lia).
    assert (Hc : cnt / B * B = cnt).
    { rewrite (Nat.div_mod cnt B) at 2 by lia. lia. }
    assert (Ho : cnt * dev + cnt <= n) by nia.
    clearbody cnt. apply round_app. unfold cuda_block.
    eapply round_weaken; [|apply (@grid_rounds _ _ _ (cnt * dev) q mb store_v_ok Hn Hb (cnt / B)); rewrite Hc; lia].
    intros m1 (Hb1 & V1 & O1). cbv beta. rewrite Hc in *.
    eapply round_weaken; [|apply (@xyz_rounds (cnt * dev) cnt m1 Hb1 Ho)].
    intros m2 (Hb2 & V2 & O2). rewrite Hc in *. split; auto. split.
    - intros n1 c Hn1 Hc3. split.
      + apply V2; auto. simpl. lia.
      + rewrite O2.
        * apply V1; auto. simpl. lia.
        * intros n2 Hn2. destruct (fcell n n2 [0; 1; 2] aF ((c + 3) * n + n1)) eqn:X; auto.
          apply fcell_true in X. destruct X as (_ & k & Hk & X).
          assert (k <= 2) by (simpl in Hk; lia). nia.
    - intros i Hi. rewrite O2; [apply O1|]; intros n1 Hn1.
      + destruct (fcell n n1 [3; 4; 5] aF i) eqn:X; auto. apply fcell_true in X.
        destruct X as (_ & k & Hk & X). exfalso. apply (Hi n1 k); auto. simpl in Hk. lia.
      + destruct (fcell n n1 [0; 1; 2] aF i) eqn:X; auto. apply fcell_true in X.
        destruct X as (_ & k & Hk & X). exfalso. apply (Hi n1 k); auto. simpl in Hk. lia.
  Qed.

  Lemma opencl_device_ok D dev q mb : base mb -> n = q * B -> 0 < D -> dev < D -> (n / D) mod B = 0 ->
    exists rs, opencl_device U n B D dev = Some rs /\
      every_round rs mb (device_done (n / D * dev) (n / D) q mb).
  Proof.
    intros Hb Hn HD Hdev Hmod. unfold opencl_device. rewrite Hmod. cbn [Nat.eqb].
    eexists. split; [reflexivity|]. set (cnt := n / D) in *.
    assert (HDc : D * cnt <= n) by (apply Nat.mul_div_le; lia).
    assert (Hc : cnt / B * B = cnt).
    { rewrite (Nat.div_mod cnt B) at 2 by lia. lia. }
    assert (Ho : cnt * dev + cnt <= n) by nia.
    clearbody cnt. rewrite (Nat.mul_comm dev cnt).
    eapply round_weaken; [|apply (@grid_rounds _ _ _ (cnt * dev) q mb store_rv_ok Hn Hb (cnt / B)); rewrite Hc; lia].
    intros m1 (Hb1 & V1 & O1). cbv beta. rewrite Hc in *. split; auto. split.
    - intros n1 c Hn1 Hc3. rewrite !V1 by (auto; simpl; lia).
      destruct (Nat.ltb_spec c 3); [|lia]. destruct (Nat.ltb_spec (c + 3) 3); [lia|]. auto.
    - intros i Hi. apply O1. intros n1 Hn1.
      destruct (fcell n n1 [0; 1; 2; 3; 4; 5] aF i) eqn:X; auto. apply fcell_true in X.
      destruct X as (_ & k & Hk & X). exfalso. apply (Hi n1 k); auto. simpl in Hk. lia.
  Qed.
End Kernel.
