(** Direct-sum engines over the reals. *)
From Coq Require Import ZArith Reals List Arith Lia Lra.
From Verif Require Import Num Arr ArrLemmas SpecPhys RLemmas ModelVertex ModelForce ModelEngine
  LemEngine.
Import ListNotations.
Local Open Scope R_scope.

Lemma soft_pos mind d2 : 0 < mind -> 0 < Rmax mind d2.
Proof. intros H. eapply Rlt_le_trans; [exact H|apply Rmax_l]. Qed.

Lemma soft_cube_pos mind d2 : 0 < mind -> 0 < soft_cube mind d2.
Proof.
  intros H. unfold soft_cube. apply Rmult_lt_0_compat; [now apply soft_pos|].
  apply sqrt_lt_R0. now apply soft_pos.
Qed.

Definition vd2 (a b : vec3 R) : R :=
  (vx a - vx b) * (vx a - vx b) + (vy a - vy b) * (vy a - vy b) + (vz a - vz b) * (vz a - vz b).

Lemma vd2_sym a b : vd2 a b = vd2 b a.
Proof. unfold vd2. ring. Qed.

Lemma force_R mind a b m1 m2 :
  force (Rops mind) a b m1 m2 =
  let w := - (m1 * m2) / soft_cube mind (vd2 a b) in
  V3 ((vx a - vx b) * w) ((vy a - vy b) * w) ((vz a - vz b) * w).
Proof.
  unfold force, gravity_const, vnorm, vsub, vscale, soft_cube. simpl.
  change ((vx a - vx b) * (vx a - vx b) + (vy a - vy b) * (vy a - vy b) +
          (vz a - vz b) * (vz a - vz b)) with (vd2 a b).
  assert (E : (if (if Rlt_dec (vd2 a b) mind then true else false) then mind else vd2 a b) =
              Rmax mind (vd2 a b)).
  { destruct (Rlt_dec (vd2 a b) mind).
    - rewrite Rmax_left; lra.
    - rewrite Rmax_right; lra. }
  rewrite E. unfold Rdiv. f_equal; f_equal; f_equal; ring.
Qed.

Lemma fold_if_vadd mind i (g : nat -> vec3 R) n a :
  fold_left (fun s k => if Nat.eqb i k then s else vadd (Rops mind) s (g k)) (seq 0 n) a =
  vadd (Rops mind) a (vsumR n (fun k => if Nat.eqb i k then V3 0 0 0 else g k)).
Proof.
  rewrite <- fold_left_vadd.
  generalize (seq 0 n). intros l. revert a. induction l as [|k l IH]; intros a; simpl; auto.
  destruct (Nat.eqb i k); rewrite IH; auto. f_equal.
  unfold vadd. simpl. rewrite !Rplus_0_r. now destruct a.
Qed.

Section Acc.
  Variables (mind : R) (n : nat) (mass y : list R).
  Hypothesis Hmind : 0 < mind.
  Let m := fun j => nth j mass 0.
  Let nacc (k i : nat) : R :=
    newton_acc mind n m (comp y n 0) (comp y n 1) (comp y n 2) (comp y n k) i.

  Definition nacc_vec (i : nat) : vec3 R := V3 (nacc 0 i) (nacc 1 i) (nacc 2 i).

  Lemma cv_comp k i : cv (Rops mind) y n k i = V3 (comp y n k i) (comp y n (k + 1) i) (comp y n (k + 2) i).
  Proof. reflexivity. Qed.

  Lemma vd2_dist2 i j :
    vd2 (cv (Rops mind) y n 0 i) (cv (Rops mind) y n 0 j) =
    dist2 (comp y n 0) (comp y n 1) (comp y n 2) i j.
  Proof. reflexivity. Qed.

  (** total force on body i = m_i * acceleration, whatever the mass *)
  Lemma acc_fold_R i :
    acc_fold (Rops mind) n y mass i =
    V3 (m i * nacc 0 i) (m i * nacc 1 i) (m i * nacc 2 i).
  Proof.
    unfold acc_fold. rewrite fold_if_vadd. unfold vsumR, vadd, nacc, newton_acc. simpl.
    assert (G : forall k F, (forall j, F j = if Nat.eqb i j then 0 else
        (comp y n k i - comp y n k j) *
        (- (m i * m j) / soft_cube mind (dist2 (comp y n 0) (comp y n 1) (comp y n 2) i j))) ->
      0 + rsum n F = m i * - rsum n (fun j => if Nat.eqb i j then 0
         else m j * (comp y n k i - comp y n k j) /
            soft_cube mind (dist2 (comp y n 0) (comp y n 1) (comp y n 2) i j))).
    { intros k F HF. rewrite <- rsum_opp, <- rsum_scal, Rplus_0_l. apply rsum_ext. intros j _.
      rewrite HF. destruct (Nat.eqb i j); [ring|].
      unfold Rdiv. ring. }
    f_equal; apply G; intros j; destruct (Nat.eqb i j); auto; rewrite force_R; reflexivity.
  Qed.

  Lemma acc_fold_div_R i :
    m i <> 0 -> vdivs (Rops mind) (acc_fold (Rops mind) n y mass i) (m i) = nacc_vec i.
  Proof.
    intros Hm. rewrite acc_fold_R. unfold vdivs, nacc_vec. simpl. f_equal; field; auto.
  Qed.

  Lemma deriv_cells_rhs (V A : nat -> vec3 R) f f' :
    length f = (6 * n)%nat ->
    (forall i, (i < n)%nat -> V i = cv (Rops mind) y n 3 i) ->
    (forall i, (i < n)%nat -> A i = nacc_vec i) ->
    deriv_cells n V A f f' -> newton_rhs mind n mass y f'.
  Proof.
    intros Hf HV HA (Hl & Hc & _). split; [congruence|].
    intros i k Hi Hk. destruct (Hc i Hi) as [(C1 & C2 & C3) (C4 & C5 & C6)].
    rewrite HV in * by auto. rewrite HA in * by auto.
    do 3 (destruct k as [|k]; [split; assumption|]). lia.
  Qed.
End Acc.

Lemma simple_rhs mind n mass y f :
  0 < mind -> length y = (6 * n)%nat -> length mass = n -> length f = (6 * n)%nat ->
  (forall i, (i < n)%nat -> nth i mass 0 <> 0) ->
  exists f', simple_fcompute (Rops mind) n mass y f = Some f' /\ newton_rhs mind n mass y f'.
Proof.
  intros Hd Hy Hm Hf Hnz.
  destruct (@simple_fcompute_cells R (Rops mind) n y mass f) as (f' & E & C); try lia.
  exists f'. split; auto. eapply deriv_cells_rhs with (A := nacc_vec mind n mass y); eauto.
  eapply deriv_cells_ext; [| |exact C]; auto.
  intros i Hi. simpl. apply acc_fold_div_R. auto.
Qed.

(** the right-hand side is determined by its specification *)
Lemma newton_rhs_unique mind n mass y f1 f2 :
  newton_rhs mind n mass y f1 -> newton_rhs mind n mass y f2 -> f1 = f2.
Proof.
  intros [L1 C1] [L2 C2]. apply nth_error_ext; [congruence|].
  intros q Hq. rewrite L1 in Hq. destruct (soa_split _ _ Hq) as (k & i & Hk & Hi & ->).
  destruct (Nat.lt_ge_cases k 3) as [Hlt|Hge].
  - destruct (C1 i k Hi Hlt), (C2 i k Hi Hlt). congruence.
  - destruct (C1 i (k - 3)%nat Hi ltac:(lia)) as [_ E1], (C2 i (k - 3)%nat Hi ltac:(lia)) as [_ E2].
    replace (k - 3 + 3)%nat with k in * by lia. congruence.
Qed.

Lemma rhs_acc mind n mass y f i k :
  newton_rhs mind n mass y f -> (i < n)%nat -> (k < 3)%nat ->
  comp f n (k + 3) i = newton_acc mind n (fun j => nth j mass 0) (comp y n 0) (comp y n 1)
                         (comp y n 2) (comp y n k) i.
Proof.
  intros [_ C] Hi Hk. destruct (C i k Hi Hk) as [_ E]. unfold comp at 1.
  erewrite nth_error_nth; eauto.
Qed.

Lemma rhs_vel mind n mass y f i k :
  newton_rhs mind n mass y f -> (i < n)%nat -> (k < 3)%nat ->
  comp f n k i = comp y n (k + 3) i.
Proof.
  intros [_ C] Hi Hk. destruct (C i k Hi Hk) as [E _]. unfold comp at 1.
  erewrite nth_error_nth; eauto.
Qed.

(** Newton's third law for the sums *)
Lemma dist2_sym x y z i j : dist2 x y z i j = dist2 x y z j i.
Proof. unfold dist2. ring. Qed.

Lemma newton_net_force mind n m x y z c :
  rsum n (fun i => m i * newton_acc mind n m x y z c i) = 0.
Proof.
  transitivity (rsum n (fun i => rsum n (fun j => if Nat.eqb i j then 0 else
     - (m i * (m j * (c i - c j) / soft_cube mind (dist2 x y z i j)))))).
  - apply rsum_ext. intros i _. unfold newton_acc.
    rewrite <- rsum_opp, <- rsum_scal. apply rsum_ext. intros j _.
    destruct (Nat.eqb i j); ring.
  - apply rsum_antisym. intros i j _ _. rewrite (Nat.eqb_sym j i), (dist2_sym x y z j i).
    destruct (Nat.eqb i j); [ring|]. unfold Rdiv. ring.
Qed.

Lemma newton_net_torque mind n m x y z a b :
  (* [a] and [b] are two of the coordinates *)
  rsum n (fun i => m i * (a i * newton_acc mind n m x y z b i - b i * newton_acc mind n m x y z a i)) = 0.
Proof.
  transitivity (rsum n (fun i => rsum n (fun j => if Nat.eqb i j then 0 else
     m i * m j * (a i * b j - b i * a j) / soft_cube mind (dist2 x y z i j)))).
  - apply rsum_ext. intros i _. unfold newton_acc.
    replace (m i * _) with
      (rsum n (fun j => (m i * b i) * (if Nat.eqb i j then 0 else m j * (a i - a j) / soft_cube mind (dist2 x y z i j))
       - (m i * a i) * (if Nat.eqb i j then 0 else m j * (b i - b j) / soft_cube mind (dist2 x y z i j)))).
    + apply rsum_ext. intros j _. destruct (Nat.eqb i j); [ring|]. unfold Rdiv. ring.
    + rewrite rsum_minus, !rsum_scal. ring.
  - apply rsum_antisym. intros i j _ _. rewrite (Nat.eqb_sym j i), (dist2_sym x y z j i).
    destruct (Nat.eqb i j); [ring|]. unfold Rdiv. ring.
Qed.
