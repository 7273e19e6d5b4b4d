(** Corollaries of the engine lemmas in the shape of the property statements C01-C09. *)
From Coq Require Import ZArith Reals List Arith Lia Lra.
From Verif Require Import Num Arr ArrLemmas SpecPhys SpecEngine RLemmas ModelVertex
  ModelForce ModelSum ModelEngine ModelBlock ModelAH LemEngine LemPhys LemBlock LemAH.
Import ListNotations.
Local Open Scope R_scope.

Lemma force_third_law mind v1 v2 m1 m2 :
  force (Rops mind) v1 v2 m1 m2 = vopp (Rops mind) (force (Rops mind) v2 v1 m2 m1).
Proof.
  rewrite !force_R. cbv zeta. replace (vd2 v2 v1) with (vd2 v1 v2) by (unfold vd2; ring).
  unfold vopp. cbn [vx vy vz nopp Rops]. f_equal; unfold Rdiv; ring.
Qed.

Lemma force_central mind v1 v2 m1 m2 : 0 < mind ->
  let d2 := (vx v1 - vx v2) ^ 2 + (vy v1 - vy v2) ^ 2 + (vz v1 - vz v2) ^ 2 in
  let F := force (Rops mind) v1 v2 m1 m2 in
  let w := m1 * m2 / (Rmax mind d2 * sqrt (Rmax mind d2)) in
  vx F = (vx v2 - vx v1) * w /\ vy F = (vy v2 - vy v1) * w /\ vz F = (vz v2 - vz v1) * w /\
  0 < Rmax mind d2 * sqrt (Rmax mind d2) /\ (0 <= m1 * m2 -> 0 <= w) /\
  (mind <= d2 -> vlength (Rops mind) F = Rabs (m1 * m2) / d2) /\
  (v1 = v2 -> F = V3 0 0 0).
Proof.
  intros Hm d2 F w. unfold F. rewrite force_R. cbv zeta. cbn [vx vy vz].
  assert (Ed : vd2 v1 v2 = d2) by (unfold vd2, d2; ring). rewrite Ed.
  assert (Hp : 0 < soft_cube mind d2).
  { unfold soft_cube. assert (0 < Rmax mind d2) by (eapply Rlt_le_trans; [exact Hm|apply Rmax_l]).
    apply Rmult_lt_0_compat; auto. now apply sqrt_lt_R0. }
  assert (Ew : - (m1 * m2) / soft_cube mind d2 = - w) by (unfold w, soft_cube, Rdiv; ring).
  rewrite Ew.
  split; [ring|]. split; [ring|]. split; [ring|]. split; [exact Hp|].
  split. { intros H. unfold w. apply Rmult_le_pos; auto. left. now apply Rinv_0_lt_compat. }
  split.
  - intros Hd. unfold vlength, vdot. cbn [vx vy vz nadd nmul nsqrt Rops].
    replace ((vx v1 - vx v2) * - w * ((vx v1 - vx v2) * - w) +
             (vy v1 - vy v2) * - w * ((vy v1 - vy v2) * - w) +
             (vz v1 - vz v2) * - w * ((vz v1 - vz v2) * - w)) with (d2 * Rsqr w)
      by (unfold d2, Rsqr; ring).
    assert (Hd0 : 0 < d2) by lra.
    rewrite sqrt_mult, sqrt_Rsqr_abs; try lra; try apply Rle_0_sqr.
    unfold w. rewrite Rmax_right by auto.
    unfold Rdiv. rewrite Rabs_mult, (Rabs_right (/ (d2 * sqrt d2))).
    + pose proof (sqrt_lt_R0 d2 Hd0). field. split; lra.
    + left. apply Rinv_0_lt_compat. apply Rmult_lt_0_compat; auto. now apply sqrt_lt_R0.
  - intros ->. apply vec3_eq; cbn [vx vy vz]; ring.
Qed.

Section Net.
  Variables (mind : R) (n : nat) (mass y f' : list R).
  Hypothesis H : newton_rhs mind n mass y f'.

  Lemma rhs_net_force k : (k < 3)%nat ->
    rsum n (fun i => nth i mass 0 * comp f' n (k + 3) i) = 0.
  Proof.
    intros Hk. eapply eq_trans; [|exact (newton_net_force mind n (fun j => nth j mass 0) (comp y n 0)
      (comp y n 1) (comp y n 2) (comp y n k))].
    apply rsum_ext. intros i Hi. f_equal. now apply rhs_acc.
  Qed.

  Lemma rhs_net_torque a b : (a < 3)%nat -> (b < 3)%nat ->
    rsum n (fun i => nth i mass 0 *
      (comp y n a i * comp f' n (b + 3) i - comp y n b i * comp f' n (a + 3) i)) = 0.
  Proof.
    intros Ha Hb. eapply eq_trans; [|exact (newton_net_torque mind n (fun j => nth j mass 0) (comp y n 0)
      (comp y n 1) (comp y n 2) (comp y n a) (comp y n b))].
    apply rsum_ext. intros i Hi. f_equal. rewrite !(rhs_acc mind n mass y f') by auto. reflexivity.
  Qed.
End Net.

Lemma simple_net_force mind n mass y f f' k :
  0 < mind -> length y = (6 * n)%nat -> length mass = n -> length f = (6 * n)%nat ->
  (forall i, (i < n)%nat -> nth i mass 0 <> 0) ->
  simple_fcompute (Rops mind) n mass y f = Some f' -> (k < 3)%nat ->
  rsum n (fun i => nth i mass 0 * comp f' n (k + 3) i) = 0.
Proof.
  intros H1 H2 H3 H4 H5 E Hk. destruct (simple_rhs mind n mass y f H1 H2 H3 H4 H5) as (g & E2 & G).
  rewrite E in E2. injection E2 as <-. eapply rhs_net_force; eauto.
Qed.

Lemma block_net_force mind q mass y f f' k :
  let n := (q * 64)%nat in
  length y = (6 * n)%nat -> length mass = n -> length f = (6 * n)%nat ->
  block_fcompute (Rops mind) n mass y f = Some f' -> (k < 3)%nat ->
  rsum n (fun i => nth i mass 0 * comp f' n (k + 3) i) = 0.
Proof.
  intros n H1 H2 H3 E Hk. destruct (block_rhs mind q mass y f H1 H2 H3) as (g & E2 & G).
  fold n in E2, G. rewrite E in E2. injection E2 as <-. eapply rhs_net_force; eauto.
Qed.

Lemma ah_net_force mind D F n mass y f s f' s' k :
  0 < mind -> length y = (6 * n)%nat -> length mass = n -> length f = (6 * n)%nat ->
  (forall i, (i < n)%nat -> nth i mass 0 <> 0) ->
  ah_full (Rops mind) D F n mass y f s = Some (f', s') -> (k < 3)%nat ->
  rsum n (fun i => nth i mass 0 * comp f' n (k + 3) i) = 0.
Proof.
  intros H1 H2 H3 H4 H5 E Hk.
  destruct (@ah_full_rhs mind D F n mass y f s H1 H2 H3 H4 H5) as (g & s2 & E2 & G & _).
  rewrite E in E2. injection E2 as <- <-. eapply rhs_net_force; eauto.
Qed.

Lemma simple_net_torque mind n mass y f f' a b :
  0 < mind -> length y = (6 * n)%nat -> length mass = n -> length f = (6 * n)%nat ->
  (forall i, (i < n)%nat -> nth i mass 0 <> 0) ->
  simple_fcompute (Rops mind) n mass y f = Some f' -> (a < 3)%nat -> (b < 3)%nat ->
  rsum n (fun i => nth i mass 0 *
    (comp y n a i * comp f' n (b + 3) i - comp y n b i * comp f' n (a + 3) i)) = 0.
Proof.
  intros H1 H2 H3 H4 H5 E Ha Hb. destruct (simple_rhs mind n mass y f H1 H2 H3 H4 H5) as (g & E2 & G).
  rewrite E in E2. injection E2 as <-. eapply rhs_net_torque; eauto.
Qed.

Lemma block_net_torque mind q mass y f f' a b :
  let n := (q * 64)%nat in
  length y = (6 * n)%nat -> length mass = n -> length f = (6 * n)%nat ->
  block_fcompute (Rops mind) n mass y f = Some f' -> (a < 3)%nat -> (b < 3)%nat ->
  rsum n (fun i => nth i mass 0 *
    (comp y n a i * comp f' n (b + 3) i - comp y n b i * comp f' n (a + 3) i)) = 0.
Proof.
  intros n H1 H2 H3 E Ha Hb. destruct (block_rhs mind q mass y f H1 H2 H3) as (g & E2 & G).
  fold n in E2, G. rewrite E in E2. injection E2 as <-. eapply rhs_net_torque; eauto.
Qed.

Lemma ah_net_torque mind D F n mass y f s f' s' a b :
  0 < mind -> length y = (6 * n)%nat -> length mass = n -> length f = (6 * n)%nat ->
  (forall i, (i < n)%nat -> nth i mass 0 <> 0) ->
  ah_full (Rops mind) D F n mass y f s = Some (f', s') -> (a < 3)%nat -> (b < 3)%nat ->
  rsum n (fun i => nth i mass 0 *
    (comp y n a i * comp f' n (b + 3) i - comp y n b i * comp f' n (a + 3) i)) = 0.
Proof.
  intros H1 H2 H3 H4 H5 E Ha Hb.
  destruct (@ah_full_rhs mind D F n mass y f s H1 H2 H3 H4 H5) as (g & s2 & E2 & G & _).
  rewrite E in E2. injection E2 as <- <-. eapply rhs_net_torque; eauto.
Qed.

Lemma simple_layout (T : Type) (N : NumOps T) n mass y f :
  (6 * n <= length y)%nat -> (n <= length mass)%nat -> (6 * n <= length f)%nat ->
  exists f', simple_fcompute N n mass y f = Some f' /\ length f' = length f /\
    (forall j, (j < 3 * n)%nat -> nth_error f' j = nth_error y (3 * n + j)) /\
    (forall j, (6 * n <= j)%nat -> nth_error f' j = nth_error f j).
Proof.
  intros Hy Hm Hf. destruct (@simple_fcompute_cells T N n y mass f Hy Hm Hf) as (f' & E & L & C & O).
  exists f'. split; auto. split; auto. split; auto. intros j Hj.
  assert (exists k i, (k < 3)%nat /\ (i < n)%nat /\ j = (k * n + i)%nat) as (k & i & Hk & Hi & ->).
  { exists (j / n)%nat, (j mod n)%nat. assert (n <> 0)%nat by lia.
    pose proof (Nat.div_mod j n H). pose proof (Nat.mod_upper_bound j n H).
    split; [apply Nat.div_lt_upper_bound; lia|]. split; auto. lia. }
  destruct (C i Hi) as [(C0 & C1 & C2) _].
  assert (E3 : forall k, (k < 3)%nat -> nth_error y (3 * n + (k * n + i)) =
     Some (nth ((3 + k) * n + i) y (nlit N 0))).
  { intros k' Hk'. replace (3 * n + (k' * n + i))%nat with ((3 + k') * n + i)%nat by lia.
    apply nth_error_nth'. destruct k' as [|[|[|k']]]; lia. }
  rewrite E3 by auto. destruct k as [|[|[|k]]]; try lia; assumption.
Qed.

Lemma block_equals_simple mind q mass y f :
  let n := (q * 64)%nat in
  0 < mind -> length y = (6 * n)%nat -> length mass = n -> length f = (6 * n)%nat ->
  (forall i, (i < n)%nat -> nth i mass 0 <> 0) ->
  exists f', block_fcompute (Rops mind) n mass y f = Some f' /\
             simple_fcompute (Rops mind) n mass y f = Some f' /\ newton_rhs mind n mass y f'.
Proof.
  intros n H1 H2 H3 H4 H5.
  destruct (block_rhs mind q mass y f H2 H3 H4) as (g & E & G). fold n in E, G.
  destruct (simple_rhs mind n mass y f H1 H2 H3 H4 H5) as (h & E2 & G2).
  exists g. split; auto. split; auto. rewrite E2. f_equal. eapply newton_rhs_unique; eauto.
Qed.

Lemma block_safe_iff (T : Type) (N : NumOps T) n mass y f :
  length y = (6 * n)%nat -> length mass = n -> length f = (6 * n)%nat ->
  ((exists f', block_fcompute N n mass y f = Some f') <-> (n mod 64 = 0)%nat).
Proof.
  intros H1 H2 H3. unfold block_fcompute, NBODY_DATA_BLOCK_SIZE. split.
  - intros (f' & E). destruct (Nat.eq_dec (n mod 64) 0) as [|Hne]; auto.
    rewrite (blocked_oob N) in E; auto; [discriminate|lia].
  - intros Hz. assert (En : n = (n / 64 * 64)%nat).
    { pose proof (Nat.div_mod n 64 ltac:(lia)). lia. }
    destruct (@blocked_cells T N 64 ltac:(lia) (n / 64) y mass f) as (f' & E & _);
      rewrite <- ?En; try lia.
    rewrite <- En in E. eauto.
Qed.

Lemma ah_full_simple mind max_dist min_force n mass y f s :
  0 < mind -> length y = (6 * n)%nat -> length mass = n -> length f = (6 * n)%nat ->
  (forall i, (i < n)%nat -> nth i mass 0 <> 0) ->
  exists f' s', ah_full (Rops mind) max_dist min_force n mass y f s = Some (f', s') /\
    newton_rhs mind n mass y f' /\ simple_fcompute (Rops mind) n mass y f = Some f' /\
    forall g, length g = (6 * n)%nat -> ah_sparse (Rops mind) n mass y g s' = Some f'.
Proof.
  intros H1 H2 H3 H4 H5.
  destruct (@ah_full_rhs mind max_dist min_force n mass y f s H1 H2 H3 H4 H5) as (g & s2 & E2 & G & S).
  destruct (simple_rhs mind n mass y f H1 H2 H3 H4 H5) as (h & E3 & G2).
  exists g, s2. split; auto. split; auto. split; auto. rewrite E3. f_equal.
  eapply newton_rhs_unique; eauto.
Qed.

Lemma ah_run_iff (T : Type) (N : NumOps T) max_dist min_force rate n mass (c : call) (calls : list call) :
  (0 < rate)%nat -> (0 < n)%nat -> (n <= length mass)%nat ->
  Forall (fun c => 6 * n <= length (c_y c) /\ 6 * n <= length (c_f c))%nat (c :: calls) ->
  ((exists r, ah_run N max_dist min_force rate n mass (c :: calls) ah_init = Some r) <->
   (c_step c mod rate = 0)%nat).
Proof.
  intros H1 H2 H3 H4. split.
  - intros (r & E). destruct (Nat.eq_dec (c_step c mod rate) 0) as [|Hne]; auto.
    rewrite (ah_run_fresh_bad N) in E by auto. discriminate.
  - intros Hz. apply ah_run_ok; auto.
Qed.
