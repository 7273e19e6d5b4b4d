(** Order conditions of the Runge-Kutta tables: C32, C33.  Coefficients read as exact numbers. *)
From Coq Require Import ZArith QArith Reals List Arith Lia Lra.
From Verif Require Import Num SpecPhys RLemmas ModelButcher SpecOrder LemOrder.
Import ListNotations.
Set Implicit Arguments.

(** ** C32: the row [bt_b2] is the one the solver steps with (nbody_solver_rk_butcher.cpp:234-245) *)
Theorem C32_rk4_order_4 : forall mind, has_order (tab_rk4 (Rops mind)) (bt_b2 (tab_rk4 (Rops mind))) 4.
Proof. intros mind. rewrite <- rk4_toR. apply q_order. vm_compute. reflexivity. Qed.
Print Assumptions C32_rk4_order_4.
Theorem C32_rkf_order_8 : forall mind, has_order (tab_rkf (Rops mind)) (bt_b2 (tab_rkf (Rops mind))) 8.
Proof. intros mind. rewrite <- rkf_toR. apply q_order. vm_compute. reflexivity. Qed.
Print Assumptions C32_rkf_order_8.
Theorem C32_rkck_order_4 : forall mind, has_order (tab_rkck (Rops mind)) (bt_b2 (tab_rkck (Rops mind))) 4.
Proof. intros mind. rewrite <- rkck_toR. apply q_order. vm_compute. reflexivity. Qed.
Print Assumptions C32_rkck_order_4.
Theorem C32_rkdp_order_4 : forall mind, has_order (tab_rkdp (Rops mind)) (bt_b2 (tab_rkdp (Rops mind))) 4.
Proof. intros mind. rewrite <- rkdp_toR. apply q_order. vm_compute. reflexivity. Qed.
Print Assumptions C32_rkdp_order_4.
Theorem C32_rkdverk_order_5 : forall mind,
  has_order (tab_rkdverk (Rops mind)) (bt_b2 (tab_rkdverk (Rops mind))) 5.
Proof. intros mind. rewrite <- rkdverk_toR. apply q_order. vm_compute. reflexivity. Qed.
Print Assumptions C32_rkdverk_order_5.

Theorem C32_row_sums : forall mind bt,
  In bt [tab_rk4 (Rops mind); tab_rkf (Rops mind); tab_rkck (Rops mind); tab_rkdp (Rops mind);
         tab_rkdverk (Rops mind); tab_rkgl (Rops mind); tab_rklc (Rops mind)] ->
  row_sums bt.
Proof.
  intros mind bt H. cbn [In] in H.
  rewrite <- rk4_toR, <- rkf_toR, <- rkck_toR, <- rkdp_toR, <- rkdverk_toR, <- rklc_toR, <- rkgl_toR in H.
  repeat destruct H as [<-|H]; try contradiction;
    try (apply q_rows; vm_compute; reflexivity); apply g_rows; vm_compute; reflexivity.
Qed.
Print Assumptions C32_row_sums.

(** the conditions say something: the four trees with up to three vertices, for rk4 *)
Example C32_example : let t := tab_rk4 (Rops 0) in
  condition t (bt_b2 t) (Node []) /\
  vertices (Node [Node []; Node []]) = 3%nat /\ density (Node [Node []; Node []]) = 3%R /\
  density (Node [Node [Node []]]) = 6%R /\
  weight t (Node [Node []; Node []]) 1 = (1 / 2 * (1 / 2))%R.
Proof.
  cbv zeta. split; [apply (C32_rk4_order_4 0); cbn; lia|]. split; [reflexivity|].
  cbn [density weight fold_right vertices Nat.add]. rewrite ?S_INR. cbn [INR].
  split; [lra|]. split; [lra|]. cbn. lra.
Qed.

(** ** C33: the README's orders.  They hold for rkf and rkdverk ... *)
Theorem C33_rkf_order_7 : forall mind, has_order (tab_rkf (Rops mind)) (bt_b2 (tab_rkf (Rops mind))) 7.
Proof. intros mind t Ht. apply C32_rkf_order_8. lia. Qed.
Print Assumptions C33_rkf_order_7.
Theorem C33_rkdverk_order_5 : forall mind,
  has_order (tab_rkdverk (Rops mind)) (bt_b2 (tab_rkdverk (Rops mind))) 5.
Proof. exact C32_rkdverk_order_5. Qed.
Print Assumptions C33_rkdverk_order_5.

(** ... and for the other row of rkck, rkdp, rkgl and rklc ... *)
Theorem C33_first_rows : forall mind,
  has_order (tab_rkck (Rops mind)) (bt_b1 (tab_rkck (Rops mind))) 5 /\
  has_order (tab_rkdp (Rops mind)) (bt_b1 (tab_rkdp (Rops mind))) 5 /\
  has_order (tab_rkgl (Rops mind)) (bt_b1 (tab_rkgl (Rops mind))) 6 /\
  has_order (tab_rklc (Rops mind)) (bt_b1 (tab_rklc (Rops mind))) 4.
Proof.
  intros mind. rewrite <- rkck_toR, <- rkdp_toR, <- rkgl_toR, <- rklc_toR.
  repeat split; try (apply q_order; vm_compute; reflexivity). apply g_order. vm_compute. reflexivity.
Qed.
Print Assumptions C33_first_rows.

(** ... but not for the row in use: rkck and rkdp have order 4, rkgl and rklc order 2, and no more *)
Theorem C33_second_rows : forall mind,
  has_order (tab_rkgl (Rops mind)) (bt_b2 (tab_rkgl (Rops mind))) 2 /\
  has_order (tab_rklc (Rops mind)) (bt_b2 (tab_rklc (Rops mind))) 2.
Proof.
  intros mind. rewrite <- rkgl_toR, <- rklc_toR. split.
  - apply g_order. vm_compute. reflexivity.
  - apply q_order. vm_compute. reflexivity.
Qed.
Print Assumptions C33_second_rows.
Theorem C33_orders_refuted : forall mind, exists t5 t3,
  vertices t5 = 5%nat /\ vertices t3 = 3%nat /\
  ~ condition (tab_rkck (Rops mind)) (bt_b2 (tab_rkck (Rops mind))) t5 /\
  ~ condition (tab_rkdp (Rops mind)) (bt_b2 (tab_rkdp (Rops mind))) t5 /\
  ~ condition (tab_rkgl (Rops mind)) (bt_b2 (tab_rkgl (Rops mind))) t3 /\
  ~ condition (tab_rklc (Rops mind)) (bt_b2 (tab_rklc (Rops mind))) t3.
Proof.
  intros mind. exists (Node [Node []; Node []; Node []; Node []]), (Node [Node []; Node []]).
  split; [reflexivity|]. split; [reflexivity|].
  rewrite <- rkck_toR, <- rkdp_toR, <- rklc_toR.
  split; [apply q_fail; vm_compute; reflexivity|]. split; [apply q_fail; vm_compute; reflexivity|].
  split; [|apply q_fail; vm_compute; reflexivity].
  unfold condition. cbn [density weight fold_right vertices Nat.add]. rewrite ?S_INR.
  cbn [bt_steps bt_a bt_b2 tab_rkgl rsum nth INR]. unfold q. cbn [nadd nsub ndiv nlit nsqrt Rops].
  pose proof (sqrt_sqrt 15 ltac:(lra)) as S. set (s := sqrt 15) in *. intros X.
  assert (Y : (5 / 18 = -5 / 72 * (s * s) / 15 * 12)%R) by (field_simplify in X; nra).
  nra.
Qed.
Print Assumptions C33_orders_refuted.

(** end-to-end: the tables above give exactly these orders *)
Example C33_example : forall mind,
  ~ has_order (tab_rkck (Rops mind)) (bt_b2 (tab_rkck (Rops mind))) 5 /\
  ~ has_order (tab_rkgl (Rops mind)) (bt_b2 (tab_rkgl (Rops mind))) 3.
Proof.
  intros mind. destruct (C33_orders_refuted mind) as (t5 & t3 & V5 & V3 & A & _ & B & _).
  split; intros H; [apply A|apply B]; apply H; lia.
Qed.
