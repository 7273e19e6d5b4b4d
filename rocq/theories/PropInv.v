(** What the motion conserves and what the report shows of it: C83. *)
From Coq Require Import ZArith Reals List Arith Lia Lra Ranalysis.
From Verif Require Import Num Arr ArrLemmas SpecPhys SpecStat SpecEngine RLemmas ModelVertex ModelSolverBase ModelButcher ModelExtrap
  ModelEngine ModelStat ModelSolver SpecSolver SpecImplicit SpecConv SpecInv LemConv LemNewtonLip LemInv LemMain LemOk LemExact LemConvAll LemPhys PropForce PropSolver PropSafe PropConv.
Import ListNotations.
Set Implicit Arguments.
Local Open Scope R_scope.

(** ** C83 *)

(** Along every exact motion the reported impulse and angular momentum do not change, the reported mass centre moves
    uniformly, and the reported energy plus what it leaves out does not change. *)
Theorem C83_motion : forall mind n mass t0 T Y t r0 r,
  0 < mind -> length mass = n -> exact_on (6 * n) (newton_field mind n mass) t0 T Y -> t0 <= t <= t0 + T ->
  reports mind n mass (Y t0) r0 -> reports mind n mass (Y t) r ->
  rep_P r = rep_P r0 /\ rep_L r = rep_L r0 /\
  (tot_mass n (fun i => nth i mass 0) <> 0 ->
   let v (c : vec3 R -> R) := c (rep_P r0) / tot_mass n (fun i => nth i mass 0) in
   rep_V r = V3 (vx (rep_V r0) + (t - t0) * v (@vx R)) (vy (rep_V r0) + (t - t0) * v (@vy R)) (vz (rep_V r0) + (t - t0) * v (@vz R))) /\
  energy_of r + left_out mind n mass (Y t) = energy_of r0 + left_out mind n mass (Y t0).
Proof.
  intros mind n mass t0 T Y t r0 r Hm Hl HY Ht R0 R1.
  assert (H0 : t0 <= t0 <= t0 + T) by lra.
  destruct (@reports_inv mind n mass (Y t0) r0 Hm Hl (proj1 (HY t0 H0)) R0) as (A1 & A2 & A3 & A4 & A5).
  destruct (@reports_inv mind n mass (Y t) r Hm Hl (proj1 (HY t Ht)) R1) as (B1 & B2 & B3 & B4 & B5).
  split; [|split; [|split]].
  - rewrite A1, B1. f_equal; [apply (P_const HY (k := 0))|apply (P_const HY (k := 1))|apply (P_const HY (k := 2))]; auto.
  - rewrite A2, B2. f_equal; [apply (L_const HY (a := 1) (b := 2))|apply (L_const HY (a := 2) (b := 0))|apply (L_const HY (a := 0) (b := 1))]; auto.
  - intros HM v. unfold v. rewrite A1, A3, B3. cbn [vx vy vz]. unfold v_V, mass_centre.
    rewrite (C_line HY (k := 0)), (C_line HY (k := 1)), (C_line HY (k := 2)) by auto. cbn [Nat.add].
    f_equal; field; exact HM.
  - unfold energy_of. rewrite A4, A5, B4, B5. rewrite <- !full_reported. apply (E_const Hm HY). exact Ht.
Qed.
Print Assumptions C83_motion.

(** hence the reported energy is the same at two times at which no pair is closer than the minimum distance *)
Theorem C83_apart : forall mind n mass t0 T Y t r0 r,
  0 < mind -> length mass = n -> exact_on (6 * n) (newton_field mind n mass) t0 T Y -> t0 <= t <= t0 + T ->
  apart mind n (Y t0) -> apart mind n (Y t) -> reports mind n mass (Y t0) r0 -> reports mind n mass (Y t) r ->
  energy_of r = energy_of r0.
Proof.
  intros mind n mass t0 T Y t r0 r Hm Hl HY Ht A0 A1 R0 R1.
  destruct (@C83_motion mind n mass t0 T Y t r0 r Hm Hl HY Ht R0 R1) as (_ & _ & _ & E).
  rewrite (@apart_left mind n mass (Y t)), (@apart_left mind n mass (Y t0)) in E by auto. lra.
Qed.
Print Assumptions C83_apart.

(** every state has a report *)
Theorem C83_reports : forall mind n mass y, 0 < mind -> length mass = n -> length y = (6 * n)%nat -> exists r, reports mind n mass y r.
Proof. intros. now apply reports_values. Qed.
Print Assumptions C83_reports.

(** two bodies of mass 1/2 swinging through each other inside the minimum distance *)
Definition swing (t : R) : list R :=
  [cos t / 4; - (cos t / 4); 0; 0; 0; 0; - (sin t / 4); sin t / 4; 0; 0; 0; 0].
Lemma swing_exact : forall t0 T, exact_on 12 (newton_field 1 2 [1/2; 1/2]) t0 T swing.
Proof.
  intros t0 T t Ht. split; [reflexivity|].
  assert (Q : forall x y z : R, x = cos t / 2 \/ x = - (cos t / 2) -> y = 0 -> z = 0 -> soft_cube 1 (x * x + y * y + z * z) = 1).
  { intros x y z Hx -> ->.
    assert (S2 : sin t * sin t + cos t * cos t = 1) by (pose proof (sin2_cos2 t) as X; unfold Rsqr in X; exact X).
    pose proof (Rle_0_sqr (sin t)) as P. unfold Rsqr in P.
    unfold soft_cube. rewrite Rmax_left by (destruct Hx as [-> | ->]; nra). rewrite sqrt_1. ring. }
  assert (Q1 : soft_cube 1 (dist2 (comp (swing t) 2 0) (comp (swing t) 2 1) (comp (swing t) 2 2) 0 1) = 1).
  { unfold dist2, comp, swing. cbn [Nat.mul Nat.add nth]. apply Q; [left; field|ring|ring]. }
  assert (Q2 : soft_cube 1 (dist2 (comp (swing t) 2 0) (comp (swing t) 2 1) (comp (swing t) 2 2) 1 0) = 1).
  { unfold dist2, comp, swing. cbn [Nat.mul Nat.add nth]. apply Q; [right; field|ring|ring]. }
  assert (D1 : derivable_pt_lim (fun s => cos s / 4) t (- (sin t / 4))).
  { eapply D_ext with (f := fun s => / 4 * cos s); [intros; unfold Rdiv; ring|]. eapply D_val; [|apply D_scal, derivable_pt_lim_cos]. field. }
  assert (D2 : derivable_pt_lim (fun s => sin s / 4) t (cos t / 4)).
  { eapply D_ext with (f := fun s => / 4 * sin s); [intros; unfold Rdiv; ring|]. eapply D_val; [|apply D_scal, derivable_pt_lim_sin]. field. }
  assert (D3 : derivable_pt_lim (fun s => - (cos s / 4)) t (sin t / 4)).
  { eapply D_val; [|apply (@derivable_pt_lim_opp (fun s => cos s / 4)); exact D1]. ring. }
  assert (D4 : derivable_pt_lim (fun s => - (sin s / 4)) t (- (cos t / 4))).
  { apply (@derivable_pt_lim_opp (fun s => sin s / 4)); exact D2. }
  assert (D0 : derivable_pt_lim (fun _ => 0) t 0) by apply derivable_pt_lim_const.
  intros q Hq. rewrite field_nth by lia.
  Ltac cell D Q1 Q2 := eapply D_val; [|exact D];
    cbn [Nat.div Nat.modulo Nat.divmod Nat.ltb Nat.leb fst snd Nat.sub Nat.add];
    unfold newton_acc; cbn [rsum Nat.eqb]; rewrite ?Q1, ?Q2; unfold comp, swing; cbn [Nat.mul Nat.add nth]; field.
  do 12 (destruct q as [|q]; [first [cell D0 Q1 Q2|cell D1 Q1 Q2|cell D3 Q1 Q2|cell D4 Q1 Q2|cell D2 Q1 Q2]|]).
  lia.
Qed.

(** The energy check of the program is not conserved by the motion it checks: bodies inside the minimum distance attract each
    other but have no reported potential. *)
Theorem C83_energy_refuted : exists mind n mass t0 T Y r0 r,
  0 < mind /\ length mass = n /\ exact_on (6 * n) (newton_field mind n mass) t0 T Y /\ 0 <= T /\
  reports mind n mass (Y t0) r0 /\ reports mind n mass (Y (t0 + T)) r /\ energy_of r0 = 0 /\ energy_of r = 1 / 32.
Proof.
  exists 1, 2%nat, [1/2; 1/2], 0, (PI / 2), swing.
  destruct (@reports_values 1 2 [1/2; 1/2] (swing 0)) as [r0 R0]; [lra|reflexivity|reflexivity|].
  destruct (@reports_values 1 2 [1/2; 1/2] (swing (0 + PI / 2))) as [r R1]; [lra|reflexivity|reflexivity|].
  exists r0, r. split; [lra|]. split; [reflexivity|]. split; [apply swing_exact|]. split; [pose proof PI_RGT_0; lra|].
  split; [exact R0|]. split; [exact R1|].
  assert (EV : forall t r, reports 1 2 [1/2; 1/2] (swing t) r -> energy_of r = sin t * sin t / 32).
  { clear. intros t r H. apply reports_inv in H; [|lra|reflexivity|reflexivity]. destruct H as (_ & _ & _ & H1 & H2).
    unfold energy_of. rewrite H1, H2. unfold v_K, v_U, tot_kinetic, tot_potential, pair_sum, dist2, comp, swing. cbn [rsum Nat.mul Nat.add nth].
    destruct Rlt_dec as [|N]; [field|]. exfalso. apply N.
    assert (S2 : sin t * sin t + cos t * cos t = 1) by (pose proof (sin2_cos2 t) as X; unfold Rsqr in X; exact X).
    pose proof (Rle_0_sqr (sin t)) as P. unfold Rsqr in P. nra. }
  rewrite (EV _ _ R0), (EV _ _ R1). rewrite Rplus_0_l, sin_0, sin_PI2. split; field.
Qed.
Print Assumptions C83_energy_refuted.

Lemma convergent_ok s : convergent s -> solver_ok s.
Proof. induction s; cbn [convergent solver_ok]; try tauto. Qed.

(** The runs of the program: whatever the solver, the reported impulse is kept, the reported angular momentum, and the reported energy plus what it leaves
    out, drift by at most C (h + defect); so does the energy error of the report (in per cent) if the bodies start and end apart. *)
Theorem C83_drift : forall mind n mass garbage t0 T Y s,
  0 < mind -> (0 < n)%nat -> length mass = n -> (forall i, (i < n)%nat -> nth i mass 0 <> 0) ->
  (forall k, length (garbage k) = (6 * n)%nat) ->
  0 <= T -> exact_on (6 * n) (newton_field mind n mass) t0 T Y -> fresh s -> convergent s ->
  exists C h0, 0 <= C /\ 0 < h0 /\ forall (e : @eng R unit) dts h r0, e_time e = t0 -> e_y e = Y t0 ->
    0 <= h <= h0 -> Forall (fun dt => 0 < dt <= h) dts -> total dts <= T -> reports mind n mass (e_y e) r0 ->
    exists fin r, advise_all (Rops mind) (6 * n) (simple_ef (Rops mind) n mass) garbage dts s e = Some fin /\
      reports mind n mass (e_y (snd fin)) r /\ rep_P r = rep_P r0 /\
      (forall c, In c [@vx R; @vy R; @vz R] -> Rabs (c (rep_L r) - c (rep_L r0)) <= C * (h + defect s)) /\
      Rabs (energy_of r + left_out mind n mass (e_y (snd fin)) - (energy_of r0 + left_out mind n mass (e_y e))) <= C * (h + defect s) /\
      (apart mind n (e_y e) -> apart mind n (e_y (snd fin)) -> energy_of r0 <> 0 ->
       energy_err (Rops mind) (Stat r0 r true) <= 100 * (C * (h + defect s)) / Rabs (energy_of r0)).
Proof.
  intros mind n mass garbage t0 T Y s Hm Hn Hl Hz Hg HT HY Hf Hc.
  destruct (@C82_newton mind n mass garbage t0 T Y s Hm Hn Hl Hz Hg HT HY Hf Hc) as (C & h0 & HC & Hh0 & H).
  set (F := newton_field mind n mass) in *. set (L := newton_lip mind n mass).
  destruct (newton_smooth n mass Hm) as [HL0 HL]. fold F in HL. fold L in HL, HL0.
  destruct (@slope_bounded (6 * n) F L t0 T Y HL0 HL HT HY) as (M & HM0 & HM).
  pose proof (defect_pos s) as Pdf.
  set (B := rsum (6 * n) (fun q => Rabs (nth q (Y t0) 0)) + M * T + C * (0 + h0 + defect s)).
  assert (PB1 : 0 <= rsum (6 * n) (fun q => Rabs (nth q (Y t0) 0))) by (apply rsum_pos; intros; apply Rabs_pos).
  assert (PB2 : 0 <= M * T) by now apply Rmult_le_pos.
  assert (PB3 : 0 <= C * (0 + h0 + defect s)) by (apply Rmult_le_pos; lra).
  assert (PB : 0 <= B) by (unfold B; lra).
  assert (PE : 0 <= lipE mind n mass B).
  { unfold lipE. apply Rplus_le_le_0_compat.
    - apply rsum_pos. intros. apply Rmult_le_pos; [apply Rabs_pos|lra].
    - unfold pair_sum. apply rsum_pos. intros. apply rsum_pos. intros. apply Rmult_le_pos; [apply Rabs_pos|].
      apply Rmult_le_pos; [lra|]. left. apply Rinv_0_lt_compat. apply Rmult_lt_0_compat; [lra|]. apply Rmult_lt_0_compat; auto. now apply sqrt_lt_R0. }
  assert (PL : 0 <= lipL n mass B).
  { unfold lipL. apply rsum_pos. intros. apply Rmult_le_pos; [apply Rabs_pos|lra]. }
  exists ((lipE mind n mass B + lipL n mass B) * C), h0.
  split; [apply Rmult_le_pos; lra|]. split; auto.
  intros e dts h r0 Ht Ey Hh Hds Htot R0.
  assert (H0 : t0 <= t0 <= t0 + T) by lra.
  assert (Ptot : 0 <= total dts).
  { clear - Hds. induction Hds; cbn; [lra|]. unfold total in *. lra. }
  destruct (H e dts h 0) as (fin & Ef & Hfin); auto; try lra.
  { rewrite Ey. apply (HY t0 H0). }
  { rewrite Ey. apply near_refl. lra. }
  set (t1 := t0 + total dts) in *. assert (Ht1 : t0 <= t1 <= t0 + T) by (unfold t1; lra).
  assert (Ly : length (e_y e) = (6 * n)%nat) by (rewrite Ey; apply (HY t0 H0)).
  assert (Lf : length (e_y (snd fin)) = (6 * n)%nat).
  { destruct (@C73_solver_safe R unit (Rops mind) (6 * n) (simple_ef (Rops mind) n mass) garbage (fun _ => True) dts s e) as (r' & E' & L' & _); auto.
    - lia.
    - intros q step t y f _ Hy Hff. unfold simple_ef.
      destruct (@C04_newtonian_rhs mind n mass y f Hm Hy Hl Hff Hz) as (f' & -> & HN). exists q, f'. split; auto. split; auto. apply HN.
    - now apply convergent_ok.
    - rewrite Ef in E'. injection E' as <-. exact L'. }
  destruct (@reports_values mind n mass (e_y (snd fin)) Hm Hl Lf) as [r R1].
  exists fin, r. split; auto. split; auto.
  destruct (@reports_inv mind n mass (e_y e) r0 Hm Hl Ly R0) as (A1 & A2 & A3 & A4 & A5).
  destruct (@reports_inv mind n mass (e_y (snd fin)) r Hm Hl Lf R1) as (B1 & B2 & B3 & B4 & B5).
  (* both states are bounded and close *)
  assert (YB : forall q, (q < 6 * n)%nat -> Rabs (nth q (Y t1) 0) <= rsum (6 * n) (fun q => Rabs (nth q (Y t0) 0)) + M * T).
  { intros q Hq. pose proof (@Y_move (6 * n) F t0 T Y HY M HM t0 (total dts) ltac:(unfold inr; lra) q Hq) as X. fold t1 in X.
    assert (X1 : M * total dts <= M * T) by (apply Rmult_le_compat_l; auto).
    pose proof (@rsum_in (6 * n) (fun q => Rabs (nth q (Y t0) 0)) q ltac:(intros; apply Rabs_pos) Hq) as X2. cbn beta in X2.
    replace (nth q (Y t1) 0) with ((nth q (Y t1) 0 - nth q (Y t0) 0) + nth q (Y t0) 0) by ring.
    eapply Rle_trans; [apply Rabs_triang|]. lra. }
  assert (DB : C * (0 + h + defect s) <= C * (0 + h0 + defect s)) by (apply Rmult_le_compat_l; lra).
  assert (S1 : small n B (e_y (snd fin))).
  { intros q Hq. specialize (Hfin q Hq). specialize (YB q Hq). unfold B.
    replace (nth q (e_y (snd fin)) 0) with ((nth q (e_y (snd fin)) 0 - nth q (Y t1) 0) + nth q (Y t1) 0) by ring.
    eapply Rle_trans; [apply Rabs_triang|]. lra. }
  assert (S2 : small n B (Y t1)) by (intros q Hq; specialize (YB q Hq); unfold B; lra).
  set (d := C * (0 + h + defect s)) in *.
  assert (Dd : d = C * (h + defect s)) by (unfold d; ring).
  assert (Pd : 0 <= d) by (rewrite Dd; apply Rmult_le_pos; lra).
  assert (WE : lipE mind n mass B * d <= (lipE mind n mass B + lipL n mass B) * C * (h + defect s)).
  { rewrite Rmult_assoc, <- Dd. apply Rmult_le_compat_r; lra. }
  assert (WL : lipL n mass B * d <= (lipE mind n mass B + lipL n mass B) * C * (h + defect s)).
  { rewrite Rmult_assoc, <- Dd. apply Rmult_le_compat_r; lra. }
  assert (EB : Rabs (energy_of r + left_out mind n mass (e_y (snd fin)) - (energy_of r0 + left_out mind n mass (e_y e))) <=
     (lipE mind n mass B + lipL n mass B) * C * (h + defect s)).
  { unfold energy_of. rewrite A4, A5, B4, B5, <- !full_reported, Ey, <- (@E_const mind n mass t0 T Y Hm HY t1 Ht1).
    eapply Rle_trans; [|exact WE]. now apply E_lip. }
  split; [|split; [|split; [exact EB|]]].
  - rewrite A1, B1. destruct (@C28_momentum_simple mind n mass garbage dts s e) as (r' & E' & HP); auto; [now apply convergent_ok|].
    rewrite Ef in E'. injection E' as <-. unfold v_P, tot_impulse. pose proof (HP 0%nat) as P0. pose proof (HP 1%nat) as P1. pose proof (HP 2%nat) as P2.
    cbn [Nat.add] in P0, P1, P2. rewrite P0, P1, P2 by lia. reflexivity.
  - assert (LL : forall a b, (a < 3)%nat -> (b < 3)%nat -> Rabs (v_L n mass (e_y (snd fin)) a b - v_L n mass (e_y e) a b) <=
       (lipE mind n mass B + lipL n mass B) * C * (h + defect s)).
    { intros a b Ha Hb. rewrite Ey, <- (@L_const mind n mass t0 T Y HY a b t1 Ha Hb Ht1). eapply Rle_trans; [|exact WL]. now apply L_lip. }
    intros c Hcc. rewrite A2, B2. cbn [In] in Hcc. destruct Hcc as [<-|[<-|[<-|[]]]]; cbn [vx vy vz]; apply LL; lia.
  - intros AP1 AP2 HE. rewrite (@apart_left mind n mass (e_y e) AP1), (@apart_left mind n mass (e_y (snd fin)) AP2), !Rplus_0_r in EB.
    unfold energy_err. cbn [st_init st_last Rops nabs ndiv nmul nsub nlit]. fold (energy_of r0).
    change (energy (Rops mind) r) with (energy_of r). change (energy (Rops mind) r0) with (energy_of r0).
    unfold Rdiv. rewrite !Rabs_mult, (Rabs_right 100), Rabs_inv by lra.
    apply Rmult_le_compat_r; [left; apply Rinv_0_lt_compat; now apply Rabs_pos_lt|]. apply Rmult_le_compat_l; [lra|exact EB].
Qed.
Print Assumptions C83_drift.

(** The orbit of C82 meets the hypotheses: two bodies of mass 4, never closer than 2. *)
Example C83_case : forall t, apart 1 2 (circle t) /\ exists r, reports 1 2 [4; 4] (circle t) r /\ energy_of r = -4 /\ rep_L r = V3 0 0 8.
Proof.
  intros t. assert (S2 : sin t * sin t + cos t * cos t = 1) by (pose proof (sin2_cos2 t) as X; unfold Rsqr in X; exact X).
  split.
  - intros i j Hi Hj Hij. unfold dist2, comp, circle. destruct i as [|[|]]; destruct j as [|[|]]; try lia; cbn [Nat.mul Nat.add nth]; nra.
  - destruct (@reports_values 1 2 [4; 4] (circle t)) as [r Rr]; [lra|reflexivity|reflexivity|]. exists r. split; auto.
    apply reports_inv in Rr; [|lra|reflexivity|reflexivity]. destruct Rr as (_ & H0 & _ & H1 & H2).
    unfold energy_of. rewrite H0, H1, H2. unfold v_L, v_K, v_U, tot_ang, tot_kinetic, tot_potential, pair_sum, dist2, comp, circle. cbn [rsum Nat.mul Nat.add nth].
    replace ((cos t - - cos t) * (cos t - - cos t) + (sin t - - sin t) * (sin t - - sin t) + (0 - 0) * (0 - 0)) with (2 * 2) by nra.
    rewrite sqrt_square by lra. destruct Rlt_dec; [lra|]. split; [nra|]. f_equal; nra.
Qed.
