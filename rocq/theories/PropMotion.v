(** The motion exists and is unique, so convergence and drift hold from every starting state: C82, C83. *)
From Coq Require Import ZArith Reals List Arith Lia Lra Ranalysis.
From Verif Require Import Num Arr ArrLemmas SpecPhys SpecEngine RLemmas ModelVertex ModelSolverBase ModelButcher ModelFeagin ModelExtrap
  ModelEngine ModelSolver LemOk LemBufR SpecSolver SpecImplicit SpecConv ModelStat SpecInv LemConv LemNewtonLip LemInv LemPicard PropConv PropInv.
Import ListNotations.
Set Implicit Arguments.
Local Open Scope R_scope.

Lemma total_rep x n : total (repeat x n) = INR n * x.
Proof.
  induction n as [|n IH]; [cbn; ring|]. unfold total in *. cbn [repeat fold_right]. rewrite IH, S_INR. ring.
Qed.

(** Two solutions with the same start: both are the limit of the runs of one solver. *)
Lemma motion_unique ps F L t0 T Y Z : (0 < ps)%nat -> (forall t y, length y = ps -> length (F t y) = ps) -> smooth_rhs ps F L -> 0 <= T ->
  exact_on ps F t0 T Y -> exact_on ps F t0 T Z -> Y t0 = Z t0 -> forall t, t0 <= t <= t0 + T -> Y t = Z t.
Proof.
  intros Hp HF HL HT HY HZ E0 t Ht.
  set (ef := fun (q : unit) (_ : nat) (t : R) (y _ : list R) => Some (q, F t y)).
  set (g := fun _ : nat => repeat 0 ps).
  assert (W : forall X, exact_on ps F t0 T X -> exists C h0, 0 <= C /\ 0 < h0 /\ forall (e : @eng R unit) dts h d, e_time e = t0 -> length (e_y e) = ps -> 0 <= d -> near ps (e_y e) (X t0) d ->
    0 <= h <= h0 -> Forall (fun dt => 0 < dt <= h) dts -> total dts <= T ->
    exists r, advise_all (Rops 1) ps ef g dts (SEuler None) e = Some r /\
      near ps (e_y (snd r)) (X (t0 + total dts)) (C * (d + h + 0))).
  { intros X HX. apply (@C82_convergence unit 1 ps ef g F L t0 T X (SEuler None)); auto; cbn; auto. intros. apply repeat_length. }
  destruct (W Y HY) as (C1 & h1 & HC1 & Hh1 & W1). destruct (W Z HZ) as (C2 & h2 & HC2 & Hh2 & W2). clear W.
  destruct (HY t Ht) as [LY _]. destruct (HZ t Ht) as [LZ _].
  assert (L0 : length (Y t0) = ps) by (apply HY; lra).
  destruct (Req_dec t t0) as [->|Hn]; auto.
  apply (nth_ext _ _ 0 0); [congruence|]. intros q Hq. rewrite LY in Hq.
  set (d := Rabs (nth q (Y t) 0 - nth q (Z t) 0)).
  destruct (Req_dec d 0) as [E|Hd].
  { unfold d in E. apply Rminus_diag_uniq. destruct (Req_dec (nth q (Y t) 0 - nth q (Z t) 0) 0) as [|N]; auto. now apply Rabs_no_R0 in N. }
  exfalso. assert (Pd : 0 < d) by (unfold d in *; pose proof (Rabs_pos (nth q (Y t) 0 - nth q (Z t) 0)); lra).
  set (h := Rmin (Rmin h1 h2) (d / (2 * (C1 + C2 + 1)))).
  assert (Ph : 0 < h).
  { unfold h. repeat apply Rmin_glb_lt; auto. apply Rmult_lt_0_compat; auto. apply Rinv_0_lt_compat. lra. }
  destruct (archimed_cor1 (h / (t - t0))) as (N & HN & PN); [apply Rmult_lt_0_compat; auto; apply Rinv_0_lt_compat; lra|].
  assert (PI : 0 < INR N) by now apply lt_0_INR.
  set (dts := repeat ((t - t0) / INR N) N).
  assert (Et : total dts = t - t0) by (unfold dts; rewrite total_rep; field; lra).
  assert (Hs : Forall (fun dt => 0 < dt <= h) dts).
  { apply Forall_forall. intros x Hx. apply repeat_spec in Hx. subst x. split.
    - apply Rmult_lt_0_compat; [lra|now apply Rinv_0_lt_compat].
    - apply Rle_trans with ((t - t0) * (h / (t - t0))); [apply Rmult_le_compat_l; lra|]. right. field. lra. }
  assert (Hh : h <= h1 /\ h <= h2 /\ h <= d / (2 * (C1 + C2 + 1))).
  { unfold h. repeat split.
    - eapply Rle_trans; [apply Rmin_l|apply Rmin_l].
    - eapply Rle_trans; [apply Rmin_l|apply Rmin_r].
    - apply Rmin_r. }
  destruct Hh as (B1 & B2 & B3).
  set (e := mkEng (Y t0) t0 0 tt 0 : @eng R unit).
  destruct (W1 e dts h 0) as (r & Er & Hr); cbn; auto; try lra; [apply near_refl; lra|].
  destruct (W2 e dts h 0) as (r' & Er' & Hr'); cbn; auto; try lra; [rewrite <- E0; apply near_refl; lra|].
  rewrite Er in Er'. inversion Er'; subst r'. rewrite Et in Hr, Hr'. replace (t0 + (t - t0)) with t in * by ring.
  specialize (Hr q Hq). specialize (Hr' q Hq). rewrite Rabs_minus_sym in Hr.
  assert (X : d <= C1 * (0 + h + 0) + C2 * (0 + h + 0)).
  { unfold d. replace (nth q (Y t) 0 - nth q (Z t) 0) with ((nth q (Y t) 0 - nth q (e_y (snd r)) 0) + (nth q (e_y (snd r)) 0 - nth q (Z t) 0)) by ring.
    eapply Rle_trans; [apply Rabs_triang|]. lra. }
  assert (X2 : (C1 + C2 + 1) * h <= (C1 + C2 + 1) * (d / (2 * (C1 + C2 + 1)))) by (apply Rmult_le_compat_l; lra).
  replace ((C1 + C2 + 1) * (d / (2 * (C1 + C2 + 1)))) with (d / 2) in X2 by (field; lra). lra.
Qed.

(** Newton's equations with the softening of the code have exactly one solution through every state, for any length of time. *)
Theorem C82_motion : forall mind n mass t0 T y0, 0 < mind -> (0 < n)%nat -> length y0 = (6 * n)%nat -> 0 <= T ->
  exists Y, Y t0 = y0 /\ exact_on (6 * n) (newton_field mind n mass) t0 T Y /\
    forall Z, Z t0 = y0 -> exact_on (6 * n) (newton_field mind n mass) t0 T Z -> forall t, t0 <= t <= t0 + T -> Z t = Y t.
Proof.
  intros mind n mass t0 T y0 Hm Hn Hy HT. pose proof (@newton_smooth mind n mass Hm) as HS.
  destruct (@picard (6 * n) (newton_field mind n mass) (newton_lip mind n mass) t0 T y0) as (Y & E & HY); auto.
  - intros. apply field_length.
  - apply HS.
  - apply HS.
  - exists Y. split; auto. split; auto. intros Z EZ HZ t Ht.
    apply (@motion_unique (6 * n) (newton_field mind n mass) (newton_lip mind n mass) t0 T Z Y); auto; try lia.
    + intros. apply field_length.
    + congruence.
Qed.
Print Assumptions C82_motion.

(** From every state the runs of all solvers settle, as the steps shrink, on one motion. *)
Theorem C82_settles : forall mind n mass garbage t0 T y0,
  0 < mind -> (0 < n)%nat -> length mass = n -> (forall i, (i < n)%nat -> nth i mass 0 <> 0) ->
  (forall k, length (garbage k) = (6 * n)%nat) -> length y0 = (6 * n)%nat -> 0 <= T ->
  exists Y, Y t0 = y0 /\ exact_on (6 * n) (newton_field mind n mass) t0 T Y /\
    forall s, fresh s -> convergent s -> defect s = 0 ->
    forall eps, 0 < eps -> exists h0, 0 < h0 /\ forall (e : @eng R unit) dts, e_time e = t0 -> e_y e = y0 ->
      Forall (fun dt => 0 < dt <= h0) dts -> total dts <= T ->
      exists r, advise_all (Rops mind) (6 * n) (simple_ef (Rops mind) n mass) garbage dts s e = Some r /\
        near (6 * n) (e_y (snd r)) (Y (t0 + total dts)) eps.
Proof.
  intros mind n mass garbage t0 T y0 Hm Hn Hl Hz Hg Hy HT.
  destruct (@C82_motion mind n mass t0 T y0 Hm Hn Hy HT) as (Y & E & HY & _). exists Y. split; auto. split; auto.
  intros s Hf Hc Hd eps He. destruct (@C82_limit mind n mass garbage t0 T Y s Hm Hn Hl Hz Hg HT HY Hf Hc Hd eps He) as (h0 & Hh & H).
  exists h0. split; auto. intros e dts E1 E2. apply H; auto. congruence.
Qed.
Print Assumptions C82_settles.

(** Two runs from the same state, by any two solvers with any small steps, that have covered the same time are close. *)
Theorem C82_agree : forall mind n mass garbage t0 T y0 s s',
  0 < mind -> (0 < n)%nat -> length mass = n -> (forall i, (i < n)%nat -> nth i mass 0 <> 0) ->
  (forall k, length (garbage k) = (6 * n)%nat) -> length y0 = (6 * n)%nat -> 0 <= T ->
  fresh s -> convergent s -> defect s = 0 -> fresh s' -> convergent s' -> defect s' = 0 ->
  forall eps, 0 < eps -> exists h0, 0 < h0 /\ forall (e e' : @eng R unit) dts dts', e_time e = t0 -> e_y e = y0 -> e_time e' = t0 -> e_y e' = y0 ->
    Forall (fun dt => 0 < dt <= h0) dts -> Forall (fun dt => 0 < dt <= h0) dts' -> total dts = total dts' -> total dts <= T ->
    exists r r', advise_all (Rops mind) (6 * n) (simple_ef (Rops mind) n mass) garbage dts s e = Some r /\
      advise_all (Rops mind) (6 * n) (simple_ef (Rops mind) n mass) garbage dts' s' e' = Some r' /\
      near (6 * n) (e_y (snd r)) (e_y (snd r')) eps.
Proof.
  intros mind n mass garbage t0 T y0 s s' Hm Hn Hl Hz Hg Hy HT F1 F2 F3 G1 G2 G3 eps He.
  destruct (@C82_settles mind n mass garbage t0 T y0 Hm Hn Hl Hz Hg Hy HT) as (Y & _ & _ & H).
  destruct (H s F1 F2 F3 (eps / 2)) as (h1 & P1 & H1); [lra|]. destruct (H s' G1 G2 G3 (eps / 2)) as (h2 & P2 & H2); [lra|].
  exists (Rmin h1 h2). split; [now apply Rmin_glb_lt|]. intros e e' dts dts' A1 A2 A3 A4 A5 A6 A7 A8.
  destruct (H1 e dts) as (r & Er & Hr); auto.
  { eapply Forall_impl; [|exact A5]. cbn beta. intros x Hx. pose proof (Rmin_l h1 h2). lra. }
  destruct (H2 e' dts') as (r' & Er' & Hr'); auto; try lra.
  { eapply Forall_impl; [|exact A6]. cbn beta. intros x Hx. pose proof (Rmin_r h1 h2). lra. }
  exists r, r'. split; auto. split; auto. rewrite <- A7 in Hr'. apply near_sym in Hr'.
  eapply near_mono; [eapply near_tri; [exact Hr|exact Hr']|]. lra.
Qed.
Print Assumptions C82_agree.

(** The drift of the reports, from every state: the motion of [C83_drift] need not be given. *)
Theorem C83_run : forall mind n mass garbage t0 T y0 s,
  0 < mind -> (0 < n)%nat -> length mass = n -> (forall i, (i < n)%nat -> nth i mass 0 <> 0) ->
  (forall k, length (garbage k) = (6 * n)%nat) -> length y0 = (6 * n)%nat -> 0 <= T -> fresh s -> convergent s ->
  exists C h0, 0 <= C /\ 0 < h0 /\ forall (e : @eng R unit) dts h r0, e_time e = t0 -> e_y e = y0 ->
    0 <= h <= h0 -> Forall (fun dt => 0 < dt <= h) dts -> total dts <= T -> reports mind n mass (e_y e) r0 ->
    exists fin r, advise_all (Rops mind) (6 * n) (simple_ef (Rops mind) n mass) garbage dts s e = Some fin /\
      reports mind n mass (e_y (snd fin)) r /\ rep_P r = rep_P r0 /\
      (forall c, In c [@vx R; @vy R; @vz R] -> Rabs (c (rep_L r) - c (rep_L r0)) <= C * (h + defect s)) /\
      Rabs (energy_of r + left_out mind n mass (e_y (snd fin)) - (energy_of r0 + left_out mind n mass (e_y e))) <= C * (h + defect s) /\
      (apart mind n (e_y e) -> apart mind n (e_y (snd fin)) -> energy_of r0 <> 0 ->
       energy_err (Rops mind) (Stat r0 r true) <= 100 * (C * (h + defect s)) / Rabs (energy_of r0)).
Proof.
  intros mind n mass garbage t0 T y0 s Hm Hn Hl Hz Hg Hy HT Hf Hc.
  destruct (@C82_motion mind n mass t0 T y0 Hm Hn Hy HT) as (Y & E & HY & _).
  destruct (@C83_drift mind n mass garbage t0 T Y s Hm Hn Hl Hz Hg HT HY Hf Hc) as (C & h0 & HC & Hh & H).
  exists C, h0. split; auto. split; auto. intros e dts h r0 A1 A2. apply H; auto. congruence.
Qed.
Print Assumptions C83_run.

(** The hypotheses are met by Euler's method and Adams' method started by Bulirsch-Stoer. *)
Example C82_agree_case : exists h0, 0 < h0 /\ forall (e e' : @eng R unit) dts dts', e_time e = 0 -> e_y e = circle 0 -> e_time e' = 0 -> e_y e' = circle 0 ->
    Forall (fun dt => 0 < dt <= h0) dts -> Forall (fun dt => 0 < dt <= h0) dts' -> total dts = total dts' -> total dts <= 100 ->
    exists r r', advise_all (Rops 1) 12 (simple_ef (Rops 1) 2 [4; 4]) (fun _ => repeat 0 12) dts (SEuler None) e = Some r /\
      advise_all (Rops 1) 12 (simple_ef (Rops 1) 2 [4; 4]) (fun _ => repeat 0 12) dts' (SAdams (mkAdamsParams 4 true) (SBs (mkBsParams 8 (1 / 1000)) None) None 0) e' = Some r' /\
      near 12 (e_y (snd r)) (e_y (snd r')) (1 / 1000).
Proof.
  apply (@C82_agree 1 2 [4; 4] (fun _ => repeat 0 12) 0 100 (circle 0)); try reflexivity; try lra; try lia; cbn; auto; try lia.
  intros i Hi. destruct i as [|[|i]]; cbn; try lra; lia.
Qed.
