(** Convergence of the solvers: C82. *)
From Coq Require Import ZArith Reals List Arith Lia Lra Ranalysis.
From Verif Require Import Num Arr ArrLemmas SpecPhys SpecEngine RLemmas ModelSolverBase ModelButcher ModelFeagin ModelExtrap
  ModelEngine ModelSolver LemOk LemBufR SpecSolver SpecImplicit SpecConv LemPhys LemConv LemConvAll LemNewtonLip PropForce PropGpuOps
  LemExact LemSolver.
Import ListNotations.
Set Implicit Arguments.
Local Open Scope R_scope.

(** ** C82 *)

(** A right-hand side that is Lipschitz, an exact solution on an interval, a fresh solver of any kind: the state after any
    history of steps of at most [h], started [d] away from the exact solution, is within C (d + h + defect) of the exact
    solution; C depends on neither the steps nor [h].  No step fails. *)
Theorem C82_convergence : forall (E : Type) mind ps (ef : E -> nat -> R -> list R -> list R -> option (E * list R)) garbage F L t0 T Y s,
  (0 < ps)%nat -> (forall n, length (garbage n) = ps) ->
  (forall t y, length y = ps -> length (F t y) = ps) ->
  (forall q step t y f, length y = ps -> length f = ps -> ef q step t y f = Some (q, F t y)) ->
  smooth_rhs ps F L -> 0 <= T -> exact_on ps F t0 T Y -> fresh s -> convergent s ->
  exists C h0, 0 <= C /\ 0 < h0 /\ forall (e : @eng R E) dts h d, e_time e = t0 -> length (e_y e) = ps -> 0 <= d -> near ps (e_y e) (Y t0) d ->
    0 <= h <= h0 -> Forall (fun dt => 0 < dt <= h) dts -> total dts <= T ->
    exists r, advise_all (Rops mind) ps ef garbage dts s e = Some r /\
      near ps (e_y (snd r)) (Y (t0 + total dts)) (C * (d + h + defect s)).
Proof.
  intros E mind ps ef garbage F L t0 T Y s H1 H2 H3 H4 [HL0 HL] HT HY Hf Hc.
  destruct (@perturbed_run E mind ps unit (fun _ => ef) (fun _ => garbage) (fun _ => F) (fun _ => 0) F L t0 T Y s)
    as (C & h0 & HC & Hh0 & H); auto.
  - split; auto.
  - intros. lra.
  - intros. apply near_refl. lra.
  - exists C, h0. split; auto. split; auto. intros e dts h d He Hy Hd Hn Hh Hds Ht.
    destruct (H tt e dts h d He Hy Hd Hn Hh Hds Ht) as (r & Er & Hr). exists r. split; auto.
    now rewrite Rplus_0_r in Hr.
Qed.
Print Assumptions C82_convergence.

(** The equations of motion of the engine simple: every solver converges to every solution of Newton's equations with the
    softening of the code. *)
Theorem C82_newton : forall mind n mass garbage t0 T Y s,
  0 < mind -> (0 < n)%nat -> length mass = n -> (forall i, (i < n)%nat -> nth i mass 0 <> 0) ->
  (forall k, length (garbage k) = (6 * n)%nat) ->
  0 <= T -> exact_on (6 * n) (newton_field mind n mass) t0 T Y -> fresh s -> convergent s ->
  exists C h0, 0 <= C /\ 0 < h0 /\ forall (e : @eng R unit) dts h d, e_time e = t0 -> length (e_y e) = (6 * n)%nat -> 0 <= d ->
    near (6 * n) (e_y e) (Y t0) d -> 0 <= h <= h0 -> Forall (fun dt => 0 < dt <= h) dts -> total dts <= T ->
    exists r, advise_all (Rops mind) (6 * n) (simple_ef (Rops mind) n mass) garbage dts s e = Some r /\
      near (6 * n) (e_y (snd r)) (Y (t0 + total dts)) (C * (d + h + defect s)).
Proof.
  intros mind n mass garbage t0 T Y s H1 H2 H3 H4 H5 HT HY Hf Hc.
  apply (@C82_convergence unit mind (6 * n) (simple_ef (Rops mind) n mass) garbage (newton_field mind n mass)
    (newton_lip mind n mass) t0 T Y s); auto; try lia.
  - intros. apply field_length.
  - intros q step t y f Hy Hl. unfold simple_ef.
    destruct (@C04_newtonian_rhs mind n mass y f H1 Hy H3 Hl H4) as (f' & -> & HN). cbn [obind].
    destruct q. do 2 f_equal. eapply newton_unique; [exact HN|apply field_newton].
  - now apply newton_smooth.
Qed.
Print Assumptions C82_newton.

(** ... hence, when the weights add up to one, the error tends to zero with the step *)
Theorem C82_limit : forall mind n mass garbage t0 T Y s,
  0 < mind -> (0 < n)%nat -> length mass = n -> (forall i, (i < n)%nat -> nth i mass 0 <> 0) ->
  (forall k, length (garbage k) = (6 * n)%nat) ->
  0 <= T -> exact_on (6 * n) (newton_field mind n mass) t0 T Y -> fresh s -> convergent s -> defect s = 0 ->
  forall eps, 0 < eps -> exists h0, 0 < h0 /\ forall (e : @eng R unit) dts, e_time e = t0 -> e_y e = Y t0 ->
    Forall (fun dt => 0 < dt <= h0) dts -> total dts <= T ->
    exists r, advise_all (Rops mind) (6 * n) (simple_ef (Rops mind) n mass) garbage dts s e = Some r /\
      near (6 * n) (e_y (snd r)) (Y (t0 + total dts)) eps.
Proof.
  intros mind n mass garbage t0 T Y s H1 H2 H3 H4 H5 HT HY Hf Hc Hd eps He.
  destruct (@C82_newton mind n mass garbage t0 T Y s H1 H2 H3 H4 H5 HT HY Hf Hc) as (C & h1 & HC & Hh1 & H).
  assert (P : 0 < eps / (C + 1)) by (apply Rmult_lt_0_compat; auto; apply Rinv_0_lt_compat; lra).
  set (h0 := Rmin h1 (eps / (C + 1))). exists h0.
  assert (Ph : 0 < h0) by (unfold h0; apply Rmin_glb_lt; auto).
  split; auto. intros e dts Ht Hy Hds Htot.
  destruct (H e dts h0 0) as (r & Er & Hr); auto; try lra.
  - rewrite Hy. apply (HY t0). lra.
  - rewrite Hy. apply near_refl. lra.
  - split; [lra|apply Rmin_l].
  - exists r. split; auto. eapply near_mono; [exact Hr|]. rewrite Hd.
    apply Rle_trans with ((C + 1) * (eps / (C + 1))).
    + replace (0 + h0 + 0) with h0 by ring. apply Rle_trans with (C * (eps / (C + 1))).
      * apply Rmult_le_compat_l; auto. apply Rmin_r.
      * apply Rmult_le_compat_r; lra.
    + right. field. lra.
Qed.
Print Assumptions C82_limit.

(** The hypotheses are met by two bodies of mass 4 on the unit circle, for any length of time. *)
Example C82_circle : forall t0 T, 0 <= T -> exact_on 12 (newton_field 1 2 [4; 4]) t0 T circle.
Proof.
  intros t0 T HT t Ht. split; [reflexivity|].
  assert (S2 : sin t * sin t + cos t * cos t = 1) by (pose proof (sin2_cos2 t) as X; unfold Rsqr in X; exact X).
  assert (Q : forall x y z : R, x = 2 * cos t \/ x = - (2 * cos t) -> y = 2 * sin t \/ y = - (2 * sin t) -> z = 0 ->
    soft_cube 1 (x * x + y * y + z * z) = 8).
  { intros x y z Hx Hy ->. replace (x * x + y * y + 0 * 0) with 4.
    - unfold soft_cube. rewrite Rmax_right by lra. replace 4 with (2 * 2) at 2 by ring. rewrite sqrt_square; lra.
    - destruct Hx as [-> | ->], Hy as [-> | ->]; lra. }
  assert (Q1 : soft_cube 1 (dist2 (comp (circle t) 2 0) (comp (circle t) 2 1) (comp (circle t) 2 2) 0 1) = 8).
  { unfold dist2, comp, circle. cbn [Nat.mul Nat.add nth]. apply Q; [left|left|]; ring. }
  assert (Q2 : soft_cube 1 (dist2 (comp (circle t) 2 0) (comp (circle t) 2 1) (comp (circle t) 2 2) 1 0) = 8).
  { unfold dist2, comp, circle. cbn [Nat.mul Nat.add nth]. apply Q; [right|right|]; ring. }
  assert (D1 : derivable_pt_lim cos t (- sin t)) by apply derivable_pt_lim_cos.
  assert (D2 : derivable_pt_lim sin t (cos t)) by apply derivable_pt_lim_sin.
  assert (D3 : derivable_pt_lim (fun s => - cos s) t (- (- sin t))) by (apply (derivable_pt_lim_opp cos); auto).
  assert (D4 : derivable_pt_lim (fun s => - sin s) t (- cos t)) by (apply (derivable_pt_lim_opp sin); auto).
  assert (D0 : derivable_pt_lim (fun _ => 0) t 0) by apply derivable_pt_lim_const.
  intros q Hq. rewrite field_nth by lia.
  do 12 (destruct q as [|q]; [
    change (circle t) with (circle t) in *;
    match goal with |- derivable_pt_lim _ _ ?v =>
      first [ let H := fresh in assert (H : v = 0) by (cbn [Nat.div Nat.modulo Nat.divmod Nat.ltb Nat.leb fst snd Nat.sub Nat.add];
                unfold newton_acc; cbn [rsum Nat.eqb]; rewrite ?Q1, ?Q2; unfold comp, circle; cbn [Nat.mul Nat.add nth]; field); rewrite H; exact D0
            | let H := fresh in assert (H : v = - sin t) by (cbn [Nat.div Nat.modulo Nat.divmod Nat.ltb Nat.leb fst snd Nat.sub Nat.add];
                unfold newton_acc; cbn [rsum Nat.eqb]; rewrite ?Q1, ?Q2; unfold comp, circle; cbn [Nat.mul Nat.add nth]; field); rewrite H; exact D1
            | let H := fresh in assert (H : v = - - sin t) by (cbn [Nat.div Nat.modulo Nat.divmod Nat.ltb Nat.leb fst snd Nat.sub Nat.add];
                unfold newton_acc; cbn [rsum Nat.eqb]; rewrite ?Q1, ?Q2; unfold comp, circle; cbn [Nat.mul Nat.add nth]; field); rewrite H; exact D3
            | let H := fresh in assert (H : v = cos t) by (cbn [Nat.div Nat.modulo Nat.divmod Nat.ltb Nat.leb fst snd Nat.sub Nat.add];
                unfold newton_acc; cbn [rsum Nat.eqb]; rewrite ?Q1, ?Q2; unfold comp, circle; cbn [Nat.mul Nat.add nth]; field); rewrite H; exact D2
            | let H := fresh in assert (H : v = - cos t) by (cbn [Nat.div Nat.modulo Nat.divmod Nat.ltb Nat.leb fst snd Nat.sub Nat.add];
                unfold newton_acc; cbn [rsum Nat.eqb]; rewrite ?Q1, ?Q2; unfold comp, circle; cbn [Nat.mul Nat.add nth]; field); rewrite H; exact D4 ] end|]).
  lia.
Qed.

(** The weights of every other tableau of the repository add up to one ([C29_tables_consistent]). *)
Theorem C82_no_defect : forall s, consistent s -> defect s = 0.
Proof.
  induction s; intros H; try reflexivity; cbn [defect consistent] in *.
  - destruct H as [-> _]. rewrite Rminus_diag_eq by reflexivity. apply Rabs_R0.
  - auto.
Qed.
Print Assumptions C82_no_defect.
