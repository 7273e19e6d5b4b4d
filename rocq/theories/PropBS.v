(** Property of the Bulirsch-Stoer solver: C72. *)
From Coq Require Import ZArith QArith Reals List Arith Lia Lra.
From Verif Require Import Num Arr SpecPhys ModelSolverBase ModelExtrap ModelSolver LemOk SpecSolver SpecBS
  LemOrder LemExact LemBS.
Import ListNotations.
Local Open Scope R_scope.

(** ** C72: what a Bulirsch-Stoer solver computes.

    For an engine whose right-hand side is a function of time and state, every step of every history
    ends at t + dt with: the state unchanged if the solver may use no level; the raw Stetter result of
    2 or 4 substeps, not extrapolated, if it may use 1 or 2 levels; otherwise the extrapolation of the
    levels 0 ... l, where l is the first level from 2 on whose error estimate is below the threshold,
    or the last allowed level. *)
Theorem C72_result : forall (E : Type) mind ps
    (ef : E -> nat -> R -> list R -> list R -> option (E * list R)) garbage F (e : @eng R E) dts p,
  (0 < ps)%nat -> (forall n, length (garbage n) = ps) ->
  (forall t y, length y = ps -> length (F t y) = ps) ->
  (forall q step t y f, length y = ps -> length f = ps -> ef q step t y f = Some (q, F t y)) ->
  length (e_y e) = ps ->
  exists r, advise_all (Rops mind) ps ef garbage dts (SBs p None) e = Some r /\
    bs_history ps F (bp_max_level p) (bp_threshold p) (e_time e) (e_y e) dts
      (e_time (snd r)) (e_y (snd r)).
Proof.
  intros E mind ps ef garbage F e dts p H1 H2 H3 H4 H6. apply ok_exists.
  apply (@bs_all E mind ps ef garbage F H1 H2 H3 H4 p dts None e (e_time e) (e_y e)).
  - intros b X. discriminate.
  - repeat split. exact H6.
Qed.
Print Assumptions C72_result.

(** y' = t y in one coordinate: the hypotheses hold *)
Definition grow (t : R) (y : list R) : list R := map (fun v => t * v) y.
Definition grow_ef (q : unit) (step : nat) (t : R) (y f : list R) : option (unit * list R) := Some (q, grow t y).
Example C72_example : forall mind dts p,
  exists r, advise_all (Rops mind) 1 grow_ef (fun _ => [7]) dts (SBs p None) (mkEng [1] 3 0 tt 0) = Some r /\
    bs_history 1 grow (bp_max_level p) (bp_threshold p) 3 [1] dts (e_time (snd r)) (e_y (snd r)).
Proof.
  intros mind dts p.
  apply (@C72_result unit mind 1 grow_ef (fun _ => [7]) grow (mkEng [1] 3 0 tt 0) dts p); auto.
  intros t y H. unfold grow. now rewrite map_length.
Qed.

(** a step of y' = y with 5 levels, in exact rational arithmetic: with a threshold of 1/1000 the
    solver stops at level 2, with 0 it goes on to level 4; with one level the result is Stetter's with
    two substeps, and with no level the clock moves but the state does not *)
Definition self_ef (q : unit) (step : nat) (t : Q) (y f : list Q) : option (unit * list Q) := Some (q, y).
Definition bs_run (L : nat) (thr : Q) : option (list Q * Q) :=
  let* (s, e) := bs_advise Qops 1 self_ef (fun _ => [7%Q]) (mkBsParams L thr) 1%Q None (mkEng [1%Q] 0%Q 0 tt 0) in
  Some (map Qred (e_y e), Qred (e_time e)).
Example C72_run :
  bs_run 5 (1 # 1000) = bs_run 3 (0 # 1) /\ bs_run 5 (0 # 1) <> bs_run 3 (0 # 1) /\
  bs_run 1 (0 # 1) = Some ([(689 # 256)%Q], 1%Q) /\ bs_run 0 (0 # 1) = Some ([1%Q], 1%Q).
Proof. vm_compute. repeat split; congruence. Qed.
