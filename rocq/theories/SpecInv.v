(** Conserved quantities of the motion: vocabulary. *)
From Coq Require Import Reals List Arith.
From Verif Require Import Num ModelVertex ModelEngine ModelStat SpecPhys SpecStat.
Import ListNotations.
Set Implicit Arguments.
Local Open Scope R_scope.

(** the program reports [r] of the state [y]: the bodies are fetched from the engine, all four checks are on *)
Definition reports (mind : R) (n : nat) (mass y : list R) (r : report) : Prop :=
  exists v0 w0 vrt vel, length v0 = n /\ length w0 = n /\ engine_get_data n y v0 w0 = Some (vrt, vel) /\
    totals (Rops mind) (Chk true true true true) n vrt vel mass = Some r.

(** the energy of a report *)
Definition energy_of (r : @report R) : R := rep_K r + rep_U r.

(** what the report leaves out: inside the minimum distance the force is that of the potential
    m m' (d^2 / (2 s^3) - 3 / (2 s)), s^2 the minimum distance, but the report counts zero *)
Definition left_out (mind : R) (n : nat) (mass y : list R) : R :=
  pair_sum n (fun i j => let d2 := dist2 (comp y n 0) (comp y n 1) (comp y n 2) i j in
    if Rlt_dec d2 mind then nth i mass 0 * nth j mass 0 * (d2 / (2 * mind * sqrt mind) - 3 / (2 * sqrt mind)) else 0).

(** no pair is closer than the minimum distance *)
Definition apart (mind : R) (n : nat) (y : list R) : Prop :=
  forall i j, (i < n)%nat -> (j < n)%nat -> i <> j -> mind <= dist2 (comp y n 0) (comp y n 1) (comp y n 2) i j.
