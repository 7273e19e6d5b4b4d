(** The errors of a report: vocabulary. *)
From Coq Require Import ZArith Reals List Arith SpecFloat.
From Verif Require Import Num ModelVertex ModelStat.
Import ListNotations.
Set Implicit Arguments.

(** the numbers of the arithmetic of the machine that are neither infinite nor "not a number" *)
Definition F_finite (x : spec_float) : bool := match x with S754_zero _ | S754_finite _ _ _ => true | _ => false end.

(** the state of the report after any number of reports, of any frames, with one check list *)
Inductive reported {T : Type} (N : NumOps T) (chk : checks) : nat -> @stat T -> Prop :=
| reported_new : reported N chk 0 (stat_new N)
| reported_next n st count vrt vel mass st' : reported N chk n st ->
    print_statistics N chk count vrt vel mass st = Some st' -> reported N chk (S n) st'.

Local Open Scope R_scope.
(** Euclidean length *)
Definition norm3 (v : vec3 R) : R := sqrt (vx v * vx v + vy v * vy v + vz v * vz v).
Definition diff3 (v w : vec3 R) : vec3 R := V3 (vx v - vx w) (vy v - vy w) (vz v - vz w).
(** [p] is the change of a quantity of size [size] by [change], in per cent *)
Definition per_cent (p change size : R) : Prop := p * size = 100 * change.
