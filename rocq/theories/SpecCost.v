(** What the steps of the solvers cost: vocabulary. *)
From Coq Require Import List Arith.
From Verif Require Import Num ModelButcher ModelSolver SpecSolver.
Import ListNotations.
Set Implicit Arguments.

(** 1 + s + s^2 + ... + s^r *)
Fixpoint geometric (s r : nat) : nat := match r with 0 => 1 | S r' => 1 + s * geometric s r' end.
Definition sum (l : list nat) : nat := fold_right Nat.add 0 l.

(** one pass over the stages: an implicit tableau makes [refine] of them *)
Definition rk_pass {T : Type} (p : @rk_params T) : nat :=
  (if bt_implicit (rp_table p) then rp_refine p else 1) * bt_steps (rp_table p).
(** the first approximation of the stages of an implicit tableau, made once *)
Definition rk_start {T : Type} (p : @rk_params T) (k : nat) : nat :=
  if bt_implicit (rp_table p) then match k with 0 => 1 + bt_steps (rp_table p) | _ => 0 end else 0.
(** the first [levels] levels of Bulirsch-Stoer: 2, 4, 6, 8, 12 ... substeps of the modified midpoint rule with one more evaluation at
    the start of each *)
Definition bs_cost (levels : nat) : nat := sum (map (fun l => 2 * bs_seq l + 1) (seq 0 levels)).

(** The least and the largest number of force evaluations in the step number [k] (counted from 0) of a solver. *)
Fixpoint least {T : Type} (s : @solver T) (k : nat) : nat :=
  match s with
  | SEuler _ => 1
  | SMidpoint _ => 2
  | SStetter _ => match k with 0 => 3 | _ => 2 end
  | SRk4 _ => 4
  | STrapeze refine _ => 2 + refine
  | SButcher p _ => rk_start p k + rk_pass p
  | SBs p _ => bs_cost (Nat.min 3 (bp_max_level p))
  | SAdams p starter _ _ => 1 + (if Nat.leb k (ap_rank p) then least starter k else 0)
  end.
Fixpoint most {T : Type} (s : @solver T) (k : nat) : nat :=
  match s with
  | SEuler _ => 1
  | SMidpoint _ => 2
  | SStetter _ => match k with 0 => 3 | _ => 2 end
  | SRk4 _ => 4
  | STrapeze refine _ => 2 + refine
  | SButcher p _ => rk_start p k +
      rk_pass p * (if bt_embedded (rp_table p) then geometric (rp_subdivisions p) (rp_max_recursion p) else 1)
  | SBs p _ => bs_cost (bp_max_level p)
  | SAdams p starter _ _ => 1 + (if Nat.leb k (ap_rank p) then most starter k else 0)
  end.
(** the solver never chooses how often to evaluate *)
Fixpoint fixed_cost {T : Type} (s : @solver T) : Prop :=
  match s with
  | SButcher p _ => bt_embedded (rp_table p) = false \/ rp_max_recursion p = 0
  | SBs p _ => bp_max_level p <= 3
  | SAdams _ starter _ _ => fixed_cost starter
  | _ => True
  end.
