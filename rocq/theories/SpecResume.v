(** Vocabulary for runs that are stopped and resumed. *)
From Coq Require Import ZArith List Arith.
From Verif Require Import Num Arr ModelEngine ModelSolverBase ModelButcher ModelExtrap ModelSolver ModelRun.
Import ListNotations.
Set Implicit Arguments.

Section Memory.
  Context {T : Type} (U : NumOps T).

  (** every stage but the first of an explicit tableau has a weight that is not zero *)
  Definition live (t : table T) (dt : T) : Prop := forall i, 0 < i < bt_steps t ->
    exists row j a, nth_error (bt_a t) i = Some row /\ j < i /\ nth_error row j = Some a /\
      neqb U (nmul U dt a) (nlit U 0) = false.
  (** the length of a substep after [k] subdivisions into [n] parts *)
  Fixpoint subdivided (n k : nat) (dt : T) : T :=
    match k with
    | O => dt
    | S k => subdivided n k (ndiv U dt (nnat U n))
    end.

  (** the solvers whose step depends on nothing but the engine's state: no stored derivatives
      (Adams, midpoint-st, implicit tableaus), no stored correction *)
  Definition memoryless (dt : T) (s : @solver T) : Prop :=
    match s with
    | SEuler _ | SMidpoint _ | SRk4 _ | STrapeze _ _ | SBs _ _ => True
    | SButcher p _ =>
        bt_implicit (rp_table p) = false /\ rp_correction p = false /\
        forall k, k <= rp_max_recursion p -> live (rp_table p) (subdivided (rp_subdivisions p) k dt)
    | SStetter _ | SAdams _ _ _ _ => False
    end.

  (** the same kind of solver with the same parameters; buffers may differ *)
  Definition same_kind (s1 s2 : @solver T) : Prop :=
    match s1, s2 with
    | SEuler _, SEuler _ | SMidpoint _, SMidpoint _ | SRk4 _, SRk4 _ => True
    | STrapeze r1 _, STrapeze r2 _ => r1 = r2
    | SBs p1 _, SBs p2 _ => p1 = p2
    | SButcher p1 _, SButcher p2 _ => p1 = p2
    | _, _ => False
    end.
End Memory.

(** The derivative an engine computes depends on nothing but the step counter, the time and the
    state vector, whatever its private state and the contents of the result buffer. *)
Definition stateless {T E : Type} (ps : nat)
  (ef : E -> nat -> T -> list T -> list T -> option (E * list T)) : Prop :=
  exists F : nat -> T -> list T -> list T, forall q step t y f, length y = ps -> length f = ps ->
    length (F step t y) = ps /\ exists q', ef q step t y f = Some (q', F step t y).

(** the engine holds the frame [f] *)
Definition holds_frame {T E : Type} (e : @eng T E) (f : frame T) : Prop :=
  e_y e = fr_y f /\ e_time e = fr_time f /\ e_step e = fr_step f.

(** Every stage of an explicit tableau without correction is given a state to evaluate: some weight of its row does not vanish, at any of the step lengths
    a step of length [dt] may be divided into. *)
Fixpoint set_stages {T : Type} (U : NumOps T) (dt : T) (s : @solver T) : Prop :=
  match s with
  | SButcher p _ => bt_implicit (rp_table p) = false -> rp_correction p = false ->
      forall k, k <= rp_max_recursion p -> (0 < k -> 0 < rp_subdivisions p) ->
        live U (rp_table p) (subdivided U (rp_subdivisions p) k dt)
  | SAdams _ starter _ _ => set_stages U dt starter
  | _ => True
  end.
