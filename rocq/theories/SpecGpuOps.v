(** When the memories of several devices stand for the buffers of one engine. *)
From Coq Require Import ZArith List Arith.
From Verif Require Import Num Arr ModelEngine ModelParallel SpecGpu ModelGpuOps ModelSolverBase ModelSolver.
Import ListNotations.
Set Implicit Arguments.

Section S.
  Context {T : Type}.

  (** Device [dev] of [D] holds a copy of every buffer of [s] (of [size] cells each), and its copies
      are right in the cells that belong to it: the [dev]-th of [D] equal segments. *)
  Definition holds_part (D size dev : nat) (m s : mem T) : Prop :=
    buffers m (length s) size /\
    forall a i, a < length s -> dev * (size / D) <= i < (dev + 1) * (size / D) -> mrd m a i = mrd s a i.

  Definition assembled (D size : nat) (ms : list (mem T)) (s : mem T) : Prop :=
    length ms = D /\ forall dev, dev < D -> holds_part D size dev (nth dev ms []) s.

  (** What the engines rely on: the operands of [fmaddn_corr] are different buffers, and so are the
      arguments of [fcompute]. *)
  Definition op_ok (o : gop T) : Prop :=
    match o with
    | OFmaddnCorr a corr b _ => a <> corr /\ ~ In a b /\ ~ In corr b
    | OFcompute y f => y <> f
    | _ => True
    end.
  Fixpoint client_ok (p : client T) : Prop :=
    match p with
    | Done => True
    | Do o k => op_ok o /\ client_ok k
    | MaxAbs _ k => forall r, client_ok (k r)
    | ReadBuffer _ k => forall x, client_ok (k x)
    end.
  (** a client that never asks for [fmaxabs] (a solver with a fixed step) *)
  Fixpoint no_max (p : client T) : Prop :=
    match p with
    | Done => True
    | Do _ k => no_max k
    | MaxAbs _ _ => False
    | ReadBuffer _ k => forall x, no_max (k x)
    end.
End S.

(** ** A solver as a client: the midpoint method (nbody_solver_midpoint.cpp:22-40) for any sequence
    of steps.  Buffers: 0 = the state, 1 = [m_k1], 2 = [m_k2], 3 = [m_tmp]. *)
Section Midpoint.
  Context {T : Type} (U : NumOps T).
  Fixpoint midpoint_client (dts : list T) : client T :=
    match dts with
    | [] => Done
    | dt :: r =>
        Do (OFcompute 0 1) (Do (OFmadd 3 0 1 (ndiv U dt (nlit U 2)))
          (Do (OFcompute 3 2) (Do (OFmaddInplace 0 2 dt) (midpoint_client r))))
    end.

  Context (count : nat) (force : list T -> list T -> option (list T)) (garbage : nat -> list T).
  Let ef (e : unit) (_ : nat) (_ : T) (y f : list T) : option (unit * list T) :=
    let* f := force y f in Some (e, f).
  Fixpoint midpoint_steps (dts : list T) (s : midpoint (T := T)) (e : eng (T := T) (E := unit))
    : option (midpoint (T := T) * eng (T := T) (E := unit)) :=
    match dts with
    | [] => Some (s, e)
    | dt :: r =>
        match midpoint_advise U (problem_size count) ef garbage dt (Some s) e with
        | Some (Some s, e) => midpoint_steps r s e
        | _ => None
        end
    end.
End Midpoint.
