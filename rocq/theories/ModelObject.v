(** The engine object made by the factory (nbody/nbody_engines.cpp) as a solver sees it: its private
    state and [fcompute].

    A member that an engine keeps between two calls of [fcompute] is in [object_state]; the engines
    without such a member have [QNone].  [split step t y] is what std::nth_element does in the call
    with this step counter, time and state. *)
From Coq Require Import ZArith List Arith NArith.
From Verif Require Import Num Arr ModelVertex ModelForce ModelEngine ModelBlock ModelAH ModelTree ModelHeap ModelBH ModelText
  ModelArgs ModelSolverBase.
Import ListNotations.
Set Implicit Arguments.

Section Object.
  Context {T : Type} (U : NumOps T) (n : nat) (mass : list T)
          (split : nat -> T -> list T -> nat -> nat -> list nat -> list nat).

  (** nbody_engine_ah.h:14 ([m_adjacent_body]); nbody_engine_simple_bh.h:50, 62, 74 ([m_tree]) *)
  Inductive object_state :=
  | QNone | QAh (s : ah_state T) | QTree (t : option (tree (T := T))) | QHeap (h : heap (T := T)).

  (** the state after construction and [init] *)
  Definition object_start (o : engine_object (T := T)) : object_state :=
    match o with
    | EAh _ _ _ => QAh ah_init
    | EBhTree _ _ _ => QTree None
    | EBhHeap _ _ _ | EBhHeapStackless _ _ _ => QHeap []
    | _ => QNone
    end.

  (** the virtual call [fcompute]: nbody_engine_simple.cpp:116-173, nbody_engine_openmp.cpp:20-77 (run in
      index order), nbody_engine_block.cpp:14-126, nbody_engine_ah.cpp:16-41,
      nbody_engine_simple_bh.cpp:15-93; the stackless heap with the bit trick of the gcc build
      (nbody_space_heap_func_priv.h:34-57) *)
  Definition object_ef (o : engine_object (T := T)) (q : object_state) (step : nat) (t : T) (y f : list T)
    : option (object_state * list T) :=
    match o, q with
    | ESimple, _ | EOpenmp, _ => let* f := simple_fcompute U n mass y f in Some (q, f)
    | EBlock, _ => let* f := block_fcompute U n mass y f in Some (q, f)
    | EAh rate d m, QAh s =>
        let* (f, s) := ah_fcompute U d m (N.to_nat rate) step n mass y f s in Some (QAh s, f)
    | EBhTree ratio tv rate, QTree t0 =>
        let* (f, t1) := bh_tree_fcompute U (split step t y) ratio tv (N.to_nat rate) step n mass y f t0 in
        Some (QTree t1, f)
    | EBhHeap ratio tv rate, QHeap h =>
        let* (f, h) := bh_heap_fcompute U (heap_traverse U) (split step t y) ratio tv (N.to_nat rate) step n
                         mass y f h in
        Some (QHeap h, f)
    | EBhHeapStackless ratio tv rate, QHeap h =>
        let* (f, h) := bh_heap_fcompute U (stackless_traverse U next_down_gcc_nat) (split step t y) ratio tv
                         (N.to_nat rate) step n mass y f h in
        Some (QHeap h, f)
    | _, _ => None
    end.

  (** nbody_engine_simple.cpp:22-55, [init]: the engine with the state [y], time and step counter of its
      nbody_data: 0 and 0 (nbody_data.cpp:20-21), or those of a stream's last frame
      (nbody_data_stream_reader.cpp:326-327) *)
  Definition object_engine (o : engine_object (T := T)) (y : list T) (t : T) (step : nat) : @eng T object_state :=
    mkEng y t step (object_start o) 0.
End Object.
