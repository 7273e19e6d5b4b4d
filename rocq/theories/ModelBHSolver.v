(** The Barnes-Hut engines as a solver sees them ([ef] of [ModelSolverBase.v]): the private state is
    the tree kept between the calls.

    nbody_engine_simple_bh.cpp:15-93, nbody_engine_simple_bh_tree.h, nbody_engine_simple_bh_heap.h,
    nbody_engine_simple_bh_heap_stackless.h.  The order in which std::nth_element leaves the bodies
    is a function of the positions it is given ([split y]). *)
From Coq Require Import List.
From Verif Require Import Num Arr ModelVertex ModelForce ModelTree ModelHeap ModelBH ModelSolverBase.
Import ListNotations.
Set Implicit Arguments.

Section BHCalls.
  Context {T : Type} (N : NumOps T) (n : nat) (mass : list T).

  (** nbody_engine_simple_bh.cpp:15-93 with the pointer tree *)
  Definition bh_tree_ef (split : list T -> nat -> nat -> list nat -> list nat) (ratio : T) (tt : traverse_type)
    (rate : nat) (s : option (tree (T := T))) (step : nat) (t : T) (y f : list T)
    : option (option (tree (T := T)) * list T) :=
    let* (f, s) := bh_tree_fcompute N (split y) ratio tt rate step n mass y f s in Some (s, f).
  (** ... with a heap *)
  Definition bh_heap_ef (traverse : heap (T := T) -> vec3 T -> T -> option (vec3 T))
    (split : list T -> nat -> nat -> list nat -> list nat) (ratio : T) (tt : traverse_type)
    (rate : nat) (h : heap (T := T)) (step : nat) (t : T) (y f : list T)
    : option (heap (T := T) * list T) :=
    let* (f, h) := bh_heap_fcompute N traverse (split y) ratio tt rate step n mass y f h in Some (h, f).
End BHCalls.
