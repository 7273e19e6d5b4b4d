(** What the parallel loop of one force evaluation leaves, for each engine of the factory. *)
From Coq Require Import ZArith List Arith NArith.
From Verif Require Import Num Arr ModelVertex ModelEngine ModelParallel ModelBlock ModelAH ModelTree ModelHeap ModelBH
  ModelArgs ModelObject ModelOmpForce SpecPar.
Import ListNotations.
Set Implicit Arguments.

Section S.
  Context {T : Type} (U : NumOps T) (n : nat) (mass : list T)
          (split : nat -> T -> list T -> nat -> nat -> list nat -> list nat).

  (** the bodies in the second half of a heap's arrays *)
  Definition leaf_bodies (h : heap (T := T)) : list (option nat) :=
    map (@c_body T) (skipn (length h / 2) h).

  (** In the call of [fcompute] that turns the engine's state [q] into [q'], every schedule of its parallel
      loop is finite, free of races and of accesses out of bounds, and leaves [f'] in the result buffer
      (and the lists of the Ahmad-Cohen engine in [q']). *)
  Definition loop_leaves (o : engine_object (T := T)) (q : @object_state T) (step : nat) (y f : list T)
    (q' : @object_state T) (f' : list T) : Prop :=
    let from_f loop := every_schedule loop [f; y; mass] (fun m => m = [f'; y; mass]) in
    let bodies_or_leaves tv traverse h :=
      match tv with
      | ett_cycle => from_f (omp_bh_loop U traverse n)
      | ett_nested_tree => from_f (omp_visit_loop U traverse h n)
      end in
    match o, q, q' with
    | ESimple, _, _ | EBhTree _ ett_nested_tree _, _, _ => True
    | EOpenmp, _, _ => from_f (map (omp_fcompute U 0 1 2 n) (seq 0 n))
    | EBlock, _, _ => from_f (omp_block_loop U NBODY_DATA_BLOCK_SIZE n)
    | EAh rate d m, QAh s, QAh s' =>
        if Nat.eqb (step mod N.to_nat rate) 0
        then every_schedule (omp_ah_full_loop U d m n)
               (ah_mem f y mass (mkAH (repeat (vzero U) n) (repeat [] n))) (fun m => m = ah_mem f' y mass s')
        else every_schedule (omp_ah_sparse_loop U n) (ah_mem f y mass s) (fun m => m = ah_mem f' y mass s')
    | EBhTree _ ett_cycle _, _, QTree (Some t) => from_f (omp_bh_loop U (tree_traverse U t) n)
    | EBhHeap _ tv _, _, QHeap h => bodies_or_leaves tv (heap_traverse U h) h
    | EBhHeapStackless _ tv _, _, QHeap h => bodies_or_leaves tv (stackless_traverse U next_down_gcc_nat h) h
    | _, _, _ => False
    end.

  (** the calls of [fcompute] in the life of an engine: step counter, time, state, result buffer *)
  Fixpoint every_call (o : engine_object (T := T)) (q : @object_state T) (calls : list (nat * T * list T * list T))
    : Prop :=
    match calls with
    | [] => True
    | (step, t, y, f) :: calls =>
        exists q' f', object_ef U n mass split o q step t y f = Some (q', f') /\
          loop_leaves o q step y f q' f' /\ every_call o q' calls
    end.
End S.
