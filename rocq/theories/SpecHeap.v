(** Vocabulary for the statements about heap layouts and the Barnes-Hut engines. *)
From Coq Require Import ZArith List Arith Permutation.
From Verif Require Import Num Arr ModelVertex ModelTree ModelHeap ModelBH SpecTree.
Import ListNotations.
Set Implicit Arguments.

(** the nodes a recursive walk visits below node [idx] of a complete binary tree with [d] further
    levels, when it does not descend below nodes in [acc]: node, left subtree, right subtree *)
Fixpoint preorder (acc : nat -> bool) (d idx : nat) : list nat :=
  idx :: if acc idx then []
         else match d with
              | O => []
              | S d => preorder acc d (2 * idx) ++ preorder acc d (2 * idx + 1)
              end.

Section Heap.
  Context {T : Type} (N : NumOps T).
  Notation tree := (tree (T := T)).
  Notation heap := (heap (T := T)).

  (** the subtree at cell [idx] of the array is [t]: children at [2*idx] and [2*idx+1], only leaves
      carry a body number *)
  Fixpoint repr (h : heap) (idx : nat) (t : tree) : Prop :=
    match t with
    | Leaf p b => rd h idx = Some (Cell p (Some b))
    | Node p l r => rd h idx = Some (Cell p None) /\ repr h (2 * idx) l /\ repr h (2 * idx + 1) r
    end.

  (** one evaluation of the right-hand side *)
  Record bcall : Type := BCall {
    bc_step : nat; bc_split : nat -> nat -> list nat -> list nat; bc_y : list T; bc_f : list T }.

  (** the derivatives returned by a sequence of evaluations; [s] is the tree kept by the engine *)
  Fixpoint run_tree (ratio : T) (tt : traverse_type) (rate n : nat) (mass : list T)
    (calls : list bcall) (s : option tree) : option (list (list T)) :=
    match calls with
    | [] => Some []
    | c :: calls =>
        let* r := bh_tree_fcompute N (bc_split c) ratio tt rate (bc_step c) n mass (bc_y c) (bc_f c) s in
        let* fs := run_tree ratio tt rate n mass calls (snd r) in
        Some (fst r :: fs)
    end.
  Fixpoint run_heap (trav : heap -> vec3 T -> T -> option (vec3 T)) (ratio : T)
    (tt : traverse_type) (rate n : nat) (mass : list T)
    (calls : list bcall) (s : heap) : option (list (list T)) :=
    match calls with
    | [] => Some []
    | c :: calls =>
        let* r := bh_heap_fcompute N trav (bc_split c) ratio tt rate (bc_step c) n mass (bc_y c) (bc_f c) s in
        let* fs := run_heap trav ratio tt rate n mass calls (snd r) in
        Some (fst r :: fs)
    end.

  Definition good_call (n : nat) (c : bcall) : Prop :=
    permuting (bc_split c) /\ 6 * n <= length (bc_y c) /\ 6 * n <= length (bc_f c).
End Heap.
