(** The Barnes-Hut CPU engines: nbody/nbody_engine_simple_bh.h, nbody/nbody_engine_simple_bh.cpp.

    The [omp parallel for schedule(dynamic, 4)] loops over the bodies (nbody_engine_simple_bh.cpp:80,
    nbody_space_heap.h:35) are run in index order here; ModelOmpForce.v has them as parallel loops and C74
    shows that no other order differs. *)
From Coq Require Import ZArith List Arith.
From Verif Require Import Num Arr ModelVertex ModelForce ModelEngine ModelTree ModelHeap.
Import ListNotations.
Set Implicit Arguments.

Section BH.
  Context {T : Type} (N : NumOps T).

  (** nbody_engine_simple_bh.cpp:62-70, [update_f] *)
  Definition update_f (count : nat) (y : list T) (body1 : nat) (total_force : vec3 T) (mass1 : T)
    (f : list T) : option (list T) :=
    let* v := rd3 y count 3 body1 in
    let* f := wr3 f count 0 body1 v in
    wr3 f count 3 body1 (vdivs N total_force mass1).

  (** nbody_engine_simple_bh.cpp:72-76, [node_visitor]; body number TREE_NO_BODY ([None]) is far
      outside every array *)
  Definition node_visitor (traverse : vec3 T -> T -> option (vec3 T)) (count : nat)
    (mass y : list T) (body1 : option nat) (p : payload (T := T)) (f : list T) : option (list T) :=
    let* total_force := traverse (p_center p) (p_mass p) in
    let* body1 := body1 in
    let* m := rd mass body1 in
    update_f count y body1 total_force m f.

  (** nbody_engine_simple_bh.cpp:80-87 *)
  Definition bh_cycle (traverse : vec3 T -> T -> option (vec3 T)) (count : nat)
    (mass y f : list T) : option (list T) :=
    for_ count 0 (fun body1 f =>
      let* v1 := rd3 y count 0 body1 in
      let* mass1 := rd mass body1 in
      let* total_force := traverse v1 mass1 in
      update_f count y body1 total_force mass1 f) f.

  (** nbody_engine_simple_bh.h:7-11 *)
  Inductive traverse_type : Set := ett_cycle | ett_nested_tree.

  (** nbody_engine_simple_bh.cpp:53-54: build from scratch?  [step % 0] is never computed. *)
  Definition build_now (rate step : nat) (is_empty : bool) : bool :=
    (Nat.eqb rate 0 || is_empty || Nat.eqb (step mod rate) 0)%bool.

  (** nbody_engine_simple_bh.cpp:15-93 with the pointer tree ([None] = not built yet); returns the
      derivative and the tree kept by the engine *)
  Definition bh_tree_fcompute (split : nat -> nat -> list nat -> list nat) (ratio : T)
    (tt : traverse_type) (rate step count : nat) (mass y f : list T) (tree0 : option (tree (T := T)))
    : option (list T * option (tree (T := T))) :=
    let* t :=
      match tree0 with
      | None => tree_build N split count y mass ratio
      | Some t =>
          if build_now rate step false then tree_build N split count y mass ratio
          else tree_rebuild N count y ratio t
      end in
    let traverse := tree_traverse N t in
    let* f :=
      match tt with
      | ett_cycle => bh_cycle traverse count mass y f
      | ett_nested_tree =>
          let* stack := push t [] in
          tree_visit N (node_visitor traverse count mass y) (tree_nodes t) stack f
      end in
    Some (f, Some t).

  (** the same with a heap; [traverse] is [heap_traverse] (nbody_engine_simple_bh_heap) or
      [stackless_traverse nd] (nbody_engine_simple_bh_heap_stackless) *)
  Definition bh_heap_fcompute (traverse : heap (T := T) -> vec3 T -> T -> option (vec3 T))
    (split : nat -> nat -> list nat -> list nat) (ratio : T)
    (tt : traverse_type) (rate step count : nat) (mass y f : list T) (h0 : heap (T := T))
    : option (list T * heap (T := T)) :=
    let* h :=
      if build_now rate step (Nat.eqb (length h0) 0)
      then heap_build N split count y mass ratio h0
      else heap_rebuild N count y ratio h0 in
    let* f :=
      match tt with
      | ett_cycle => bh_cycle (traverse h) count mass y f
      | ett_nested_tree => heap_visit (node_visitor (traverse h) count mass y) h f
      end in
    Some (f, h).
End BH.
