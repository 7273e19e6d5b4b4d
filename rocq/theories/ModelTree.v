(** Pointer tree of the Barnes-Hut engine: nbody/nbody_space_tree.h, nbody/nbody_space_tree.cpp.

    [std::nth_element] is an oracle [split idx dim l]: the order in which it leaves the list [l] of
    body numbers when it is called for the node [idx] (numbered like the heap: root 1, children 2i
    and 2i+1) and dimension [dim].  The theorems assume only that it permutes [l].  A sub-array
    [indites, indites + count) is the list of its elements.  OpenMP tasks build the two subtrees,
    which touch disjoint data; here they are built one after the other. *)
From Coq Require Import ZArith List Arith.
From Verif Require Import Num Arr ModelVertex ModelForce ModelEngine.
Import ListNotations.
Set Implicit Arguments.

(** nbody_space_tree.h:6 and 10 *)
Definition SPACE_DIMENSIONS : nat := 3.
Definition MAX_STACK_SIZE : nat := 64.

Section Tree.
  Context {T : Type} (N : NumOps T).

  (** nbody_space_tree.h:20-24: centre of mass, mass, critical radius squared, bounding box *)
  Record payload : Type := Pay {
    p_center : vec3 T; p_mass : T; p_rad : T; p_bmin : vec3 T; p_bmax : vec3 T }.

  (** nbody_space_tree.h:15-36: [m_left] and [m_right] are both null (leaf, [m_body_n] set) or both
      set (inner node, [m_body_n = TREE_NO_BODY]) *)
  Inductive tree : Type :=
  | Leaf (p : payload) (body : nat)
  | Node (p : payload) (l r : tree).

  Definition pay (t : tree) : payload := match t with Leaf p _ => p | Node p _ _ => p end.
  Definition node_body (t : tree) : option nat := match t with Leaf _ b => Some b | Node _ _ _ => None end.

  Fixpoint tree_nodes (t : tree) : nat :=
    match t with Leaf _ _ => 1 | Node _ l r => S (tree_nodes l + tree_nodes r) end.

  (** std::min(a, b), std::max(a, b) *)
  Definition nmin (a b : T) : T := if nltb N b a then b else a.
  Definition nmax (a b : T) : T := if nltb N a b then b else a.
  Definition vmin (a b : vec3 T) : vec3 T :=
    V3 (nmin (vx a) (vx b)) (nmin (vy a) (vy b)) (nmin (vz a) (vz b)).
  Definition vmax (a b : vec3 T) : vec3 T :=
    V3 (nmax (vx a) (vx b)) (nmax (vy a) (vy b)) (nmax (vz a) (vz b)).

  (** nbody_space_tree.cpp:54-62 with the constructor's [m_radius_sqr(0)] (line 22) *)
  Definition leaf_payload (count : nat) (y mass : list T) (b : nat) : option payload :=
    let* c := rd3 y count 0 b in
    let* m := rd mass b in
    Some (Pay c m (nlit N 0) c c).

  (** nbody_space_tree.cpp:33-47, [node::update] *)
  Definition merge (ratio_sqr : T) (l r : payload) : payload :=
    let m := nadd N (p_mass l) (p_mass r) in
    let c := vdivs N (vadd N (vscale N (p_center l) (p_mass l)) (vscale N (p_center r) (p_mass r))) m in
    let bmin := vmin (p_bmin l) (p_bmin r) in
    let bmax := vmax (p_bmax l) (p_bmax r) in
    let radius := nadd N (nmul N (vlength N (vsub N bmax bmin)) (ndiv N (nlit N 1) (nlit N 2)))
                         (vlength N (vsub N (vdivs N (vadd N bmax bmin) (nlit N 2)) c)) in
    Pay c m (nmul N (nmul N radius radius) ratio_sqr) bmin bmax.

  (** nbody_space_tree.cpp:49-106, [node::build].  With an empty list the code recurses forever:
      every fuel runs out. *)
  Fixpoint tbuild (split : nat -> nat -> list nat -> list nat) (count : nat) (y mass : list T)
    (ratio_sqr : T) (fuel dim idx : nat) (inds : list nat) : option tree :=
    match fuel with
    | O => None
    | S fuel =>
        if Nat.eqb (length inds) 1 then
          let* b := rd inds 0 in
          let* p := leaf_payload count y mass b in
          Some (Leaf p b)
        else
          let left_size := length inds / 2 in
          let inds := split idx dim inds in
          let dim := (dim + 1) mod SPACE_DIMENSIONS in
          let* l := tbuild split count y mass ratio_sqr fuel dim (2 * idx) (firstn left_size inds) in
          let* r := tbuild split count y mass ratio_sqr fuel dim (2 * idx + 1) (skipn left_size inds) in
          Some (Node (merge ratio_sqr (pay l) (pay r)) l r)
    end.

  (** nbody_space_tree.cpp:172-188, [build] *)
  Definition tree_build (split : nat -> nat -> list nat -> list nat) (count : nat)
    (y mass : list T) (ratio : T) : option tree :=
    tbuild split count y mass (nmul N ratio ratio) (S count) 0 1 (seq 0 count).

  (** nbody_space_tree.cpp:108-135, [node::rebuild] *)
  Fixpoint trebuild (count : nat) (y : list T) (ratio_sqr : T) (t : tree) : option tree :=
    match t with
    | Leaf p b =>
        let* c := rd3 y count 0 b in
        Some (Leaf (Pay c (p_mass p) (p_rad p) c c) b)
    | Node _ l r =>
        let* l := trebuild count y ratio_sqr l in
        let* r := trebuild count y ratio_sqr r in
        Some (Node (merge ratio_sqr (pay l) (pay r)) l r)
    end.
  (** nbody_space_tree.cpp:190-197, [rebuild] *)
  Definition tree_rebuild (count : nat) (y : list T) (ratio : T) (t : tree) : option tree :=
    trebuild count y (nmul N ratio ratio) t.

  (** pushing onto the fixed array of MAX_STACK_SIZE entries; beyond it the write is undefined *)
  Definition push {A : Type} (x : A) (s : list A) : option (list A) :=
    if Nat.ltb (length s) MAX_STACK_SIZE then Some (x :: s) else None.

  (** nbody_space_tree.cpp:137-170, [traverse]: the loop over the stack; [visit] is its treatment of
      one node, returning whether the node was accepted *)
  Fixpoint stack_loop {A : Type} (visit : payload -> A -> A * bool) (fuel : nat)
    (stack : list tree) (st : A) : option A :=
    match stack with
    | [] => Some st
    | t :: stack =>
        match fuel with
        | O => None
        | S fuel =>
            let (st, accepted) := visit (pay t) st in
            if accepted then stack_loop visit fuel stack st
            else
              match t with
              | Leaf _ _ => stack_loop visit fuel stack st
              | Node _ l r =>
                  let* stack := push r stack in
                  let* stack := push l stack in
                  stack_loop visit fuel stack st
              end
        end
    end.

  (** nbody_space_tree.cpp:151-156: accept when the squared distance exceeds the critical radius *)
  Definition bh_accept (v1 : vec3 T) (p : payload) : bool :=
    nltb N (p_rad p) (vnorm N (vsub N v1 (p_center p))).
  Definition bh_visit (v1 : vec3 T) (mass1 : T) (p : payload) (total_force : vec3 T)
    : vec3 T * bool :=
    if bh_accept v1 p
    then (vadd N total_force (force N v1 (p_center p) mass1 (p_mass p)), true)
    else (total_force, false).

  Definition tree_traverse (t : tree) (v1 : vec3 T) (mass1 : T) : option (vec3 T) :=
    let* stack := push t [] in
    stack_loop (bh_visit v1 mass1) (tree_nodes t) stack (vzero N).

  (** nbody_space_tree.h:51-78: the visitor traversal; a node whose critical radius is not positive
      is handed to the visitor with its [m_body_n] ([None] = TREE_NO_BODY) *)
  Fixpoint tree_visit {A : Type} (visit : option nat -> payload -> A -> option A) (fuel : nat)
    (stack : list tree) (st : A) : option A :=
    match stack with
    | [] => Some st
    | t :: stack =>
        match fuel with
        | O => None
        | S fuel =>
            if nltb N (nlit N 0) (p_rad (pay t)) then
              match t with
              | Leaf _ _ => tree_visit visit fuel stack st
              | Node _ l r =>
                  let* stack := push l stack in
                  let* stack := push r stack in
                  tree_visit visit fuel stack st
              end
            else
              let* st := visit (node_body t) (pay t) st in
              tree_visit visit fuel stack st
        end
    end.
End Tree.
