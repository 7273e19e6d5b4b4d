(** Heap layouts of the Barnes-Hut engine: nbody/nbody_space_heap_func_priv.h,
    nbody/nbody_space_heap.h, nbody/nbody_space_heap.cpp, nbody/nbody_space_heap_stackless.cpp.

    The six vectors of the class always have the same size: they are one list of records. *)
From Coq Require Import ZArith NArith List Arith.
From Verif Require Import Num Arr ModelVertex ModelForce ModelEngine ModelTree.
Import ListNotations.
Set Implicit Arguments.

(** NBODY_HEAP_ROOT_INDEX, nbody_space_heap_func.h *)
Definition ROOT : nat := 1.

(** nbody_space_heap_func_priv.h:4-32 *)
Definition left_idx (i : nat) : nat := 2 * i.
Definition rght_idx (i : nat) : nat := 2 * i + 1.
Definition parent_idx (i : nat) : nat := i / 2.
Definition is_right (i : nat) : bool := Nat.odd i.
Definition left2right (i : nat) : nat := i + 1.

(** nbody_space_heap_func_priv.h:45-56, the portable loop of [next_down].  The loop halves the
    index, so [fuel = idx] is enough (index 0 is not "right"). *)
Fixpoint next_down_loop (fuel idx : nat) : option nat :=
  if is_right idx then
    match fuel with
    | O => None
    | S fuel =>
        let parent := parent_idx idx in
        if Nat.eqb parent ROOT then Some ROOT
        else next_down_loop fuel parent
    end
  else Some (left2right idx).
Definition next_down (idx : nat) : option nat := next_down_loop idx idx.

(** nbody_space_heap_func_priv.h:39-40, the variant compiled by gcc: [idx >> __builtin_ctz(~idx)]
    on 64-bit indices.  [__builtin_ctz] takes an [unsigned int], so only the low 32 bits of [~idx]
    count, and it is undefined when they are all zero. *)
Fixpoint ctz_pos (p : positive) : N :=
  match p with xO p => N.succ (ctz_pos p) | _ => 0%N end.
Definition bits32 : N := 32.
Definition low_not (w idx : N) : N := N.lxor (idx mod 2 ^ w) (N.ones w).
Definition next_down_gcc (idx : N) : option N :=
  match low_not bits32 idx with
  | N0 => None
  | Npos p => Some (N.shiftr idx (ctz_pos p) + 1)%N
  end.
(** nbody_space_heap_func_priv.h:37-38 (CUDA): [__ffs(~idx) - 1]; [__ffs] takes
    an [int].  With [~idx = 0] the shift count is -1: undefined. *)
Definition next_down_cuda (idx : N) : option N :=
  match low_not bits32 idx with
  | N0 => None
  | Npos p => Some (N.shiftr idx (N.pred (N.succ (ctz_pos p))) + 1)%N
  end.
(** the gcc variant on the heap's indices *)
Definition next_down_gcc_nat (idx : nat) : option nat :=
  option_map N.to_nat (next_down_gcc (N.of_nat idx)).

Section Heap.
  Context {T : Type} (N : NumOps T).

  (** nbody_space_heap.h:12-17: one element of m_mass_center, m_mass, m_radius_sqr, m_box_min,
      m_box_max and m_body_n ([None] = TREE_NO_BODY) *)
  Record cell : Type := Cell { c_pay : payload (T := T); c_body : option nat }.
  Definition heap : Type := list cell.

  Definition zero_payload : payload := Pay (vzero N) (nlit N 0) (nlit N 0) (vzero N) (vzero N).
  Definition cell0 : cell := Cell zero_payload None.

  (** std::vector::resize of the six vectors, then [std::fill(m_body_n, TREE_NO_BODY)]:
      nbody_space_heap.cpp:23-30 *)
  Definition heap_resize (size : nat) (h : heap) : heap :=
    map (fun c => Cell (c_pay c) None) (firstn size h ++ repeat cell0 (size - length h)).

  (** nbody_space_heap.cpp:119-134, [update] *)
  Definition heap_update (ratio_sqr : T) (idx left rght : nat) (h : heap) : option heap :=
    let* l := rd h left in
    let* r := rd h rght in
    let* c := rd h idx in
    wr h idx (Cell (merge N ratio_sqr (c_pay l) (c_pay r)) (c_body c)).

  (** nbody_space_heap.cpp:139-147: a leaf; the radius is not written *)
  Definition heap_leaf (count : nat) (y mass : list T) (idx b : nat) (h : heap) : option heap :=
    let* c := rd3 y count 0 b in
    let* m := rd mass b in
    let* old := rd h idx in
    wr h idx (Cell (Pay c m (p_rad (c_pay old)) c c) (Some b)).

  (** nbody_space_heap.cpp:136-191, [build_p] *)
  Fixpoint build_p (split : nat -> nat -> list nat -> list nat) (count : nat) (y mass : list T)
    (ratio_sqr : T) (fuel dim idx : nat) (inds : list nat) (h : heap) : option heap :=
    match fuel with
    | O => None
    | S fuel =>
        if Nat.eqb (length inds) 1 then
          let* b := rd inds 0 in
          heap_leaf count y mass idx b h
        else
          let left_size := length inds / 2 in
          let inds := split idx dim inds in
          let dim := (dim + 1) mod SPACE_DIMENSIONS in
          let left := left_idx idx in
          let rght := rght_idx idx in
          let* h := build_p split count y mass ratio_sqr fuel dim left (firstn left_size inds) h in
          let* h := build_p split count y mass ratio_sqr fuel dim rght (skipn left_size inds) h in
          heap_update ratio_sqr idx left rght h
    end.

  (** nbody_space_heap.cpp:13-37, [build]; heap_size = 2*count - 1 + NBODY_HEAP_ROOT_INDEX *)
  Definition heap_build (split : nat -> nat -> list nat -> list nat) (count : nat)
    (y mass : list T) (ratio : T) (h : heap) : option heap :=
    build_p split count y mass (nmul N ratio ratio) (S count) 0 ROOT (seq 0 count)
      (heap_resize (2 * count) h).

  (** nbody_space_heap.cpp:44-51: the leaf loop of [rebuild] *)
  Definition rebuild_leaf (count : nat) (y : list T) (k : nat) (h : heap) : option heap :=
    let idx := count + k in
    let* c := rd h idx in
    let* b := c_body c in
    let* v := rd3 y count 0 b in
    wr h idx (Cell (Pay v (p_mass (c_pay c)) (p_rad (c_pay c)) v v) (c_body c)).
  (** nbody_space_heap.cpp:52-61: the levels, [level_count] halved until it is 0 *)
  Fixpoint rebuild_levels (ratio_sqr : T) (fuel level_count : nat) (h : heap) : option heap :=
    match level_count with
    | O => Some h
    | S _ =>
        match fuel with
        | O => None
        | S fuel =>
            let* h := for_ (level_count - level_count / 2) (level_count / 2)
                        (fun idx h => heap_update ratio_sqr idx (left_idx idx) (rght_idx idx) h) h in
            rebuild_levels ratio_sqr fuel (level_count / 2) h
        end
    end.
  (** nbody_space_heap.cpp:39-62, [rebuild] *)
  Definition heap_rebuild (count : nat) (y : list T) (ratio : T) (h : heap) : option heap :=
    let* h := for_ count 0 (rebuild_leaf count y) h in
    rebuild_levels (nmul N ratio ratio) count count h.

  (** nbody_space_heap.cpp:64-97, [traverse]: stack of indices; [visit idx st] treats one node
      ([None] when it reads outside the arrays) and tells whether it was accepted *)
  Fixpoint heap_loop {A : Type} (visit : nat -> A -> option (A * bool)) (size fuel : nat)
    (stack : list nat) (st : A) : option A :=
    match stack with
    | [] => Some st
    | curr :: stack =>
        match fuel with
        | O => None
        | S fuel =>
            let* r := visit curr st in
            let (st, accepted) := r in
            if accepted : bool then heap_loop visit size fuel stack st
            else
              let* stack := if Nat.ltb (rght_idx curr) size then push (rght_idx curr) stack
                            else Some stack in
              let* stack := if Nat.ltb (left_idx curr) size then push (left_idx curr) stack
                            else Some stack in
              heap_loop visit size fuel stack st
        end
    end.

  (** nbody_space_heap_stackless.cpp:10-25: the do-while loop; [nd] is the compiled variant of
      [next_down] (undefined = [None]); [next_up] and [skip_idx] are
      nbody_space_heap_func_priv.h:59-72 *)
  Fixpoint stackless_loop {A : Type} (nd : nat -> option nat)
    (visit : nat -> A -> option (A * bool)) (size fuel curr : nat) (st : A) : option A :=
    match fuel with
    | O => None
    | S fuel =>
        let* r := visit curr st in
        let (st, accepted) := r in
        let* next :=
          if accepted : bool then nd curr
          else if Nat.ltb (left_idx curr) size then Some (left_idx curr) else nd curr in
        if Nat.eqb next ROOT then Some st else stackless_loop nd visit size fuel next st
    end.

  (** the treatment of a node in both loops: nbody_space_heap.cpp:76-81,
      nbody_space_heap_stackless.cpp:13-17 *)
  Definition heap_bh_visit (h : heap) (v1 : vec3 T) (mass1 : T) (curr : nat) (tf : vec3 T)
    : option (vec3 T * bool) :=
    let* c := rd h curr in Some (bh_visit N v1 mass1 (c_pay c) tf).

  Definition heap_traverse (h : heap) (v1 : vec3 T) (mass1 : T) : option (vec3 T) :=
    let* stack := push ROOT [] in
    heap_loop (heap_bh_visit h v1 mass1) (length h) (length h) stack (vzero N).

  Definition stackless_traverse (nd : nat -> option nat) (h : heap) (v1 : vec3 T) (mass1 : T)
    : option (vec3 T) :=
    stackless_loop nd (heap_bh_visit h v1 mass1) (length h) (length h) ROOT (vzero N).

  (** nbody_space_heap.h:31-41: the visitor traversal over the second half of the arrays *)
  Definition heap_visit {A : Type} (visit : option nat -> payload (T := T) -> A -> option A)
    (h : heap) (st : A) : option A :=
    for_ (length h - length h / 2) (length h / 2)
      (fun idx st => let* c := rd h idx in visit (c_body c) (c_pay c) st) st.
End Heap.
