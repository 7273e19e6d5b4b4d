(** The parallel loops of the other CPU engines: nbody/nbody_engine_block.cpp:51-126,
    nbody/nbody_engine_ah.cpp:79-114 and 137-159, nbody/nbody_engine_simple_bh.cpp:80-87,
    nbody/nbody_space_heap.h:31-41.

    As in [ModelParallel] an iteration is a program whose actions are single reads and writes of
    shared memory.  The local arrays of an iteration are not shared.  The tree of the Barnes-Hut
    engines is not written by these loops ([traverse] is a const member function): walking it is
    a local computation, undefined ([None]) when the walk leaves its arrays. *)
From Coq Require Import ZArith List Arith.
From Verif Require Import Num Arr ModelVertex ModelForce ModelSum ModelEngine ModelParallel
  ModelBlock ModelAH ModelTree ModelHeap ModelBH.
Import ListNotations.
Set Implicit Arguments.

(** Shared arrays by number: 0 = the derivative [f], 1 = the state [y], 2 = the masses. *)
Section Plain.
  Context {T : Type} (N : NumOps T).

  (** undefined behaviour: an access outside every array *)
  Definition pfail : prog T := PRd 3 0 (fun _ => PRet).
  Definition plocal {A : Type} (x : option A) (k : A -> prog T) : prog T :=
    match x with Some a => k a | None => pfail end.

  (** nbody_engine_block.cpp:118-123, nbody_engine_simple_bh.cpp:64-69: velocities copied, the
      acceleration [a] stored *)
  Definition pput (count body : nat) (a : vec3 T) (k : prog T) : prog T :=
    PRd 1 (3 * count + body) (fun p => PWr 0 body p (
    PRd 1 (4 * count + body) (fun q => PWr 0 (count + body) q (
    PRd 1 (5 * count + body) (fun r => PWr 0 (2 * count + body) r (
    PWr 0 (3 * count + body) (vx a) (
    PWr 0 (4 * count + body) (vy a) (
    PWr 0 (5 * count + body) (vz a) k)))))))).

  Section Block.
    Variable block : nat.
    (** nbody_engine_block.cpp:60-70: the positions of the block at [n]; [q] elements left *)
    Fixpoint pblock_pos (count n q b : nat) (acc : list (vec3 T)) (k : list (vec3 T) -> prog T)
      : prog T :=
      match q with
      | O => k acc
      | S q => prd3 1 count 0 (b + n) (fun v => pblock_pos count n q (S b) (acc ++ [v]) k)
      end.
    (** nbody_engine_block.cpp:78-86: positions and masses of the block at [n] *)
    Fixpoint pblock_load (count n q b : nat) (acc : list (vec3 T)) (ms : list T)
      (k : list (vec3 T) -> list T -> prog T) : prog T :=
      match q with
      | O => k acc ms
      | S q => prd3 1 count 0 (b + n) (fun v => PRd 2 (n + b) (fun m =>
                 pblock_load count n q (S b) (acc ++ [v]) (ms ++ [m]) k))
      end.
    (** nbody_engine_block.cpp:71-113: [q] blocks left, the next one at [n2] *)
    Fixpoint pblocks (count : nat) (p1 : list (vec3 T)) (q n2 : nat) (tf : list (vec3 T))
      (k : list (vec3 T) -> prog T) : prog T :=
      match q with
      | O => k tf
      | S q => pblock_load count n2 block 0 [] [] (fun p2 m2 =>
                 plocal (block_pairs N block p1 p2 m2 tf) (fun tf =>
                   pblocks count p1 q (n2 + block) tf k))
      end.
    (** nbody_engine_block.cpp:115-124: [q] elements left *)
    Fixpoint pblock_put (count n1 : nat) (tf : list (vec3 T)) (q b : nat) : prog T :=
      match q with
      | O => PRet
      | S q => plocal (rd tf b) (fun t => pput count (b + n1) t (pblock_put count n1 tf q (S b)))
      end.
    (** nbody_engine_block.cpp:51-125: the iteration of the block at [n1] *)
    Definition omp_block (count n1 : nat) : prog T :=
      pblock_pos count n1 block 0 [] (fun p1 =>
        pblocks count p1 (block_count block count) 0 (repeat (vzero N) block) (fun tf =>
          pblock_put count n1 tf block 0)).
    (** the iterations [n1 = 0, block, 2 * block, ...] below [count] *)
    Definition omp_block_loop (count : nat) : list (prog T) :=
      map (fun k => omp_block count (k * block)) (seq 0 (block_count block count)).
  End Block.

  Variable traverse : vec3 T -> T -> option (vec3 T).

  (** nbody_engine_simple_bh.cpp:82-86 *)
  Definition omp_bh (count body1 : nat) : prog T :=
    prd3 1 count 0 body1 (fun v1 => PRd 2 body1 (fun mass1 =>
      plocal (traverse v1 mass1) (fun tf => pput count body1 (vdivs N tf mass1) PRet))).
  (** nbody_engine_simple_bh.cpp:80-87 *)
  Definition omp_bh_loop (count : nat) : list (prog T) := map (omp_bh count) (seq 0 count).

  (** nbody_space_heap.h:38-39 with the visitor of nbody_engine_simple_bh.cpp:72-76 *)
  Definition omp_visit (h : heap (T := T)) (count idx : nat) : prog T :=
    plocal (rd h idx) (fun c =>
      plocal (traverse (p_center (c_pay c)) (p_mass (c_pay c))) (fun tf =>
        plocal (c_body c) (fun body1 =>
          PRd 2 body1 (fun m => pput count body1 (vdivs N tf m) PRet)))).
  (** nbody_space_heap.h:34-40 *)
  Definition omp_visit_loop (h : heap (T := T)) (count : nat) : list (prog T) :=
    map (omp_visit h count) (seq (length h / 2) (length h - length h / 2)).
End Plain.

(** The Ahmad-Cohen engine also shares [m_univerce_force] (array 3) and [m_adjacent_body]
    (array 4).  A vertex of the former and a whole vector of the latter is one cell here: a
    conflict between accesses to parts of it is a conflict on the cell. *)
Inductive ah_cell (T : Type) : Type :=
| CNum (x : T)
| CVec (v : vec3 T)
| CAdj (l : list nat).
Arguments CAdj {T} l.

Section AH.
  Context {T : Type} (N : NumOps T) (max_dist min_force : T).
  Notation cell := (ah_cell T).

  (** each array holds cells of one kind only (see [ah_mem]): the defaults are never used *)
  Definition as_num (c : cell) : T := match c with CNum x => x | _ => nlit N 0 end.
  Definition as_vec (c : cell) : vec3 T := match c with CVec v => v | _ => vzero N end.
  Definition as_adj (c : cell) : list nat := match c with CAdj l => l | _ => [] end.

  Definition ah_mem (f y mass : list T) (s : ah_state T) : mem cell :=
    [map (@CNum T) f; map (@CNum T) y; map (@CNum T) mass; map (@CVec T) (ah_univerce s);
     map (@CAdj T) (ah_adjacent s)].

  Definition crd (a i : nat) (k : T -> prog cell) : prog cell := PRd a i (fun c => k (as_num c)).
  Definition cwr (a i : nat) (v : T) (k : prog cell) : prog cell := PWr a i (CNum v) k.
  Definition crd3 (count i : nat) (k : vec3 T -> prog cell) : prog cell :=
    crd 1 i (fun x => crd 1 (count + i) (fun y => crd 1 (2 * count + i) (fun z => k (V3 x y z)))).

  (** nbody_engine_ah.cpp:107-112, 153-158 *)
  Definition cput (count body1 : nat) (tf : vec3 T) (k : prog cell) : prog cell :=
    crd 1 (3 * count + body1) (fun p => cwr 0 body1 p (
    crd 1 (4 * count + body1) (fun q => cwr 0 (count + body1) q (
    crd 1 (5 * count + body1) (fun r => cwr 0 (2 * count + body1) r (
    crd 2 body1 (fun m => cwr 0 (3 * count + body1) (ndiv N (vx tf) m) (
    crd 2 body1 (fun m => cwr 0 (4 * count + body1) (ndiv N (vy tf) m) (
    crd 2 body1 (fun m => cwr 0 (5 * count + body1) (ndiv N (vz tf) m) k))))))))))).

  (** nbody_engine_ah.cpp:86-106: [q] bodies left, the next one is [body2] *)
  Fixpoint omp_ah_pairs (count body1 : nat) (v1 : vec3 T) (q body2 : nat) (tu tf : vec3 T)
    (k : vec3 T -> vec3 T -> prog cell) : prog cell :=
    match q with
    | O => k tu tf
    | S q =>
        if Nat.eqb body1 body2 then omp_ah_pairs count body1 v1 q (S body2) tu tf k
        else
          crd3 count body2 (fun v2 => crd 2 body1 (fun m1 => crd 2 body2 (fun m2 =>
            let f := force N v1 v2 m1 m2 in
            if is_adjacent N max_dist min_force v1 v2 f
            then PRd 4 body1 (fun l => PWr 4 body1 (CAdj (as_adj l ++ [body2]))
                   (omp_ah_pairs count body1 v1 q (S body2) tu (vadd N tf f) k))
            else omp_ah_pairs count body1 v1 q (S body2) (vadd N tu f) (vadd N tf f) k)))
    end.
  (** nbody_engine_ah.cpp:80-114 *)
  Definition omp_ah_full (count body1 : nat) : prog cell :=
    crd3 count body1 (fun v1 =>
      omp_ah_pairs count body1 v1 count 0 (vzero N) (vzero N) (fun tu tf =>
        cput count body1 tf (PWr 3 body1 (CVec tu) PRet))).
  Definition omp_ah_full_loop (count : nat) : list (prog cell) :=
    map (omp_ah_full count) (seq 0 count).

  (** nbody_engine_ah.cpp:145-151: the bodies of [adj] left *)
  Fixpoint omp_ah_near (count body1 : nat) (v1 : vec3 T) (adj : list nat) (tf : vec3 T)
    (k : vec3 T -> prog cell) : prog cell :=
    match adj with
    | [] => k tf
    | body2 :: adj =>
        crd3 count body2 (fun v2 => crd 2 body1 (fun m1 => crd 2 body2 (fun m2 =>
          omp_ah_near count body1 v1 adj (vadd N tf (force N v1 v2 m1 m2)) k)))
    end.
  (** nbody_engine_ah.cpp:138-159 *)
  Definition omp_ah_sparse (count body1 : nat) : prog cell :=
    crd3 count body1 (fun v1 => PRd 3 body1 (fun u => PRd 4 body1 (fun l =>
      omp_ah_near count body1 v1 (as_adj l) (as_vec u) (fun tf => cput count body1 tf PRet)))).
  Definition omp_ah_sparse_loop (count : nat) : list (prog cell) :=
    map (omp_ah_sparse count) (seq 0 count).
End AH.
