(** The state vector, buffer primitives and direct force computation of the CPU engines:
    nbody/nbody_engine.cpp, nbody/nbody_engine_simple.cpp.  The bodies of the loops of
    nbody/nbody_engine_openmp.cpp are textually the same; their parallel execution is in
    [ModelParallel.v].

    A buffer is a list of [nbcoord_t].  The [dynamic_cast] checks ("y is not smemory") are not
    modelled: a buffer of the model always belongs to the engine.  Buffers that may alias in the
    code ([fmadd(a, a, ...)]) are passed as equal lists: each iteration reads only cell [i] before
    writing cell [i], so the aliasing is not observable. *)
From Coq Require Import ZArith List Arith.
From Verif Require Import Num Arr ModelVertex ModelForce ModelSum.
Import ListNotations.
Set Implicit Arguments.

Section Engine.
  Context {T : Type} (N : NumOps T).

  (** nbody_engine_simple.cpp:81-84, [problem_size] *)
  Definition problem_size (count : nat) : nat := 6 * count.

  (** pointers rx = p, ry = p + count, rz = p + 2*count (off = 0) and
      vx = p + 3*count, ... (off = 3): nbody_engine_simple.cpp:136-148 *)
  Definition rd3 (p : list T) (count off i : nat) : option (vec3 T) :=
    let* x := rd p (off * count + i) in
    let* y := rd p ((off + 1) * count + i) in
    let* z := rd p ((off + 2) * count + i) in
    Some (V3 x y z).
  Definition wr3 (p : list T) (count off i : nat) (v : vec3 T) : option (list T) :=
    let* p := wr p (off * count + i) (vx v) in
    let* p := wr p ((off + 1) * count + i) (vy v) in
    wr p ((off + 2) * count + i) (vz v).

  (** nbody_engine_simple.cpp:23-56, [init]: returns ([m_mass], [m_y]).  The buffers are fresh
      [malloc] blocks of unspecified contents: [garbage] supplies them. *)
  Definition init_body (count : nat) (vrt vel : list (vec3 T)) (mass : list T)
    (i : nat) (st : list T * list T) : option (list T * list T) :=
    let* r := rd vrt i in
    let* v := rd vel i in
    let* mi := rd mass i in
    let* y := wr3 (snd st) count 0 i r in
    let* y := wr3 y count 3 i v in
    let* m := wr (fst st) i mi in
    Some (m, y).
  Definition engine_init (count : nat) (vrt vel : list (vec3 T)) (mass : list T)
    (garbage_m garbage_y : list T) : option (list T * list T) :=
    for_ count 0 (init_body count vrt vel mass) (garbage_m, garbage_y).

  (** nbody_engine_simple.cpp:58-79, [get_data] *)
  Definition get_data_body (count : nat) (y : list T)
    (i : nat) (st : list (vec3 T) * list (vec3 T)) : option (list (vec3 T) * list (vec3 T)) :=
    let* r := rd3 y count 0 i in
    let* v := rd3 y count 3 i in
    let* vrt := wr (fst st) i r in
    let* vel := wr (snd st) i v in
    Some (vrt, vel).
  Definition engine_get_data (count : nat) (y : list T) (vrt vel : list (vec3 T))
    : option (list (vec3 T) * list (vec3 T)) :=
    for_ count 0 (get_data_body count y) (vrt, vel).

  (** nbody_engine_simple.cpp:155-165: the inner loop of [fcompute] *)
  Definition pair_loop_body (count : nat) (y mass : list T) (body1 : nat) (v1 : vec3 T)
    (body2 : nat) (total_force : vec3 T) : option (vec3 T) :=
    if Nat.eqb body1 body2 then Some total_force
    else
      let* v2 := rd3 y count 0 body2 in
      let* m1 := rd mass body1 in
      let* m2 := rd mass body2 in
      Some (vadd N total_force (force N v1 v2 m1 m2)).
  Definition total_force (count : nat) (y mass : list T) (body1 : nat) (v1 : vec3 T)
    : option (vec3 T) :=
    for_ count 0 (pair_loop_body count y mass body1 v1) (vzero N).

  (** nbody_engine_simple.cpp:152-172: one iteration of the outer loop *)
  Definition fcompute_body (count : nat) (y mass : list T) (body1 : nat) (f : list T)
    : option (list T) :=
    let* v1 := rd3 y count 0 body1 in
    let* tf := total_force count y mass body1 v1 in
    let* v := rd3 y count 3 body1 in
    let* f := wr3 f count 0 body1 v in
    let* m1 := rd mass body1 in
    wr3 f count 3 body1 (vdivs N tf m1).

  (** nbody_engine_simple.cpp:116-173, [fcompute] *)
  Definition simple_fcompute (count : nat) (mass y f : list T) : option (list T) :=
    for_ count 0 (fcompute_body count y mass) f.

  (** nbody_engine_simple.cpp:192-193 for one coordinate; [diam = 2 * b] *)
  Definition clamp_coord (b x : T) : T :=
    let diam := nmul N (nlit N 2) b in
    let x := if nltb N b x then nsub N x diam else x in
    if nltb N x (nopp N b) then nadd N x diam else x.
  (** nbody_engine_simple.cpp:190-198 *)
  Definition clamp_body (count : nat) (b : T) (body_n : nat) (y : list T) : option (list T) :=
    let* x := rd y body_n in
    let* y := wr y body_n (clamp_coord b x) in
    let* x := rd y (count + body_n) in
    let* y := wr y (count + body_n) (clamp_coord b x) in
    let* x := rd y (2 * count + body_n) in
    wr y (2 * count + body_n) (clamp_coord b x).
  (** nbody_engine_simple.cpp:175-199, [clamp] *)
  Definition engine_clamp (count : nat) (b : T) (y : list T) : option (list T) :=
    for_ count 0 (clamp_body count b) y.

  (** nbody_engine_simple.cpp:211-222, [read_buffer]: [memcpy] of the whole source *)
  Definition read_buffer (dst src : list T) : option (list T) :=
    for_ (length src) 0 (fun i d => let* v := rd src i in wr d i v) dst.
  (** nbody_engine_simple.cpp:224-235, [write_buffer]: [memcpy] of [dst->size()] bytes *)
  Definition write_buffer (dst src : list T) : option (list T) :=
    for_ (length dst) 0 (fun i d => let* v := rd src i in wr d i v) dst.

  (** nbody_engine_simple.cpp:237-261, [copy_buffer] *)
  Definition copy_body (b : list T) (i : nat) (a : list T) : option (list T) :=
    let* v := rd b i in wr a i v.
  Definition copy_buffer (psize : nat) (a b : list T) : option (list T) :=
    for_ psize 0 (copy_body b) a.

  (** nbody_engine_simple.cpp:263-280, [fill_buffer] (all cells of the buffer) *)
  Definition fill_body (value : T) (i : nat) (a : list T) : option (list T) := wr a i value.
  Definition fill_buffer (a : list T) (value : T) : option (list T) :=
    for_ (length a) 0 (fill_body value) a.

  (** nbody_engine_simple.cpp:282-306, [fmadd_inplace]: a[i] += b[i] * c *)
  Definition fmadd_inplace_body (b : list T) (c : T) (i : nat) (a : list T) : option (list T) :=
    let* ai := rd a i in
    let* bi := rd b i in
    wr a i (nadd N ai (nmul N bi c)).
  Definition fmadd_inplace (psize : nat) (a b : list T) (c : T) : option (list T) :=
    for_ psize 0 (fmadd_inplace_body b c) a.

  (** nbody_engine_simple.cpp:308-339, [fmadd]: a[i] = b[i] + c[i] * d *)
  Definition fmadd_body (b c : list T) (d : T) (i : nat) (a : list T) : option (list T) :=
    let* bi := rd b i in
    let* ci := rd c i in
    wr a i (nadd N bi (nmul N ci d)).
  Definition fmadd (psize : nat) (a b c : list T) (d : T) : option (list T) :=
    for_ psize 0 (fmadd_body b c d) a.

  (** nbody_engine.cpp:47-66, [fmaddn_inplace]; [c] holds at least [csize] values.  The null-pointer
      test on [c] is not modelled ([c] is always an array). *)
  Definition fmaddn_inplace (psize : nat) (a : list T) (b : list (list T)) (c : list T)
    (csize : nat) : option (list T) :=
    if Nat.ltb (length b) csize then Some a
    else
      for_ csize 0
        (fun i a =>
           let* ci := rd c i in
           if neqb N ci (nlit N 0) then Some a
           else
             let* bi := rd b i in
             fmadd_inplace psize a bi ci) a.

  (** nbody_engine.cpp:75-113, [fmaddn]; [b = None] is the null pointer *)
  Definition fmaddn (psize : nat) (a : list T) (b : option (list T)) (c : list (list T))
    (d : list T) (dsize : nat) : option (list T) :=
    if Nat.ltb (length c) dsize then Some a
    else
      let* st :=
        match b with
        | None => let* a := fill_buffer a (nlit N 0) in Some (a, true)
        | Some _ => Some (a, false)
        end in
      let* st :=
        for_ dsize 0
          (fun i (st : list T * bool) =>
             let (a, a_initiated) := st in
             let* di := rd d i in
             if neqb N di (nlit N 0) then Some (a, a_initiated)
             else
               let* ci := rd c i in
               if a_initiated then
                 let* a := fmadd psize a a ci di in Some (a, true)
               else
                 match b with
                 | Some b => let* a := fmadd psize a b ci di in Some (a, true)
                 | None => None
                 end) st in
      Some (fst st).

  (** nbody_engine_simple.cpp:384-392: the inner loop of [fmaddn_corr] for cell [i] *)
  Definition fmaddn_corr_cell (b : list (list T)) (c : list T) (csize i : nat)
    (st : T * T) : option (T * T) :=
    for_ csize 0
      (fun k (st : T * T) =>
         let* ck := rd c k in
         if neqb N ck (nlit N 0) then Some st
         else
           let* bk := rd b k in
           let* bki := rd bk i in
           let term := nmul N bki ck in
           Some (summation_step (nadd N) (nsub N) (fst st) term (snd st))) st.
  Definition fmaddn_corr_body (b : list (list T)) (c : list T) (csize : nat)
    (i : nat) (st : list T * list T) : option (list T * list T) :=
    let (a, corr) := st in
    let* ai := rd a i in
    let* corri := rd corr i in
    let* r := fmaddn_corr_cell b c csize i (ai, corri) in
    let* a := wr a i (fst r) in
    let* corr := wr corr i (snd r) in
    Some (a, corr).
  (** nbody_engine_simple.cpp:341-394, [fmaddn_corr]; returns (a, corr) *)
  Definition fmaddn_corr (psize : nat) (a corr : list T) (b : list (list T)) (c : list T)
    (csize : nat) : option (list T * list T) :=
    if Nat.ltb (length b) csize then Some (a, corr)
    else for_ psize 0 (fmaddn_corr_body b c csize) (a, corr).

  (** nbody_engine_simple.cpp:396-419, [fmaxabs] *)
  Definition fmaxabs_body (a : list T) (n : nat) (result : T) : option T :=
    let* an := rd a n in
    let v := nabs N an in
    Some (if nltb N result v then v else result).
  Definition fmaxabs (psize : nat) (a : list T) : option T :=
    let* a0 := rd a 0 in
    for_ psize 0 (fmaxabs_body a) (nabs N a0).
End Engine.

(** nbody_engine.cpp:21-45: buffer allocation.  The allocator is an oracle: [outcome n] tells
    whether the n-th call of [create_buffer] succeeds (yielding the fresh identifier [base + n])
    or returns NULL.  [live] is the set of live identifiers. *)
Section Alloc.
  (** nbody_engine.cpp:38-45, [free_buffers] *)
  Definition free_one (live : list nat) (id : nat) : list nat :=
    filter (fun x => negb (Nat.eqb x id)) live.
  Definition free_buffers (mema live : list nat) : list nat := fold_left free_one mema live.

  (** nbody_engine.cpp:21-36, [create_buffers]; [k] iterations left, [n] the current one.
      Returns ([memory_array], live buffers) *)
  Fixpoint create_loop (outcome : nat -> bool) (base k n : nat) (mema live : list nat)
    : list nat * list nat :=
    match k with
    | O => (mema, live)
    | S k' =>
        if outcome n then create_loop outcome base k' (S n) (mema ++ [base + n]) (base + n :: live)
        else ([], free_buffers mema live)
    end.
  Definition create_buffers (outcome : nat -> bool) (base count : nat) (live : list nat)
    : list nat * list nat :=
    create_loop outcome base count 0 [] live.
End Alloc.
