(** Block-by-block engine: nbody/nbody_engine_block.cpp. *)
From Coq Require Import ZArith List Arith.
From Verif Require Import Num Arr ModelVertex ModelForce ModelSum ModelEngine.
Import ListNotations.
Set Implicit Arguments.

Section Block.
  Context {T : Type} (N : NumOps T).
  (** nbody_engine_block.cpp:34; the code fixes it to [NBODY_DATA_BLOCK_SIZE] (see
      [block_fcompute] below) *)
  Variable block : nat.

  (** nbody_engine_block.cpp:61-67 and 79-85: copy one block of positions to the stack *)
  Definition block_load_pos (count : nat) (y : list T) (n : nat) : option (list (vec3 T)) :=
    for_ block 0 (fun b acc => let* v := rd3 y count 0 (b + n) in Some (acc ++ [v])) [].
  (** nbody_engine_block.cpp:79-87, masses *)
  Definition block_load_mass (mass : list T) (n : nat) : option (list T) :=
    for_ block 0 (fun b acc => let* v := rd mass (n + b) in Some (acc ++ [v])) [].

  (** nbody_engine_block.cpp:93-110: one pair *)
  Definition block_pair (v1 v2 : vec3 T) (m2 : T) (tf : vec3 T) : vec3 T :=
    let dx := nsub N (vx v1) (vx v2) in
    let dy := nsub N (vy v1) (vy v2) in
    let dz := nsub N (vz v1) (vz v2) in
    let r2 := nadd N (nadd N (nmul N dx dx) (nmul N dy dy)) (nmul N dz dz) in
    let r2 := if nltb N r2 (nmind N) then nmind N else r2 in
    let r := nsqrt N r2 in
    let coeff := ndiv N m2 (nmul N r r2) in
    V3 (nsub N (vx tf) (nmul N dx coeff))
       (nsub N (vy tf) (nmul N dy coeff))
       (nsub N (vz tf) (nmul N dz coeff)).

  (** nbody_engine_block.cpp:89-112 *)
  Definition block_pairs (p1 p2 : list (vec3 T)) (m2 : list T) (tf : list (vec3 T))
    : option (list (vec3 T)) :=
    for_ block 0
      (fun b1 tf =>
         for_ block 0
           (fun b2 tf =>
              let* v1 := rd p1 b1 in
              let* v2 := rd p2 b2 in
              let* m := rd m2 b2 in
              let* t := rd tf b1 in
              wr tf b1 (block_pair v1 v2 m t)) tf) tf.

  (** number of iterations of [for(n = 0; n < count; n += block)] *)
  Definition block_count (count : nat) : nat := (count + (block - 1)) / block.

  (** nbody_engine_block.cpp:51-125: one iteration of the outer loop *)
  Definition block_body (count : nat) (mass y : list T) (n1 : nat) (f : list T)
    : option (list T) :=
    let* p1 := block_load_pos count y n1 in
    let* tf :=
      for_step (block_count count) 0 block
        (fun n2 tf =>
           let* p2 := block_load_pos count y n2 in
           let* m2 := block_load_mass mass n2 in
           block_pairs p1 p2 m2 tf)
        (repeat (vzero N) block) in
    for_ block 0
      (fun b1 f =>
         let* v := rd3 y count 3 (b1 + n1) in
         let* f := wr3 f count 0 (b1 + n1) v in
         let* t := rd tf b1 in
         wr3 f count 3 (b1 + n1) t) f.

  (** nbody_engine_block.cpp:14-126, [fcompute], for an arbitrary block size *)
  Definition blocked_fcompute (count : nat) (mass y f : list T) : option (list T) :=
    for_step (block_count count) 0 block (block_body count mass y) f.
End Block.

(** nbtype.h:77 *)
Definition NBODY_DATA_BLOCK_SIZE : nat := 64.

(** nbody_engine_block.cpp:14-126 with [block = NBODY_DATA_BLOCK_SIZE] (line 34).  The
    [omp parallel for] of line 51 is executed in loop order here (any order: C74). *)
Definition block_fcompute {T : Type} (N : NumOps T) (count : nat) (mass y f : list T)
  : option (list T) :=
  blocked_fcompute N NBODY_DATA_BLOCK_SIZE count mass y f.
