(** Ahmad-Cohen engine: nbody/nbody_engine_ah.cpp. *)
From Coq Require Import ZArith List Arith.
From Verif Require Import Num Arr ModelVertex ModelForce ModelSum ModelEngine.
Import ListNotations.
Set Implicit Arguments.

(** nbody_engine_ah.h: [m_univerce_force], [m_adjacent_body] *)
Record ah_state (T : Type) : Type := mkAH {
  ah_univerce : list (vec3 T);
  ah_adjacent : list (list nat)
}.

Section AH.
  Context {T : Type} (N : NumOps T).
  (** nbody_engine_ah.cpp:3-9: the constructor stores the squares of its arguments *)
  Variables (max_dist min_force : T).
  Definition max_dist_sqr : T := nmul N max_dist max_dist.
  Definition min_force_sqr : T := nmul N min_force min_force.

  (** freshly constructed engine: both vectors are empty *)
  Definition ah_init : ah_state T := mkAH [] [].

  (** nbody_engine_ah.cpp:96-97 *)
  Definition is_adjacent (v1 v2 f : vec3 T) : bool :=
    (nltb N (vnorm N (vsub N v1 v2)) max_dist_sqr || nltb N min_force_sqr (vnorm N f))%bool.

  (** nbody_engine_ah.cpp:86-106: inner loop; state = (total_univerce_force, total_force,
      adjacent bodies of body1) *)
  Definition ah_full_pair (count : nat) (y mass : list T) (body1 : nat) (v1 : vec3 T)
    (body2 : nat) (st : vec3 T * vec3 T * list nat) : option (vec3 T * vec3 T * list nat) :=
    if Nat.eqb body1 body2 then Some st
    else
      let* v2 := rd3 y count 0 body2 in
      let* m1 := rd mass body1 in
      let* m2 := rd mass body2 in
      let f := force N v1 v2 m1 m2 in
      let '(tu, tf, adj) := st in
      if is_adjacent v1 v2 f
      then Some (tu, vadd N tf f, adj ++ [body2])
      else Some (vadd N tu f, vadd N tf f, adj).

  (** nbody_engine_ah.cpp:80-114: one iteration of the outer loop *)
  Definition ah_full_body (count : nat) (y mass : list T) (body1 : nat)
    (st : list T * ah_state T) : option (list T * ah_state T) :=
    let (f, s) := st in
    let* v1 := rd3 y count 0 body1 in
    let* adj0 := rd (ah_adjacent s) body1 in
    let* r := for_ count 0 (ah_full_pair count y mass body1 v1) (vzero N, vzero N, adj0) in
    let '(tu, tf, adj) := r in
    let* v := rd3 y count 3 body1 in
    let* f := wr3 f count 0 body1 v in
    let* m1 := rd mass body1 in
    let* f := wr3 f count 3 body1 (vdivs N tf m1) in
    let* u := wr (ah_univerce s) body1 tu in
    let* a := wr (ah_adjacent s) body1 adj in
    Some (f, mkAH u a).

  (** nbody_engine_ah.cpp:43-115, [fcompute_full].  Lines 63-77 resize both vectors to [count]
      and reset every entry: afterwards they are [count] zero vectors and [count] empty lists
      whatever they were before. *)
  Definition ah_full (count : nat) (mass y f : list T) (s : ah_state T)
    : option (list T * ah_state T) :=
    for_ count 0 (ah_full_body count y mass)
      (f, mkAH (repeat (vzero N) count) (repeat [] count)).

  (** nbody_engine_ah.cpp:145-151 *)
  Definition ah_sparse_pair (count : nat) (y mass : list T) (body1 : nat) (v1 : vec3 T)
    (adj : list nat) (idx : nat) (tf : vec3 T) : option (vec3 T) :=
    let* body2 := rd adj idx in
    let* v2 := rd3 y count 0 body2 in
    let* m1 := rd mass body1 in
    let* m2 := rd mass body2 in
    Some (vadd N tf (force N v1 v2 m1 m2)).

  (** nbody_engine_ah.cpp:138-159 *)
  Definition ah_sparse_body (count : nat) (y mass : list T) (s : ah_state T) (body1 : nat)
    (f : list T) : option (list T) :=
    let* v1 := rd3 y count 0 body1 in
    let* u := rd (ah_univerce s) body1 in
    let* adj := rd (ah_adjacent s) body1 in
    let* tf := for_ (length adj) 0 (ah_sparse_pair count y mass body1 v1 adj) u in
    let* v := rd3 y count 3 body1 in
    let* f := wr3 f count 0 body1 v in
    let* m1 := rd mass body1 in
    wr3 f count 3 body1 (vdivs N tf m1).

  (** nbody_engine_ah.cpp:117-160, [fcompute_sparse] *)
  Definition ah_sparse (count : nat) (mass y f : list T) (s : ah_state T) : option (list T) :=
    for_ count 0 (ah_sparse_body count y mass s) f.

  (** nbody_engine_ah.cpp:16-41, [fcompute]; [step % 0] is undefined behaviour *)
  Definition ah_fcompute (rate step count : nat) (mass y f : list T) (s : ah_state T)
    : option (list T * ah_state T) :=
    if Nat.eqb rate 0 then None
    else if Nat.eqb (step mod rate) 0 then ah_full count mass y f s
    else let* f := ah_sparse count mass y f s in Some (f, s).

  (** A history of the engine (not a function of the code): the successive [fcompute] calls with
      the step counter, state and result buffers each of them sees. *)
  Record call := mkCall { c_step : nat; c_y : list T; c_f : list T }.

  (** the results of a sequence of [fcompute] calls; [None] if one of them is undefined *)
  Fixpoint ah_run (rate n : nat) (mass : list T) (calls : list call) (s : ah_state T)
    : option (list (list T) * ah_state T) :=
    match calls with
    | [] => Some ([], s)
    | c :: r =>
        let* fs := ah_fcompute rate (c_step c) n mass (c_y c) (c_f c) s in
        let* rs := ah_run rate n mass r (snd fs) in
        Some (fst fs :: fst rs, snd rs)
    end.
End AH.
