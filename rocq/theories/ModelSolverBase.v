(** What a solver sees of an engine: nbody/nbody_engine.h, the time-keeping part of
    nbody/nbody_engine_simple.cpp, and buffer allocation.

    The engine's force computation is a parameter [ef]: a call [fcompute(t, y, f)] of an engine with
    private state [p] (for example the neighbour lists of nbody_engine_ah) at step counter [step]
    gives [ef p step t y f], that is the new private state and the contents of the buffer [f] after
    the call, or [None] if the call is undefined.  The buffer primitives are those of
    [ModelEngine.v].

    Pointers: a solver's buffers are values of its own state; the engine's state vector is
    [e_y].  Allocation never fails here (its failure is the subject of [create_buffers] in
    [ModelEngine.v]); a fresh buffer has arbitrary contents, given by the parameter [garbage]
    (indexed by the number of the allocation). *)
From Coq Require Import ZArith List Arith.
From Verif Require Import Num Arr ModelEngine.
Import ListNotations.
Set Implicit Arguments.

Section Base.
  Context {T E : Type} (N : NumOps T) (ps : nat)
          (ef : E -> nat -> T -> list T -> list T -> option (E * list T))
          (garbage : nat -> list T).

  (** the engine: [get_y], [get_time], [get_step], private state, number of allocations so far *)
  Record eng := mkEng { e_y : list T; e_time : T; e_step : nat; e_priv : E; e_nbuf : nat }.

  (** nbody_engine_simple.cpp:201-209, [create_buffer] (a [malloc] block) *)
  Definition new_buffer (e : eng) : list T * eng :=
    (garbage (e_nbuf e), mkEng (e_y e) (e_time e) (e_step e) (e_priv e) (S (e_nbuf e))).
  (** nbody_engine.cpp:21-36, [create_buffers] when no allocation fails *)
  Fixpoint new_buffers (n : nat) (e : eng) : list (list T) * eng :=
    match n with
    | O => ([], e)
    | S n' => let (b, e) := new_buffer e in
              let (l, e) := new_buffers n' e in
              (b :: l, e)
    end.

  (** [engine()->fcompute(t, y, f)] *)
  Definition eng_fcompute (e : eng) (t : T) (y f : list T) : option (eng * list T) :=
    let* pf := ef (e_priv e) (e_step e) t y f in
    Some (mkEng (e_y e) (e_time e) (e_step e) (fst pf) (e_nbuf e), snd pf).

  (** nbody_engine_simple.cpp:91-94, [advise_time], and nbody_data.cpp:177-181:
      m_time += dt; ++m_step *)
  Definition advise_time (e : eng) (dt : T) : eng :=
    mkEng (e_y e) (nadd N (e_time e) dt) (S (e_step e)) (e_priv e) (e_nbuf e).
  (** nbody_engine_simple.cpp:101-104, nbody_data.cpp:188-191, [set_time] *)
  Definition set_time (e : eng) (t : T) : eng :=
    mkEng (e_y e) t (e_step e) (e_priv e) (e_nbuf e).
  (** writing the engine's state vector through [get_y()] *)
  Definition set_y (e : eng) (y : list T) : eng :=
    mkEng y (e_time e) (e_step e) (e_priv e) (e_nbuf e).

  (** [x[i] = g(i)] for i < n, as a list *)
  Fixpoint collect (n i : nat) (g : nat -> option T) : option (list T) :=
    match n with
    | O => Some []
    | S n' => let* x := g i in let* l := collect n' (S i) g in Some (x :: l)
    end.
End Base.
