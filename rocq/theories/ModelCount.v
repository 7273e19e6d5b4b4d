(** The counter of force evaluations.  Every engine advances it once in each call of [fcompute] that gets as far as computing
    (nbody_engine.cpp:119-127; nbody_engine_simple.cpp:133, nbody_engine_openmp.cpp:36, nbody_engine_block.cpp:31,
    nbody_engine_simple_bh.cpp:34, nbody_engine_ah.cpp:45 or 119, nbody_engine_cuda.cpp:219, nbody_engine_cuda_bh.cpp:76,
    nbody_engine_cuda_bh_tex.cpp:72, nbody_engine_opencl.cpp:663 and 1092).  It is part of the private state here, next to what else
    the engine keeps. *)
From Coq Require Import List Arith.
From Verif Require Import Num Arr ModelSolverBase.
Set Implicit Arguments.

Definition metered {T E : Type} (ef : E -> nat -> T -> list T -> list T -> option (E * list T))
  (p : E * nat) (step : nat) (t : T) (y f : list T) : option ((E * nat) * list T) :=
  let* (p', f') := ef (fst p) step t y f in Some ((p', S (snd p)), f').
(** [get_compute_count], nbody_engine.cpp:124-127 *)
Definition get_compute_count {T E : Type} (e : @eng T (E * nat)) : nat := snd (e_priv e).
