(** Specifications for the engine buffers. *)
From Coq Require Import ZArith Reals List Arith.
From Verif Require Import SpecPhys Num ModelVertex.
Import ListNotations.
Set Implicit Arguments.

(** [a'] is [a] with cell [j] set to [val j] for every [j < n] and nothing else changed *)
Definition elementwise {T : Type} (n : nat) (val : nat -> T) (a a' : list T) : Prop :=
  length a' = length a /\
  forall j, nth_error a' j = if Nat.ltb j n then Some (val j) else nth_error a j.

(** sum over k < m of c[k] * b[k][j] *)
Definition weighted (m : nat) (c : list R) (b : list (list R)) (j : nat) : R :=
  rsum m (fun k => nth k c 0 * nth j (nth k b []) 0)%R.

(** some of the first [m] weights is not zero *)
Definition some_weight (m : nat) (c : list R) : Prop := exists k, k < m /\ nth k c 0%R <> 0%R.

(** body [i]'s vector stored in a state vector of [n] bodies: positions at offset 0, velocities at
    offset 3 (in units of [n] cells), x, y and z parts [n] cells apart *)
Definition stored {T : Type} (n off i : nat) (y : list T) (v : vec3 T) : Prop :=
  nth_error y (off * n + i) = Some (vx v) /\
  nth_error y ((off + 1) * n + i) = Some (vy v) /\
  nth_error y ((off + 2) * n + i) = Some (vz v).
