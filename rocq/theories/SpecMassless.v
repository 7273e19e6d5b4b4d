(** States that agree on some of the bodies: vocabulary of C100. *)
From Coq Require Import List Arith.

(** two states of [n] bodies have the same positions and velocities of the bodies in [keep] *)
Definition agree {T : Type} (keep : nat -> Prop) (n : nat) (y y' : list T) : Prop := length y = 6 * n /\ length y' = 6 * n /\
  forall k i, k < 6 -> i < n -> keep i -> nth_error y (k * n + i) = nth_error y' (k * n + i).
