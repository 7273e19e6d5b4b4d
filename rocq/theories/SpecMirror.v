(** Mirror images of a state in IEEE arithmetic: vocabulary. *)
From Coq Require Import SpecFloat List Arith.
From Verif Require Import Num SpecFloatForce.
Import ListNotations.

(** [y'] is [y] seen in mirrors perpendicular to the axes that [flip] selects: the components of positions and velocities along these
    axes are opposite (see [opposite]: zeros of both signs count as opposite), all the others equal, bit by bit *)
Definition mirrored (flip : nat -> bool) (n : nat) (y y' : list spec_float) : Prop := length y = 6 * n /\ length y' = 6 * n /\
  forall k j x x', k < 6 -> j < n -> nth_error y (k * n + j) = Some x -> nth_error y' (k * n + j) = Some x' ->
    if flip (k mod 3) then opposite x x' else x' = x.

(** all bodies are in the coordinate plane perpendicular to [axis] and do not leave it: zero position and velocity along [axis] *)
Definition planar (axis n : nat) (y : list spec_float) : Prop :=
  forall j x, j < n -> nth_error y (axis * n + j) = Some x \/ nth_error y ((axis + 3) * n + j) = Some x -> exists s, x = S754_zero s.
