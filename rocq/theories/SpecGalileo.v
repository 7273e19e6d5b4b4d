(** A simulation seen from a frame in uniform motion: vocabulary. *)
From Coq Require Import Reals List Arith.
From Verif Require Import SpecPhys.
Import ListNotations.
Set Implicit Arguments.
Local Open Scope R_scope.

(** In the states [y] and [y'] of [n] bodies every body is displaced by the same vector [X] and every velocity differs by the same
    vector [V]: the same bodies, seen from two origins that move with the relative velocity [V]. *)
Definition boosted (n : nat) (X V : nat -> R) (y y' : list R) : Prop :=
  length y = (6 * n)%nat /\ length y' = (6 * n)%nat /\
  forall k i, (k < 3)%nat -> (i < n)%nat ->
    comp y' n k i = comp y n k i + X k /\ comp y' n (k + 3) i = comp y n (k + 3) i + V k.
