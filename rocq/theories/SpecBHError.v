(** How far a Barnes-Hut acceleration may be from the direct sum: vocabulary. *)
From Coq Require Import Reals List Arith.
From Verif Require Import SpecPhys.
Import ListNotations.
Set Implicit Arguments.
Local Open Scope R_scope.

(** the sizes of the attractions on body [i] added up (not their vector sum) *)
Definition pull_size (mind : R) (n : nat) (mass y : list R) (i : nat) : R :=
  rsum n (fun j => if (i =? j)%nat then 0
                   else nth j mass 0 / Rmax mind (dist2 (comp y n 0) (comp y n 1) (comp y n 2) i j)).

(** relative errors at the opening ratio 1/x, of first and of second order in x *)
Definition bh_err1 (x : R) : R := x * (4 + 5 * x + 2 * (x * x)).
Definition bh_err2 (x : R) : R :=
  x * x * ((1 + x) * (1 + x)) *
  (3 / 2 + (1 + x) * (3 / 2 + 3 / (1 - x) + 2 / ((1 - x) * (1 - x)) + 1 / ((1 - x) * (1 - x) * (1 - x))) + 3 / 2 * (2 + x)).

(** the derivative [f] copies the velocities of [y], and each acceleration is within [e] times the
    sizes of the attractions of Newton's *)
Definition near_newton (e mind : R) (n : nat) (mass y f : list R) : Prop :=
  forall i k, (i < n)%nat -> (k < 3)%nat ->
    comp f n k i = comp y n (k + 3) i /\
    Rabs (comp f n (k + 3) i - newton_acc mind n (fun j => nth j mass 0) (comp y n 0) (comp y n 1) (comp y n 2) (comp y n k) i)
      <= e * pull_size mind n mass y i.
