(** Independent textbook specification of Newtonian gravity with softening, over the reals. *)
From Coq Require Import Reals List.
Import ListNotations.
Local Open Scope R_scope.

(** sum_{j < n} f j *)
Fixpoint rsum (n : nat) (f : nat -> R) : R :=
  match n with O => 0 | S k => rsum k f + f k end.

(** squared distance of bodies [i] and [j] with coordinates [x], [y], [z] *)
Definition dist2 (x y z : nat -> R) (i j : nat) : R :=
  (x i - x j) * (x i - x j) + (y i - y j) * (y i - y j) + (z i - z j) * (z i - z j).

(** d^(3/2) of the softened squared distance *)
Definition soft_cube (mind d2 : R) : R := Rmax mind d2 * sqrt (Rmax mind d2).

(** Acceleration of body [i] along the axis with coordinates [c] ([c] is one of [x], [y], [z]),
    gravity constant 1:  - sum_{j <> i} m_j (c_i - c_j) / max(d_ij^2, mind)^(3/2) *)
Definition newton_acc (mind : R) (n : nat) (m x y z c : nat -> R) (i : nat) : R :=
  - rsum n (fun j => if Nat.eqb i j then 0
                     else m j * (c i - c j) / soft_cube mind (dist2 x y z i j)).

(** flat structure-of-arrays state vector: component [k] (0,1,2 = position, 3,4,5 = velocity) of
    body [i] among [n] bodies *)
Definition comp (v : list R) (n k i : nat) : R := nth (k * n + i) v 0.

(** [f] is the right-hand side of the equations of motion at the state [y]: it has exactly
    6n cells; the first 3n are the velocities, the last 3n the accelerations. *)
Definition newton_rhs (mind : R) (n : nat) (mass y f : list R) : Prop :=
  length f = (6 * n)%nat /\
  forall i k, (i < n)%nat -> (k < 3)%nat ->
    nth_error f (k * n + i) = Some (comp y n (k + 3) i) /\
    nth_error f ((k + 3) * n + i) =
      Some (newton_acc mind n (fun j => nth j mass 0) (comp y n 0) (comp y n 1) (comp y n 2)
              (comp y n k) i).
