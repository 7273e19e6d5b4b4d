(** Specification of a Bulirsch-Stoer step. *)
From Coq Require Import Reals List Arith.
From Verif Require Import Num SpecPhys SpecSolver.
Import ListNotations.
Local Open Scope R_scope.

(** product over [i < n] *)
Fixpoint rprod (n : nat) (f : nat -> R) : R :=
  match n with O => 1 | S k => rprod k f * f k end.

(** the value at 0 of the polynomial of degree below [m] through the points (x_i, f_i),
    a <= i < a + m (Lagrange's formula) *)
Definition at_zero (x f : nat -> R) (a m : nat) : R :=
  rsum m (fun i => f (a + i)%nat *
    rprod m (fun j => if Nat.eqb j i then 1 else x (a + j)%nat / (x (a + j)%nat - x (a + i)%nat))).

Section BS.
  Variables (ps : nat) (F : R -> list R -> list R) (L : nat) (thr : R).

  (** Stetter's scheme over [t, t + dt] in [n] equal substeps: the mean of its two vectors *)
  Definition smoothed (t dt : R) (y : list R) (n : nat) : list R :=
    let (u, v) := run_steps (stetter_value ps F) t (y, y) (repeat (dt / INR n) n) in
    map (fun c => (nth c u 0 + nth c v 0) / 2) (seq 0 ps).

  (** those results for the levels a ... a + m - 1, extrapolated to a substep of length 0 in the
      square of the substep *)
  Definition extrapolated (t dt : R) (y : list R) (a m : nat) : list R :=
    map (fun c => at_zero (fun i => (/ INR (bs_seq i)) ^ 2)
                          (fun i => nth c (smoothed t dt y (bs_seq i)) 0) a m) (seq 0 ps).

  (** leaving the coarsest level out of the extrapolation changes no coordinate by [thr] or more *)
  Definition settled (t dt : R) (y : list R) (l : nat) : Prop :=
    forall c, (c < ps)%nat ->
      Rabs (nth c (extrapolated t dt y 0 (S l)) 0 - nth c (extrapolated t dt y 1 l) 0) < thr.

  (** the result of a step with at most [L] levels *)
  Definition bs_result (t dt : R) (y y' : list R) : Prop :=
    match L with
    | 0%nat => y' = y
    | 1%nat => y' = smoothed t dt y 2
    | 2%nat => y' = smoothed t dt y 4
    | _ => exists l, (2 <= l < L)%nat /\ y' = extrapolated t dt y 0 (S l) /\
             (settled t dt y l \/ l = (L - 1)%nat) /\
             forall j, (2 <= j < l)%nat -> ~ settled t dt y j
    end.

  (** ... and of a history of steps *)
  Inductive bs_history : R -> list R -> list R -> R -> list R -> Prop :=
  | bs_none t y : bs_history t y [] t y
  | bs_more t y dt dts y1 t' y' :
      bs_result t dt y y1 -> bs_history (t + dt) y1 dts t' y' -> bs_history t y (dt :: dts) t' y'.
End BS.
