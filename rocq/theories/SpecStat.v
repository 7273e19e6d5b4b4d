(** Textbook totals of a set of bodies, over the reals. *)
From Coq Require Import Reals List.
From Verif Require Import SpecPhys ModelVertex.
Import ListNotations.
Local Open Scope R_scope.

(** sum over all pairs i < j < n *)
Definition pair_sum (n : nat) (f : nat -> nat -> R) : R :=
  rsum n (fun j => rsum j (fun i => f i j)).

Section Totals.
  Variables (n : nat) (m x y z u v w : nat -> R).

  (** one component of the total impulse; [c] is one of the velocity components *)
  Definition tot_impulse (c : nat -> R) : R := rsum n (fun i => m i * c i).
  Definition tot_mass : R := rsum n m.
  (** one component of the mass centre; [c] is one of the position components *)
  Definition mass_centre (c : nat -> R) : R := rsum n (fun i => m i * c i) / tot_mass.
  (** component of the angular momentum about the origin: sum m (a c' - b d') *)
  Definition tot_ang (a b du dv : nat -> R) : R := rsum n (fun i => m i * (a i * dv i - b i * du i)).
  Definition tot_kinetic : R := rsum n (fun i => m i * (u i * u i + v i * v i + w i * w i) / 2).
  (** pairs closer than the softening length do not contribute *)
  Definition tot_potential (mind : R) : R :=
    pair_sum n (fun i j => if Rlt_dec (dist2 x y z i j) mind then 0
                           else - (m i * m j) / sqrt (dist2 x y z i j)).
End Totals.

(** coordinates of body [i] of a list of vectors *)
Definition cx (l : list (vec3 R)) (i : nat) : R := vx (nth i l (V3 0 0 0)).
Definition cy (l : list (vec3 R)) (i : nat) : R := vy (nth i l (V3 0 0 0)).
Definition cz (l : list (vec3 R)) (i : nat) : R := vz (nth i l (V3 0 0 0)).
Definition cm (l : list R) (i : nat) : R := nth i l 0.
