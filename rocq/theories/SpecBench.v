(** The distance of a body in two states: vocabulary of C102. *)
From Coq Require Import Reals List.
From Verif Require Import Num ModelVertex.

Definition gap (a b : list (vec3 R)) (i : nat) : R :=
  let u := nth i a (V3 0 0 0)%R in let v := nth i b (V3 0 0 0)%R in
  sqrt ((vx u - vx v) * (vx u - vx v) + (vy u - vy v) * (vy u - vy v) + (vz u - vz v) * (vz u - vz v)).
