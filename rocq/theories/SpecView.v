(** What a drawing should look like *)
From Coq Require Import ZArith Reals List Arith.
From Verif Require Import Num ModelVertex ModelView.
Import ListNotations.
Local Open Scope R_scope.

(** blue, green, yellow, red at 0, 1/4, 1/2, 3/4 of the largest speed *)
Definition palette (k : nat) : vec4 R :=
  match k with
  | 0%nat => V4 (3 / 10) (3 / 10) 1 1
  | 1%nat => V4 0 1 0 1
  | 2%nat => V4 1 1 0 1
  | _ => V4 1 0 0 1
  end.
(** the colour at part [s] of the way from one colour to another *)
Definition mix (s : R) (a b : vec4 R) : vec4 R :=
  V4 (cx a + s * (cx b - cx a)) (cy a + s * (cy b - cy a)) (cz a + s * (cz b - cz a)) (cw a + s * (cw b - cw a)).

(** speed over largest speed for which the table has a colour *)
Definition has_color (x : R) : Prop := x <= 3 / 4 \/ 1 <= x.

(** [lo, hi] is the smallest box around the points *)
Definition inside (lo hi p : vec3 R) : Prop :=
  vx lo <= vx p <= vx hi /\ vy lo <= vy p <= vy hi /\ vz lo <= vz p <= vz hi.
Definition smallest_box (l : list (vec3 R)) (lo hi : vec3 R) : Prop :=
  Forall (inside lo hi) l /\
  (exists p, In p l /\ vx p = vx lo) /\ (exists p, In p l /\ vy p = vy lo) /\ (exists p, In p l /\ vz p = vz lo) /\
  (exists p, In p l /\ vx p = vx hi) /\ (exists p, In p l /\ vy p = vy hi) /\ (exists p, In p l /\ vz p = vz hi).
(** coordinates the box computation can cope with *)
Definition moderate (p : vec3 R) : Prop :=
  Rabs (vx p) <= 10 ^ 30 /\ Rabs (vy p) <= 10 ^ 30 /\ Rabs (vz p) <= 10 ^ 30.

(** the viewport covers the pixel (counted from the bottom left) *)
Definition covers (p : port) (i j : Z) : Prop :=
  (q_x p <= i < q_x p + q_w p)%Z /\ (q_y p <= j < q_y p + q_h p)%Z.
