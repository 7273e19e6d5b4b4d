(** What a camera sees, after the description of gluLookAt and gluPerspective in the GLU specification. *)
From Coq Require Import ZArith Reals List.
From Verif Require Import Num ModelVertex ModelView ModelCamera.
Import ListNotations.
Local Open Scope R_scope.

Definition inner (a b : vec3 R) : R := vx a * vx b + vy a * vy b + vz a * vz b.
Definition len (a : vec3 R) : R := sqrt (inner a a).
Definition minus (a b : vec3 R) : vec3 R := V3 (vx a - vx b) (vy a - vy b) (vz a - vz b).
Definition outer (a b : vec3 R) : vec3 R :=
  V3 (vy a * vz b - vz a * vy b) (vz a * vx b - vx a * vz b) (vx a * vy b - vy a * vx b).
Definition unit_of (a : vec3 R) : vec3 R := V3 (vx a / len a) (vy a / len a) (vz a / len a).

(** gluLookAt: the directions to the front, to the right and upwards *)
Definition front (p : @picture R) : vec3 R := unit_of (minus (pic_center p) (pic_eye p)).
Definition right_ (p : @picture R) : vec3 R := unit_of (outer (front p) (pic_up p)).
Definition above (p : @picture R) : vec3 R := outer (right_ p) (front p).
(** gluPerspective: [fovy] is the whole vertical angle in degrees, [aspect] width over height *)
Definition sees (p : @picture R) (x : vec3 R) : Prop :=
  let d := minus x (pic_eye p) in
  let depth := inner d (front p) in
  let t := tan (pic_fovy p / 2 * (PI / 180)) in
  pic_near p <= depth <= pic_far p /\
  Rabs (inner d (above p)) <= depth * t /\ Rabs (inner d (right_ p)) <= depth * t * pic_aspect p.

(** the diagonal of the box *)
Definition diagonal (v : @view R) : R := len (minus (v_bmax v) (v_bmin v)).

(** corners of the box by which of its coordinates are the larger ones *)
Definition corner (v : @view R) (c : bool * bool * bool) : vec3 R :=
  let '(x, y, z) := c in
  V3 (vx (if x then v_bmax v else v_bmin v)) (vy (if y then v_bmax v else v_bmin v)) (vz (if z then v_bmax v else v_bmin v)).
Definition corner_color (c : bool * bool * bool) : vec3 R :=
  let b2r (b : bool) := if b then 1 else 0 in let '(x, y, z) := c in V3 (b2r x) (b2r y) (b2r z).
(** corners that differ in one coordinate *)
Definition next_to (c d : bool * bool * bool) : Prop :=
  let '(x, y, z) := c in let '(x', y', z') := d in
  (x <> x' /\ y = y' /\ z = z') \/ (x = x' /\ y <> y' /\ z = z') \/ (x = x' /\ y = y' /\ z <> z').
