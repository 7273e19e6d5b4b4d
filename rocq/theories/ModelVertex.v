(** Three-component vectors: nbody/vertex.h:6-163 ([vertex3]). *)
From Coq Require Import ZArith.
From Verif Require Import Num.
Set Implicit Arguments.

(** vertex.h:11 *)
Record vec3 (T : Type) : Type := V3 { vx : T; vy : T; vz : T }.

Section Vertex.
  Context {T : Type} (N : NumOps T).

  (** vertex.h:12 (default constructor) *)
  Definition vzero : vec3 T := V3 (nlit N 0) (nlit N 0) (nlit N 0).
  (** vertex.h:55-65 *)
  Definition vadd (a b : vec3 T) : vec3 T :=
    V3 (nadd N (vx a) (vx b)) (nadd N (vy a) (vy b)) (nadd N (vz a) (vz b)).
  (** vertex.h:69-79 *)
  Definition vsub (a b : vec3 T) : vec3 T :=
    V3 (nsub N (vx a) (vx b)) (nsub N (vy a) (vy b)) (nsub N (vz a) (vz b)).
  (** vertex.h:83-93 *)
  Definition vscale (a : vec3 T) (c : T) : vec3 T :=
    V3 (nmul N (vx a) c) (nmul N (vy a) c) (nmul N (vz a) c).
  (** vertex.h:97-108 *)
  Definition vdivs (a : vec3 T) (c : T) : vec3 T :=
    V3 (ndiv N (vx a) c) (ndiv N (vy a) c) (ndiv N (vz a) c).
  (** vertex.h:119-122 *)
  Definition vopp (a : vec3 T) : vec3 T := V3 (nopp N (vx a)) (nopp N (vy a)) (nopp N (vz a)).
  (** vertex.h:126-129 *)
  Definition vdot (a b : vec3 T) : T :=
    nadd N (nadd N (nmul N (vx a) (vx b)) (nmul N (vy a) (vy b))) (nmul N (vz a) (vz b)).
  (** vertex.h:133-138 *)
  Definition vcross (a b : vec3 T) : vec3 T :=
    V3 (nsub N (nmul N (vy a) (vz b)) (nmul N (vz a) (vy b)))
       (nsub N (nmul N (vz a) (vx b)) (nmul N (vx a) (vz b)))
       (nsub N (nmul N (vx a) (vy b)) (nmul N (vy a) (vx b))).
  (** vertex.h:151-154 *)
  Definition vnorm (a : vec3 T) : T :=
    nadd N (nadd N (nmul N (vx a) (vx a)) (nmul N (vy a) (vy a))) (nmul N (vz a) (vz a)).
  (** vertex.h:155-158 *)
  Definition vlength (a : vec3 T) : T := nsqrt N (vdot a a).
  (** vertex.h:146-150 *)
  Definition vdistance (a b : vec3 T) : T := vlength (vsub a b).
  (** vertex.h:142-145; the C++ version modifies the vertex in place *)
  Definition vnormalize (a : vec3 T) : vec3 T := vdivs a (vlength a).
  (** vertex.h:159-162 *)
  Definition vmirror (a v : vec3 T) : vec3 T := vadd v (vscale (vsub a v) (nlit N 2)).
  (** vertex.h:43-46 *)
  Definition veqb (a b : vec3 T) : bool :=
    (neqb N (vx a) (vx b) && neqb N (vy a) (vy b) && neqb N (vz a) (vz b))%bool.
End Vertex.
