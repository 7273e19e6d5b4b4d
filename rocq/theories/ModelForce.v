(** Pair interaction: nbody/nbody_data.cpp:14-55. *)
From Coq Require Import ZArith List.
From Verif Require Import Num Arr ModelVertex.
Set Implicit Arguments.

Section Force.
  Context {T : Type} (N : NumOps T).

  (** nbody_data.cpp:14-16, [GravityConst] *)
  Definition gravity_const : T := nlit N 1.

  (** nbody_data.cpp:35-44, [nbody_data::force] *)
  Definition force (v1 v2 : vec3 T) (mass1 mass2 : T) : vec3 T :=
    let dr := vsub N v1 v2 in
    let r2 := vnorm N dr in
    let r2 := if nltb N r2 (nmind N) then nmind N else r2 in
    vscale N dr
      (ndiv N (nmul N (nmul N (nopp N gravity_const) mass1) mass2)
              (nmul N r2 (nsqrt N r2))).

  (** nbody_data.cpp:46-55, [nbody_data::potential_energy]; out-of-range body numbers are [None] *)
  Definition potential_energy (vertites : list (vec3 T)) (mass : list T) (body1 body2 : nat)
    : option T :=
    let* v1 := rd vertites body1 in
    let* v2 := rd vertites body2 in
    let dr := vsub N v1 v2 in
    let r2 := vnorm N dr in
    if nltb N r2 (nmind N) then Some (nlit N 0)
    else
      let* m1 := rd mass body1 in
      let* m2 := rd mass body2 in
      Some (ndiv N (nopp N (nmul N (nmul N gravity_const m1) m2)) (nsqrt N r2)).
End Force.
