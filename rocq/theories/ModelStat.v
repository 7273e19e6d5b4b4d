(** The physics report: nbody/nbody_data.cpp:57-145 ([print_statistics]) and 326-381 (getters).
    Timing, printing and the compute counter are not modelled; the check list (a string) is
    represented by the four flags the code tests for. *)
From Coq Require Import ZArith List Arith.
From Verif Require Import Num Arr ModelVertex ModelForce ModelSum.
Set Implicit Arguments.

Section Stat.
  Context {T : Type} (N : NumOps T).

  (** m_check_list.contains("P"), ("L"), ("E"), ("V") *)
  Record checks := Chk { chk_P : bool; chk_L : bool; chk_E : bool; chk_V : bool }.

  (** impulse, angular momentum, mass centre, kinetic and potential energy *)
  Record report := Rep { rep_P : vec3 T; rep_L : vec3 T; rep_V : vec3 T; rep_K : T; rep_U : T }.

  (** nbody_data.h:21-31: the initial values, the last values, m_initial_values_computed *)
  Record stat := Stat { st_init : report; st_last : report; st_done : bool }.

  (** nbody_data.cpp:18-33 (all zero, not computed) *)
  Definition report_zero : report :=
    Rep (vzero N) (vzero N) (vzero N) (nlit N 0) (nlit N 0).
  Definition stat_new : stat := Stat report_zero report_zero false.

  (** nbody_data.cpp:67-93: the totals; quantities that are not asked for stay zero *)
  Definition totals (chk : checks) (count : nat) (vrt vel : list (vec3 T)) (mass : list T)
    : option report :=
    let* p := if chk_P chk
              then summation (vadd N) (vsub N) (vzero N) (impulce_proxy N vel mass) count
              else Some (vzero N) in
    let* l := if chk_L chk
              then summation (vadd N) (vsub N) (vzero N) (impulce_moment_proxy N vrt vel mass) count
              else Some (vzero N) in
    let* e := if chk_E chk
              then
                let* k := summation (nadd N) (nsub N) (nlit N 0)
                            (kinetic_energy_proxy N vel mass) count in
                let* u := summation (nadd N) (nsub N) (nlit N 0)
                            (potential_energy_proxy N count vrt mass) (count * count) in
                Some (ndiv N k (nlit N 2), ndiv N u (nlit N 2))
              else Some (nlit N 0, nlit N 0) in
    let* v := if chk_V chk
              then
                let* total_mass := summation (nadd N) (nsub N) (nlit N 0) (rd mass) count in
                let* mc := summation (vadd N) (vsub N) (vzero N) (mass_center_proxy N vrt mass)
                             count in
                Some (vdivs N mc total_mass)
              else Some (vzero N) in
    Some (Rep p l v (fst e) (snd e)).

  (** nbody_data.cpp:95-103: first report fixes the initial values; 117-137: the last values *)
  Definition print_statistics (chk : checks) (count : nat) (vrt vel : list (vec3 T))
    (mass : list T) (st : stat) : option stat :=
    let* r := totals chk count vrt vel mass in
    let init := if st_done st then st_init st else r in
    let last := st_last st in
    Some (Stat init
            (Rep (if chk_P chk then rep_P r else rep_P last)
                 (if chk_L chk then rep_L r else rep_L last)
                 (if chk_V chk then rep_V r else rep_V last)
                 (if chk_E chk then rep_K r else rep_K last)
                 (if chk_E chk then rep_U r else rep_U last)) true).

  (** nbody_data.cpp:341-344, 361-364 *)
  Definition energy (r : report) : T := nadd N (rep_K r) (rep_U r).
  (** nbody_data.cpp:366-370, [get_impulce_err] *)
  Definition impulce_err (st : stat) : T :=
    nabs N (ndiv N (nmul N (nlit N 100) (vlength N (vsub N (rep_P (st_last st)) (rep_P (st_init st)))))
              (vlength N (rep_P (st_init st)))).
  (** nbody_data.cpp:372-376, [get_impulce_moment_err] *)
  Definition impulce_moment_err (st : stat) : T :=
    nabs N (ndiv N (nmul N (nlit N 100) (vlength N (vsub N (rep_L (st_last st)) (rep_L (st_init st)))))
              (vlength N (rep_L (st_init st)))).
  (** nbody_data.cpp:378-381, [get_energy_err] *)
  Definition energy_err (st : stat) : T :=
    nabs N (ndiv N (nmul N (nlit N 100) (nsub N (energy (st_last st)) (energy (st_init st))))
              (energy (st_init st))).
End Stat.
