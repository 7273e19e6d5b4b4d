(** Extrapolators: nbody/nbody_extrapolator.cpp.

    [size_t] values are natural numbers here (no wrap at 2^64; [std::pow(s, order)] on [size_t]
    goes through [double], which is exact below 2^53). *)
From Coq Require Import ZArith List Arith.
From Verif Require Import Num Arr ModelEngine ModelSolverBase.
Import ListNotations.
Set Implicit Arguments.

Section Extrap.
  Context {T : Type} (N : NumOps T) (ps : nat).

  (** [static_cast<nbcoord_t>(size_t)] *)
  Definition nnat (n : nat) : T := nlit N (Z.of_nat n).

  (** nbody_extrapolator.cpp:5-18: the substep counts raised to [order] *)
  Definition ext_counts (order : nat) (substeps : list nat) : list nat :=
    if Nat.eqb order 1 then substeps else map (fun s => Nat.pow s order) substeps.

  (** nbody_extrapolator.cpp:34-106, [nbody_extrapolator_berrut]: its table and difference buffer *)
  Record berrut := mkBerrut { be_table : list (list T); be_diff : list T }.

  (** nbody_extrapolator.cpp:89-103, [weights]; [std::pow(-1, n + 1) * sub_steps_count(n)] *)
  Definition berrut_raw (counts : list nat) (level : nat) : option (list T) :=
    collect level 0
      (fun n => let* s := rd counts n in
                Some (nmul N (if Nat.even (n + 1) then nlit N 1 else nlit N (-1)) (nnat s))).
  Definition berrut_weights (counts : list nat) (level : nat) : option (list T) :=
    let* w := berrut_raw counts level in
    let sum := fold_left (nadd N) w (nlit N 0) in
    Some (map (fun x => ndiv N x sum) w).

  (** nbody_extrapolator.cpp:49-52 *)
  Definition berrut_update (s : berrut) (level : nat) (y : list T) : option berrut :=
    let* t := rd (be_table s) level in
    let* t := copy_buffer ps t y in
    let* tb := wr (be_table s) level t in
    Some (mkBerrut tb (be_diff s)).

  (** nbody_extrapolator.cpp:54-76, [estimate_error]; [None] as a value is
      [numeric_limits::max()] *)
  Definition berrut_error (counts : list nat) (s : berrut) (level : nat)
    : option (option T * berrut) :=
    match level with
    | O => Some (None, s)
    | S l =>
        let* w0 := berrut_weights counts l in
        let* w1 := berrut_weights counts level in
        let* w1 := for_ (length w0) 0
                     (fun n w => let* a := rd w n in let* b := rd w0 n in wr w n (nsub N a b)) w1 in
        let* d := fill_buffer (be_diff s) (nlit N 0) in
        let* d := fmaddn_inplace N ps d (be_table s) w1 level in
        let* m := fmaxabs N ps d in
        Some (Some m, mkBerrut (be_table s) d)
    end.

  (** nbody_extrapolator.cpp:78-87, [extrapolate] *)
  Definition berrut_extrapolate (counts : list nat) (s : berrut) (level : nat) (ext_y : list T)
    : option (list T) :=
    let* w := berrut_weights counts level in
    let* y := fill_buffer ext_y (nlit N 0) in
    match level with
    | O => Some y
    | S _ => fmaddn_inplace N ps y (be_table s) w level
    end.

  (** nbody_extrapolator.cpp:105-121, [nbody_extrapolator_neville] *)
  Record neville := mkNeville { ne_table : list (list T); ne_prev : list (list T); ne_diff : list T }.

  (** nbody_extrapolator.cpp:155-163: one column *)
  Definition neville_column (counts : list nat) (k : nat) (prev : list (list T)) (j : nat)
    (table : list (list T)) : option (list (list T)) :=
    let* s1 := rd counts k in
    let* s2 := rd counts (k - j - 1) in
    let step1 := nnat s1 in
    let step2 := nnat s2 in
    let step_diff := nsub N step1 step2 in
    let d := [ndiv N step1 step_diff; ndiv N (nopp N step2) step_diff] in
    let* c0 := rd table j in
    let* c1 := rd prev j in
    let* dst := rd table (j + 1) in
    let* r := fmaddn N ps dst None [c0; c1] d 2 in
    wr table (j + 1) r.

  (** nbody_extrapolator.cpp:122-164, [update_table] *)
  Definition neville_update (counts : list nat) (s : neville) (k : nat) (y : list T)
    : option neville :=
    let table := ne_prev s in
    let prev := ne_table s in
    let* t0 := rd table 0 in
    let* t0 := copy_buffer ps t0 y in
    let* table := wr table 0 t0 in
    let* table := for_ k 0 (neville_column counts k prev) table in
    Some (mkNeville table prev (ne_diff s)).

  (** nbody_extrapolator.cpp:166-176, [estimate_error] *)
  Definition neville_error (s : neville) (level : nat) : option (option T * neville) :=
    match level with
    | O => Some (None, s)
    | S l =>
        let* a := rd (ne_table s) level in
        let* b := rd (ne_table s) l in
        let* d := fmadd N ps (ne_diff s) a b (nlit N (-1)) in
        let* m := fmaxabs N ps d in
        Some (Some m, mkNeville (ne_table s) (ne_prev s) d)
    end.

  (** nbody_extrapolator.cpp:178-181, [extrapolate] *)
  Definition neville_extrapolate (s : neville) (level : nat) (ext_y : list T) : option (list T) :=
    let* t := rd (ne_table s) level in
    copy_buffer ps ext_y t.
End Extrap.
