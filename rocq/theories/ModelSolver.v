(** The solvers: nbody/nbody_solver_{euler,midpoint,midpoint_stetter,rk4,trapeze,adams,rk_butcher,
    bulirsch_stoer,stormer}.cpp.

    Each [..._advise dt s e] runs [advise(dt)] of a solver object with private state [s] on the
    engine [e]; [None] is undefined behaviour (an access outside an array, an undefined [fcompute]).
    A private state of [None] is a freshly constructed object whose buffers are not yet
    allocated. *)
From Coq Require Import ZArith List Arith.
From Verif Require Import Num Arr ModelEngine ModelBlock ModelAH ModelSolverBase ModelButcher
  ModelExtrap.
Import ListNotations.
Set Implicit Arguments.

Section Solver.
  Context {T E : Type} (N : NumOps T) (ps : nat)
          (ef : E -> nat -> T -> list T -> list T -> option (E * list T))
          (garbage : nat -> list T).
  Notation eng := (@eng T E).
  Notation fcomp := (eng_fcompute ef).
  Notation two := (nlit N 2).

  (** nbody_solver_euler.cpp:19-32; the state is [m_dy] *)
  Definition euler_advise (dt : T) (s : option (list T)) (e : eng)
    : option (option (list T) * eng) :=
    let (dy, e) := match s with Some b => (b, e) | None => new_buffer garbage e end in
    let* (e, dy) := fcomp e (e_time e) (e_y e) dy in
    let* y := fmadd_inplace N ps (e_y e) dy dt in
    Some (Some dy, advise_time N (set_y e y) dt).

  (** nbody_solver_midpoint.cpp:22-40; [m_k1], [m_k2], [m_tmp] *)
  Record midpoint := mkMidpoint { mp_k1 : list T; mp_k2 : list T; mp_tmp : list T }.
  Definition midpoint_advise (dt : T) (s : option midpoint) (e : eng)
    : option (option midpoint * eng) :=
    let (s, e) :=
      match s with
      | Some s => (s, e)
      | None => let (k1, e) := new_buffer garbage e in
                let (k2, e) := new_buffer garbage e in
                let (tmp, e) := new_buffer garbage e in
                (mkMidpoint k1 k2 tmp, e)
      end in
    let t := e_time e in
    let* (e, k1) := fcomp e t (e_y e) (mp_k1 s) in
    let* tmp := fmadd N ps (mp_tmp s) (e_y e) k1 (ndiv N dt two) in
    let* (e, k2) := fcomp e (nadd N t (ndiv N dt two)) tmp (mp_k2 s) in
    let* y := fmadd_inplace N ps (e_y e) k2 dt in
    Some (Some (mkMidpoint k1 k2 tmp), advise_time N (set_y e y) dt).

  (** nbody_solver_midpoint_stetter.h and .cpp:23-76; [m_tmp], [m_du], [m_fu], [m_uv],
      [m_uv_initiated] *)
  Record stetter := mkStetter {
    sm_tmp : list T; sm_du : list T; sm_fu : list (list T); sm_uv : list (list T);
    sm_init : bool }.
  Definition stetter_advise (dt : T) (s : option stetter) (e : eng)
    : option (option stetter * eng) :=
    let t := e_time e in
    let '(s, e, first_run) :=
      match s with
      | Some s => (s, e, false)
      | None => let (tmp, e) := new_buffer garbage e in
                let (du, e) := new_buffer garbage e in
                let (fu, e) := new_buffers garbage 2 e in
                let (uv, e) := new_buffers garbage 2 e in
                (mkStetter tmp du fu uv false, e, true)
      end in
    let* u := rd (sm_uv s) 0 in
    let* v := rd (sm_uv s) 1 in
    let* fu0 := rd (sm_fu s) 0 in
    let* fu1 := rd (sm_fu s) 1 in
    (* lines 38-44 *)
    let* (u, v, first_run) :=
      if orb (negb (sm_init s)) first_run then
        let* u := copy_buffer ps u (e_y e) in
        let* v := copy_buffer ps v (e_y e) in
        Some (u, v, true)
      else Some (u, v, first_run) in
    (* lines 46-55 *)
    let* (e, fu0) := if (first_run : bool) then fcomp e t u fu0 else Some (e, fu0) in
    let* tmp := fmadd N ps (sm_tmp s) v fu0 (ndiv N dt two) in
    let* (e, du) := fcomp e (nadd N t (ndiv N dt two)) tmp (sm_du s) in
    let* u := fmadd_inplace N ps u du dt in
    (* lines 56-61 *)
    let* (e, fu1) := fcomp e (nadd N t dt) u fu1 in
    let* v := fmaddn_inplace N ps v [fu0; fu1] [ndiv N dt two; ndiv N dt two] 2 in
    (* lines 62-67 *)
    let half := ndiv N (nlit N 1) two in
    let* y := fmaddn N ps (e_y e) None [u; v] [half; half] 2 in
    Some (Some (mkStetter tmp du [fu1; fu0] [u; v] true), advise_time N (set_y e y) dt).
  (** nbody_solver_midpoint_stetter.cpp:73-76, [reset] *)
  Definition stetter_reset (s : option stetter) : option stetter :=
    match s with
    | Some s => Some (mkStetter (sm_tmp s) (sm_du s) (sm_fu s) (sm_uv s) false)
    | None => None
    end.

  (** nbody_solver_rk4.cpp:19-48; [m_k], [m_tmp] *)
  Record rk4 := mkRk4 { r4_k : list (list T); r4_tmp : list T }.
  Definition rk4_advise (dt : T) (s : option rk4) (e : eng) : option (option rk4 * eng) :=
    let t := e_time e in
    let (s, e) :=
      match s with
      | Some s => (s, e)
      | None => let (k, e) := new_buffers garbage 4 e in
                let (tmp, e) := new_buffer garbage e in
                (mkRk4 k tmp, e)
      end in
    let* k0 := rd (r4_k s) 0 in
    let* k1 := rd (r4_k s) 1 in
    let* k2 := rd (r4_k s) 2 in
    let* k3 := rd (r4_k s) 3 in
    let* (e, k0) := fcomp e t (e_y e) k0 in
    let* tmp := fmadd N ps (r4_tmp s) (e_y e) k0 (ndiv N dt two) in
    let* (e, k1) := fcomp e (nadd N t (ndiv N dt two)) tmp k1 in
    let* tmp := fmadd N ps tmp (e_y e) k1 (ndiv N dt two) in
    let* (e, k2) := fcomp e (nadd N t (ndiv N dt two)) tmp k2 in
    let* tmp := fmadd N ps tmp (e_y e) k2 dt in
    let* (e, k3) := fcomp e (nadd N t dt) tmp k3 in
    let coeff := [ndiv N dt (nlit N 6); ndiv N dt (nlit N 3); ndiv N dt (nlit N 3);
                  ndiv N dt (nlit N 6)] in
    let* y := fmaddn_inplace N ps (e_y e) [k0; k1; k2; k3] coeff 4 in
    Some (Some (mkRk4 [k0; k1; k2; k3] tmp), advise_time N (set_y e y) dt).

  (** nbody_solver_trapeze.cpp:26-56; [m_f], [m_predictor]; [refine] is [m_refine_steps_count] *)
  Record trapeze := mkTrapeze { tz_f : list (list T); tz_pred : list T }.
  (** lines 41-54: one refinement; the loop state is engine, predictor, f[1] *)
  Definition trapeze_refine (refine : nat) (dt t : T) (f0 : list T) (s : nat)
    (st : eng * list T * list T) : option (eng * list T * list T) :=
    let '(e, pred, f1) := st in
    let coeff := [ndiv N dt two; ndiv N dt two] in
    let* (e, f1) := fcomp e t pred f1 in
    if Nat.eqb s refine then
      let* y := fmaddn_inplace N ps (e_y e) [f0; f1] coeff 2 in
      Some (set_y e y, pred, f1)
    else
      let* pred := fmaddn N ps pred (Some (e_y e)) [f0; f1] coeff 2 in
      Some (e, pred, f1).
  Definition trapeze_advise (refine : nat) (dt : T) (s : option trapeze) (e : eng)
    : option (option trapeze * eng) :=
    let t := e_time e in
    let (s, e) :=
      match s with
      | Some s => (s, e)
      | None => let (f, e) := new_buffers garbage 2 e in
                let (p, e) := new_buffer garbage e in
                (mkTrapeze f p, e)
      end in
    let* f0 := rd (tz_f s) 0 in
    let* f1 := rd (tz_f s) 1 in
    let* (e, f0) := fcomp e t (e_y e) f0 in
    let* pred := fmadd N ps (tz_pred s) (e_y e) f0 dt in
    let* (e, pred, f1) := for_ (S refine) 0 (trapeze_refine refine dt t f0) (e, pred, f1) in
    Some (Some (mkTrapeze [f0; f1] pred), advise_time N e dt).

  (** nbody_solver_stormer.cpp:13-57: the whole body is commented out *)
  Definition stormer_advise (dt : T) (e : eng) : option eng := Some e.

  (** nbody_solver_rk_butcher.h:8-25: the parameters ... *)
  Record rk_params := mkRkParams {
    rp_table : table T;           (* m_bt *)
    rp_max_recursion : nat;       (* m_max_recursion *)
    rp_subdivisions : nat;        (* m_substep_subdivisions *)
    rp_threshold : T;             (* m_error_threshold *)
    rp_refine : nat;              (* m_refine_steps_count *)
    rp_correction : bool;         (* m_correction *)
    rp_min_step : T               (* get_min_step() *)
  }.
  (** ... and the buffers; [m_ycorr_data] and [m_tcorr_data] are null pointers ([[]] here) without
      correction *)
  Record rk_bufs := mkRkBufs {
    rb_k : list (list T); rb_t : list T; rb_tmpk : list T; rb_ycorr : list T; rb_tcorr : list T;
    rb_stack : list (list T) }.

  (** one accepted substep: start time, length, error estimate, recursion level.  The trace of
      accepted substeps is not part of the code: it records which branch line 221 takes. *)
  Record accepted := mkAcc { ac_t : T; ac_dt : T; ac_err : T; ac_level : nat }.

  Section SubStep.
    Variable p : rk_params.
    Let bt := rp_table p.
    Let steps := bt_steps bt.

    (** [dt * a[i][n]] for n < cnt: lines 120-123 and 144-147.  The coefficient array of the code
        ([coeff], [steps + 1] values) is rebuilt here before each use. *)
    Definition row_coeff (dt : T) (i cnt : nat) : option (list T) :=
      let* row := rd (bt_a bt) i in
      collect cnt 0 (fun n => let* a := rd row n in Some (nmul N dt a)).

    (** lines 138-159: one stage of an explicit method *)
    Definition stage_explicit (t dt : T) (y : list T) (i : nat) (st : eng * rk_bufs)
      : option (eng * rk_bufs) :=
      let (e, b) := st in
      let* ci := rd (bt_c bt) i in
      let* ki := rd (rb_k b) i in
      if Nat.eqb i 0 then
        let* (e, ki) := fcomp e (nadd N t (nmul N ci dt)) y ki in
        let* k := wr (rb_k b) i ki in
        Some (e, mkRkBufs k (rb_t b) (rb_tmpk b) (rb_ycorr b) (rb_tcorr b) (rb_stack b))
      else
        let* coeff := row_coeff dt i i in
        let* (mt, tcorr) :=
          if rp_correction p then
            let* tcorr := copy_buffer ps (rb_tcorr b) (rb_ycorr b) in
            let* mt := copy_buffer ps (rb_t b) y in
            fmaddn_corr N ps mt tcorr (rb_k b) coeff i
          else
            let* mt := fmaddn N ps (rb_t b) (Some y) (rb_k b) coeff i in
            Some (mt, rb_tcorr b) in
        let* (e, ki) := fcomp e (nadd N t (nmul N ci dt)) mt ki in
        let* k := wr (rb_k b) i ki in
        Some (e, mkRkBufs k mt (rb_tmpk b) (rb_ycorr b) tcorr (rb_stack b)).
    (** nbody_solver_rk_butcher.cpp:130-161, [sub_step_explicit] *)
    Definition sub_step_explicit (t dt : T) (y : list T) (st : eng * rk_bufs)
      : option (eng * rk_bufs) :=
      for_ steps 0 (stage_explicit t dt y) st.

    (** lines 108-112 *)
    Definition stage_first (t dt : T) (y : list T) (i : nat) (st : eng * rk_bufs)
      : option (eng * rk_bufs) :=
      let (e, b) := st in
      let* ci := rd (bt_c bt) i in
      let* ki := rd (rb_k b) i in
      let* mt := fmadd N ps (rb_t b) y (rb_tmpk b) (nmul N dt ci) in
      let* (e, ki) := fcomp e (nadd N t (nmul N ci dt)) mt ki in
      let* k := wr (rb_k b) i ki in
      Some (e, mkRkBufs k mt (rb_tmpk b) (rb_ycorr b) (rb_tcorr b) (rb_stack b)).
    (** lines 118-126 *)
    Definition stage_implicit (t dt : T) (y : list T) (i : nat) (st : eng * rk_bufs)
      : option (eng * rk_bufs) :=
      let (e, b) := st in
      let* ci := rd (bt_c bt) i in
      let* ki := rd (rb_k b) i in
      let* coeff := row_coeff dt i steps in
      let* mt := fmaddn N ps (rb_t b) (Some y) (rb_k b) coeff (length (rb_k b)) in
      let* (e, ki) := fcomp e (nadd N t (nmul N ci dt)) mt ki in
      let* k := wr (rb_k b) i ki in
      Some (e, mkRkBufs k mt (rb_tmpk b) (rb_ycorr b) (rb_tcorr b) (rb_stack b)).
    (** nbody_solver_rk_butcher.cpp:97-128, [sub_step_implicit] *)
    Definition sub_step_implicit (need_first : bool) (t dt : T) (y : list T) (st : eng * rk_bufs)
      : option (eng * rk_bufs) :=
      let* st :=
        if need_first then
          let (e, b) := st in
          let* (e, tmpk) := fcomp e t y (rb_tmpk b) in
          for_ steps 0 (stage_first t dt y)
            (e, mkRkBufs (rb_k b) (rb_t b) tmpk (rb_ycorr b) (rb_tcorr b) (rb_stack b))
        else Some st in
      for_ (rp_refine p) 0 (fun _ => for_ steps 0 (stage_implicit t dt y)) st.

    (** lines 205-215: the error estimate *)
    Definition estimate (b : rk_bufs) : option (T * rk_bufs) :=
      if bt_embedded bt then
        let* coeff := collect steps 0 (fun n => let* b2 := rd (bt_b2 bt) n in
                                                let* b1 := rd (bt_b1 bt) n in
                                                Some (nsub N b2 b1)) in
        let* mt := fmaddn N ps (rb_t b) None (rb_k b) coeff steps in
        let* err := fmaxabs N ps mt in
        Some (err, mkRkBufs (rb_k b) mt (rb_tmpk b) (rb_ycorr b) (rb_tcorr b) (rb_stack b))
      else Some (nlit N 0, b).

    (** lines 234-245: the update of [y] *)
    Definition accept (dt : T) (y : list T) (b : rk_bufs) : option (list T * rk_bufs) :=
      let* coeff := collect steps 0 (fun n => let* b2 := rd (bt_b2 bt) n in
                                              Some (nmul N b2 dt)) in
      if rp_correction p then
        let* (y, ycorr) := fmaddn_corr N ps y (rb_ycorr b) (rb_k b) coeff (length (rb_k b)) in
        Some (y, mkRkBufs (rb_k b) (rb_t b) (rb_tmpk b) ycorr (rb_tcorr b) (rb_stack b))
      else
        let* y := fmaddn_inplace N ps y (rb_k b) coeff (length (rb_k b)) in
        Some (y, b).

    (** the state of the loop of line 194: engine, buffers, [y], [t], trace *)
    Definition rk_loop := (eng * rk_bufs * list T * T * list accepted)%type.

    (** nbody_solver_rk_butcher.cpp:163-248, [sub_step] without the allocation of lines 178-192.
        [rem] is [m_max_recursion - recursion_level], so [recursion_level < m_max_recursion] is
        [rem = S _].  The buffers exist when the function calls itself, so the inner calls have
        [need_first_approach_k = false]. *)
    Fixpoint sub_step (rem level substeps : nat) (need_first : bool) (dt : T) (st : rk_loop)
      : option rk_loop :=
      for_ substeps 0
        (fun _ (st : rk_loop) =>
           let '(e, b, y, t, tr) := st in
           let* (e, b) := if bt_implicit bt then sub_step_implicit need_first t dt y (e, b)
                          else sub_step_explicit t dt y (e, b) in
           let* (max_error, b) := estimate b in
           let need_subdivide := nltb N (rp_threshold p) max_error in
           let finish :=
             let* (y, b) := accept dt y b in
             Some (e, b, y, nadd N t dt, tr ++ [mkAcc t dt max_error level]) in
           match rem with
           | S rem' =>
               if andb (andb (bt_embedded bt) (nltb N (rp_min_step p) dt)) need_subdivide then
                 let new_dt := ndiv N dt (nnat N (rp_subdivisions p)) in
                 let* curr_y := rd (rb_stack b) level in
                 let* curr_y := copy_buffer ps curr_y y in
                 let* stack := wr (rb_stack b) level curr_y in
                 let b := mkRkBufs (rb_k b) (rb_t b) (rb_tmpk b) (rb_ycorr b) (rb_tcorr b) stack in
                 let* (e, b, curr_y, _, tr) :=
                   sub_step rem' (S level) (rp_subdivisions p) false new_dt (e, b, curr_y, t, tr) in
                 let* stack := wr (rb_stack b) level curr_y in
                 let b := mkRkBufs (rb_k b) (rb_t b) (rb_tmpk b) (rb_ycorr b) (rb_tcorr b) stack in
                 let* y := copy_buffer ps y curr_y in
                 Some (e, b, y, nadd N t dt, tr)
               else finish
           | O => finish
           end) st.
  End SubStep.

  (** lines 178-192: the allocation *)
  Definition rk_alloc (p : rk_params) (e : eng) : option (rk_bufs * eng) :=
    let (k, e) := new_buffers garbage (bt_steps (rp_table p)) e in
    let (mt, e) := new_buffer garbage e in
    let (tmpk, e) := new_buffer garbage e in
    let (stack, e) := new_buffers garbage (rp_max_recursion p) e in
    if rp_correction p then
      let (yc, e) := new_buffer garbage e in
      let (tc, e) := new_buffer garbage e in
      let* yc := fill_buffer yc (nlit N 0) in
      let* tc := fill_buffer tc (nlit N 0) in
      Some (mkRkBufs k mt tmpk yc tc stack, e)
    else Some (mkRkBufs k mt tmpk [] [] stack, e).

  (** nbody_solver_rk_butcher.cpp:60-68, [advise]; also returns the trace of accepted substeps *)
  Definition rk_step (p : rk_params) (dt : T) (s : option rk_bufs) (e : eng)
    : option (rk_bufs * eng * list accepted) :=
    let t := e_time e in
    let* (b, e, need_first) :=
      match s with
      | Some b => Some (b, e, false)
      | None => let* (b, e) := rk_alloc p e in Some (b, e, true)
      end in
    let* (e, b, y, _, tr) :=
      sub_step p (rp_max_recursion p) 0 1 need_first dt (e, b, e_y e, t, []) in
    Some (b, advise_time N (set_y e y) dt, tr).
  Definition rk_advise (p : rk_params) (dt : T) (s : option rk_bufs) (e : eng)
    : option (option rk_bufs * eng) :=
    let* (b, e, _) := rk_step p dt s e in Some (Some b, e).
  (** nbody_solver_rk_butcher.cpp:80-90, [reset] *)
  Definition rk_reset (s : option rk_bufs) : option (option rk_bufs) :=
    match s with
    | None => Some None
    | Some b =>
        let* yc := fill_buffer (rb_ycorr b) (nlit N 0) in
        let* tc := fill_buffer (rb_tcorr b) (nlit N 0) in
        Some (Some (mkRkBufs (rb_k b) (rb_t b) (rb_tmpk b) yc tc (rb_stack b)))
    end.

  (** nbody_solver_bulirsch_stoer.cpp:7-38, [init_steps] for [ebssub_bulirsch_stoer] ... *)
  Fixpoint bs_more (cnt j : nat) (steps : list nat) : option (list nat) :=
    match cnt with
    | O => Some steps
    | S c => let* s := rd steps (j - 2) in bs_more c (S j) (steps ++ [2 * s])
    end.
  Definition init_steps (n : nat) : option (list nat) :=
    if Nat.eqb n 0 then Some []
    else
      let steps := [2] in
      let steps := if Nat.ltb 1 n then steps ++ [4] else steps in
      let steps := if Nat.ltb 2 n then steps ++ [6] else steps in
      bs_more (n - 3) 3 steps.
  (** ... and for the other sub-sequence type *)
  Definition init_steps_other (n : nat) : list nat := map (fun j => 2 * (j + 1)) (seq 0 n).

  (** nbody_solver_bulirsch_stoer.h: parameters; buffers [m_y0], [m_internal], [m_extrapolator] *)
  Record bs_params := mkBsParams { bp_max_level : nat; bp_threshold : T }.
  Record bs_bufs := mkBsBufs { bb_y0 : list T; bb_int : option stetter; bb_ext : @neville T }.

  (** lines 76-80: the substeps *)
  Definition bs_substeps (cnt : nat) (sdt : T) (st : option stetter * eng)
    : option (option stetter * eng) :=
    for_ cnt 0 (fun _ st => stetter_advise sdt (fst st) (snd st)) st.
  (** nbody_solver_bulirsch_stoer.cpp:65-83, [compute_substep] *)
  Definition bs_compute (counts : list nat) (level : nat) (dt t0 : T) (b : bs_bufs) (e : eng)
    : option (bs_bufs * eng) :=
    let* y := copy_buffer ps (e_y e) (bb_y0 b) in
    let e := set_time (set_y e y) t0 in
    let* n := rd counts level in
    let sdt := ndiv N dt (nnat N n) in
    let* (int, e) := bs_substeps n sdt (stetter_reset (bb_int b), e) in
    let* ext := neville_update N ps (ext_counts 2 counts) (bb_ext b) level (e_y e) in
    Some (mkBsBufs (bb_y0 b) int ext, e).
  (** lines 101-118: the loop over the levels, [left] of them to go *)
  Fixpoint bs_levels (p : bs_params) (counts : list nat) (dt t0 : T) (left level : nat)
    (b : bs_bufs) (e : eng) : option (bs_bufs * eng) :=
    match left with
    | O => Some (b, e)
    | S left' =>
        let* (b, e) := bs_compute counts level dt t0 b e in
        if Nat.ltb level 2 then bs_levels p counts dt t0 left' (S level) b e
        else
          let* (maxdiff, ext) := neville_error N ps (bb_ext b) level in
          let b := mkBsBufs (bb_y0 b) (bb_int b) ext in
          let small := match maxdiff with
                       | Some m => nltb N m (bp_threshold p)
                       | None => false
                       end in
          if orb small (Nat.eqb level (bp_max_level p - 1)) then
            let* y := neville_extrapolate ps ext level (e_y e) in
            Some (b, set_y e y)
          else bs_levels p counts dt t0 left' (S level) b e
    end.
  (** nbody_solver_bulirsch_stoer.cpp:85-122, [advise] *)
  Definition bs_advise (p : bs_params) (dt : T) (s : option bs_bufs) (e : eng)
    : option (option bs_bufs * eng) :=
    let* counts := init_steps (bp_max_level p) in
    let (b, e) :=
      match s with
      | Some b => (b, e)
      | None =>
          let (y0, e) := new_buffer garbage e in
          let (tb, e) := new_buffers garbage (length counts) e in
          let (pv, e) := new_buffers garbage (length counts) e in
          let (df, e) := new_buffer garbage e in
          (mkBsBufs y0 None (mkNeville tb pv df), e)
      end in
    let t0 := e_time e in
    let* y0 := copy_buffer ps (bb_y0 b) (e_y e) in
    let b := mkBsBufs y0 (bb_int b) (bb_ext b) in
    let* (b, e) := bs_levels p counts dt t0 (bp_max_level p) 0 b e in
    Some (Some b, advise_time N (set_time e t0) dt).

  (** nbody_solver_adams.cpp:32-38: the coefficient rows *)
  Definition adams_rows : list (list T) :=
    [ [];
      [nlit N 1];
      [q N 3 2; q N (-1) 2];
      [q N 23 12; q N (-4) 3; q N 5 12];
      [q N 55 24; q N (-59) 24; q N 37 24; q N (-3) 8];
      [q N 1901 720; q N (-1387) 360; q N 109 30; q N (-637) 360; q N 251 720] ].
  (** lines 62-65: [coeff[(m_rank + fnum - n) % m_rank] = a[n] * dt] *)
  Definition adams_coeff (a : list T) (rank fnum : nat) (dt : T) : option (list T) :=
    for_ rank 0
      (fun n c => let* an := rd a n in wr c ((rank + fnum - n) mod rank) (nmul N an dt))
      (repeat (nlit N 0) rank).

  Record adams_params := mkAdamsParams { ap_rank : nat; ap_corr : bool }.
  (** [m_f], [m_corr_data] *)
  Record adams_bufs := mkAdamsBufs { ab_f : list (list T); ab_corr : list T }.

  (** The solver objects the code can build (nbody_solvers.cpp:17-110), with their parameters and
      current private state; [SAdams] owns its starter.  The step counter is [m_step]. *)
  Inductive solver : Type :=
  | SEuler (s : option (list T))
  | SMidpoint (s : option midpoint)
  | SStetter (s : option stetter)
  | SRk4 (s : option rk4)
  | STrapeze (refine : nat) (s : option trapeze)
  | SButcher (p : rk_params) (s : option rk_bufs)
  | SBs (p : bs_params) (s : option bs_bufs)
  | SAdams (p : adams_params) (starter : solver) (s : option adams_bufs) (step : nat).

  (** nbody_solver_adams.cpp:45-54: allocation *)
  Definition adams_alloc (p : adams_params) (e : eng) : option (adams_bufs * eng) :=
    let (f, e) := new_buffers garbage (ap_rank p) e in
    if ap_corr p then
      let (c, e) := new_buffer garbage e in
      let* c := fill_buffer c (nlit N 0) in
      Some (mkAdamsBufs f c, e)
    else Some (mkAdamsBufs f [], e).

  (** [solver->advise(dt)] *)
  Fixpoint advise (dt : T) (s : solver) (e : eng) : option (solver * eng) :=
    match s with
    | SEuler b => let* (b, e) := euler_advise dt b e in Some (SEuler b, e)
    | SMidpoint b => let* (b, e) := midpoint_advise dt b e in Some (SMidpoint b, e)
    | SStetter b => let* (b, e) := stetter_advise dt b e in Some (SStetter b, e)
    | SRk4 b => let* (b, e) := rk4_advise dt b e in Some (SRk4 b, e)
    | STrapeze r b => let* (b, e) := trapeze_advise r dt b e in Some (STrapeze r b, e)
    | SButcher p b => let* (b, e) := rk_advise p dt b e in Some (SButcher p b, e)
    | SBs p b => let* (b, e) := bs_advise p dt b e in Some (SBs p b, e)
    | SAdams p starter s step =>
        (* nbody_solver_adams.cpp:30-84; a rank of 0 is a remainder by zero *)
        let rank := ap_rank p in
        if Nat.eqb rank 0 then None
        else
          let* a := rd adams_rows rank in
          let t := e_time e in
          let fnum := step mod rank in
          let* (b, e) := match s with Some b => Some (b, e) | None => adams_alloc p e end in
          let* fb := rd (ab_f b) fnum in
          let* (e, fb) := fcomp e t (e_y e) fb in
          let* f := wr (ab_f b) fnum fb in
          if Nat.ltb rank step then
            let* coeff := adams_coeff a rank fnum dt in
            if ap_corr p then
              let* (y, c) := fmaddn_corr N ps (e_y e) (ab_corr b) f coeff rank in
              Some (SAdams p starter (Some (mkAdamsBufs f c)) (S step),
                    advise_time N (set_y e y) dt)
            else
              let* y := fmaddn_inplace N ps (e_y e) f coeff rank in
              Some (SAdams p starter (Some (mkAdamsBufs f (ab_corr b))) (S step),
                    advise_time N (set_y e y) dt)
          else
            let* (starter, e) := advise dt starter e in
            Some (SAdams p starter (Some (mkAdamsBufs f (ab_corr b))) (S step), e)
    end.

  (** A history: the successive [advise] calls with the given step lengths (not a function of the
      code) *)
  Fixpoint advise_all (dts : list T) (s : solver) (e : eng) : option (solver * eng) :=
    match dts with
    | [] => Some (s, e)
    | dt :: r => let* (s, e) := advise dt s e in advise_all r s e
    end.
End Solver.

(** The engines as a solver sees them ([ef] of [ModelSolverBase.v]).  The right-hand side of none of
    them depends on the time; only nbody_engine_ah has private state and looks at the step counter.
    (nbody_engine_simple.cpp:116-173, nbody_engine_block.cpp:14-126, nbody_engine_ah.cpp:16-41) *)
Section EngineCalls.
  Context {T : Type} (N : NumOps T) (n : nat) (mass : list T).

  Definition simple_ef (u : unit) (step : nat) (t : T) (y f : list T) : option (unit * list T) :=
    let* f := simple_fcompute N n mass y f in Some (u, f).
  Definition block_ef (u : unit) (step : nat) (t : T) (y f : list T) : option (unit * list T) :=
    let* f := block_fcompute N n mass y f in Some (u, f).
  Definition ah_ef (max_dist min_force : T) (rate : nat) (s : ah_state T) (step : nat) (t : T)
    (y f : list T) : option (ah_state T * list T) :=
    let* (f, s) := ah_fcompute N max_dist min_force rate step n mass y f s in Some (s, f).
End EngineCalls.
