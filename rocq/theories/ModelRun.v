(** The simulation loop, nbody/nbody_solver.cpp:55-105.

    The output stream is an arbitrary state machine: [write w f] is the stream's next state and
    whether [stream->write(data)] returned 0; [None] is the null pointer.  [print_statistics] and the
    visitors only look at the state (the statistics themselves are in [ModelStat.v]): a check is
    recorded by the time it happens at. *)
From Coq Require Import ZArith List Arith.
From Verif Require Import Num Arr ModelEngine ModelSolverBase ModelSolver.
Import ListNotations.
Set Implicit Arguments.

(** what [m_engine->get_data(data)] puts into the data object, with its time and step counter *)
Record frame (T : Type) := mkFrame { fr_time : T; fr_step : nat; fr_y : list T }.

Section Run.
  Context {T E W : Type} (N : NumOps T) (ps : nat)
          (ef : E -> nat -> T -> list T -> list T -> option (E * list T))
          (garbage : nat -> list T) (count : nat)
          (write : W -> frame T -> W * bool).

  (** [get_max_step()], the arguments of [run], [m_clamp_to_box], [get_box_size()] *)
  Record run_params := mkRunParams {
    rn_dt : T; rn_max_time : T; rn_dump_dt : T; rn_check_dt : T; rn_clamp : bool; rn_box : T }.

  (** solver, engine, stream; [last_check], [last_dump]; the checks and the calls of [write] so
      far, oldest first *)
  Record run_state := mkRunState {
    rs_s : @solver T; rs_e : @eng T E; rs_w : option W;
    rs_last_check : T; rs_last_dump : T; rs_checks : list T; rs_dumps : list (frame T) }.

  Definition frame_of (e : @eng T E) : frame T := mkFrame (e_time e) (e_step e) (e_y e).

  (** lines 64-68, 94-98: [get_data] and [write], failing with -1 *)
  Definition run_write (w : W) (st : run_state) : run_state * bool :=
    let f := frame_of (rs_e st) in
    let (w, good) := write w f in
    (mkRunState (rs_s st) (rs_e st) (Some w) (rs_last_check st) (rs_last_dump st) (rs_checks st)
       (rs_dumps st ++ [f]), good).

  (** lines 58-72: before the loop; the result is -1 if the first write fails *)
  Definition run_start (p : run_params) (s : @solver T) (e : @eng T E) (w : option W)
    : run_state * bool :=
    let st := mkRunState s e w (e_time e) (e_time e) [] [] in
    match w with
    | None => (st, true)
    | Some w =>
        if andb (nltb N (nlit N 0) (rn_dump_dt p)) (nleb N (e_time e) (nlit N 0)) then
          run_write w st          (* last_dump = data->get_time(), its value already *)
        else (st, true)
    end.

  (** [t >= last + interval - dt * 0.1] *)
  Definition due (p : run_params) (last interval t : T) : bool :=
    nleb N (nsub N (nadd N last interval) (nmul N (rn_dt p) (ndiv N (nlit N 1) (nlit N 10)))) t.

  (** lines 75-101: one iteration *)
  Definition run_iter (p : run_params) (st : run_state) : option (run_state * bool) :=
    let e := rs_e st in
    let* e := if rn_clamp p then
                let* y := engine_clamp N count (rn_box p) (e_y e) in Some (set_y e y)
              else Some e in
    let* (s, e) := advise N ps ef garbage (rn_dt p) (rs_s st) e in
    let t := e_time e in
    let (last_check, checks) :=
      if andb (nltb N (nlit N 0) (rn_check_dt p)) (due p (rs_last_check st) (rn_check_dt p) t)
      then (t, rs_checks st ++ [t])
      else (rs_last_check st, rs_checks st) in
    let st := mkRunState s e (rs_w st) last_check (rs_last_dump st) checks (rs_dumps st) in
    match rs_w st with
    | None => Some (st, true)
    | Some w =>
        if andb (nltb N (nlit N 0) (rn_dump_dt p)) (due p (rs_last_dump st) (rn_dump_dt p) t) then
          let (st, good) := run_write w st in
          Some (mkRunState (rs_s st) (rs_e st) (rs_w st) (rs_last_check st) t (rs_checks st)
                  (rs_dumps st), good)
        else Some (st, true)
    end.

  (** How a run ends: with a return value, or not within the given number of iterations. *)
  Inductive run_result := Returned (code : Z) (st : run_state) | Unfinished (st : run_state).

  (** lines 74-103: the loop *)
  Fixpoint run_loop (fuel : nat) (p : run_params) (st : run_state) : option run_result :=
    if nltb N (e_time (rs_e st)) (rn_max_time p) then
      match fuel with
      | O => Some (Unfinished st)
      | S fuel =>
          let* (st, good) := run_iter p st in
          if good then run_loop fuel p st else Some (Returned (-1) st)
      end
    else Some (Returned 0 st).

  (** nbody_solver.cpp:55-105, [run] *)
  Definition run (fuel : nat) (p : run_params) (s : @solver T) (e : @eng T E) (w : option W)
    : option run_result :=
    let (st, good) := run_start p s e w in
    if good then run_loop fuel p st else Some (Returned (-1) st).
End Run.
