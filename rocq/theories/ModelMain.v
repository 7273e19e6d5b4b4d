(** The simulation program: test/main/main.cpp.

    [main] is given the arguments behind the program name and the disk.  What the program finds in
    memory it did not write ([garbage]), the random numbers, the cell splits of the tree engines and the
    representation of numbers and colours as bytes are parameters.  Messages, the statistics and the
    option check_list, which selects the statistics, are left out; allocation never fails, so that
    [engine->init] does not either. *)
From Coq Require Import Ascii String List NArith ZArith Arith.
From Verif Require Import Num Arr ModelVertex ModelText ModelData ModelStream ModelEngine ModelSolverBase ModelSolver
  ModelRun ModelArgs ModelBH ModelObject.
Import ListNotations.
Set Implicit Arguments.

(** the object representations of nbcoord_t ([sizeof] is [n_size]) and nbcolor_t (16 bytes) *)
Record Codec (T C : Type) := mkCodec {
  n_size : nat; n_bytes : T -> text; n_value : text -> T;
  k_bytes : C -> text; k_value : text -> C }.

Section Main.
  Context {T C : Type} (U : NumOps T) (X : TextOps T) (K : Colors C) (B : Codec T C)
          (to_size : T -> option N) (pow3 : T -> T) (uniform : T -> nat -> T)
          (split : nat -> T -> list T -> nat -> nat -> list nat -> list nat)
          (garbage : nat -> nat -> list T).
  Notation cs := (n_size B).
  Notation data := (@data T C).
  Notation bdata := (@bdata T).

  (** ** the arrays of an nbody_data as bytes *)
  Definition vector_bytes (v : vec3 T) : text := n_bytes B (vx v) ++ n_bytes B (vy v) ++ n_bytes B (vz v).
  Definition image_of (d : data) : bdata :=
    mkBdata (b_count d) (b_step d) (b_time d) (b_box d)
      (concat (map vector_bytes (b_vert d))) (concat (map vector_bytes (b_velo d)))
      (concat (map (n_bytes B) (b_mass d))) (concat (map (k_bytes B) (b_color d))).
  (** element [i] of an array of elements of [size] bytes *)
  Definition piece (size i : nat) (bytes : text) : text := firstn size (skipn (i * size) bytes).
  Definition number_at (bytes : text) (i : nat) : T := n_value B (piece cs i bytes).
  Definition vector_at (bytes : text) (i : nat) : vec3 T :=
    V3 (number_at bytes (3 * i)) (number_at bytes (3 * i + 1)) (number_at bytes (3 * i + 2)).
  (** the object whose arrays hold these bytes; the radii of [d] are not touched *)
  Definition data_of (b : bdata) (d : data) : data :=
    mkData (d_count b) (d_time b) (d_step b) (d_box b)
      (map (vector_at (d_vert b)) (seq 0 (d_count b))) (map (vector_at (d_velo b)) (seq 0 (d_count b)))
      (map (number_at (d_mass b)) (seq 0 (d_count b)))
      (map (fun i => k_value B (piece 16 i (d_color b))) (seq 0 (d_count b))) (b_radius d).

  (** ** main.cpp:27-64: where the simulation starts *)

  (** the data, the name of the output, the part to append to *)
  Record beginning := mkBeginning { bg_data : data; bg_output : text; bg_append : option N }.
  Inductive begun := Begins (b : beginning) | Refused | Undecided.

  (** main.cpp:31-51.  [get_frame_count() - 1] is SIZE_MAX ([None]) for no frame. *)
  Definition resume_from (fs : files) (name : text) : option begun :=
    let (r, good) := reader_load X cs fs name new_reader in
    if negb good then Some Refused else
    let frame := match reader_frame_count r with O => None | S n => Some n end in
    let (r, good) := reader_seek fs frame r in
    if negb good then Some Refused else
    let d := data_resize U K (N.to_nat (r_body r)) (data_new U) in
    let* (r, b, good) := reader_read cs fs (image_of d) r in
    if negb good then Some Refused else
    Some (Begins (mkBeginning (data_of b d) name (Some (reader_last_file_n r)))).

  (** main.cpp:14-25: arguments and their defaults *)
  Definition arg_box (m : params) : T := number U X m "box_size" (nlit U 100).
  Definition arg_max_part (m : params) : Z :=
    let n := match lookup (chars "max_part_size") m with Some v => Z.of_N (to_ull v) | None => (2 ^ 30)%Z end in
    if Z.ltb n (2 ^ 63) then n else (n - 2 ^ 64)%Z.
  Definition arg_max_time (m : params) : T := number U X m "max_time" (nlit U 1).
  Definition arg_dump (m : params) : T := number U X m "dump_step" (ndiv U (nlit U 1) (nlit U 100)).
  Definition arg_check (m : params) : T := number U X m "check_step" (ndiv U (nlit U 1) (nlit U 10)).
  Definition arg_output (m : params) : text := value m "output" (chars "/tmp/nbody/main-stream").

  (** main.cpp:27-64 *)
  Definition begin_with (fuel : nat) (m : params) (fs : files) : option begun :=
    let resume := value m "resume" [] in
    let initial := value m "initial_state" [] in
    let output := arg_output m in
    if negb (is_nil resume) then resume_from fs resume
    else if negb (is_nil initial) then
      let* (d, good) := load_initial U X K to_size (fs initial) (value m "initial_type" (chars "Zeno")) (data_new U) in
      Some (if good then Begins (mkBeginning d output None) else Refused)
    else
      let box := arg_box m in
      let* o := make_universe U K to_size pow3 fuel uniform (unsigned m "stars_count" 64) box box box (data_new U) in
      Some (match o with Done d => Begins (mkBeginning d output None) | Exhausted _ => Undecided end).

  (** ** main.cpp:66-122: the simulation *)

  (** the frame [f] of the simulation of [d]: [get_data] has stored the state in the arrays.  The step
      counter is a size_t. *)
  Definition data_with (d : data) (f : frame T) (vrt vel : list (vec3 T)) : data :=
    mkData (b_count d) (fr_time f) (N.of_nat (fr_step f) mod 2 ^ 64) (b_box d) vrt vel (b_mass d) (b_color d)
      (b_radius d).
  (** nbody_solver.cpp:64-65, 94-95.  [None] is undefined behaviour of [get_data]. *)
  Definition write_frame (s : option (writer * disk * data)) (f : frame T) : option (writer * disk * data) * bool :=
    match s with
    | None => (None, false)
    | Some (w, k, d) =>
        match engine_get_data (b_count d) (fr_y f) (b_vert d) (b_velo d) with
        | None => (None, false)
        | Some (vrt, vel) =>
            let d := data_with d f vrt vel in
            let '(w, k, good) := stream_write X cs (image_of d) w k in
            (Some (w, k, d), good)
        end
    end.

  (** how the program ends: with an exit code, or it is still running after the given number of
      iterations; and the disk *)
  Inductive ended := Exit (code : Z) (k : disk) | Running (k : disk).

  (** solver, engine and run parameters of an argument list *)
  Definition run_args (m : params) (c : @created T) (d : data) : @run_params T :=
    mkRunParams (cr_max_step c) (arg_max_time m) (arg_dump m) (arg_check m) (cr_clamp c) (of_size U (b_box d)).

  (** main.cpp:112-122; at the end the files are closed by the destructors *)
  Definition simulate (fuel : nat) (m : params) (b : beginning) (o : engine_object) (c : @created T) (k : disk)
    : option ended :=
    let d := bg_data b in
    let n := b_count d in
    let* (mass, y) := engine_init n (b_vert d) (b_velo d) (b_mass d) (firstn n (garbage n 0)) (garbage n 1) in
    let '(w, k, good) := stream_open (bg_output b) (arg_max_part m) (bg_append b) new_writer k in
    if negb good then Some (Exit (-1) (snd (stream_close w k))) else
    let* r := run U (6 * n) (object_ef U n mass split o) (fun i => garbage n (2 + i)) n write_frame fuel
                (run_args m c d) (cr_solver c) (object_engine o y (b_time d) (N.to_nat (b_step d)))
                (Some (Some (w, k, d))) in
    match r with
    | Returned code st =>
        let* s := rs_w st in let* (w, k, _) := s in Some (Exit code (snd (stream_close w k)))
    | Unfinished st => let* s := rs_w st in let* (_, k, _) := s in Some (Running k)
    end.

  (** [fuel] bounds the samples of the generator, the nested calls of [nbody_create_solver] and the
      iterations of [run] *)
  Definition main (fuel : nat) (args : list text) (k : disk) : option ended :=
    let m := parse_arguments args in
    let* s := begin_with fuel m (k_fs k) in
    match s with
    | Undecided => Some (Running k)
    | Refused => Some (Exit (-1) k)
    | Begins b =>
        match create_engine U X m with
        | None => Some (Exit (-1) k)
        | Some o =>
            match create_solver U X fuel m with
            | None => Some (Running k)
            | Some None => Some (Exit (-1) k)
            | Some (Some c) => simulate fuel m b o c k
            end
        end
    end.
End Main.
