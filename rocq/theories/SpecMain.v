(** Vocabulary for the simulation program. *)
From Coq Require Import Ascii String List NArith ZArith Arith.
From Verif Require Import Num Arr ModelVertex ModelText ModelData ModelStream ModelEngine ModelSolverBase ModelSolver
  ModelRun ModelArgs ModelObject ModelMain SpecArgs.
Import ListNotations.
Set Implicit Arguments.

(** numbers and colours have fixed sizes *)
Definition sized {T C : Type} (B : Codec T C) : Prop :=
  0 < n_size B /\ (forall x, length (n_bytes B x) = n_size B) /\ (forall c, length (k_bytes B c) = 16).
(** the number is recovered from its bytes *)
Definition recovers {T C : Type} (B : Codec T C) (x : T) : Prop := n_value B (n_bytes B x) = x.

(** the command line option [--key=value] *)
Definition option_text (key : string) (v : text) : text := chars "--" ++ chars key ++ ["="%char] ++ v.
(** the part size asked for: 2^30 bytes if none is given, no limit (at most 0) for a numeral that is too large for qint64, and no limit for
    a text that is no number *)
Definition wants_part (args : list text) (max : Z) : Prop :=
  (silent args "max_part_size" -> max = (2 ^ 30)%Z) /\
  (forall w, (w < 2 ^ 63)%N -> says args "max_part_size" (show_N w) -> max = Z.of_N w) /\
  (forall w, (2 ^ 63 <= w < 2 ^ 64)%N -> says args "max_part_size" (show_N w) -> (max < 0)%Z) /\
  (forall v, says args "max_part_size" v -> to_ulonglong v = None -> max = 0%Z).
(** the disk as a program finds it, and no operation fails *)
Definition fresh_disk (fs : files) : disk := mkDisk fs [] [].

Section Main.
  Context {T C : Type} (U : NumOps T) (X : TextOps T) (K : Colors C) (B : Codec T C)
          (to_size : T -> option N) (pow3 : T -> T) (uniform : T -> nat -> T)
          (split : nat -> T -> list T -> nat -> nat -> list nat -> list nat)
          (garbage : nat -> nat -> list T).
  Notation data := (@data T C).

  (** the state vector of a table of bodies *)
  Definition state (d : data) : list T :=
    map (@vx T) (b_vert d) ++ map (@vy T) (b_vert d) ++ map (@vz T) (b_vert d) ++
    map (@vx T) (b_velo d) ++ map (@vy T) (b_velo d) ++ map (@vz T) (b_velo d).

  (** the bytes of the vectors whose coordinates are in the rows [off], [off + 1], [off + 2] of a state vector of
      rows of [n] numbers *)
  Definition vectors (n off : nat) (y : list T) : text :=
    concat (map (fun i => n_bytes B (nth (off * n + i) y (nlit U 0)) ++
                          n_bytes B (nth ((off + 1) * n + i) y (nlit U 0)) ++
                          n_bytes B (nth ((off + 2) * n + i) y (nlit U 0))) (seq 0 n)).
  (** what a stream is given for frame [f] of a simulation of [d] *)
  Definition shot (d : data) (f : frame T) : @bdata T :=
    mkBdata (b_count d) (N.of_nat (fr_step f) mod 2 ^ 64) (fr_time f) (b_box d)
      (vectors (b_count d) 0 (fr_y f)) (vectors (b_count d) 3 (fr_y f))
      (concat (map (n_bytes B) (b_mass d))) (concat (map (k_bytes B) (b_color d))).

  (** where a simulation that does not resume another one starts *)
  Definition begins_at (fuel : nat) (m : params) (fs : files) (d : data) : Prop :=
    match value m "initial_state" [] with
    | [] => make_universe U K to_size pow3 fuel uniform (unsigned m "stars_count" 64)
              (number U X m "box_size" (nlit U 100)) (number U X m "box_size" (nlit U 100))
              (number U X m "box_size" (nlit U 100)) (data_new U) = Some (Done d)
    | name => load_initial U X K to_size (fs name) (value m "initial_type" (chars "Zeno")) (data_new U) = Some (d, true)
    end.

  (** the simulation itself, with the frames given to a stream that takes everything *)
  Definition quiet (u : unit) (f : frame T) : unit * bool := (u, true).
  Definition simulation (fuel : nat) (m : params) (d : data) (o : engine_object) (c : @created T)
    : option (@run_result T object_state unit) :=
    run U (6 * b_count d) (object_ef U (b_count d) (b_mass d) split o) (fun i => garbage (b_count d) (2 + i)) (b_count d)
      quiet fuel
      (mkRunParams (cr_max_step c) (number U X m "max_time" (nlit U 1))
         (number U X m "dump_step" (ndiv U (nlit U 1) (nlit U 100)))
         (number U X m "check_step" (ndiv U (nlit U 1) (nlit U 10))) (cr_clamp c) (of_size U (b_box d)))
      (cr_solver c) (mkEng (state d) (b_time d) (N.to_nat (b_step d)) (object_start o) 0) (Some tt).
End Main.
