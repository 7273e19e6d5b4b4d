(** What the index file of a stream says: vocabulary. *)
From Coq Require Import Ascii String List NArith ZArith.
From Verif Require Import ModelText ModelStream.
Import ListNotations.
Set Implicit Arguments.

(** a header or comment line *)
Definition comment (line : text) : Prop := exists rest, line = "#"%char :: rest.
(** four fields separated by tabs *)
Definition four_fields (line a b c d : text) : Prop :=
  line = a ++ [tab] ++ b ++ [tab] ++ c ++ [tab] ++ d /\ ~ In tab a /\ ~ In tab b /\ ~ In tab c /\ ~ In tab d.
(** the line of a frame: step, time, part, position *)
Definition frame_line {T : Type} (X : TextOps T) (line : text) (i : @item T) : Prop :=
  exists a b c d, four_fields line a b c d /\ to_ulonglong a = Some (it_step i) /\ t_read X b = Some (it_time i) /\
    to_ulonglong c = Some (it_file i) /\ to_longlong d = Some (it_pos i).
(** the frames of an index, in the order of the lines; comments may stand anywhere *)
Inductive index_says {T : Type} (X : TextOps T) : list text -> list (@item T) -> Prop :=
| says_end : index_says X [] []
| says_comment line lines frames : comment line -> index_says X lines frames -> index_says X (line :: lines) frames
| says_frame line lines i frames : ~ comment line -> frame_line X line i -> index_says X lines frames ->
    index_says X (line :: lines) (i :: frames).
(** a line that is neither *)
Definition bad_line {T : Type} (X : TextOps T) (line : text) : Prop := ~ comment line /\ forall i, ~ frame_line X line i.

(** a header line: the name, a space and a number *)
Definition header_line (name line : text) (v : N) : Prop :=
  exists w, line = name ++ [space] ++ w /\ ~ In space w /\ to_ulonglong w = Some v.
(** the value of a header: the last line counts, without a line [before] *)
Definition header_value (name : text) (lines : list text) (before v : N) : Prop :=
  (exists pre line post, lines = pre ++ line :: post /\ header_line name line v /\ forall l u, In l post -> ~ header_line name l u) \/
  (v = before /\ forall l u, In l lines -> ~ header_line name l u).
