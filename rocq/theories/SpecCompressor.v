(** What a recording to PNG files should leave *)
From Coq Require Import Bool Ascii String List NArith Arith.
From Verif Require Import ModelText.
Import ListNotations.

(** a path name that QString::arg leaves alone: no percent sign before 0, 1 or L *)
Definition unmarked (d : text) : Prop :=
  forall a c b, d = a ++ "%"%char :: c :: b -> c <> "0"%char /\ c <> "1"%char /\ c <> "L"%char.

(** [f] is the file of image [n] in [d]: at least eight digits, more only without a leading zero *)
Definition file_of (d : text) (n : N) (f : text) : Prop :=
  exists w, f = d ++ "/"%char :: w ++ chars ".png" /\ Forall (fun c => digit c <> None) w /\ read_N w = Some n /\
    8 <= List.length w /\ (8 < List.length w -> hd_error w <> Some "0"%char).

(** the order in which a directory is listed *)
Inductive listed_before : text -> text -> Prop :=
| shorter : forall c s, listed_before [] (c :: s)
| first_differs : forall a b s t, (N_of_ascii a < N_of_ascii b)%N -> listed_before (a :: s) (b :: t)
| rest_differs : forall a s t, listed_before s t -> listed_before (a :: s) (a :: t).

(** what a thread pool does: a finished job stays finished, and every job is finished some day *)
Definition settles (fin : nat -> nat -> bool) : Prop :=
  forall t t' j, t <= t' -> fin t j = true -> fin t' j = true.
Definition finishes (fin : nat -> nat -> bool) : Prop := forall j, exists t, fin t j = true.
