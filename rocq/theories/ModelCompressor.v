(** The recorder of PNG frames: player/nbody_frame_compressor_image.cpp.

    A job of the thread pool saves one image under one name.  What the pool does is an oracle:
    [fin t j] tells whether job [j] is finished when the [t]-th question [isFinished] is asked.  The
    names follow QString::arg of Qt: every marker [%n] or [%Ln] with the smallest number [n] of one or
    two digits is replaced.

    Simplifications: strings are ASCII; [local] renders a number for the markers [%L] (the digits of the
    user's locale); whether a directory exists is a predicate on path names. *)
From Coq Require Import Bool Ascii String List NArith Arith.
From Verif Require Import ModelText.
Import ListNotations.
Set Implicit Arguments.

(** QString, [findArgEscapes]: the plain characters and the markers of a template; a marker is its number,
    whether it has an [L], and its text *)
Inductive piece := Plain (c : ascii) | Marker (n : N) (l : bool) (w : text).
Fixpoint pieces (s : text) : list piece :=
  match s with
  | [] => []
  | c :: r =>
      if negb (Ascii.eqb c "%") then Plain c :: pieces r else
      match r with
      | [] => [Plain c]
      | a :: r1 =>
          if Ascii.eqb a "L" then
            match r1 with
            | [] => [Plain c; Plain a]
            | b :: r2 =>
                match digit b with
                | None => Plain c :: Plain a :: pieces r1
                | Some n =>
                    match r2 with
                    | [] => [Marker n true [c; a; b]]
                    | b2 :: r3 =>
                        match digit b2 with
                        | Some m => Marker (10 * n + m) true [c; a; b; b2] :: pieces r3
                        | None => Marker n true [c; a; b] :: pieces r2
                        end
                    end
                end
            end
          else
            match digit a with
            | None => Plain c :: pieces r
            | Some n =>
                match r1 with
                | [] => [Marker n false [c; a]]
                | a2 :: r2 =>
                    match digit a2 with
                    | Some m => Marker (10 * n + m) false [c; a; a2] :: pieces r2
                    | None => Marker n false [c; a] :: pieces r1
                    end
                end
            end
      end
  end.
(** its [min_escape] *)
Fixpoint lowest (l : list piece) : option N :=
  match l with
  | [] => None
  | Plain _ :: l => lowest l
  | Marker n _ _ :: l => match lowest l with Some m => Some (N.min n m) | None => Some n end
  end.

(** QLocaleData::unsLongLongToString: zero padded to the width *)
Definition padded (width : nat) (n : N) : text :=
  let s := show_N n in repeat "0"%char (width - List.length s) ++ s.

Section Names.
  Variable local : N -> text.
  (** QString, [replaceArgEscapes] *)
  Definition put (m : N) (width : nat) (n : N) (q : piece) : text :=
    match q with
    | Plain c => [c]
    | Marker k l w => if N.eqb k m then (if l then local n else padded width n) else w
    end.
  (** QString::arg(a, width, 10, '0'); without a marker the template is returned *)
  Definition arg (tmpl : text) (width : nat) (n : N) : text :=
    let l := pieces tmpl in
    match lowest l with
    | None => tmpl
    | Some m => concat (map (put m width n) l)
    end.

  (** nbody_frame_compressor_image.cpp:22-24 *)
  Definition name_tmpl (d : text) : text := d ++ chars "/%1.png".
  (** nbody_frame_compressor_image.cpp:36 *)
  Definition frame_name (d : text) (n : N) : text := arg (name_tmpl d) 8 n.
End Names.

Section Queue.
  Variable fin : nat -> nat -> bool.

  (** nbody_frame_compressor_image.cpp:47-54: the [for] of [wait_results]; [t] counts the questions *)
  Fixpoint erase_one (t : nat) (q : list nat) : list nat * nat :=
    match q with
    | [] => ([], t)
    | j :: q => if fin t j then (q, S t) else let (q', t') := erase_one (S t) q in (j :: q', t')
    end.
  (** nbody_frame_compressor_image.cpp:43-56, [wait_results]; [None]: still waiting after [fuel] rounds *)
  Fixpoint wait_results (fuel : nat) (most : nat) (q : list nat) (t : nat) : option (list nat * nat) :=
    if Nat.leb (List.length q) most then Some (q, t) else
    match fuel with
    | O => None
    | S fuel => let (q, t) := erase_one t q in wait_results fuel most q t
    end.
  (** nbody_frame_compressor_image.cpp:34-41, [push_frame], the queue; [cores] is idealThreadCount *)
  Definition push_job (fuel cores : nat) (j : nat) (s : list nat * nat) : option (list nat * nat) :=
    wait_results fuel cores (fst s ++ [j]) (snd s).
  (** the jobs [from, from + 1, ...] of a recording, one push each *)
  Fixpoint push_jobs (fuel cores from count : nat) (s : list nat * nat) : option (list nat * nat) :=
    match count with
    | O => Some s
    | S count =>
        match push_job fuel cores from s with
        | Some s => push_jobs fuel cores (S from) count s
        | None => None
        end
    end.
  (** nbody_frame_compressor_image.cpp:10-13, the destructor after [count] pushes *)
  Definition compress (fuel cores count : nat) : option (list nat * nat) :=
    match push_jobs fuel cores 0 count ([], 0) with
    | Some s => wait_results fuel 0 (fst s) (snd s)
    | None => None
    end.
End Queue.

Section Files.
  Context {I : Type} (local : N -> text) (there : text -> bool).

  (** the directory of a file name: everything before the last slash *)
  Fixpoint drop_to_slash (r : text) : text :=
    match r with [] => [] | c :: r => if Ascii.eqb c "/" then r else drop_to_slash r end.
  Definition dir_of (f : text) : text := rev (drop_to_slash (rev f)).

  (** nbody_frame_compressor_image.cpp:29-32, [frame_writer]: QImage::save replaces the file if the
      directory is there; the result is not looked at *)
  Definition disk := list (text * I).
  Fixpoint replace (f : text) (i : I) (k : disk) : disk :=
    match k with
    | [] => [(f, i)]
    | (g, j) :: k => if list_eq_dec ascii_dec f g then (f, i) :: k else (g, j) :: replace f i k
    end.
  Definition frame_writer (k : disk) (job : text * I) : disk :=
    if there (dir_of (fst job)) then replace (fst job) (snd job) k else k.
  (** the jobs of a recording, executed in the order [jobs] *)
  Definition written (k : disk) (jobs : list (text * I)) : disk := fold_left frame_writer jobs k.
  Fixpoint content (k : disk) (f : text) : option I :=
    match k with
    | [] => None
    | (g, i) :: k => if list_eq_dec ascii_dec f g then Some i else content k f
    end.
  (** the jobs of the images [0, 1, ...] recorded to [d] *)
  Definition frame_jobs (d : text) (images : list (nat * I)) : list (text * I) :=
    map (fun x => (frame_name local d (N.of_nat (fst x)), snd x)) images.
End Files.
