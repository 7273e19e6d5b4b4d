(** Text as the code sees it through Qt: splitting, lines, integers.

    These are models of the Qt functions the code calls, not of code in the repository; characters
    are bytes (the files are ASCII). *)
From Coq Require Import Ascii String List NArith ZArith Arith DecimalN.
Import ListNotations.
Set Implicit Arguments.

Definition text := list ascii.
Definition chars (s : string) : text := list_ascii_of_string s.

Definition tab : ascii := ascii_of_nat 9.
Definition newline : ascii := ascii_of_nat 10.
Definition return_ : ascii := ascii_of_nat 13.
Definition space : ascii := " "%char.

(** QString::split(c): every piece, empty ones too; the empty string has one (empty) piece *)
Fixpoint split (c : ascii) (s : text) : list text :=
  match s with
  | [] => [[]]
  | a :: s =>
      if Ascii.eqb a c then [] :: split c s
      else match split c s with
           | [] => [[a]]
           | w :: ws => (a :: w) :: ws
           end
  end.

Definition is_nil {A : Type} (l : list A) : bool := match l with [] => true | _ => false end.

(** QString::split(c, QString::SkipEmptyParts) *)
Definition split_skip (c : ascii) (s : text) : list text := filter (fun w => negb (is_nil w)) (split c s).

(** a line ends with "\n" or "\r\n" *)
Fixpoint strip_return (l : text) : text :=
  match l with
  | [] => []
  | [a] => if Ascii.eqb a return_ then [] else [a]
  | a :: l => a :: strip_return l
  end.
(** all lines read by [while(!s.atEnd()) s.readLine()]: nothing follows a final newline *)
Fixpoint drop_last_empty (l : list text) : list text :=
  match l with
  | [] => []
  | [[]] => []
  | w :: ws => w :: drop_last_empty ws
  end.
Definition read_lines (f : text) : list text :=
  map strip_return (drop_last_empty (split newline f)).

(** QChar::isSpace for ASCII *)
Definition is_space (a : ascii) : bool :=
  orb (Ascii.eqb a space) (andb (Nat.leb 9 (nat_of_ascii a)) (Nat.leb (nat_of_ascii a) 13)).
Fixpoint ltrim (s : text) : text :=
  match s with
  | [] => []
  | a :: r => if is_space a then ltrim r else s
  end.
(** QString::trimmed() *)
Definition trim (s : text) : text := rev (ltrim (rev (ltrim s))).

(** [stream << n] for an unsigned integer *)
Fixpoint uint_text (u : Decimal.uint) : text :=
  match u with
  | Decimal.Nil => []
  | Decimal.D0 u => "0"%char :: uint_text u | Decimal.D1 u => "1"%char :: uint_text u
  | Decimal.D2 u => "2"%char :: uint_text u | Decimal.D3 u => "3"%char :: uint_text u
  | Decimal.D4 u => "4"%char :: uint_text u | Decimal.D5 u => "5"%char :: uint_text u
  | Decimal.D6 u => "6"%char :: uint_text u | Decimal.D7 u => "7"%char :: uint_text u
  | Decimal.D8 u => "8"%char :: uint_text u | Decimal.D9 u => "9"%char :: uint_text u
  end.
Definition show_N (n : N) : text := uint_text (N.to_uint n).

Definition digit (a : ascii) : option N :=
  let n := N_of_ascii a in
  if andb (N.leb 48 n) (N.leb n 57) then Some (n - 48)%N else None.
Fixpoint read_digits (acc : N) (s : text) : option N :=
  match s with
  | [] => Some acc
  | a :: s => match digit a with
              | Some d => read_digits (10 * acc + d) s
              | None => None
              end
  end.
Definition read_N (s : text) : option N :=
  match s with [] => None | _ => read_digits 0 s end.

(** QString::toULongLong: surrounding white space, an optional plus sign, digits, in range *)
Definition to_ulonglong (s : text) : option N :=
  let s := trim s in
  let s := match s with a :: r => if Ascii.eqb a "+"%char then r else s | [] => s end in
  match read_N s with
  | Some n => if N.ltb n (2 ^ 64) then Some n else None
  | None => None
  end.
(** QString::toLongLong: the sign may be a minus *)
Definition to_longlong (s : text) : option Z :=
  let s := trim s in
  let (neg, s) := match s with
                  | a :: r => if Ascii.eqb a "-"%char then (true, r)
                              else if Ascii.eqb a "+"%char then (false, r) else (false, s)
                  | [] => (false, s)
                  end in
  match read_N s with
  | Some n => if neg then if N.leb n (2 ^ 63) then Some (- Z.of_N n)%Z else None
              else if N.ltb n (2 ^ 63) then Some (Z.of_N n) else None
  | None => None
  end.

(** Printing and reading of coordinates: QTextStream's default notation (six significant digits),
    the notation [nbody_data::save] selects (nbody_data.cpp:427-430), and QString::toDouble. *)
Record TextOps (T : Type) := mkTextOps {
  t_show : T -> text;
  t_show_full : T -> text;
  t_read : text -> option T }.
