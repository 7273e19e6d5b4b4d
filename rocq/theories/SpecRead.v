(** Reading a stream whose files change meanwhile: vocabulary for PropRead.v *)
From Coq Require Import Ascii String List NArith ZArith Arith.
From Verif Require Import ModelText ModelStream.
Import ListNotations.
Set Implicit Arguments.

(** the files hold [bytes] where the index says that the frame [i] is *)
Definition held {T} (fs : files) (base : text) (i : @item T) (bytes : text) : Prop :=
  exists before after, fs (make_dat_name base (it_file i)) = Some (before ++ bytes ++ after) /\
    Z.of_nat (length before) = it_pos i.

(** nothing was removed, things may have been added *)
Definition grows (fs fs' : files) : Prop :=
  forall name c, fs name = Some c -> exists more, fs' name = Some (c ++ more).

Section S.
  Context {T : Type} (X : TextOps T) (cs : nat).

  (** the reader was just placed on frame [k]: by loading the stream, or by seeking to another frame than the current one *)
  Inductive placed : @reader T -> nat -> Prop :=
  | placed_load : forall fs base r0 r, reader_load X cs fs base r0 = (r, true) -> placed r 0
  | placed_seek : forall fs r0 r k, r_current r0 <> Some k -> reader_seek fs (Some k) r0 = (r, true) -> placed r k.

  Definition moved (r r' : @reader T) : bool :=
    match r_current r, r_current r' with Some a, Some b => negb (Nat.eqb a b) | _, _ => false end.

  (** read again and again, finding the files as in the list, until a read fails or the current frame stays what it was: what the
      successful reads delivered *)
  Fixpoint read_live (l : list files) (b : @bdata T) (r : @reader T) : list (@bdata T) :=
    match l with
    | [] => []
    | fs :: l =>
        match reader_read cs fs b r with
        | Some (r', b', true) => b' :: (if moved r r' then read_live l b' r' else [])
        | _ => []
        end
    end.
End S.
