(** What a player should show and record *)
From Coq Require Import List NArith ZArith Arith.
From Verif Require Import ModelText ModelStream SpecStream ModelPlayer.
Import ListNotations.
Set Implicit Arguments.

Section S.
  Context {T : Type} (X : TextOps T) (frames : list (@bdata T)).

  (** the data is frame [k] of the recording, with the masses and colours of its first frame *)
  Definition shows (k : nat) (b : @bdata T) : Prop :=
    exists f first, nth_error frames k = Some f /\ nth_error frames 0 = Some first /\ same_frame X f b /\
      d_mass b = d_mass first /\ d_color b = d_color first.

  (** the frame a gesture asks for, among [count] *)
  Definition asked (count : nat) (g : gesture) : nat :=
    let v := match g with SetValue v => v | Drag v => v end in
    if Z.ltb v 0 then 0 else if Z.ltb v (Z.of_nat count) then Z.to_nat v else count - 1.

  (** nothing was asked for but the first frame *)
  Definition idle (count : nat) (a : play) : Prop :=
    match a with Gesture g => asked count g = 0 | Record_ _ _ _ => False end.

  (** images [k, k+1, ...], each drawn from its own frame *)
  Definition in_order (images : list (nat * @bdata T)) : Prop :=
    map fst images = seq 0 (length images) /\ Forall (fun i => shows (fst i) (snd i)) images.
End S.
