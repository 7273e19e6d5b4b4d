(** The errors the player writes over the picture: player/wgt_nbody_view.cpp:342-353 ([paintGL]).  The layout and the formatting
    of the numbers are not modelled. *)
From Coq Require Import ZArith List Arith.
From Verif Require Import Num Arr ModelVertex ModelStat.
Import ListNotations.
Set Implicit Arguments.

(** "dP", "dL", "dE" *)
Inductive err_label := LabelP | LabelL | LabelE.

Section Overlay.
  Context {T : Type} (N : NumOps T) (finite : T -> bool).   (* [finite]: qIsFinite *)

  (** wgt_nbody_view.cpp:342-353: all three conditions ask for the impulse error *)
  Definition overlay (st : @stat T) : list (err_label * T) :=
    (if finite (impulce_err N st) then [(LabelP, impulce_err N st)] else []) ++
    (if finite (impulce_err N st) then [(LabelL, impulce_moment_err N st)] else []) ++
    (if finite (impulce_err N st) then [(LabelE, energy_err N st)] else []).
End Overlay.
