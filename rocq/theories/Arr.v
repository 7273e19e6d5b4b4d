(** Checked arrays and loops: the model's reading of C++ memory accesses.

    An access outside an array is undefined behaviour in C++; here it is the distinct outcome
    [None], which propagates. *)
From Coq Require Import List Arith.
Import ListNotations.
Set Implicit Arguments.

Definition obind {A B : Type} (a : option A) (f : A -> option B) : option B :=
  match a with Some x => f x | None => None end.
Notation "'let*' x := a 'in' b" := (obind a (fun x => b))
  (at level 61, x pattern, a at next level, right associativity).

(** [a[i]] *)
Definition rd {A : Type} (l : list A) (i : nat) : option A := nth_error l i.

(** [a[i] = v] *)
Fixpoint wr {A : Type} (l : list A) (i : nat) (v : A) : option (list A) :=
  match l, i with
  | [], _ => None
  | _ :: t, O => Some (v :: t)
  | h :: t, S i' => match wr t i' v with Some t' => Some (h :: t') | None => None end
  end.

(** [for(k = i; k != i + n; ++k) body(k)] *)
Fixpoint for_ {St : Type} (n i : nat) (body : nat -> St -> option St) (s : St) : option St :=
  match n with
  | O => Some s
  | S n' => match body i s with
            | Some s' => for_ n' (S i) body s'
            | None => None
            end
  end.

(** [for(k = i; k < hi; k += step) body(k)], [cnt] iterations *)
Fixpoint for_step {St : Type} (cnt i step : nat) (body : nat -> St -> option St) (s : St)
  : option St :=
  match cnt with
  | O => Some s
  | S c => match body i s with
           | Some s' => for_step c (i + step) step body s'
           | None => None
           end
  end.
