(** Symmetries of a simulation: vocabulary. *)
From Coq Require Import Reals List Arith Permutation.
From Verif Require Import Num ModelButcher ModelSolverBase ModelSolver SpecPhys.
Import ListNotations.
Set Implicit Arguments.
Local Open Scope R_scope.

(** the solver compares a largest component with a threshold: embedded tableaux, and Bulirsch-Stoer from its third level on *)
Fixpoint adaptive {T : Type} (s : @solver T) : Prop :=
  match s with
  | SButcher p _ => bt_embedded (rp_table p) = true
  | SBs p _ => (3 <= bp_max_level p)%nat
  | SAdams _ starter _ _ => adaptive starter
  | _ => False
  end.

(** ** Symmetries of the equations of motion *)

(** [sigma] rearranges the bodies 0 … n-1 *)
Definition rearranges (n : nat) (sigma : nat -> nat) : Prop := Permutation (map sigma (seq 0 n)) (seq 0 n).

(** [O], a matrix of 3 rows and 3 columns, preserves lengths: its columns are orthonormal (rotations and reflections) *)
Definition orthogonal (O : nat -> nat -> R) : Prop := forall k l, (k < 3)%nat -> (l < 3)%nat ->
  O 0%nat k * O 0%nat l + O 1%nat k * O 1%nat l + O 2%nat k * O 2%nat l = if Nat.eqb k l then 1 else 0.

(** ... and takes axes to axes: a permutation of the three axes, each possibly reversed *)
Definition axis_map (O : nat -> nat -> R) : Prop := exists (tau : nat -> nat) (sign : nat -> R),
  rearranges 3 tau /\ forall k, (k < 3)%nat -> (sign k = 1 \/ sign k = -1) /\
    forall l, (l < 3)%nat -> O k l = if Nat.eqb l (tau k) then sign k else 0.

(** The state in which body [j] is where and as fast as body [sigma j] was, seen in axes turned by [O]: component [k] of the
    position (0, 1, 2) or of the velocity (3, 4, 5) is the combination of the three old components of the same kind. *)
Definition moved (n : nat) (sigma : nat -> nat) (O : nat -> nat -> R) (y : list R) : list R :=
  map (fun q => let k := (q / n)%nat in let j := sigma (q mod n)%nat in
         if Nat.ltb k 3 then O k 0%nat * comp y n 0 j + O k 1%nat * comp y n 1 j + O k 2%nat * comp y n 2 j
         else O (k - 3)%nat 0%nat * comp y n 3 j + O (k - 3)%nat 1%nat * comp y n 4 j + O (k - 3)%nat 2%nat * comp y n 5 j)
      (seq 0 (6 * n)).
Definition remassed (n : nat) (sigma : nat -> nat) (mass : list R) : list R := map (fun j => nth (sigma j) mass 0) (seq 0 n).
