(** Rooted trees and the Runge-Kutta order conditions (Butcher; Hairer, Norsett, Wanner, "Solving
    ordinary differential equations I", chapter II.2). *)
From Coq Require Import Reals List.
From Verif Require Import SpecPhys ModelButcher.
Import ListNotations.
Set Implicit Arguments.
Local Open Scope R_scope.

(** rooted trees; the order of the subtrees is irrelevant for the conditions *)
Inductive rtree : Type := Node (subtrees : list rtree).

(** number of vertices *)
Fixpoint vertices (t : rtree) : nat :=
  match t with Node l => S (fold_right (fun s n => (vertices s + n)%nat) O l) end.

(** the density of a tree: its number of vertices times the densities of its subtrees *)
Fixpoint density (t : rtree) : R :=
  match t with Node l => INR (vertices (Node l)) * fold_right (fun s x => density s * x) 1 l end.

(** the elementary weight at stage [i]: the product over the subtrees s of sum_j a_ij weight_j(s) *)
Fixpoint weight (bt : table R) (t : rtree) (i : nat) : R :=
  match t with
  | Node l => fold_right (fun s x =>
      rsum (bt_steps bt) (fun j => nth j (nth i (bt_a bt) []) 0 * weight bt s j) * x) 1 l
  end.

(** the weights [b] satisfy the condition of tree [t] *)
Definition condition (bt : table R) (b : list R) (t : rtree) : Prop :=
  rsum (bt_steps bt) (fun i => nth i b 0 * weight bt t i) = 1 / density t.

(** the method with weights [b] has order [p]: all conditions up to [p] vertices *)
Definition has_order (bt : table R) (b : list R) (p : nat) : Prop :=
  forall t, (vertices t <= p)%nat -> condition bt b t.

(** every node is the sum of its row *)
Definition row_sums (bt : table R) : Prop :=
  forall i, (i < bt_steps bt)%nat ->
    rsum (bt_steps bt) (fun j => nth j (nth i (bt_a bt) []) 0) = nth i (bt_c bt) 0.

(** ... up to [eps]: for coefficients that are rounded decimals *)
Definition nearly_order (bt : table R) (b : list R) (p : nat) (eps : R) : Prop :=
  forall t, (vertices t <= p)%nat ->
    Rabs (rsum (bt_steps bt) (fun i => nth i b 0 * weight bt t i) - 1 / density t) <= eps.
Definition nearly_row_sums (bt : table R) (eps : R) : Prop :=
  forall i, (i < bt_steps bt)%nat ->
    Rabs (rsum (bt_steps bt) (fun j => nth j (nth i (bt_a bt) []) 0) - nth i (bt_c bt) 0) <= eps.
