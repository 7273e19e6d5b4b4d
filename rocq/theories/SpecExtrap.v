(** Specifications for the extrapolators. *)
From Coq Require Import Reals List Arith.
From Verif Require Import Num Arr SpecPhys ModelExtrap.
Import ListNotations.
Local Open Scope R_scope.

(** the polynomial c_0 + c_1 x + c_2 x^2 + ... *)
Fixpoint peval (c : list R) (x : R) : R :=
  match c with [] => 0 | a :: r => a + x * peval r x end.

(** positive and pairwise different *)
Definition good_counts (counts : list nat) : Prop :=
  NoDup counts /\ forall n, In n counts -> (0 < n)%nat.

(** a Neville extrapolator with [sz] buffers of [ps] cells in each of its tables *)
Definition neville_bufs {T : Type} (ps sz : nat) (n : @neville T) : Prop :=
  length (ne_table n) = sz /\ length (ne_prev n) = sz /\
  Forall (fun b => length b = ps) (ne_table n) /\ Forall (fun b => length b = ps) (ne_prev n) /\
  length (ne_diff n) = ps.

(** successive [update_table(level, y)] calls *)
Fixpoint neville_feed {T : Type} (N : NumOps T) (ps : nat) (counts : list nat) (n : @neville T)
  (level : nat) (ys : list (list T)) : option neville :=
  match ys with
  | [] => Some n
  | y :: r => let* n := neville_update N ps counts n level y in
              neville_feed N ps counts n (S level) r
  end.

(** sum over [i < n] of (-1)^(i+1) s_i *)
Definition alt_sum (s : list nat) (n : nat) : R :=
  rsum n (fun i => (-1) ^ (i + 1) * INR (nth i s O)).
