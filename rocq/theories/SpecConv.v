(** Convergence of the solvers: vocabulary. *)
From Coq Require Import String NArith Reals List Arith.
From Verif Require Import Num ModelText SpecArgs ModelSolverBase ModelButcher ModelExtrap ModelSolver SpecPhys SpecSolver SpecImplicit.
Import ListNotations.
Set Implicit Arguments.
Local Open Scope R_scope.

(** the length of a history of steps *)
Definition total (dts : list R) : R := fold_right Rplus 0 dts.

(** the right-hand side is Lipschitz in state and time, with constant [L] in the largest component *)
Definition smooth_rhs (ps : nat) (F : R -> list R -> list R) (L : R) : Prop :=
  0 <= L /\ forall t t' u v d, length u = ps -> length v = ps -> near ps u v d ->
    near ps (F t u) (F t' v) (L * (d + Rabs (t - t'))).

(** [Y] solves y' = F(t, y) on [t0, t0 + T] *)
Definition exact_on (ps : nat) (F : R -> list R -> list R) (t0 T : R) (Y : R -> list R) : Prop :=
  forall t, t0 <= t <= t0 + T -> length (Y t) = ps /\
    forall q, (q < ps)%nat -> derivable_pt_lim (fun s => nth q (Y s) 0) t (nth q (F t (Y t)) 0).

(** by how much the weights of a tableau miss the sum one; 0 for the other methods *)
Fixpoint defect (s : @solver R) : R :=
  match s with
  | SButcher p _ => Rabs (rsum (bt_steps (rp_table p)) (fun i => nth i (bt_b2 (rp_table p)) 0) - 1)
  | SAdams _ starter _ _ => defect starter
  | _ => 0
  end.

(** parameters with which a solver is a method at all: no access leaves a table; every row the
    solver evaluates has a coefficient; an implicit tableau does at least one sweep; Bulirsch-Stoer
    has at least one level *)
Fixpoint convergent (s : @solver R) : Prop :=
  match s with
  | SButcher p _ =>
      table_wf (rp_table p) /\ (1 <= rp_subdivisions p)%nat /\
      ((bt_implicit (rp_table p) = false /\
          (rp_correction p = true \/ forall i, (0 < i < bt_steps (rp_table p))%nat ->
             exists j, (j < i)%nat /\ nth j (nth i (bt_a (rp_table p)) []) 0 <> 0)) \/
       (implicit_rows (rp_table p) /\ (1 <= rp_refine p)%nat))
  | SBs p _ => (1 <= bp_max_level p)%nat
  | SAdams p starter _ _ => (1 <= ap_rank p <= 5)%nat /\ convergent starter
  | _ => True
  end.

(** The equations of motion as a vector field: cell k n + i is component k of body i *)
Definition newton_field (mind : R) (n : nat) (mass : list R) (_ : R) (y : list R) : list R :=
  map (fun q => let (k, i) := (q / n, q mod n)%nat in
        if (k <? 3)%nat then comp y n (k + 3) i
        else newton_acc mind n (fun j => nth j mass 0) (comp y n 0) (comp y n 1) (comp y n 2) (comp y n (k - 3)) i)
      (seq 0 (6 * n)).

(** two bodies of mass 4 on the unit circle, a distance 2 apart *)
Definition circle (t : R) : list R :=
  [cos t; - cos t; sin t; - sin t; 0; 0; - sin t; sin t; cos t; - cos t; 0; 0].

(** the command line leaves the parameter [k] alone or gives it a value from [lo] to [hi] *)
Definition asked (args : list text) (k : string) (lo hi : N) : Prop :=
  silent args k \/ exists w, (lo <= w <= hi)%N /\ says args k (show_N w).
