(** Implicit Runge-Kutta methods as a textbook writes them. *)
From Coq Require Import Reals List.
From Verif Require Import SpecPhys ModelButcher ModelSolver SpecSolver.
Import ListNotations.
Set Implicit Arguments.

Section Implicit.
  Variables (ps : nat) (F : R -> list R -> list R) (bt : table R).
  Local Open Scope R_scope.
  Let s := bt_steps bt.

  (** the right-hand side of the equation of stage [i]:
      F(t + c_i h, y + h sum_(j<s) a_ij k_j) *)
  Definition impl_stage (t h : R) (y : list R) (ks : list (list R)) (i : nat) : list R :=
    F (t + nth i (bt_c bt) 0 * h) (lincomb ps y h s (fun j => nth j (nth i (bt_a bt) []) 0) ks).
  (** [ks] solves the stage equations *)
  Definition impl_solves (t h : R) (y : list R) (ks : list (list R)) : Prop :=
    length ks = s /\ forall i, (i < s)%nat -> nth i ks [] = impl_stage t h y ks i.
  (** the step with the stages [ks]: y + h sum_i b2_i k_i *)
  Definition impl_value (h : R) (y : list R) (ks : list (list R)) : list R :=
    lincomb ps y h s (fun i => nth i (bt_b2 bt) 0) ks.

  (** one Gauss-Seidel sweep: each stage in turn is replaced by the right-hand side of its
      equation *)
  Definition put (ks : list (list R)) (i : nat) (k : list R) : list (list R) :=
    firstn i ks ++ k :: skipn (S i) ks.
  Definition impl_sweep (t h : R) (y : list R) (ks : list (list R)) : list (list R) :=
    fold_left (fun ks i => put ks i (impl_stage t h y ks i)) (seq 0 s) ks.
  Fixpoint impl_sweeps (r : nat) (t h : R) (y : list R) (ks : list (list R)) : list (list R) :=
    match r with
    | O => ks
    | S r => impl_sweeps r t h y (impl_sweep t h y ks)
    end.
  (** the first guess: an Euler step to the time of each stage *)
  Definition impl_guess (t h : R) (y : list R) : list (list R) :=
    map (fun i => F (t + nth i (bt_c bt) 0 * h) (shift ps y (h * nth i (bt_c bt) 0) (F t y))) (seq 0 s).

  (** [r] sweeps in each step; the first step starts from the guess, each later one from the
      stages of the step before *)
  Fixpoint impl_run (r : nat) (t : R) (y : list R) (ks : option (list (list R))) (dts : list R) : list R :=
    match dts with
    | [] => y
    | h :: rest =>
        let start := match ks with Some ks => ks | None => impl_guess t h y end in
        let ks := impl_sweeps r t h y start in
        impl_run r (t + h) (impl_value h y ks) (Some ks) rest
    end.

  (** [err] is the largest |sum_i (b2_i - b1_i) k_i| over the components *)
  Definition impl_error (ks : list (list R)) (err : R) : Prop :=
    let d q := Rabs (rsum s (fun i => (nth i (bt_b2 bt) 0 - nth i (bt_b1 bt) 0) * nth q (nth i ks []) 0)) in
    (exists q, (q < ps)%nat /\ err = d q) /\ forall q, (q < ps)%nat -> d q <= err.
  (** the accepted substeps [l] take [y] to [y'], each of them with the stages that [r] sweeps make
      of some starting point *)
  Fixpoint impl_replay (r : nat) (y : list R) (l : list (@accepted R)) (y' : list R) : Prop :=
    match l with
    | [] => y' = y
    | a :: rest => exists start,
        let ks := impl_sweeps r (ac_t a) (ac_dt a) y start in
        length start = s /\
        (if bt_embedded bt then impl_error ks (ac_err a) else ac_err a = 0) /\
        impl_replay r (impl_value (ac_dt a) y ks) rest y'
    end.

  (** all components of [u] and [v] differ by at most [d] *)
  Definition near (u v : list R) (d : R) : Prop :=
    forall q, (q < ps)%nat -> Rabs (nth q u 0 - nth q v 0) <= d.
End Implicit.

(** every row of an implicit table has a non-zero coefficient *)
Definition implicit_rows (bt : table R) : Prop :=
  bt_implicit bt = true /\
  forall i, i < bt_steps bt -> exists j, j < bt_steps bt /\ nth j (nth i (bt_a bt) []) 0%R <> 0%R.

Local Open Scope R_scope.
(** [L] is a Lipschitz constant of the right-hand side and [A] a bound of the absolute row sums of the
    table, in the largest component *)
Definition lipschitz (ps : nat) (F : R -> list R -> list R) (L : R) : Prop :=
  0 <= L /\ forall t u v d, length u = ps -> length v = ps -> near ps u v d -> near ps (F t u) (F t v) (L * d).
Definition rows_below (bt : table R) (A : R) : Prop :=
  0 <= A /\ forall i, (i < bt_steps bt)%nat -> rsum (bt_steps bt) (fun j => Rabs (nth j (nth i (bt_a bt) []) 0)) <= A.
