(** Specifications for the solvers. *)
From Coq Require Import ZArith Reals List Arith.
From Verif Require Import Num ModelSolverBase ModelButcher ModelExtrap ModelSolver SpecPhys.
Import ListNotations.
Set Implicit Arguments.

(** a solver as the factory returns it: no buffers yet, no steps taken *)
Fixpoint fresh {T : Type} (s : @solver T) : Prop :=
  match s with
  | SEuler b => b = None
  | SMidpoint b => b = None
  | SStetter b => b = None
  | SRk4 b => b = None
  | STrapeze _ b => b = None
  | SButcher _ b => b = None
  | SBs _ b => b = None
  | SAdams _ starter b step => fresh starter /\ b = None /\ step = 0
  end.

(** the solver, or the starter it still depends on, is Bulirsch-Stoer *)
Fixpoint uses_bs {T : Type} (s : @solver T) : Prop :=
  match s with
  | SBs _ _ => True
  | SAdams p starter _ step => step <= ap_rank p /\ uses_bs starter
  | _ => False
  end.

(** Bulirsch-Stoer's sequence 2, 4, 6, 8, 12, 16, 24, 32, ...: 2, then alternately 2^k and
    3 * 2^k *)
Definition bs_seq (j : nat) : nat :=
  match j with
  | O => 2
  | S i => if Nat.even i then 2 ^ (i / 2 + 2) else 3 * 2 ^ (i / 2 + 1)
  end.

(** b_0 + ... + b_(k-1) *)
Fixpoint nsum (k : nat) (b : nat -> nat) : nat :=
  match k with O => 0 | S k' => nsum k' b + b k' end.

(** the arrays of a table are large enough for the accesses of the solver *)
Definition table_wf {T : Type} (t : table T) : Prop :=
  bt_steps t <= length (bt_a t) /\
  (forall i row, i < bt_steps t -> nth_error (bt_a t) i = Some row ->
     (if bt_implicit t then bt_steps t else i) <= length row) /\
  bt_steps t <= length (bt_b2 t) /\ bt_steps t <= length (bt_c t) /\
  (bt_embedded t = true -> bt_steps t <= length (bt_b1 t)).

(** parameters under which no access leaves an array *)
Fixpoint solver_ok {T : Type} (s : @solver T) : Prop :=
  match s with
  | SButcher p _ => table_wf (rp_table p)
  | SAdams p starter _ _ => 1 <= ap_rank p <= 5 /\ solver_ok starter
  | _ => True
  end.

(** parameters under which one step integrates a constant exactly: the weights sum to one, every
    stage but the first of an explicit method has a non-zero coefficient (or the correction is
    used), at least one subdivision, at least one level *)
Fixpoint consistent (s : @solver R) : Prop :=
  match s with
  | SButcher p _ =>
      let t := rp_table p in
      rsum (bt_steps t) (fun i => nth i (bt_b2 t) 0%R) = 1%R /\
      1 <= rp_subdivisions p /\
      ((bt_implicit t = false /\ rp_correction p = true) \/
       forall i, i < bt_steps t -> bt_implicit t = true \/ 0 < i ->
         exists j, j < (if bt_implicit t then bt_steps t else i) /\
                   nth j (nth i (bt_a t) []) 0%R <> 0%R)
  | SBs p _ => 1 <= bp_max_level p
  | SAdams _ starter _ _ => consistent starter
  | _ => True
  end.

(** ** Adaptive substeps *)

(** the accepted substeps [l] follow one another without gaps from time [t] to time [t'] *)
Fixpoint covers (t : R) (l : list (@accepted R)) (t' : R) : Prop :=
  match l with
  | [] => t = t'
  | a :: r => ac_t a = t /\ covers (t + ac_dt a)%R r t'
  end.

(** ** Textbook formulas.  A right-hand side is a function of time and state. *)
Section Textbook.
  Variables (ps : nat) (F : R -> list R -> list R).

  (** y + h * sum over j < m of c_j k_j *)
  Definition lincomb (y : list R) (h : R) (m : nat) (c : nat -> R) (ks : list (list R)) : list R :=
    map (fun q => (nth q y 0 + h * rsum m (fun j => c j * nth q (nth j ks []) 0))%R) (seq 0 ps).

  (** the first [i] stages of an explicit Runge-Kutta method:
      k_i = F(t + c_i h, y + h sum_(j<i) a_ij k_j) *)
  Fixpoint rk_stages (bt : table R) (t h : R) (y : list R) (i : nat) : list (list R) :=
    match i with
    | O => []
    | S i => let ks := rk_stages bt t h y i in
             ks ++ [F (t + nth i (bt_c bt) 0 * h)%R
                      (lincomb y h i (fun j => nth j (nth i (bt_a bt) []) 0%R) ks)]
    end.
  (** the step: y + h sum_i b2_i k_i *)
  Definition rk_value (bt : table R) (t h : R) (y : list R) : list R :=
    lincomb y h (bt_steps bt) (fun i => nth i (bt_b2 bt) 0%R) (rk_stages bt t h y (bt_steps bt)).
  (** [err] is the largest |sum_i (b2_i - b1_i) k_i| over the components *)
  Definition rk_error (bt : table R) (t h : R) (y : list R) (err : R) : Prop :=
    let ks := rk_stages bt t h y (bt_steps bt) in
    let d q := Rabs (rsum (bt_steps bt)
                 (fun i => (nth i (bt_b2 bt) 0 - nth i (bt_b1 bt) 0) * nth q (nth i ks []) 0))%R in
    (exists q, q < ps /\ err = d q) /\ forall q, q < ps -> (d q <= err)%R.
  (** doing the accepted substeps [l] one after the other takes [y] to [y'], with the errors
      recorded in [l] *)
  Fixpoint rk_replay (bt : table R) (y : list R) (l : list (@accepted R)) (y' : list R) : Prop :=
    match l with
    | [] => y' = y
    | a :: r => (if bt_embedded bt then rk_error bt (ac_t a) (ac_dt a) y (ac_err a)
                 else ac_err a = 0%R) /\
                rk_replay bt (rk_value bt (ac_t a) (ac_dt a) y) r y'
    end.
End Textbook.

(** an explicit table none of whose stages after the first has only zero coefficients *)
Definition explicit_rows (bt : table R) : Prop :=
  bt_implicit bt = false /\
  forall i, 0 < i < bt_steps bt -> exists j, j < i /\ nth j (nth i (bt_a bt) []) 0%R <> 0%R.

(** the one-step formulas of the hand-written solvers *)
Section OneStep.
  Variables (ps : nat) (F : R -> list R -> list R).
  Local Open Scope R_scope.
  (** y + h k *)
  Definition shift (y : list R) (h : R) (k : list R) : list R := lincomb ps y h 1 (fun _ => 1) [k].
  Definition euler_value (t h : R) (y : list R) : list R := shift y h (F t y).
  Definition midpoint_value (t h : R) (y : list R) : list R :=
    shift y h (F (t + h / 2) (shift y (h / 2) (F t y))).
  Definition rk4_value (t h : R) (y : list R) : list R :=
    let k1 := F t y in
    let k2 := F (t + h / 2) (shift y (h / 2) k1) in
    let k3 := F (t + h / 2) (shift y (h / 2) k2) in
    let k4 := F (t + h) (shift y h k3) in
    lincomb ps y (h / 6) 4 (fun j => nth j [1; 2; 2; 1] 0) [k1; k2; k3; k4].
  (** explicit Euler predictor, then [r] + 1 corrections y + h/2 (F(t, y) + F(t, predictor)); the
      code evaluates both at time t *)
  Fixpoint trapeze_value (r : nat) (t h : R) (y : list R) : list R :=
    let p := match r with O => shift y h (F t y) | S r => trapeze_value r t h y end in
    lincomb ps y (h / 2) 2 (fun _ => 1) [F t y; F t p].
  (** Stetter's two-vector step from (u, v) *)
  Definition stetter_value (t h : R) (uv : list R * list R) : list R * list R :=
    let (u, v) := uv in
    let u' := shift u h (F (t + h / 2) (shift v (h / 2) (F t u))) in
    (u', lincomb ps v (h / 2) 2 (fun _ => 1) [F t u; F (t + h) u']).

  (** the step [phi] along a history of step lengths *)
  Fixpoint run_steps (A : Type) (phi : R -> R -> A -> A) (t : R) (y : A) (dts : list R) : A :=
    match dts with
    | [] => y
    | h :: r => run_steps phi (t + h) (phi t h y) r
    end.
End OneStep.

(** the state vector after the history [dts] of a fresh fixed-step one-step solver *)
Definition fixed_value (ps : nat) (F : R -> list R -> list R) (s : @solver R) (t : R) (y : list R)
  (dts : list R) : option (list R) :=
  match s with
  | SEuler _ => Some (run_steps (euler_value ps F) t y dts)
  | SMidpoint _ => Some (run_steps (midpoint_value ps F) t y dts)
  | SRk4 _ => Some (run_steps (rk4_value ps F) t y dts)
  | STrapeze r _ => Some (run_steps (trapeze_value ps F r) t y dts)
  | SStetter _ =>
      let (u, v) := run_steps (stetter_value ps F) t (y, y) dts in
      Some (lincomb ps (repeat 0%R ps) (1 / 2) 2 (fun _ => 1%R) [u; v])
  | _ => None
  end.

(** times and states before each step and after the last *)
Fixpoint trajectory {T E : Type} (N : NumOps T) ps
  (ef : E -> nat -> T -> list T -> list T -> option (E * list T)) garbage (dts : list T)
  (s : @solver T) (e : @eng T E) : option (list (T * list T)) :=
  match dts with
  | [] => Some [(e_time e, e_y e)]
  | dt :: r => match advise N ps ef garbage dt s e with
               | Some (s', e') => match trajectory N ps ef garbage r s' e' with
                                  | Some l => Some ((e_time e, e_y e) :: l)
                                  | None => None
                                  end
               | None => None
               end
  end.

(** the Adams-Bashforth coefficients of order [r] *)
Definition ab_coeff (r : nat) : list R :=
  match r with
  | 1 => [1]
  | 2 => [3/2; -1/2]
  | 3 => [23/12; -16/12; 5/12]
  | 4 => [55/24; -59/24; 37/24; -9/24]
  | 5 => [1901/720; -2774/720; 2616/720; -1274/720; 251/720]
  | _ => []
  end%R.

(** the polynomial with coefficients [c], constant term first *)
Fixpoint poly (c : list R) (x : R) : R :=
  match c with
  | [] => 0%R
  | a :: r => (a + x * poly r x)%R
  end.
