(** The Adams-Bashforth rows integrate polynomials. *)
From Coq Require Import ZArith Reals List Arith Lia Lra.
From Verif Require Import Num Arr ArrLemmas SpecPhys SpecEngine RLemmas ModelSolverBase ModelButcher ModelExtrap
  ModelSolver LemOk LemBufR SpecSolver LemRk LemSolverTime LemExact LemSolver.
Import ListNotations.
Set Implicit Arguments.
Local Open Scope R_scope.

(** an antiderivative: c_0 x + c_1 x^2 / 2 + ...; [anti k c x] starts at the divisor [k] *)
Fixpoint anti (k : nat) (c : list R) (x : R) : R :=
  match c with
  | [] => 0
  | a :: r => x * (a / INR k + anti (S k) r x)
  end.

(** derivative of x^k times a polynomial *)
Lemma anti_lim c : forall k x, derivable_pt_lim (fun x => x ^ k * anti (S k) c x) x (x ^ k * poly c x).
Proof.
  induction c as [|a c IH]; intros k x; cbn [anti poly].
  - replace (x ^ k * 0) with 0 by lra.
    apply (derivable_pt_lim_ext (fct_cte 0)); [intros z; unfold fct_cte; lra|]. apply derivable_pt_lim_const.
  - apply (derivable_pt_lim_ext (plus_fct (fun z => (a / INR (S k)) * z ^ (S k)) (fun z => z ^ (S k) * anti (S (S k)) c z))).
    { intros z. unfold plus_fct. cbn [pow]. lra. }
    replace (x ^ k * (a + x * poly c x)) with
      (a / INR (S k) * (INR (S k) * x ^ (pred (S k))) + x ^ (S k) * poly c x).
    + apply derivable_pt_lim_plus; [|apply IH].
      apply (derivable_pt_lim_ext (mult_real_fct (a / INR (S k)) (fun z => z ^ (S k)))); [intros; reflexivity|].
      apply derivable_pt_lim_scal. apply derivable_pt_lim_pow.
    + cbn [pred pow]. field. apply not_0_INR. lia.
Qed.
Lemma anti_lim1 c x : derivable_pt_lim (anti 1 c) x (poly c x).
Proof.
  replace (poly c x) with (x ^ 0 * poly c x) by (cbn; lra).
  apply (derivable_pt_lim_ext (fun x => x ^ 0 * anti 1 c x)); [intros; cbn; lra|]. apply anti_lim.
Qed.

Lemma anti_unique (Y : R -> R) c : (forall x, derivable_pt_lim Y x (poly c x)) ->
  forall a b, Y b - Y a = anti 1 c b - anti 1 c a.
Proof.
  intros H.
  assert (D : forall x, derivable_pt_lim (Y - anti 1 c)%F x 0).
  { intros x. replace 0 with (poly c x - poly c x) by lra.
    apply derivable_pt_lim_minus; auto using anti_lim1. }
  set (pr := (fun x => exist _ 0 (D x)) : derivable (Y - anti 1 c)%F).
  assert (Z : forall x, derive_pt (Y - anti 1 c)%F x (pr x) = 0).
  { intros x. apply (proj2 (derive_pt_eq _ _ _ _)). apply D. }
  pose proof (null_derivative_1 _ pr Z) as C. unfold constant, minus_fct in C.
  intros a b. specialize (C a b). lra.
Qed.

Lemma ab_exact_anti r c t h : (1 <= r <= 5)%nat -> (length c <= r)%nat ->
  anti 1 c (t + h) - anti 1 c t = h * rsum r (fun k => nth k (ab_coeff r) 0 * poly c (t - INR k * h)).
Proof.
  intros Hr Hc.
  destruct r as [|[|[|[|[|[|r]]]]]]; try lia;
    destruct c as [|c0 [|c1 [|c2 [|c3 [|c4 [|c5 c]]]]]]; cbn [length] in Hc; try lia;
    cbn [anti poly rsum ab_coeff nth]; rewrite ?S_INR; cbn [INR]; field.
Qed.

Lemma ab_exact (Y : R -> R) r c t h : (1 <= r <= 5)%nat -> (length c <= r)%nat ->
  (forall x, derivable_pt_lim Y x (poly c x)) ->
  Y (t + h) = Y t + h * rsum r (fun k => nth k (ab_coeff r) 0 * poly c (t - INR k * h)).
Proof.
  intros Hr Hc HY. pose proof (@anti_unique Y c HY t (t + h)). pose proof (@ab_exact_anti r c t h Hr Hc). lra.
Qed.

(** the rows of the code are the textbook rows *)
Lemma adams_rows_ab mind r : (1 <= r <= 5)%nat ->
  nth_error (adams_rows (Rops mind)) r = Some (ab_coeff r).
Proof.
  intros Hr. destruct r as [|[|[|[|[|[|r]]]]]]; try lia; cbn [nth_error adams_rows ab_coeff];
    unfold q; cbn [nlit ndiv Rops]; f_equal; repeat (apply f_equal2; [lra|]); reflexivity.
Qed.

Section Times.
  Context {E : Type} (mind : R) (ps : nat)
          (ef : E -> nat -> R -> list R -> list R -> option (E * list R)) (garbage : nat -> list R).
  Lemma trajectory_times h k : forall s (e : @eng R E) tr,
    trajectory (Rops mind) ps ef garbage (repeat h k) s e = Some tr ->
    forall m, (m <= k)%nat -> fst (nth m tr (0, [])) = e_time e + INR m * h.
  Proof.
    induction k as [|k IH]; intros s e tr; cbn [repeat trajectory].
    - intros X. injection X as <-. intros m Hm. replace m with O by lia. cbn. lra.
    - destruct (advise (Rops mind) ps ef garbage h s e) as [[s' e']|] eqn:EA; [|discriminate].
      destruct (trajectory (Rops mind) ps ef garbage (repeat h k) s' e') as [l|] eqn:ET; [|discriminate].
      intros X. injection X as <-. apply advise_time_step in EA. cbn [snd] in EA. destruct EA as (EA & _).
      intros [|m] Hm; cbn [nth fst].
      + cbn. lra.
      + rewrite (IH _ _ _ ET) by lia. rewrite EA, S_INR. cbn [nadd Rops]. lra.
  Qed.
End Times.

Section Solve.
  Context {E : Type} (mind : R) (ps : nat)
          (ef : E -> nat -> R -> list R -> list R -> option (E * list R))
          (garbage : nat -> list R) (c : nat -> list R) (Y : nat -> R -> R).
  Let F (t : R) (y : list R) : list R := map (fun q => poly (c q) t) (seq 0 ps).
  Hypothesis Hps : (0 < ps)%nat.
  Hypothesis Hgarb : forall n, length (garbage n) = ps.
  Hypothesis Hef : forall q step t y f, length y = ps -> length f = ps ->
    ef q step t y f = Some (q, map (fun q => poly (c q) t) (seq 0 ps)).
  Hypothesis HY : forall q x, (q < ps)%nat -> derivable_pt_lim (Y q) x (poly (c q) x).

  Lemma adams_poly p st (e : @eng R E) h n : fresh st -> solver_ok (SAdams p st None 0) -> length (e_y e) = ps ->
    (forall q, (q < ps)%nat -> (length (c q) <= ap_rank p)%nat) ->
    exists tr, trajectory (Rops mind) ps ef garbage (repeat h n) (SAdams p st None 0) e = Some tr /\
      length tr = S n /\
      ((forall m q, (m <= S (ap_rank p))%nat -> (m <= n)%nat -> (q < ps)%nat ->
          nth q (snd (nth m tr (0, []))) 0 = Y q (fst (nth m tr (0, [])))) ->
       forall m q, (m <= n)%nat -> (q < ps)%nat ->
          nth q (snd (nth m tr (0, []))) 0 = Y q (fst (nth m tr (0, [])))).
  Proof.
    intros HF HS HV Hc.
    pose proof (@adams_fresh_x E mind ps ef garbage F Hps Hgarb) as X.
    assert (FV : forall t y, V ps y -> V ps (F t y)).
    { intros t y _. unfold V, F. now rewrite map_length, seq_length. }
    specialize (X FV Hef p st e (repeat h n) HF HS HV).
    destruct (trajectory _ _ _ _ _ _ _) as [tr|] eqn:ET; [|contradiction].
    cbn [ok] in X. destruct X as (L & _ & HM). rewrite repeat_length in *.
    exists tr. split; auto. split; auto. intros H0 m.
    pose proof (@trajectory_times E mind ps ef garbage h n _ _ _ ET) as TT.
    destruct HS as [Hr _].
    induction m as [m IH] using lt_wf_ind. intros q Hm Hq.
    destruct (Nat.le_gt_cases m (S (ap_rank p))) as [Hs|Hs]; [now apply H0|].
    destruct m as [|m]; [lia|]. rewrite HM by lia. rewrite lincomb_nth by auto.
    rewrite IH by lia. rewrite !TT by lia. rewrite S_INR.
    replace (e_time e + (INR m + 1) * h) with (e_time e + INR m * h + h) by lra.
    rewrite (@ab_exact (Y q) (ap_rank p) (c q) (e_time e + INR m * h) h); auto.
    rewrite (nth_error_nth (repeat h n) m 0 (x := h)) by (apply nth_error_repeat; lia). do 2 f_equal. apply rsum_ext. intros k Hk. f_equal.
    rewrite (nth_indep _ [] (F (fst (nth (m - 0)%nat tr (0, []))) (snd (nth (m - 0)%nat tr (0, [])))))
      by (rewrite map_length, seq_length; lia).
    rewrite (map_nth (fun k => F (fst (nth (m - k)%nat tr (0, []))) (snd (nth (m - k)%nat tr (0, []))))).
    rewrite seq_nth by lia. rewrite TT by lia. unfold F. rewrite nth_map_seq by auto. f_equal.
    cbn [Nat.add]. rewrite minus_INR by lia. lra.
  Qed.
End Solve.
