(** Errors of the one-step formulas against an exact solution. *)
From Coq Require Import ZArith Reals List Arith Lia Lra.
From Verif Require Import Num Arr ArrLemmas SpecPhys SpecEngine RLemmas ModelSolverBase ModelButcher ModelExtrap
  ModelSolver LemOk LemBufR SpecSolver SpecImplicit SpecBS SpecConv LemRk LemExact LemImplicit LemExtrap LemBS.
Import ListNotations.
Set Implicit Arguments.
Local Open Scope R_scope.

Lemma rsum_pos n f : (forall i, (i < n)%nat -> 0 <= f i) -> 0 <= rsum n f.
Proof. intros H. rewrite <- (@rsum_zero n (fun _ => 0)) by auto. now apply rsum_le. Qed.
Lemma rsum_in n f i : (forall i, (i < n)%nat -> 0 <= f i) -> (i < n)%nat -> f i <= rsum n f.
Proof.
  induction n as [|n IH]; intros H Hi; [lia|]. cbn [rsum].
  assert (0 <= rsum n f) by (apply rsum_pos; intros; apply H; lia). assert (0 <= f n) by (apply H; lia).
  destruct (Nat.eq_dec i n) as [->|]; [lra|]. assert (f i <= rsum n f) by (apply IH; [intros; apply H|]; lia). lra.
Qed.

(** functions of the error so far and the step that are O(error) + O(step) *)
Definition small (T : R) (x : R -> R -> R) : Prop :=
  exists D S, 0 <= D /\ 0 <= S /\ forall d h, 0 <= d -> 0 <= h <= T -> 0 <= x d h <= D * d + S * h.
Lemma small_d T : small T (fun d _ => d).
Proof. exists 1, 0. split; [lra|]. split; [lra|]. intros. lra. Qed.
Lemma small_h T : small T (fun _ h => h).
Proof. exists 0, 1. split; [lra|]. split; [lra|]. intros. lra. Qed.
Lemma small_plus T x y : small T x -> small T y -> small T (fun d h => x d h + y d h).
Proof.
  intros (D & S & A & B & H) (D' & S' & A' & B' & H'). exists (D + D'), (S + S').
  split; [lra|]. split; [lra|]. intros d h Hd Hh. specialize (H d h Hd Hh). specialize (H' d h Hd Hh). lra.
Qed.
Lemma small_scal T c x : 0 <= c -> small T x -> small T (fun d h => c * x d h).
Proof.
  intros Hc (D & S & A & B & H). exists (c * D), (c * S).
  split; [now apply Rmult_le_pos|]. split; [now apply Rmult_le_pos|].
  intros d h Hd Hh. specialize (H d h Hd Hh). split; [apply Rmult_le_pos; lra|].
  replace (c * D * d + c * S * h) with (c * (D * d + S * h)) by ring. apply Rmult_le_compat_l; lra.
Qed.
Lemma small_hmul T x : 0 <= T -> small T x -> small T (fun d h => h * x d h).
Proof.
  intros HT (D & S & A & B & H). exists (T * D), (T * S).
  split; [now apply Rmult_le_pos|]. split; [now apply Rmult_le_pos|].
  intros d h Hd Hh. specialize (H d h Hd Hh). split; [apply Rmult_le_pos; lra|].
  replace (T * D * d + T * S * h) with (T * (D * d + S * h)) by ring. apply Rmult_le_compat; lra.
Qed.
Lemma small_ext T x y : (forall d h, x d h = y d h) -> small T x -> small T y.
Proof.
  intros H0 (D & S & A & B & H). exists D, S. split; auto. split; auto. intros. rewrite <- H0. auto.
Qed.
Lemma small_pos T x d h : small T x -> 0 <= d -> 0 <= h <= T -> 0 <= x d h.
Proof. intros (D & S & A & B & H) Hd Hh. now apply H. Qed.
Ltac sml := repeat first
  [ assumption | apply small_d | apply small_h
  | apply small_plus | apply small_hmul | apply small_scal; [try lra|] ].

Section Near.
  Variable ps : nat.
  Lemma near_mono u v d d' : near ps u v d -> d <= d' -> near ps u v d'.
  Proof. intros H Hd q Hq. specialize (H q Hq). lra. Qed.
  Lemma near_refl u d : 0 <= d -> near ps u u d.
  Proof. intros H q Hq. replace (nth q u 0 - nth q u 0) with 0 by ring. rewrite Rabs_R0. lra. Qed.
  Lemma near_sym u v d : near ps u v d -> near ps v u d.
  Proof. intros H q Hq. rewrite Rabs_minus_sym. now apply H. Qed.
  Lemma near_tri u v w d d' : near ps u v d -> near ps v w d' -> near ps u w (d + d').
  Proof.
    intros H1 H2 q Hq. specialize (H1 q Hq). specialize (H2 q Hq).
    replace (nth q u 0 - nth q w 0) with ((nth q u 0 - nth q v 0) + (nth q v 0 - nth q w 0)) by ring.
    eapply Rle_trans; [apply Rabs_triang|]. lra.
  Qed.
End Near.

Definition inr (t0 T t h : R) : Prop := t0 <= t /\ 0 <= h /\ t + h <= t0 + T.

Section Exact.
  Variables (ps : nat) (F : R -> list R -> list R) (L t0 T : R) (Y : R -> list R).
  Notation V := (V ps).
  Notation near := (near ps).
  Notation lincomb := (lincomb ps).
  Hypothesis HF : forall t y, V y -> V (F t y).
  Hypothesis HL0 : 0 <= L.
  Hypothesis HL : forall t t' u v d, V u -> V v -> near u v d -> near (F t u) (F t' v) (L * (d + Rabs (t - t'))).
  Hypothesis HT : 0 <= T.
  Hypothesis HY : exact_on ps F t0 T Y.

  Notation inr := (inr t0 T).
  Lemma Y_V t : t0 <= t <= t0 + T -> V (Y t).
  Proof. intros H. now apply HY. Qed.

  (** *** the derivative along the solution is bounded *)
  Lemma Y_bounded_q q : (q < ps)%nat -> exists B, 0 <= B /\ forall t, t0 <= t <= t0 + T -> Rabs (nth q (Y t) 0) <= B.
  Proof.
    intros Hq.
    assert (C : forall c, t0 <= c <= t0 + T -> continuity_pt (fun s => nth q (Y s) 0) c).
    { intros c Hc. apply derivable_continuous_pt. exists (nth q (F c (Y c)) 0). now apply HY. }
    destruct (@continuity_ab_maj (fun s => nth q (Y s) 0) t0 (t0 + T) ltac:(lra) C) as (a & Ha & _).
    destruct (@continuity_ab_min (fun s => nth q (Y s) 0) t0 (t0 + T) ltac:(lra) C) as (b & Hb & _).
    exists (Rabs (nth q (Y a) 0) + Rabs (nth q (Y b) 0)). split.
    - pose proof (Rabs_pos (nth q (Y a) 0)). pose proof (Rabs_pos (nth q (Y b) 0)). lra.
    - intros t Ht. specialize (Ha t Ht). specialize (Hb t Ht). cbn beta in *.
      unfold Rabs. repeat destruct Rcase_abs; lra.
  Qed.
  Lemma Y_bounded : exists B, 0 <= B /\ forall t q, t0 <= t <= t0 + T -> (q < ps)%nat -> Rabs (nth q (Y t) 0) <= B.
  Proof.
    assert (X : forall n, (n <= ps)%nat -> exists B, 0 <= B /\
      forall t q, t0 <= t <= t0 + T -> (q < n)%nat -> Rabs (nth q (Y t) 0) <= B).
    { induction n as [|n IH]; intros Hn; [exists 0; split; [lra|]; intros; lia|].
      destruct IH as (B & B0 & HB); [lia|]. destruct (@Y_bounded_q n) as (B' & B0' & HB'); [lia|].
      exists (B + B'). split; [lra|]. intros t q Ht Hq. destruct (Nat.eq_dec q n) as [->|].
      - specialize (HB' t Ht). lra.
      - assert (Q : (q < n)%nat) by lia. specialize (HB t q Ht Q). lra. }
    now apply X.
  Qed.
  Lemma slope_bounded : exists M, 0 <= M /\ forall t q, t0 <= t <= t0 + T -> (q < ps)%nat -> Rabs (nth q (F t (Y t)) 0) <= M.
  Proof.
    destruct Y_bounded as (B & B0 & HB).
    set (z := F t0 (repeat 0 ps)).
    exists (rsum ps (fun q => Rabs (nth q z 0)) + L * (B + T)). split.
    - apply Rplus_le_le_0_compat; [apply rsum_pos; intros; apply Rabs_pos|]. apply Rmult_le_pos; lra.
    - intros t q Ht Hq.
      assert (N : near (F t (Y t)) z (L * (B + Rabs (t - t0)))).
      { apply HL; [now apply Y_V|apply repeat_length|]. intros k Hk.
        assert (nth k (repeat 0 ps) 0 = 0).
        { apply nth_error_nth. now rewrite nth_error_repeat. }
        rewrite H, Rminus_0_r. now apply HB. }
      specialize (N q Hq).
      assert (H1 : Rabs (t - t0) <= T) by (unfold Rabs; destruct Rcase_abs; lra).
      assert (H2 : L * (B + Rabs (t - t0)) <= L * (B + T)) by (apply Rmult_le_compat_l; lra).
      assert (H3 : Rabs (nth q z 0) <= rsum ps (fun q => Rabs (nth q z 0))).
      { apply (@rsum_in ps (fun q => Rabs (nth q z 0))); auto. intros. apply Rabs_pos. }
      replace (nth q (F t (Y t)) 0) with ((nth q (F t (Y t)) 0 - nth q z 0) + nth q z 0) by ring.
      eapply Rle_trans; [apply Rabs_triang|]. lra.
  Qed.

  Variable M : R.
  Hypothesis HM0 : 0 <= M.
  Hypothesis HM : forall t q, t0 <= t <= t0 + T -> (q < ps)%nat -> Rabs (nth q (F t (Y t)) 0) <= M.

  Lemma Y_mvt t h q : inr t h -> 0 < h -> (q < ps)%nat ->
    exists c, t <= c <= t + h /\ nth q (Y (t + h)) 0 - nth q (Y t) 0 = nth q (F c (Y c)) 0 * h.
  Proof.
    intros (A & B & C) Hh Hq.
    destruct (@MVT_cor2 (fun s => nth q (Y s) 0) (fun s => nth q (F s (Y s)) 0) t (t + h)) as (c & E & Hc); [lra| |].
    - intros c Hc. apply HY; auto. lra.
    - exists c. split; [lra|]. rewrite E. ring.
  Qed.
  Lemma Y_move t h : inr t h -> near (Y (t + h)) (Y t) (M * h).
  Proof.
    intros H q Hq. pose proof H as (A & B & C). destruct (Req_dec h 0) as [->|].
    - rewrite Rplus_0_r. replace (nth q (Y t) 0 - nth q (Y t) 0) with 0 by ring. rewrite Rabs_R0. lra.
    - destruct (@Y_mvt t h q) as (c & Hc & E); auto; [lra|]. rewrite E, Rabs_mult, (Rabs_right h) by lra.
      apply Rmult_le_compat_r; [lra|]. apply HM; auto. lra.
  Qed.
  Lemma F_move t h : inr t h -> near (F (t + h) (Y (t + h))) (F t (Y t)) (L * (M + 1) * h).
  Proof.
    intros H. pose proof H as (A & B & C).
    apply near_mono with (d := L * (M * h + Rabs (t + h - t))).
    - apply HL; try (apply Y_V; lra). now apply Y_move.
    - replace (t + h - t) with h by ring. rewrite Rabs_right by lra. lra.
  Qed.
End Exact.

(** Below, the motion [Y] has the slope [G]; the force evaluated by the solver is any member of a
    family whose values are close to [G] near the motion.  [adm z d]: the error [d] is one for which
    the member [z] is that close. *)
Section Conv.
  Variables (ps : nat) (Z : Type) (F : Z -> R -> list R -> list R) (adm : Z -> R -> Prop) (G : R -> list R)
    (L t0 T : R) (Y : R -> list R).
  Notation V := (V ps).
  Notation near := (near ps).
  Notation lincomb := (lincomb ps).
  Notation inr := (inr t0 T).
  Hypothesis HF : forall z t y, V y -> V (F z t y).
  Hypothesis HL0 : 0 <= L.
  Hypothesis Hpos : forall z d, adm z d -> 0 <= d.
  Hypothesis Hup : forall z d d', adm z d -> d <= d' -> adm z d'.
  Hypothesis HL : forall z t t' u d, adm z d -> V u -> t0 <= t' <= t0 + T -> near u (Y t') d ->
    near (F z t u) (G t') (L * (d + Rabs (t - t'))).
  Hypothesis HT : 0 <= T.
  Hypothesis HYd : forall t q, t0 <= t <= t0 + T -> (q < ps)%nat ->
    derivable_pt_lim (fun s => nth q (Y s) 0) t (nth q (G t) 0).
  Variable M : R.
  Hypothesis HM0 : 0 <= M.
  Hypothesis HM : forall t q, t0 <= t <= t0 + T -> (q < ps)%nat -> Rabs (nth q (G t) 0) <= M.
  Hypothesis HG : forall t h, inr t h -> near (G (t + h)) (G t) (L * (M + 1) * h).

  Lemma Y_mvt' t h q : inr t h -> 0 < h -> (q < ps)%nat ->
    exists c, t <= c <= t + h /\ nth q (Y (t + h)) 0 - nth q (Y t) 0 = nth q (G c) 0 * h.
  Proof.
    intros (A & B & C) Hh Hq.
    destruct (@MVT_cor2 (fun s => nth q (Y s) 0) (fun s => nth q (G s) 0) t (t + h)) as (c & E & Hc); [lra| |].
    - intros c Hc. apply HYd; auto. lra.
    - exists c. split; [lra|]. rewrite E. ring.
  Qed.
  Lemma Y_incr t h q : inr t h -> (q < ps)%nat ->
    Rabs (nth q (Y (t + h)) 0 - nth q (Y t) 0 - h * nth q (G t) 0) <= L * (M + 1) * h * h.
  Proof.
    intros H Hq. pose proof H as (A & B & C). destruct (Req_dec h 0) as [->|].
    - rewrite Rplus_0_r. match goal with |- Rabs ?x <= _ => replace x with 0 by ring end. rewrite Rabs_R0. lra.
    - destruct (@Y_mvt' t h q) as (c & Hc & E); auto; [lra|]. rewrite E.
      replace (nth q (G c) 0 * h - h * nth q (G t) 0)
        with ((nth q (G c) 0 - nth q (G t) 0) * h) by ring.
      rewrite Rabs_mult, (Rabs_right h) by lra. apply Rmult_le_compat_r; [lra|].
      assert (I : inr t (c - t)) by (split; [|split]; lra).
      pose proof (HG I) as X. specialize (X q Hq). replace (t + (c - t)) with c in X by ring.
      eapply Rle_trans; [exact X|]. apply Rmult_le_compat_l; [apply Rmult_le_pos; lra|lra].
  Qed.

  (** *** combinations *)
  (** the slope [k] is [x]-close to the slope of the solution at [t] *)
  Definition kn (t x : R) (k : list R) : Prop := V k /\ near k (G t) x.
  Definition kns (t x : R) (m : nat) (ks : list (list R)) : Prop :=
    forall j, (j < m)%nat -> kn t x (nth j ks []).
  Lemma kn_mono t x x' k : kn t x k -> x <= x' -> kn t x' k.
  Proof. intros [A B] H. split; auto. eapply near_mono; eauto. Qed.
  Lemma kns_mono t x x' m ks : kns t x m ks -> x <= x' -> kns t x' m ks.
  Proof. intros H Hx j Hj. eapply kn_mono; eauto. Qed.
  Lemma kn_move t h x k : inr t h -> kn t x k -> kn (t + h) (x + L * (M + 1) * h) k.
  Proof. intros H [A B]. split; auto. eapply near_tri; [exact B|]. apply near_sym. now apply HG. Qed.
  Lemma F_kn z t tau u a b : adm z a -> t0 <= t <= t0 + T -> V u -> near u (Y t) a -> Rabs (tau - t) <= b ->
    kn t (L * (a + b)) (F z tau u).
  Proof.
    intros Ha Ht Vu Hu Hb. split; [now apply HF|]. eapply near_mono.
    - apply HL with (d := a); auto.
    - apply Rmult_le_compat_l; lra.
  Qed.

  Notation sabs m c := (rsum m (fun j => Rabs (c j))).
  Lemma sabs_pos m c : 0 <= sabs m c.
  Proof. apply rsum_pos. intros. apply Rabs_pos. Qed.

  Lemma comb_sum t x m (c : nat -> R) ks q : t0 <= t <= t0 + T -> kns t x m ks -> (q < ps)%nat ->
    Rabs (rsum m (fun j => c j * nth q (nth j ks []) 0) - rsum m c * nth q (G t) 0) <= sabs m c * x.
  Proof.
    intros Ht H Hq. rewrite <- rsum_scal_r, <- rsum_minus.
    eapply Rle_trans; [apply rsum_abs|]. rewrite <- rsum_scal_r. apply rsum_le. intros j Hj.
    replace (c j * nth q (nth j ks []) 0 - c j * nth q (G t) 0)
      with (c j * (nth q (nth j ks []) 0 - nth q (G t) 0)) by ring.
    rewrite Rabs_mult. apply Rmult_le_compat_l; [apply Rabs_pos|]. now apply (H j Hj).
  Qed.
  Lemma comb_near t d x y g m c ks : t0 <= t <= t0 + T -> near y (Y t) d -> kns t x m ks ->
    near (lincomb y g m c ks) (Y t) (d + Rabs g * (sabs m c * (M + x))).
  Proof.
    intros Ht Hy Hk q Hq. rewrite lincomb_nth by auto. specialize (Hy q Hq).
    pose proof (@comb_sum t x m c ks q Ht Hk Hq) as X. pose proof (HM Ht Hq) as X2.
    set (s := rsum m (fun j => c j * nth q (nth j ks []) 0)) in *. set (f := nth q (G t) 0) in *.
    assert (S1 : Rabs (rsum m c) <= sabs m c) by apply rsum_abs.
    assert (S2 : Rabs s <= sabs m c * (M + x)).
    { replace s with ((s - rsum m c * f) + rsum m c * f) by ring.
      eapply Rle_trans; [apply Rabs_triang|]. rewrite Rabs_mult.
      assert (Rabs (rsum m c) * Rabs f <= sabs m c * M) by (apply Rmult_le_compat; auto using Rabs_pos). lra. }
    replace (nth q y 0 + g * s - nth q (Y t) 0) with ((nth q y 0 - nth q (Y t) 0) + g * s) by ring.
    eapply Rle_trans; [apply Rabs_triang|]. apply Rplus_le_compat; auto. rewrite Rabs_mult.
    apply Rmult_le_compat_l; auto using Rabs_pos.
  Qed.
  (** the increment of the combination against the increment of the solution *)
  Definition incr_le (t h : R) (y y' : list R) (b : R) : Prop :=
    forall q, (q < ps)%nat ->
      Rabs ((nth q y' 0 - nth q y 0) - (nth q (Y (t + h)) 0 - nth q (Y t) 0)) <= b.
  Lemma incr_near t h y y' d b : near y (Y t) d -> incr_le t h y y' b -> near y' (Y (t + h)) (d + b).
  Proof.
    intros H1 H2 q Hq. specialize (H1 q Hq). specialize (H2 q Hq).
    match goal with |- Rabs ?x <= _ => replace x with ((nth q y 0 - nth q (Y t) 0) +
      ((nth q y' 0 - nth q y 0) - (nth q (Y (t + h)) 0 - nth q (Y t) 0))) by ring end.
    eapply Rle_trans; [apply Rabs_triang|]. lra.
  Qed.
  Lemma incr_mono t h y y' b b' : incr_le t h y y' b -> b <= b' -> incr_le t h y y' b'.
  Proof. intros H Hb q Hq. specialize (H q Hq). lra. Qed.
  Lemma comb_incr t h x y g m c ks del : inr t h -> kns t x m ks -> Rabs (g * rsum m c - h) <= h * del ->
    incr_le t h y (lincomb y g m c ks) (Rabs g * (sabs m c * x) + h * del * M + L * (M + 1) * h * h).
  Proof.
    intros Hi Hk Hg q Hq. pose proof Hi as (A & B & C). rewrite lincomb_nth by auto.
    assert (Ht : t0 <= t <= t0 + T) by lra.
    pose proof (@comb_sum t x m c ks q Ht Hk Hq) as X. pose proof (HM Ht Hq) as X2.
    pose proof (@Y_incr t h q Hi Hq) as X3.
    set (s := rsum m (fun j => c j * nth q (nth j ks []) 0)) in *. set (f := nth q (G t) 0) in *.
    match goal with |- Rabs ?z <= _ => replace z with
      (g * (s - rsum m c * f) + (g * rsum m c - h) * f - (nth q (Y (t + h)) 0 - nth q (Y t) 0 - h * f)) by ring end.
    eapply Rle_trans; [apply Rabs_triang|]. rewrite Rabs_Ropp. apply Rplus_le_compat; auto.
    eapply Rle_trans; [apply Rabs_triang|]. rewrite !Rabs_mult. apply Rplus_le_compat.
    - apply Rmult_le_compat_l; auto using Rabs_pos.
    - apply Rmult_le_compat; auto using Rabs_pos.
  Qed.

  (** *** steps *)
  (** a step formula whose increments are right up to h O(d + h + del) *)
  Definition good_step (del : R) (phi : Z -> R -> R -> list R -> list R) : Prop :=
    exists K C, 0 <= K /\ 0 <= C /\ forall z t h y d, inr t h -> adm z d -> V y -> near y (Y t) d ->
      V (phi z t h y) /\ incr_le t h y (phi z t h y) (K * h * d + C * h * (h + del)).
  Lemma inr_T t h : inr t h -> 0 <= h <= T.
  Proof. intros (A & B & C). lra. Qed.
  Lemma inr_t t h : inr t h -> t0 <= t <= t0 + T.
  Proof. intros (A & B & C). lra. Qed.
  Hint Resolve inr_T inr_t : core.

  (** from slopes to a step *)
  Lemma comb_step del (g : R) m c x :
    0 <= del -> 0 <= g -> Rabs (g * rsum m c - 1) <= del -> small T x ->
    exists K C, 0 <= K /\ 0 <= C /\ forall t h y d ks, inr t h -> 0 <= d -> kns t (x d h) m ks ->
      incr_le t h y (lincomb y (g * h) m c ks) (K * h * d + C * h * (h + del)).
  Proof.
    intros Hdel Hg Hc (D & S & HD & HS & Hx). set (B := sabs m c). assert (HB : 0 <= B) by apply sabs_pos.
    assert (HLM : 0 <= L * (M + 1)) by (apply Rmult_le_pos; lra).
    exists (g * B * D), (g * B * S + M + L * (M + 1)).
    assert (G1 : 0 <= g * B) by now apply Rmult_le_pos.
    split; [now apply Rmult_le_pos|]. split.
    { assert (0 <= g * B * S) by now apply Rmult_le_pos. lra. }
    intros t h y d ks Hi Hd Hk.
    pose proof (inr_T Hi) as HhT. specialize (Hx d h Hd HhT).
    eapply incr_mono.
    - apply comb_incr with (x := x d h) (del := del); auto.
      replace (g * h * rsum m c - h) with ((g * rsum m c - 1) * h) by ring.
      rewrite Rabs_mult, (Rabs_right h), Rmult_comm by lra. apply Rmult_le_compat_l; lra.
    - fold B. rewrite (Rabs_right (g * h)) by (apply Rle_ge, Rmult_le_pos; lra).
      assert (E1 : g * h * (B * x d h) <= g * h * (B * (D * d + S * h))).
      { apply Rmult_le_compat_l; [apply Rmult_le_pos; lra|]. apply Rmult_le_compat_l; lra. }
      assert (E2 : 0 <= h * del) by (apply Rmult_le_pos; lra).
      assert (E3 : 0 <= h * h) by (apply Rmult_le_pos; lra).
      assert (E4 : 0 <= (g * B * S) * (h * del)) by (apply Rmult_le_pos; auto; now apply Rmult_le_pos).
      assert (E5 : 0 <= L * (M + 1) * (h * del)) by (apply Rmult_le_pos; auto).
      assert (E6 : 0 <= M * (h * h)) by (apply Rmult_le_pos; auto).
      replace ((g * B * S + M + L * (M + 1)) * h * (h + del)) with
        (g * B * S * h * h + M * (h * del) + L * (M + 1) * h * h + ((g * B * S) * (h * del) + L * (M + 1) * (h * del) + M * (h * h)))
        by ring.
      replace (g * h * (B * (D * d + S * h))) with (g * B * D * h * d + g * B * S * h * h) in E1 by ring.
      replace (h * del * M) with (M * (h * del)) by ring. lra.
  Qed.

  Lemma good_comb del phi (g : R) m c (ks : Z -> R -> R -> list R -> list (list R)) x :
    0 <= del -> 0 <= g -> Rabs (g * rsum m c - 1) <= del -> small T x ->
    (forall z t h y d, inr t h -> adm z d -> V y -> near y (Y t) d -> kns t (x d h) m (ks z t h y)) ->
    (forall z t h y, phi z t h y = lincomb y (g * h) m c (ks z t h y)) -> good_step del phi.
  Proof.
    intros Hdel Hg Hc Sx Hk Hp. destruct (@comb_step del g m c x) as (K & C & HK & HC & H); auto.
    exists K, C. split; auto. split; auto. intros z t h y d Hi Hd Vy Hy. rewrite Hp. split; [apply lincomb_V|]. eauto.
  Qed.

  (** a slope at a point reached by a combination *)
  Lemma kn_comb z t h d y g m c ks x tau (cg ct : R) : inr t h -> V y -> near y (Y t) d -> kns t (x d h) m ks ->
    small T x -> adm z d -> 0 <= cg -> Rabs (tau - t) <= ct * h -> Rabs g <= cg * h ->
    kn t (L * (d + h * (cg * sabs m c) * (M + x d h) + ct * h)) (F z tau (lincomb y g m c ks)).
  Proof.
    intros Hi Vy Hy Hk Sx Ha Hcg Htau Hg. pose proof (Hpos Ha) as Hd.
    assert (0 <= sabs m c * (M + x d h)).
    { apply Rmult_le_pos; [apply sabs_pos|]. pose proof (@small_pos T x d h Sx Hd (inr_T Hi)). lra. }
    assert (0 <= h * (cg * sabs m c) * (M + x d h)).
    { replace (h * (cg * sabs m c) * (M + x d h)) with ((cg * h) * (sabs m c * (M + x d h))) by ring.
      pose proof (inr_T Hi). apply Rmult_le_pos; auto. apply Rmult_le_pos; lra. }
    apply F_kn; auto; [apply (Hup Ha); lra|eauto|apply lincomb_V|].
    eapply near_mono; [eapply comb_near; eauto|].
    assert (Rabs g * (sabs m c * (M + x d h)) <= (cg * h) * (sabs m c * (M + x d h))) by (apply Rmult_le_compat_r; auto).
    replace (h * (cg * sabs m c) * (M + x d h)) with ((cg * h) * (sabs m c * (M + x d h))) by ring. lra.
  Qed.
  Lemma small_comb c0 ct x : 0 <= c0 -> 0 <= ct -> small T x ->
    small T (fun d h => L * (d + h * c0 * (M + x d h) + ct * h)).
  Proof.
    intros H1 H2 H3.
    apply small_ext with (x := fun d h => L * (d + ((c0 * M) * h + c0 * (h * x d h)) + ct * h)); [intros; ring|].
    sml. now apply Rmult_le_pos.
  Qed.

  (** *** explicit tableaux *)
  Lemma stages_small bt n : exists x, small T x /\ forall z t h y d, inr t h -> adm z d -> V y -> near y (Y t) d ->
    kns t (x d h) n (rk_stages ps (F z) bt t h y n).
  Proof.
    induction n as [|n IH].
    - exists (fun d _ => d). split; [sml|]. intros z t h y d _ _ _ _ j Hj. lia.
    - destruct IH as (x & Sx & Hx).
      set (c := fun j => nth j (nth n (bt_a bt) []) 0). set (ci := Rabs (nth n (bt_c bt) 0)).
      assert (Hci : 0 <= ci) by apply Rabs_pos. assert (Hc : 0 <= 1 * sabs n c) by (pose proof (sabs_pos n c); lra).
      set (zf := fun d h : R => L * (d + h * (1 * sabs n c) * (M + x d h) + ci * h)).
      assert (Sz : small T zf) by now apply small_comb.
      exists (fun d h => x d h + zf d h). split; [sml|].
      intros z t h y d Hi Ha Vy Hy j Hj. pose proof (Hpos Ha) as Hd. cbn [rk_stages].
      assert (Len : length (rk_stages ps (F z) bt t h y n) = n).
      { clear. induction n as [|n IH]; cbn [rk_stages]; auto. rewrite app_length, IH. cbn. lia. }
      pose proof (@small_pos T x d h Sx Hd (inr_T Hi)). pose proof (@small_pos T zf d h Sz Hd (inr_T Hi)).
      specialize (Hx z t h y d Hi Ha Vy Hy).
      destruct (Nat.eq_dec j n) as [->|].
      + rewrite app_nth2, Len, Nat.sub_diag by lia. cbn [nth].
        apply kn_mono with (x := zf d h); [|lra]. unfold zf. apply kn_comb; auto; try lra.
        * replace (t + nth n (bt_c bt) 0 * h - t) with (nth n (bt_c bt) 0 * h) by ring.
          pose proof (inr_T Hi). rewrite Rabs_mult, (Rabs_right h) by lra. unfold ci. lra.
        * pose proof (inr_T Hi). rewrite Rabs_right by lra. lra.
      + rewrite app_nth1 by lia. apply kn_mono with (x := x d h); [|lra]. apply Hx. lia.
  Qed.
  Lemma good_table bt del : Rabs (rsum (bt_steps bt) (fun i => nth i (bt_b2 bt) 0) - 1) <= del ->
    good_step del (fun z => rk_value ps (F z) bt).
  Proof.
    intros H. assert (0 <= del) by (eapply Rle_trans; [apply Rabs_pos|exact H]).
    destruct (@stages_small bt (bt_steps bt)) as (x & Sx & Hx).
    eapply good_comb with (g := 1) (m := bt_steps bt) (c := fun i => nth i (bt_b2 bt) 0) (x := x) (ks := fun z t h y => rk_stages ps (F z) bt t h y (bt_steps bt)); auto; try lra.
    - now rewrite Rmult_1_l.
    - intros t h y. unfold rk_value. now rewrite Rmult_1_l.
  Qed.

  (** *** the hand-written formulas *)
  Lemma kns_nil t x : kns t x 0 [].
  Proof. intros j Hj. lia. Qed.
  Lemma kns_cons t x m k ks : kn t x k -> kns t x m ks -> kns t x (S m) (k :: ks).
  Proof. intros H1 H2 [|j] Hj; cbn [nth]; auto. apply H2. lia. Qed.
  Definition ssmall (x : R -> R -> R) := small T x.

  Lemma kn_first z t h y d : inr t h -> V y -> near y (Y t) d -> adm z d -> kn t (L * d) (F z t y).
  Proof.
    intros Hi Vy Hy Hd. apply kn_mono with (x := L * (d + 0)); [|lra]. apply F_kn; eauto.
    replace (t - t) with 0 by ring. rewrite Rabs_R0. lra.
  Qed.
  (** a slope after a shift by a slope *)
  Lemma kn_shift (sg st : R) x : 0 <= sg -> 0 <= st -> small T x ->
    exists zf, small T zf /\ forall z t h y0 d k, inr t h -> adm z d -> V y0 -> near y0 (Y t) d ->
      kn t (x d h) k -> kn t (zf d h) (F z (t + st * h) (shift ps y0 (sg * h) k)).
  Proof.
    intros H1 H2 Sx.
    exists (fun d h => L * (d + h * (sg * sabs 1 (fun _ => 1)) * (M + x d h) + st * h)).
    split; [apply small_comb; auto; apply Rmult_le_pos; auto; apply sabs_pos|].
    intros z t h y0 d k Hi Hd Vy Hy Hk. unfold shift. pose proof (inr_T Hi). apply kn_comb; auto.
    - apply kns_cons; [exact Hk|apply kns_nil].
    - replace (t + st * h - t) with (st * h) by ring. rewrite Rabs_right by (apply Rle_ge, Rmult_le_pos; lra). lra.
    - rewrite Rabs_right by (apply Rle_ge, Rmult_le_pos; lra). lra.
  Qed.

  Lemma small_Ld : small T (fun d _ => L * d). Proof. sml. Qed.
  Hint Resolve small_Ld : core.

  Lemma good_euler : good_step 0 (fun z => euler_value ps (F z)).
  Proof.
    eapply good_comb with (g := 1) (m := 1%nat) (c := fun _ => 1) (x := fun d _ => L * d) (ks := fun z t h y => [F z t y]); auto; try lra.
    - cbn [rsum]. replace (1 * (0 + 1) - 1) with 0 by ring. rewrite Rabs_R0. lra.
    - intros z t h y d Hi Hd Vy Hy. apply kns_cons; [|apply kns_nil]. eapply kn_first; eauto.
    - intros. unfold euler_value, shift. now rewrite Rmult_1_l.
  Qed.
  Lemma good_midpoint : good_step 0 (fun z => midpoint_value ps (F z)).
  Proof.
    destruct (@kn_shift (1/2) (1/2) (fun d _ => L * d)) as (zf & Sz & Hz); auto; try lra.
    eapply good_comb with (g := 1) (m := 1%nat) (c := fun _ => 1) (x := zf)
      (ks := fun z t h y => [F z (t + 1/2 * h) (shift ps y (1/2 * h) (F z t y))]); auto; try lra.
    - cbn [rsum]. replace (1 * (0 + 1) - 1) with 0 by ring. rewrite Rabs_R0. lra.
    - intros z t h y d Hi Hd Vy Hy. apply kns_cons; [|apply kns_nil]. apply (Hz z t h y d); auto. eapply kn_first; eauto.
    - intros. unfold midpoint_value, shift. rewrite Rmult_1_l. replace (h / 2) with (1/2 * h) by lra. reflexivity.
  Qed.
  Lemma good_rk4 : good_step 0 (fun z => rk4_value ps (F z)).
  Proof.
    destruct (@kn_shift (1/2) (1/2) (fun d _ => L * d)) as (x2 & S2 & H2); auto; try lra.
    destruct (@kn_shift (1/2) (1/2) x2) as (x3 & S3 & H3); auto; try lra.
    destruct (@kn_shift 1 1 x3) as (x4 & S4 & H4); auto; try lra.
    eapply good_comb with (g := 1/6) (m := 4%nat) (c := fun j => nth j [1; 2; 2; 1] 0)
      (x := fun d h => L * d + x2 d h + x3 d h + x4 d h)
      (ks := fun z t h y => let k1 := F z t y in
         let k2 := F z (t + 1/2 * h) (shift ps y (1/2 * h) k1) in
         let k3 := F z (t + 1/2 * h) (shift ps y (1/2 * h) k2) in
         let k4 := F z (t + 1 * h) (shift ps y (1 * h) k3) in [k1; k2; k3; k4]); auto; try lra.
    - cbn [rsum nth]. match goal with |- Rabs ?x <= _ => replace x with 0 by field end. rewrite Rabs_R0. lra.
    - sml.
    - intros z t h y d Hi Hd Vy Hy. cbv zeta.
      assert (Hd0 : 0 <= d) by (eapply Hpos; eauto).
      assert (P : forall x, small T x -> 0 <= x d h) by (intros; eapply small_pos; eauto).
      assert (P1 : 0 <= L * d) by now apply Rmult_le_pos.
      pose proof (P _ S2). pose proof (P _ S3). pose proof (P _ S4).
      assert (K1 : kn t (L * d) (F z t y)) by (eapply kn_first; eauto).
      pose proof (H2 z t h y d _ Hi Hd Vy Hy K1) as K2. pose proof (H3 z t h y d _ Hi Hd Vy Hy K2) as K3.
      pose proof (H4 z t h y d _ Hi Hd Vy Hy K3) as K4.
      repeat apply kns_cons; try apply kns_nil.
      + eapply kn_mono; [exact K1|lra].
      + eapply kn_mono; [exact K2|lra].
      + eapply kn_mono; [exact K3|lra].
      + eapply kn_mono; [exact K4|lra].
    - intros. unfold rk4_value, shift. rewrite !Rmult_1_l. replace (h / 2) with (1/2 * h) by lra.
      replace (h / 6) with (1/6 * h) by lra. reflexivity.
  Qed.

  (** the predictor-corrector: by induction on the number of corrections *)
  Lemma good_trapeze r : good_step 0 (fun z => trapeze_value ps (F z) r).
  Proof.
    assert (X : exists x, small T x /\ forall z t h y d, inr t h -> adm z d -> V y -> near y (Y t) d ->
      kn t (x d h) (F z t (match r with O => shift ps y h (F z t y) | S r => trapeze_value ps (F z) r t h y end))).
    { induction r as [|r (x & Sx & Hx)].
      - destruct (@kn_shift 1 0 (fun d _ => L * d)) as (zf & Sz & Hz); auto; try lra.
        exists zf. split; auto. intros z t h y d Hi Hd Vy Hy.
        pose proof (Hz z t h y d _ Hi Hd Vy Hy (kn_first Hi Vy Hy Hd)) as K. now rewrite Rmult_0_l, Rplus_0_r, Rmult_1_l in K.
      - assert (Q : 0 <= 1 / 2 * sabs 2 (fun _ => 1)) by (apply Rmult_le_pos; [lra|apply sabs_pos]).
        set (w := fun d h : R => x d h + L * d). assert (Sw : small T w) by (unfold w; sml).
        exists (fun d h => L * (d + h * (1/2 * sabs 2 (fun _ => 1)) * (M + w d h) + 0 * h)).
        split; [apply small_comb; auto; lra|].
        intros z t h y d Hi Hd Vy Hy. specialize (Hx z t h y d Hi Hd Vy Hy).
        replace (trapeze_value ps (F z) r t h y) with
          (lincomb y (h / 2) 2 (fun _ => 1) [F z t y; F z t (match r with O => shift ps y h (F z t y) | S r => trapeze_value ps (F z) r t h y end)])
          by (destruct r; reflexivity).
        pose proof (@small_pos T x d h Sx (Hpos Hd) (inr_T Hi)). assert (0 <= d) by (eapply Hpos; eauto). assert (0 <= L * d) by now apply Rmult_le_pos.
        pose proof (inr_T Hi). apply kn_comb with (x := w); auto; try lra.
        + unfold w. repeat apply kns_cons; try apply kns_nil.
          * eapply kn_mono; [eapply kn_first; eauto|lra].
          * eapply kn_mono; [exact Hx|lra].
        + replace (t - t) with 0 by ring. rewrite Rabs_R0. lra.
        + rewrite Rabs_right by lra. lra. }
    destruct X as (x & Sx & Hx).
    eapply good_comb with (g := 1/2) (m := 2%nat) (c := fun _ => 1) (x := fun d h => x d h + L * d)
      (ks := fun z t h y => [F z t y; F z t (match r with O => shift ps y h (F z t y) | S r => trapeze_value ps (F z) r t h y end)]); auto; try lra.
    - cbn [rsum]. match goal with |- Rabs ?x <= _ => replace x with 0 by field end. rewrite Rabs_R0. lra.
    - sml.
    - intros z t h y d Hi Hd Vy Hy.
      pose proof (@small_pos T x d h Sx (Hpos Hd) (inr_T Hi)). assert (0 <= d) by (eapply Hpos; eauto). assert (0 <= L * d) by now apply Rmult_le_pos.
      repeat apply kns_cons; try apply kns_nil.
      + eapply kn_mono; [eapply kn_first; eauto|cbn beta; lra].
      + eapply kn_mono; [exact (Hx z t h y d Hi Hd Vy Hy)|cbn beta; lra].
    - intros. replace (1 / 2 * h) with (h / 2) by lra. destruct r; reflexivity.
  Qed.

  (** *** Stetter's pair *)
  Definition good_pair (K C : R) : Prop := 0 <= K /\ 0 <= C /\
    forall z t h uv d, inr t h -> adm z d -> V (fst uv) -> V (snd uv) -> near (fst uv) (Y t) d -> near (snd uv) (Y t) d ->
      let uv' := stetter_value ps (F z) t h uv in
      V (fst uv') /\ V (snd uv') /\
      incr_le t h (fst uv) (fst uv') (K * h * d + C * h * h) /\
      incr_le t h (snd uv) (snd uv') (K * h * d + C * h * h).
  Lemma pair_good : exists K C, good_pair K C.
  Proof.
    destruct (@kn_shift (1/2) (1/2) (fun d _ => L * d)) as (x2 & S2 & H2); auto; try lra.
    destruct (@kn_shift 1 1 x2) as (x3 & S3 & H3); auto; try lra.
    set (x := fun d h => L * d + x2 d h + x3 d h). assert (Sx : small T x) by (unfold x; sml).
    destruct (@comb_step 0 1 1 (fun _ => 1) x) as (K & C & HK & HC & H); auto; try lra.
    { cbn [rsum]. match goal with |- Rabs ?x <= _ => replace x with 0 by ring end. rewrite Rabs_R0. lra. }
    destruct (@comb_step 0 (1/2) 2 (fun _ => 1) x) as (K' & C' & HK' & HC' & H'); auto; try lra.
    { cbn [rsum]. match goal with |- Rabs ?x <= _ => replace x with 0 by field end. rewrite Rabs_R0. lra. }
    exists (K + K'), (C + C'). split; [lra|]. split; [lra|].
    intros z t h [u v] d Hi Hd Vu Vv Hu Hv. cbn [fst snd stetter_value] in *. cbv zeta.
    pose proof (inr_T Hi) as Hh.
    assert (Hd0 : 0 <= d) by (eapply Hpos; eauto).
      assert (P : forall x, small T x -> 0 <= x d h) by (intros; eapply small_pos; eauto).
    assert (P1 : 0 <= L * d) by now apply Rmult_le_pos.
    pose proof (P _ S2). pose proof (P _ S3).
    assert (K1 : kn t (L * d) (F z t u)) by (eapply kn_first; eauto).
    pose proof (H2 z t h v d _ Hi Hd Vv Hv K1) as K2.
    pose proof (H3 z t h u d _ Hi Hd Vu Hu K2) as K3. rewrite !Rmult_1_l in K3.
    replace (h / 2) with (1 / 2 * h) by lra.
    split; [apply lincomb_V|]. split; [apply lincomb_V|].
    assert (Q1 : 0 <= h * d) by (apply Rmult_le_pos; lra). assert (Q2 : 0 <= h * h) by (apply Rmult_le_pos; lra).
    assert (W : forall a b, 0 <= a -> 0 <= b -> 0 <= a * h * d + b * h * h).
    { intros a b Ha Hb. apply Rplus_le_le_0_compat; rewrite Rmult_assoc; now apply Rmult_le_pos. }
    split.
    - eapply incr_mono; [unfold shift at 1; rewrite <- (Rmult_1_l h) at 2; apply (H t h u d); auto|].
      + apply kns_cons; [|apply kns_nil]. eapply kn_mono; [exact K2|]. unfold x. lra.
      + rewrite Rplus_0_r. specialize (W _ _ HK' HC'). lra.
    - eapply incr_mono; [apply (H' t h v d); auto|].
      + repeat apply kns_cons; try apply kns_nil.
        * eapply kn_mono; [exact K1|]. unfold x. lra.
        * eapply kn_mono; [exact K3|]. unfold x. lra.
      + rewrite Rplus_0_r. specialize (W _ _ HK HC). lra.
  Qed.

  (** *** growth of errors *)
  (** the error [d] after a time [h] with local errors [c] per time *)
  Definition grown (K c h d : R) : R := exp (K * h) * (d + c * h).
  Lemma grown_step K c h d : 0 <= K -> 0 <= c -> 0 <= h -> 0 <= d -> d + (K * h * d + c * h) <= grown K c h d.
  Proof.
    intros HK Hc Hh Hd. unfold grown.
    assert (E : 1 + K * h <= exp (K * h)).
    { destruct (Req_dec (K * h) 0) as [->|]; [rewrite exp_0; lra|].
      left. apply exp_ineq1. assert (0 <= K * h) by (apply Rmult_le_pos; lra). lra. }
    assert (P : 0 <= d + c * h) by (apply Rplus_le_le_0_compat; [lra|apply Rmult_le_pos; lra]).
    assert (Q : 0 <= K * h * (c * h)) by (repeat apply Rmult_le_pos; lra).
    apply Rle_trans with ((1 + K * h) * (d + c * h)); [lra|]. apply Rmult_le_compat_r; auto.
  Qed.
  Lemma grown_grown K c h1 h2 d : 0 <= K -> 0 <= c -> 0 <= h1 -> 0 <= h2 -> 0 <= d ->
    grown K c h2 (grown K c h1 d) <= grown K c (h1 + h2) d.
  Proof.
    intros HK Hc H1 H2 Hd. unfold grown. replace (K * (h1 + h2)) with (K * h2 + K * h1) by ring. rewrite exp_plus.
    assert (E1 : 1 <= exp (K * h1)).
    { rewrite <- exp_0. destruct (Req_dec (K * h1) 0) as [->|]; [lra|]. left. apply exp_increasing.
      assert (0 <= K * h1) by (apply Rmult_le_pos; lra). lra. }
    pose proof (exp_pos (K * h2)). assert (0 <= c * h2) by (apply Rmult_le_pos; lra).
    assert (c * h2 <= exp (K * h1) * (c * h2)) by (rewrite <- (Rmult_1_l (c * h2)) at 1; apply Rmult_le_compat_r; lra).
    rewrite (Rmult_assoc (exp (K * h2))). apply Rmult_le_compat_l; lra.
  Qed.
  Lemma grown_ge K c h d : 0 <= K -> 0 <= c -> 0 <= h -> 0 <= d -> d <= grown K c h d.
  Proof.
    intros HK Hc Hh Hd. eapply Rle_trans; [|apply grown_step; auto].
    assert (0 <= K * h * d) by (repeat apply Rmult_le_pos; lra). assert (0 <= c * h) by (apply Rmult_le_pos; lra). lra.
  Qed.
  Lemma grown_mono K K' c c' h d d' : 0 <= K <= K' -> 0 <= c <= c' -> 0 <= h -> 0 <= d <= d' ->
    grown K c h d <= grown K' c' h d'.
  Proof.
    intros HK Hc Hh Hd. unfold grown. apply Rmult_le_compat.
    - left. apply exp_pos.
    - apply Rplus_le_le_0_compat; [lra|apply Rmult_le_pos; lra].
    - destruct (Req_dec (K * h) (K' * h)) as [->|N]; [lra|]. left. apply exp_increasing.
      assert (K * h <= K' * h) by (apply Rmult_le_compat_r; lra). lra.
    - apply Rplus_le_compat; [lra|]. apply Rmult_le_compat_r; lra.
  Qed.
End Conv.
