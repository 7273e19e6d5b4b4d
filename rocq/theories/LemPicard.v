(** A Lipschitz right-hand side has a solution through every state, on every interval (Picard iteration). *)
From Coq Require Import ZArith Reals List Arith Lia Lra Ranalysis RiemannInt.
From Verif Require Import Num SpecPhys SpecImplicit SpecConv RLemmas LemConv LemInv.
Import ListNotations.
Set Implicit Arguments.
Local Open Scope R_scope.

Lemma half_small A eps : 0 <= A -> 0 < eps -> exists k, A / 2 ^ k < eps.
Proof.
  intros HA He. destruct (@pow_lt_1_zero (/ 2)) with (y := eps / (A + 1)) as [k Hk].
  - rewrite Rabs_right; lra.
  - apply Rmult_lt_0_compat; auto. apply Rinv_0_lt_compat. lra.
  - exists k. specialize (Hk k (Nat.le_refl _)). rewrite pow_inv in Hk.
    assert (P : 0 < / 2 ^ k) by (apply Rinv_0_lt_compat, pow_lt; lra).
    rewrite Rabs_right in Hk by lra. unfold Rdiv.
    apply Rle_lt_trans with ((A + 1) * / 2 ^ k); [apply Rmult_le_compat_r; lra|].
    apply Rlt_le_trans with ((A + 1) * (eps / (A + 1))); [apply Rmult_lt_compat_l; lra|]. right. field. lra.
Qed.
Lemma le_half x y A : 0 <= A -> (forall k, x <= y + A / 2 ^ k) -> x <= y.
Proof.
  intros HA H. destruct (Rle_dec x y) as [|N]; auto. exfalso.
  destruct (@half_small A (x - y) HA) as [k Hk]; [lra|]. specialize (H k). lra.
Qed.

(** comparison: |G'| <= g' *)
Lemma compare (G g G' g' : R -> R) a b : (forall t, a <= t <= b -> derivable_pt_lim G t (G' t)) ->
  (forall t, a <= t <= b -> derivable_pt_lim g t (g' t)) -> (forall t, a <= t <= b -> Rabs (G' t) <= g' t) ->
  forall s t, a <= s -> s <= t -> t <= b -> Rabs (G t - G s) <= g t - g s.
Proof.
  intros H1 H2 H3 s t Hs Hst Ht. destruct (Req_dec s t) as [->|Hn].
  - rewrite !Rminus_diag_eq by reflexivity. rewrite Rabs_R0. lra.
  - assert (U : forall e, e = 1 \/ e = - 1 -> e * (G t - G s) <= g t - g s).
    { intros e He. destruct (@MVT_cor2 (fun x => g x - e * G x) (fun x => g' x - e * G' x) s t) as (c & E & Hc); [lra| |].
      - intros c Hc. apply D_minus; [apply H2; lra|]. apply D_scal, H1. lra.
      - assert (0 <= g' c - e * G' c).
        { specialize (H3 c ltac:(lra)). pose proof (Rle_abs (G' c)). pose proof (Rle_abs (- G' c)) as X. rewrite Rabs_Ropp in X.
          destruct He as [-> | ->]; lra. }
        assert (0 <= (g' c - e * G' c) * (t - s)) by (apply Rmult_le_pos; lra). lra. }
    pose proof (U 1 (or_introl eq_refl)). pose proof (U (-1) (or_intror eq_refl)). unfold Rabs. destruct Rcase_abs; lra.
Qed.

Section Picard.
  Variables (ps : nat) (F : R -> list R -> list R) (L a T : R) (y0 : list R).
  Hypothesis HF : forall t y, length y = ps -> length (F t y) = ps.
  Hypothesis HL0 : 0 <= L.
  Hypothesis HL : forall t t' u v d, length u = ps -> length v = ps -> near ps u v d -> near ps (F t u) (F t' v) (L * (d + Rabs (t - t'))).
  Hypothesis HT : 0 <= T.
  Hypothesis Hy0 : length y0 = ps.
  Notation b := (a + T).

  Definition clip (t : R) : R := Rmax a (Rmin t b).
  Lemma clip_in t : a <= clip t <= b.
  Proof. unfold clip. split; [apply Rmax_l|]. apply Rmax_lub; [lra|apply Rmin_r]. Qed.
  Lemma clip_id t : a <= t <= b -> clip t = t.
  Proof. intros H. unfold clip. rewrite Rmin_left, Rmax_right; lra. Qed.
  Lemma clip_lip s t : Rabs (clip s - clip t) <= Rabs (s - t).
  Proof. unfold clip, Rmax, Rmin, Rabs. repeat destruct Rle_dec; repeat destruct Rcase_abs; lra. Qed.

  Definition tame (Y : R -> list R) : Prop :=
    (forall t, length (Y t) = ps) /\ exists M, 0 <= M /\ forall s t, near ps (Y s) (Y t) (M * Rabs (s - t)).
  Definition path := {Y : R -> list R | tame Y}.
  Definition at_ (Y : path) : R -> list R := proj1_sig Y.
  Definition rhs (Y : path) (q : nat) (s : R) : R := nth q (F s (at_ Y s)) 0.

  Lemma at_len (Y : path) t : length (at_ Y t) = ps.
  Proof. apply (proj2_sig Y). Qed.
  Lemma rhs_lip (Y : path) : exists M, 0 <= M /\ forall q s t, Rabs (rhs Y q s - rhs Y q t) <= M * Rabs (s - t).
  Proof.
    destruct (proj2_sig Y) as [Yl (M & HM & H)]. exists (L * (M + 1)). split; [apply Rmult_le_pos; lra|]. intros q s t.
    destruct (lt_dec q ps) as [Hq|Hq].
    - pose proof (@HL s t (at_ Y s) (at_ Y t) _ (Yl s) (Yl t) (H s t) q Hq) as X. unfold rhs. eapply Rle_trans; [exact X|]. right. ring.
    - unfold rhs. rewrite !nth_overflow by (rewrite HF; [lia|apply Yl]). rewrite Rminus_0_r, Rabs_R0.
      apply Rmult_le_pos; [apply Rmult_le_pos; lra|apply Rabs_pos].
  Qed.
  Lemma rhs_cont (Y : path) q t : continuity_pt (rhs Y q) t.
  Proof.
    destruct (rhs_lip Y) as (M & HM & H). intros eps He. exists (eps / (M + 1)).
    assert (P : 0 < / (M + 1)) by (apply Rinv_0_lt_compat; lra).
    split; [apply Rmult_lt_0_compat; auto|]. intros x [_ Hx]. unfold dist in *. cbn in *. unfold R_dist in *.
    eapply Rle_lt_trans; [apply H|]. apply Rle_lt_trans with ((M + 1) * Rabs (x - t)).
    - apply Rmult_le_compat_r; [apply Rabs_pos|lra].
    - apply Rlt_le_trans with ((M + 1) * (eps / (M + 1))); [apply Rmult_lt_compat_l; lra|]. right. field. lra.
  Qed.
  Lemma ab : a <= b.
  Proof. lra. Qed.
  Definition prim (Y : path) (q : nat) : R -> R := primitive ab (FTC_P1 ab (fun x _ => rhs_cont Y q x)).
  Lemma prim_D Y q t : a <= t <= b -> derivable_pt_lim (prim Y q) t (rhs Y q t).
  Proof. intros H. unfold prim. now apply RiemannInt_P28. Qed.

  Definition flow (Y : path) (t : R) : list R := map (fun q => nth q y0 0 + (prim Y q t - prim Y q a)) (seq 0 ps).
  Lemma flow_len Y t : length (flow Y t) = ps.
  Proof. unfold flow. now rewrite map_length, seq_length. Qed.
  Lemma flow_nth Y t q : (q < ps)%nat -> nth q (flow Y t) 0 = nth q y0 0 + (prim Y q t - prim Y q a).
  Proof.
    intros H. unfold flow. match goal with |- nth q (map ?f _) 0 = _ => rewrite (nth_indep _ 0 (f 0%nat)) by (now rewrite map_length, seq_length); rewrite (map_nth f) end.
    now rewrite seq_nth by auto.
  Qed.

  (** a bound of the slope makes the flow Lipschitz *)
  Lemma flow_lip Y M : 0 <= M -> (forall q t, a <= t <= b -> Rabs (rhs Y q t) <= M) ->
    forall s t, near ps (flow Y (clip s)) (flow Y (clip t)) (M * Rabs (s - t)).
  Proof.
    intros HM H s t q Hq. rewrite !flow_nth by auto.
    assert (W : forall s t, a <= s -> s <= t -> t <= b -> Rabs (prim Y q t - prim Y q s) <= M * (t - s)).
    { intros s' t' A1 A2 A3.
      pose proof (@compare (prim Y q) (fun x => M * x) (rhs Y q) (fun _ => M * 1) a b) as X. cbn beta in X.
      replace (M * (t' - s')) with (M * t' - M * s') by ring. apply X; auto.
      - intros; now apply prim_D.
      - intros. apply (@D_scal M id). apply derivable_pt_lim_id.
      - intros. rewrite Rmult_1_r. now apply H. }
    pose proof (clip_in s) as Cs. pose proof (clip_in t) as Ct. pose proof (clip_lip s t) as CL.
    assert (X : Rabs (prim Y q (clip s) - prim Y q (clip t)) <= M * Rabs (clip s - clip t)).
    { destruct (Rle_dec (clip s) (clip t)).
      - rewrite (Rabs_minus_sym (prim _ _ _)), (Rabs_minus_sym (clip s)), (Rabs_right (clip t - clip s)) by lra. apply W; lra.
      - rewrite (Rabs_right (clip s - clip t)) by lra. apply W; lra. }
    match goal with |- Rabs ?x <= _ => replace x with (prim Y q (clip s) - prim Y q (clip t)) by ring end.
    eapply Rle_trans; [exact X|]. now apply Rmult_le_compat_l.
  Qed.
  Lemma rhs_bound Y : exists M, 0 <= M /\ forall q t, a <= t <= b -> Rabs (rhs Y q t) <= M.
  Proof.
    destruct (rhs_lip Y) as (M & HM & H).
    assert (P : 0 <= rsum ps (fun q => Rabs (rhs Y q a))) by (apply rsum_pos; intros; apply Rabs_pos).
    assert (P2 : 0 <= M * T) by now apply Rmult_le_pos.
    exists (rsum ps (fun q => Rabs (rhs Y q a)) + M * T). split; [lra|]. intros q t Ht.
    assert (Q : Rabs (rhs Y q a) <= rsum ps (fun q => Rabs (rhs Y q a))).
    { destruct (lt_dec q ps) as [Hq|Hq].
      - apply (@rsum_in ps (fun q => Rabs (rhs Y q a))); auto. intros. apply Rabs_pos.
      - unfold rhs at 1. rewrite nth_overflow by (rewrite HF; [lia|apply at_len]). now rewrite Rabs_R0. }
    specialize (H q t a). assert (M * Rabs (t - a) <= M * T) by (apply Rmult_le_compat_l; auto; rewrite Rabs_right; lra).
    replace (rhs Y q t) with ((rhs Y q t - rhs Y q a) + rhs Y q a) by ring. eapply Rle_trans; [apply Rabs_triang|]. lra.
  Qed.
  Lemma next_tame Y : tame (fun t => flow Y (clip t)).
  Proof.
    split; [intros; apply flow_len|]. destruct (rhs_bound Y) as (M & HM & H). exists M. split; auto. now apply flow_lip.
  Qed.
  Definition next (Y : path) : path := exist _ _ (next_tame Y).
  Lemma base_tame : tame (fun _ => y0).
  Proof. split; auto. exists 0. split; [lra|]. intros s t q Hq. rewrite Rminus_diag_eq by reflexivity. rewrite Rabs_R0. lra. Qed.
  Fixpoint it (k : nat) : path := match k with O => exist _ _ base_tame | S k => next (it k) end.

  Lemma it_clip k t : at_ (it k) t = at_ (it k) (clip t).
  Proof. destruct k; cbn; auto. f_equal. symmetry. apply clip_id, clip_in. Qed.

  (** the flows of two close paths *)
  Lemma flow_close Y Z (g g' : R -> R) : (forall t, a <= t <= b -> derivable_pt_lim g t (L * g' t)) -> 0 <= g a ->
    (forall t, a <= t <= b -> near ps (at_ Y t) (at_ Z t) (g' t)) ->
    forall t, a <= t <= b -> near ps (flow Y t) (flow Z t) (g t).
  Proof.
    intros Dg Ga H t Ht q Hq. rewrite !flow_nth by auto.
    pose proof (@compare (fun s => prim Y q s - prim Z q s) g (fun s => rhs Y q s - rhs Z q s) (fun s => L * g' s) a b) as X.
    cbn beta in X.
    assert (X' : Rabs (prim Y q t - prim Z q t - (prim Y q a - prim Z q a)) <= g t - g a).
    { apply X; try lra.
      - intros s Hs. apply D_minus; now apply prim_D.
      - auto.
      - intros s Hs. pose proof (@HL s s (at_ Y s) (at_ Z s) (g' s) (at_len Y s) (at_len Z s) (H s Hs) q Hq) as W.
        unfold rhs. eapply Rle_trans; [exact W|]. rewrite (Rminus_diag_eq s s) by reflexivity. rewrite Rabs_R0. lra. }
    match goal with |- Rabs ?x <= _ => replace x with (prim Y q t - prim Z q t - (prim Y q a - prim Z q a)) by ring end. lra.
  Qed.

  Definition M0 : R := rsum ps (fun q => Rabs (nth q (F a y0) 0)) + L * T.
  Definition c : R := M0 * T.
  Lemma M0_pos : 0 <= M0.
  Proof. unfold M0. apply Rplus_le_le_0_compat; [apply rsum_pos; intros; apply Rabs_pos|now apply Rmult_le_pos]. Qed.
  Lemma c_pos : 0 <= c.
  Proof. unfold c. apply Rmult_le_pos; auto. apply M0_pos. Qed.
  Lemma F0_bound q t : a <= t <= b -> (q < ps)%nat -> Rabs (nth q (F t y0) 0) <= M0.
  Proof.
    intros Ht Hq. unfold M0.
    assert (N : near ps y0 y0 0) by (intros p _; rewrite Rminus_diag_eq by reflexivity; rewrite Rabs_R0; lra).
    pose proof (@HL t a y0 y0 0 Hy0 Hy0 N q Hq) as X. rewrite Rplus_0_l in X.
    assert (L * Rabs (t - a) <= L * T) by (apply Rmult_le_compat_l; auto; rewrite Rabs_right; lra).
    pose proof (@rsum_in ps (fun q => Rabs (nth q (F a y0) 0)) q ltac:(intros; apply Rabs_pos) Hq) as X2. cbn beta in X2.
    replace (nth q (F t y0) 0) with ((nth q (F t y0) 0 - nth q (F a y0) 0) + nth q (F a y0) 0) by ring.
    eapply Rle_trans; [apply Rabs_triang|]. lra.
  Qed.

  Lemma it_close k : forall t, a <= t <= b -> near ps (at_ (it (S k)) t) (at_ (it k) t) (c / 2 ^ k * exp (2 * L * (t - a))).
  Proof.
    pose proof c_pos as Pc. pose proof M0_pos as Pm. induction k as [|k IH]; intros t Ht.
    - change (at_ (it 1) t) with (flow (it 0) (clip t)). rewrite clip_id by auto. change (at_ (it 0) t) with y0.
      intros q Hq. rewrite flow_nth by auto.
      match goal with |- Rabs ?x <= _ => replace x with (prim (it 0) q t - prim (it 0) q a) by ring end.
      pose proof (@compare (prim (it 0) q) (fun x => M0 * x) (rhs (it 0) q) (fun _ => M0 * 1) a b) as X. cbn beta in X.
      assert (X' : Rabs (prim (it 0) q t - prim (it 0) q a) <= M0 * t - M0 * a).
      { apply X; try lra.
        - intros; now apply prim_D.
        - intros. apply (@D_scal M0 id). apply derivable_pt_lim_id.
        - intros s Hs. rewrite Rmult_1_r. now apply F0_bound. }
      eapply Rle_trans; [exact X'|]. apply Rle_trans with c.
      + unfold c. rewrite <- Rmult_minus_distr_l. apply Rmult_le_compat_l; lra.
      + cbn [pow]. unfold Rdiv. rewrite Rinv_1, Rmult_1_r. rewrite <- (Rmult_1_r c) at 1. apply Rmult_le_compat_l; auto.
        rewrite <- exp_0. assert (W : 0 <= 2 * L * (t - a)) by (apply Rmult_le_pos; lra).
        destruct W as [W| <-]; [left; now apply exp_increasing|lra].
    - change (at_ (it (S (S k))) t) with (flow (it (S k)) (clip t)). change (at_ (it (S k)) t) with (flow (it k) (clip t)). rewrite clip_id by auto.
      apply (@flow_close (it (S k)) (it k) (fun s => c / 2 ^ S k * exp (2 * L * (s - a))) (fun s => c / 2 ^ k * exp (2 * L * (s - a)))); auto.
      + intros s Hs. assert (P2 : 2 ^ k <> 0) by (apply pow_nonzero; lra).
        eapply D_val; [|apply D_scal; apply (@derivable_pt_lim_comp (fun s => 2 * L * (s - a)) exp);
          [apply D_scal; apply D_minus; [apply derivable_pt_lim_id|apply derivable_pt_lim_const]|apply derivable_pt_lim_exp]].
        cbn [pow]. field. auto.
      + apply Rmult_le_pos; [|left; apply exp_pos]. apply Rmult_le_pos; auto. left. apply Rinv_0_lt_compat, pow_lt. lra.
  Qed.

  Definition A : R := 2 * (c * exp (2 * L * T)).
  Lemma A_pos : 0 <= A.
  Proof. unfold A. pose proof c_pos. apply Rmult_le_pos; [lra|]. apply Rmult_le_pos; auto. left. apply exp_pos. Qed.
  Lemma it_step k t : near ps (at_ (it (S k)) t) (at_ (it k) t) (A / 2 ^ S k).
  Proof.
    rewrite (it_clip (S k)), (it_clip k). pose proof (clip_in t) as Ci. eapply near_mono; [apply it_close; auto|].
    pose proof c_pos as Pc. assert (P2 : 0 < 2 ^ k) by (apply pow_lt; lra).
    unfold A. cbn [pow]. replace (2 * (c * exp (2 * L * T)) / (2 * 2 ^ k)) with (c / 2 ^ k * exp (2 * L * T)) by (field; lra).
    apply Rmult_le_compat_l; [apply Rmult_le_pos; auto; left; now apply Rinv_0_lt_compat|].
    assert (W : 2 * L * (clip t - a) <= 2 * L * T) by (apply Rmult_le_compat_l; lra).
    destruct W as [W| ->]; [left; now apply exp_increasing|lra].
  Qed.
  Lemma it_many k t : forall j, near ps (at_ (it (k + j)) t) (at_ (it k) t) (A / 2 ^ k - A / 2 ^ (k + j)).
  Proof.
    induction j as [|j IH].
    - rewrite Nat.add_0_r. apply near_refl. lra.
    - rewrite Nat.add_succ_r. eapply near_mono; [eapply near_tri; [apply it_step|exact IH]|].
      assert (P2 : 0 < 2 ^ (k + j)) by (apply pow_lt; lra).
      cbn [pow]. right. replace (A / (2 * 2 ^ (k + j))) with (A / 2 ^ (k + j) / 2) by (field; lra). lra.
  Qed.
  Lemma it_far k t j : near ps (at_ (it (k + j)) t) (at_ (it k) t) (A / 2 ^ k).
  Proof.
    eapply near_mono; [apply it_many|]. assert (0 <= A / 2 ^ (k + j)).
    { apply Rmult_le_pos; [apply A_pos|]. left. apply Rinv_0_lt_compat, pow_lt. lra. }
    lra.
  Qed.
  Lemma it_cauchy q t : (q < ps)%nat -> Cauchy_crit (fun k => nth q (at_ (it k) t) 0).
  Proof.
    intros Hq eps He. destruct (@half_small A (eps / 2) A_pos) as [N HN]; [lra|]. exists N. intros n m Hn Hm. unfold R_dist.
    replace n with (N + (n - N))%nat by lia. replace m with (N + (m - N))%nat by lia.
    pose proof (@it_far N t (n - N) q Hq) as X1. pose proof (@it_far N t (m - N) q Hq) as X2. rewrite Rabs_minus_sym in X2.
    match goal with |- Rabs (?x - ?y) < _ => replace (x - y) with ((x - nth q (at_ (it N) t) 0) + (nth q (at_ (it N) t) 0 - y)) by ring end.
    eapply Rle_lt_trans; [apply Rabs_triang|]. lra.
  Qed.
  Definition lim (t : R) (q : nat) : R :=
    match lt_dec q ps with left H => proj1_sig (R_complete _ (it_cauchy t H)) | right _ => 0 end.
  Definition limit (t : R) : list R := map (lim t) (seq 0 ps).
  Lemma limit_len t : length (limit t) = ps.
  Proof. unfold limit. now rewrite map_length, seq_length. Qed.
  Lemma limit_near t k : near ps (limit t) (at_ (it k) t) (A / 2 ^ k).
  Proof.
    intros q Hq. unfold limit. rewrite (nth_indep _ 0 (lim t 0%nat)) by (now rewrite map_length, seq_length). rewrite map_nth, seq_nth by auto.
    cbn [Nat.add]. unfold lim. destruct (lt_dec q ps) as [H|]; [|lia]. destruct (R_complete _ _) as [l Hl]. cbn [proj1_sig].
    destruct (Rle_dec (Rabs (l - nth q (at_ (it k) t) 0)) (A / 2 ^ k)) as [|N]; auto. exfalso.
    destruct (Hl (Rabs (l - nth q (at_ (it k) t) 0) - A / 2 ^ k)) as [m Hm]; [lra|].
    specialize (Hm (k + m)%nat ltac:(lia)). unfold R_dist in Hm. pose proof (@it_far k t m q Hq) as X.
    pose proof (Rabs_triang (l - nth q (at_ (it (k + m)) t) 0) (nth q (at_ (it (k + m)) t) 0 - nth q (at_ (it k) t) 0)) as Y.
    replace (l - nth q (at_ (it (k + m)) t) 0 + (nth q (at_ (it (k + m)) t) 0 - nth q (at_ (it k) t) 0)) with (l - nth q (at_ (it k) t) 0) in Y by ring.
    rewrite (Rabs_minus_sym l (nth q (at_ (it (k + m)) t) 0)) in Y. lra.
  Qed.

  (** all iterates share a Lipschitz constant *)
  Lemma it_lip : exists M, 0 <= M /\ forall k s t, near ps (at_ (it k) s) (at_ (it k) t) (M * Rabs (s - t)).
  Proof.
    pose proof A_pos as PA. pose proof M0_pos as PM. assert (PLA : 0 <= L * A) by now apply Rmult_le_pos.
    exists (M0 + L * A). split; [lra|]. intros k s t. destruct k as [|k].
    - change (at_ (it 0) s) with y0. change (at_ (it 0) t) with y0. apply near_refl. apply Rmult_le_pos; [lra|apply Rabs_pos].
    - change (at_ (it (S k)) s) with (flow (it k) (clip s)). change (at_ (it (S k)) t) with (flow (it k) (clip t)).
      apply flow_lip; [lra|]. intros q x Hx. destruct (lt_dec q ps) as [Hq|Hq].
      + pose proof (@it_far 0 x k) as X. cbn [Nat.add] in X. change (at_ (it 0) x) with y0 in X.
        replace (A / 2 ^ 0) with A in X by (cbn; field).
        pose proof (@HL x x _ _ _ (at_len (it k) x) Hy0 X q Hq) as Y. rewrite (Rminus_diag_eq x x), Rabs_R0, Rplus_0_r in Y by reflexivity.
        pose proof (@F0_bound q x Hx Hq). unfold rhs.
        replace (nth q (F x (at_ (it k) x)) 0) with ((nth q (F x (at_ (it k) x)) 0 - nth q (F x y0) 0) + nth q (F x y0) 0) by ring.
        eapply Rle_trans; [apply Rabs_triang|]. lra.
      + unfold rhs. rewrite nth_overflow by (rewrite HF; [lia|apply at_len]). rewrite Rabs_R0. lra.
  Qed.
  Lemma limit_tame : tame limit.
  Proof.
    split; [apply limit_len|]. destruct it_lip as (M & HM & H). exists M. split; auto. intros s t q Hq.
    pose proof A_pos as PA. apply (@le_half _ _ (2 * A)); [lra|]. intros k.
    pose proof (@limit_near s k q Hq) as X1. pose proof (@limit_near t k q Hq) as X2. rewrite Rabs_minus_sym in X2. pose proof (H k s t q Hq) as X3.
    match goal with |- Rabs (?x - ?y) <= _ => replace (x - y) with ((x - nth q (at_ (it k) s) 0) + (nth q (at_ (it k) s) 0 - nth q (at_ (it k) t) 0) + (nth q (at_ (it k) t) 0 - y)) by ring end.
    eapply Rle_trans; [apply Rabs_triang|]. eapply Rle_trans; [apply Rplus_le_compat_r, Rabs_triang|].
    unfold Rdiv in *. lra.
  Qed.
  Definition sol : path := exist _ _ limit_tame.

  Lemma fixed t : a <= t <= b -> flow sol t = limit t.
  Proof.
    intros Ht. apply (nth_ext _ _ 0 0); [now rewrite flow_len, limit_len|]. intros q Hq. rewrite flow_len in Hq.
    pose proof A_pos as PA. assert (PLA : 0 <= L * A) by now apply Rmult_le_pos. assert (PLT : 0 <= L * A * T) by now apply Rmult_le_pos.
    enough (E : Rabs (nth q (flow sol t) 0 - nth q (limit t) 0) <= 0).
    { unfold Rabs in E. destruct Rcase_abs in E; lra. }
    apply (@le_half _ _ (L * A * T + A)); [lra|]. intros k.
    assert (P2 : 0 < 2 ^ k) by (apply pow_lt; lra). assert (P2' : 0 < / 2 ^ k) by now apply Rinv_0_lt_compat.
    assert (X1 : near ps (flow sol t) (flow (it k) t) (L * (A / 2 ^ k) * (t - a))).
    { apply (@flow_close sol (it k) (fun s => L * (A / 2 ^ k) * (s - a)) (fun s => A / 2 ^ k)); auto.
      - intros s Hs. eapply D_val; [|apply D_scal; apply D_minus; [apply derivable_pt_lim_id|apply derivable_pt_lim_const]]. ring.
      - right. ring.
      - intros s Hs. apply limit_near. }
    specialize (X1 q Hq). pose proof (@limit_near t (S k) q Hq) as X2. change (at_ (it (S k)) t) with (flow (it k) (clip t)) in X2. rewrite clip_id in X2 by auto.
    assert (X3 : L * (A / 2 ^ k) * (t - a) <= L * A * T / 2 ^ k).
    { replace (L * A * T / 2 ^ k) with (L * (A / 2 ^ k) * T) by (unfold Rdiv; ring). apply Rmult_le_compat_l; [|lra].
      apply Rmult_le_pos; auto. unfold Rdiv. apply Rmult_le_pos; lra. }
    assert (X4 : A / 2 ^ S k <= A / 2 ^ k).
    { unfold Rdiv. apply Rmult_le_compat_l; auto. apply Rinv_le_contravar; auto. cbn [pow]. lra. }
    rewrite Rabs_minus_sym in X2.
    match goal with |- Rabs (?x - ?y) <= _ => replace (x - y) with ((x - nth q (flow (it k) t) 0) + (nth q (flow (it k) t) 0 - y)) by ring end.
    eapply Rle_trans; [apply Rabs_triang|]. unfold Rdiv in *. lra.
  Qed.

  Lemma picard : exists Y, Y a = y0 /\ exact_on ps F a T Y.
  Proof.
    exists (flow sol). split.
    - apply (nth_ext _ _ 0 0); [now rewrite flow_len|]. intros q Hq. rewrite flow_len in Hq. rewrite flow_nth by auto. ring.
    - intros t Ht. split; [apply flow_len|]. intros q Hq. rewrite (fixed Ht).
      eapply D_ext; [intros s; symmetry; apply flow_nth; exact Hq|].
      eapply D_val; [|apply D_plus; [apply derivable_pt_lim_const|apply D_minus; [apply prim_D; exact Ht|apply derivable_pt_lim_const]]].
      unfold rhs. change (at_ sol t) with (limit t). ring.
  Qed.
End Picard.
