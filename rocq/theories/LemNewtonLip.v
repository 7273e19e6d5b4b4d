(** The softened equations of motion are Lipschitz, with the constant 1 + 20 sum |m| / mind^(3/2). *)
From Coq Require Import ZArith Reals List Arith Lia Lra Psatz.
From Verif Require Import Num Arr ArrLemmas SpecPhys SpecImplicit RLemmas LemPhys SpecConv LemConv ModelEngine.
Import ListNotations.
Set Implicit Arguments.
Local Open Scope R_scope.

Section Pair.
  Variable mind : R.
  Hypothesis Hm : 0 < mind.
  Definition rho (s : R) : R := sqrt (Rmax mind s).
  Lemma rho_sq s : rho s * rho s = Rmax mind s.
  Proof. apply sqrt_sqrt. apply Rle_trans with mind; [lra|apply Rmax_l]. Qed.
  Lemma rho_pos s : sqrt mind <= rho s /\ 0 < sqrt mind.
  Proof. split; [apply sqrt_le_1_alt, Rmax_l|now apply sqrt_lt_R0]. Qed.
  Lemma rho_ge a s : a * a <= s -> Rabs a <= rho s.
  Proof.
    intros H. rewrite <- (sqrt_Rsqr_abs a). apply sqrt_le_1_alt. unfold Rsqr.
    eapply Rle_trans; [exact H|apply Rmax_r].
  Qed.
  Lemma max_move s s' : Rabs (Rmax mind s - Rmax mind s') <= Rabs (s - s').
  Proof.
    unfold Rmax. destruct (Rle_dec mind s), (Rle_dec mind s'); try lra;
      unfold Rabs; repeat destruct Rcase_abs; lra.
  Qed.
  Lemma rho_move a b c a' b' c' d : Rabs (a - a') <= d -> Rabs (b - b') <= d -> Rabs (c - c') <= d ->
    Rabs (rho (a*a + b*b + c*c) - rho (a'*a' + b'*b' + c'*c')) <= 3 * d.
  Proof.
    intros Ha Hb Hc. set (s := a*a + b*b + c*c). set (s' := a'*a' + b'*b' + c'*c').
    assert (Pd : 0 <= d) by (pose proof (Rabs_pos (a - a')); lra).
    destruct (rho_pos s) as [P1 P0]. destruct (rho_pos s') as [P2 _].
    assert (A1 : Rabs a <= rho s) by (apply rho_ge; unfold s; nra).
    assert (A2 : Rabs b <= rho s) by (apply rho_ge; unfold s; nra).
    assert (A3 : Rabs c <= rho s) by (apply rho_ge; unfold s; nra).
    assert (B1 : Rabs a' <= rho s') by (apply rho_ge; unfold s'; nra).
    assert (B2 : Rabs b' <= rho s') by (apply rho_ge; unfold s'; nra).
    assert (B3 : Rabs c' <= rho s') by (apply rho_ge; unfold s'; nra).
    assert (W : forall x x', Rabs (x - x') <= d -> Rabs x <= rho s -> Rabs x' <= rho s' -> Rabs (x * x - x' * x') <= d * (rho s + rho s')).
    { intros x x' H1 H2 H3. replace (x * x - x' * x') with ((x - x') * (x + x')) by ring. rewrite Rabs_mult.
      apply Rmult_le_compat; auto using Rabs_pos. eapply Rle_trans; [apply Rabs_triang|lra]. }
    assert (S1 : Rabs (s - s') <= 3 * d * (rho s + rho s')).
    { unfold s at 1, s' at 1. replace (a*a + b*b + c*c - (a'*a' + b'*b' + c'*c')) with ((a*a - a'*a') + ((b*b - b'*b') + (c*c - c'*c'))) by ring.
      eapply Rle_trans; [apply Rabs_triang|]. pose proof (Rabs_triang (b*b - b'*b') (c*c - c'*c')).
      pose proof (W a a' Ha A1 B1). pose proof (W b b' Hb A2 B2). pose proof (W c c' Hc A3 B3). lra. }
    pose proof (max_move s s') as S2. rewrite <- !rho_sq in S2.
    replace (rho s * rho s - rho s' * rho s') with ((rho s - rho s') * (rho s + rho s')) in S2 by ring.
    rewrite Rabs_mult, (Rabs_right (rho s + rho s')) in S2 by lra.
    apply Rmult_le_reg_r with (rho s + rho s'); [lra|]. lra.
  Qed.
  (** the softened force law along one axis *)
  Lemma law_move a b c a' b' c' x x' d : Rabs (a - a') <= d -> Rabs (b - b') <= d -> Rabs (c - c') <= d -> Rabs (x - x') <= d ->
    x' * x' <= a'*a' + b'*b' + c'*c' ->
    Rabs (x / soft_cube mind (a*a + b*b + c*c) - x' / soft_cube mind (a'*a' + b'*b' + c'*c')) <= 10 * (/ sqrt mind) ^ 3 * d.
  Proof.
    intros Ha Hb Hc Hx Hle. pose proof (@rho_move a b c a' b' c' d Ha Hb Hc) as Hr.
    set (s := a*a + b*b + c*c) in *. set (s' := a'*a' + b'*b' + c'*c') in *.
    assert (Pd : 0 <= d) by (pose proof (Rabs_pos (a - a')); lra).
    destruct (rho_pos s) as [P1 P0]. destruct (rho_pos s') as [P2 _]. pose proof (rho_ge Hle) as Hx'.
    unfold soft_cube. fold (rho s). fold (rho s'). rewrite <- !rho_sq.
    set (p := rho s) in *. set (p' := rho s') in *. set (m := sqrt mind) in *.
    set (u := / p). set (u' := / p'). set (v := / m).
    assert (U0 : 0 < u) by (apply Rinv_0_lt_compat; lra). assert (U0' : 0 < u') by (apply Rinv_0_lt_compat; lra).
    assert (U1 : u <= v) by (apply Rinv_le_contravar; lra). assert (U1' : u' <= v) by (apply Rinv_le_contravar; lra).
    assert (Eu : u - u' = (p' - p) * (u * u')) by (unfold u, u'; field; lra).
    replace (x / (p * p * p) - x' / (p' * p' * p')) with
      ((x - x') * (u * u * u) + (x' * u') * ((p' - p) * (u * (u * u + u * u' + u' * u')))).
    2: { unfold u, u'. field. lra. }
    assert (X1 : Rabs (x' * u') <= 1).
    { rewrite Rabs_mult, (Rabs_right u') by lra. apply Rle_trans with (p' * u'); [apply Rmult_le_compat_r; lra|].
      unfold u'. rewrite Rinv_r; lra. }
    assert (X2 : Rabs (p' - p) <= 3 * d) by (rewrite Rabs_minus_sym; exact Hr).
    assert (W1 : 0 <= u * u * u <= v * v * v).
    { split; [apply Rmult_le_pos; [apply Rmult_le_pos; lra|lra]|]. apply Rmult_le_compat; try lra; [apply Rmult_le_pos; lra|].
      apply Rmult_le_compat; lra. }
    assert (W2 : 0 <= u * (u * u + u * u' + u' * u') <= 3 * (v * v * v)).
    { assert (0 <= u * u <= v * v) by (split; [apply Rmult_le_pos; lra|apply Rmult_le_compat; lra]).
      assert (0 <= u * u' <= v * v) by (split; [apply Rmult_le_pos; lra|apply Rmult_le_compat; lra]).
      assert (0 <= u' * u' <= v * v) by (split; [apply Rmult_le_pos; lra|apply Rmult_le_compat; lra]).
      split; [apply Rmult_le_pos; lra|]. apply Rle_trans with (v * (v * v + v * v + v * v)); [apply Rmult_le_compat; lra|lra]. }
    eapply Rle_trans; [apply Rabs_triang|]. rewrite (Rabs_mult (x - x')), (Rabs_right (u * u * u)) by lra.
    rewrite (Rabs_mult (x' * u')), (Rabs_mult (p' - p)), (Rabs_right (u * (u * u + u * u' + u' * u'))) by lra.
    replace (10 * v ^ 3 * d) with (d * (v * v * v) + 1 * (3 * d * (3 * (v * v * v)))) by ring.
    apply Rplus_le_compat.
    - apply Rmult_le_compat; try lra. apply Rabs_pos.
    - apply Rmult_le_compat; try lra; try apply Rabs_pos.
      + apply Rmult_le_pos; [apply Rabs_pos|lra].
      + apply Rmult_le_compat; try lra. apply Rabs_pos.
  Qed.
End Pair.

Definition newton_lip (mind : R) (n : nat) (mass : list R) : R :=
  1 + 20 * (/ sqrt mind) ^ 3 * rsum n (fun j => Rabs (nth j mass 0)).

Lemma field_length mind n mass t y : length (newton_field mind n mass t y) = (6 * n)%nat.
Proof. unfold newton_field. now rewrite map_length, seq_length. Qed.

Lemma field_nth mind n mass t y q : (q < 6 * n)%nat -> nth q (newton_field mind n mass t y) 0 =
  if (q / n <? 3)%nat then comp y n (q / n + 3) (q mod n)
  else newton_acc mind n (fun j => nth j mass 0) (comp y n 0) (comp y n 1) (comp y n 2) (comp y n (q / n - 3)) (q mod n).
Proof.
  intros H. unfold newton_field.
  match goal with |- nth q (map ?f _) 0 = _ => rewrite (nth_indep _ 0 (f 0%nat)) by (now rewrite map_length, seq_length); rewrite (map_nth f) end.
  rewrite seq_nth by auto. reflexivity.
Qed.

Lemma field_newton mind n mass t y : newton_rhs mind n mass y (newton_field mind n mass t y).
Proof.
  split; [apply field_length|]. intros i k Hi Hk.
  assert (D : forall k, ((k * n + i) / n = k /\ (k * n + i) mod n = i)%nat).
  { intros j. rewrite (Nat.add_comm (j * n)). split.
    - rewrite Nat.div_add by lia. rewrite Nat.div_small by auto. lia.
    - rewrite Nat.mod_add by lia. now apply Nat.mod_small. }
  split.
  - rewrite (nth_error_nth' _ 0) by (rewrite field_length; nia). rewrite field_nth by nia.
    destruct (D k) as [-> ->]. destruct (Nat.ltb_spec k 3); [reflexivity|lia].
  - rewrite (nth_error_nth' _ 0) by (rewrite field_length; nia). rewrite field_nth by nia.
    destruct (D (k + 3)%nat) as [-> ->]. destruct (Nat.ltb_spec (k + 3) 3); [lia|].
    replace (k + 3 - 3)%nat with k by lia. reflexivity.
Qed.

Lemma newton_lip_pos mind n mass : 0 < mind -> 1 <= newton_lip mind n mass.
Proof.
  intros H. unfold newton_lip.
  assert (0 <= (/ sqrt mind) ^ 3) by (apply pow_le; left; apply Rinv_0_lt_compat; now apply sqrt_lt_R0).
  assert (0 <= rsum n (fun j => Rabs (nth j mass 0))) by (apply rsum_pos; intros; apply Rabs_pos).
  assert (0 <= 20 * (/ sqrt mind) ^ 3 * rsum n (fun j => Rabs (nth j mass 0))) by (apply Rmult_le_pos; [lra|assumption]). lra.
Qed.

Lemma rsum_abs_diff n f g : Rabs (rsum n f - rsum n g) <= rsum n (fun j => Rabs (f j - g j)).
Proof.
  induction n as [|n IH]; cbn [rsum]; [rewrite Rminus_diag_eq, Rabs_R0; lra|].
  replace (rsum n f + f n - (rsum n g + g n)) with ((rsum n f - rsum n g) + (f n - g n)) by ring.
  eapply Rle_trans; [apply Rabs_triang|]. lra.
Qed.
Lemma rsum_le' n f g : (forall i, (i < n)%nat -> f i <= g i) -> rsum n f <= rsum n g.
Proof. induction n as [|n IH]; intros H; cbn [rsum]; [lra|]. apply Rplus_le_compat; [apply IH; auto|auto]. Qed.

Theorem newton_smooth mind n mass : 0 < mind -> smooth_rhs (6 * n) (newton_field mind n mass) (newton_lip mind n mass).
Proof.
  intros Hm. pose proof (newton_lip_pos n mass Hm) as HL. split; [lra|].
  intros t t' u v d Hu Hv Hn q Hq. rewrite !field_nth by auto.
  assert (Hn0 : (0 < n)%nat) by lia.
  assert (Hi : (q mod n < n)%nat) by (apply Nat.mod_upper_bound; lia).
  assert (Hk : (q / n < 6)%nat) by (apply Nat.div_lt_upper_bound; lia).
  assert (C : forall k i, (k < 6)%nat -> (i < n)%nat -> Rabs (comp u n k i - comp v n k i) <= d).
  { intros k i A B. unfold comp. apply Hn. nia. }
  assert (Pd : 0 <= d) by (pose proof (C 0%nat 0%nat ltac:(lia) ltac:(lia)) as X; pose proof (Rabs_pos (comp u n 0 0 - comp v n 0 0)); lra).
  pose proof (Rabs_pos (t - t')) as Pt.
  apply Rle_trans with (newton_lip mind n mass * d); [|apply Rmult_le_compat_l; lra].
  destruct (Nat.ltb_spec (q / n) 3) as [Hlt|Hge].
  - eapply Rle_trans; [apply C; lia|]. rewrite <- (Rmult_1_l d) at 1. apply Rmult_le_compat_r; auto.
  - set (i := (q mod n)%nat) in *. set (k := (q / n - 3)%nat).
    set (w := (/ sqrt mind) ^ 3).
    assert (Pw : 0 <= w) by (apply pow_le; left; apply Rinv_0_lt_compat; now apply sqrt_lt_R0).
    unfold newton_acc.
    match goal with |- Rabs (- ?a - - ?b) <= _ => replace (- a - - b) with (b - a) by ring end.
    rewrite Rabs_minus_sym. eapply Rle_trans; [apply rsum_abs_diff|].
    apply Rle_trans with (rsum n (fun j => 20 * w * d * Rabs (nth j mass 0))).
    + apply rsum_le'. intros j Hj. destruct (Nat.eqb_spec i j).
      * rewrite Rminus_diag_eq, Rabs_R0 by auto. apply Rmult_le_pos; [apply Rmult_le_pos; lra|apply Rabs_pos].
      * assert (C2 : forall k, (k < 3)%nat -> Rabs ((comp u n k i - comp u n k j) - (comp v n k i - comp v n k j)) <= 2 * d).
        { intros k' Hk'. replace ((comp u n k' i - comp u n k' j) - (comp v n k' i - comp v n k' j)) with
            ((comp u n k' i - comp v n k' i) - (comp u n k' j - comp v n k' j)) by ring.
          eapply Rle_trans; [apply Rabs_triang|]. rewrite Rabs_Ropp.
          pose proof (C k' i ltac:(lia) Hi). pose proof (C k' j ltac:(lia) Hj). lra. }
        unfold dist2.
        pose proof (@law_move mind Hm (comp u n 0 i - comp u n 0 j) (comp u n 1 i - comp u n 1 j) (comp u n 2 i - comp u n 2 j)
          (comp v n 0 i - comp v n 0 j) (comp v n 1 i - comp v n 1 j) (comp v n 2 i - comp v n 2 j)
          (comp u n k i - comp u n k j) (comp v n k i - comp v n k j) (2 * d)
          (C2 0%nat ltac:(lia)) (C2 1%nat ltac:(lia)) (C2 2%nat ltac:(lia)) (C2 k ltac:(unfold k; lia))) as X.
        fold w in X.
        match goal with |- Rabs (?m * ?a / ?s - ?m * ?b / ?s') <= _ =>
          replace (m * a / s - m * b / s') with (m * (a / s - b / s')) by (unfold Rdiv; ring) end.
        rewrite Rabs_mult. rewrite (Rmult_comm _ (Rabs (nth j mass 0))). apply Rmult_le_compat_l; [apply Rabs_pos|].
        eapply Rle_trans; [apply X|].
        -- assert (Hk3 : (k < 3)%nat) by (unfold k; lia). 
           pose proof (Rle_0_sqr (comp v n 0 i - comp v n 0 j)) as R0. pose proof (Rle_0_sqr (comp v n 1 i - comp v n 1 j)) as R1.
           pose proof (Rle_0_sqr (comp v n 2 i - comp v n 2 j)) as R2. unfold Rsqr in *.
           clear - Hk3 R0 R1 R2. clearbody k. destruct k as [|[|[|k]]]; [lra|lra|lra|lia].
        -- lra.
    + unfold newton_lip. fold w. rewrite rsum_scal.
      assert (0 <= rsum n (fun j => Rabs (nth j mass 0))) by (apply rsum_pos; intros; apply Rabs_pos).
      nra.
Qed.
