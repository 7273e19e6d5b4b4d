(** The error of one accepted cluster, and of a whole traversal. *)
From Coq Require Import ZArith Reals List Arith Lia Lra Psatz Permutation.
From Verif Require Import Num Arr ArrLemmas ModelVertex ModelForce ModelEngine ModelTree ModelBH SpecPhys SpecTree SpecBHError RLemmas
  LemPhys LemTree LemBH LemTreeR LemNewtonLip.
Import ListNotations.
Set Implicit Arguments.
Local Open Scope R_scope.

(** ** Sums over lists *)
Lemma lsum_plus l f g : lsum l (fun b => f b + g b) = lsum l f + lsum l g.
Proof. induction l as [|b l IH]; cbn; [lra|]. unfold lsum in IH. rewrite IH. ring. Qed.
Lemma lsum_abs l f g : (forall b, In b l -> Rabs (f b) <= g b) -> Rabs (lsum l f) <= lsum l g.
Proof.
  induction l as [|b l IH]; intros H; [cbn; rewrite Rabs_R0; lra|]. rewrite !lsum_cons.
  eapply Rle_trans; [apply Rabs_triang|]. apply Rplus_le_compat; [apply H; now left|]. apply IH. intros; apply H; now right.
Qed.

(** ** One axis *)
Lemma abs_le_sqr a b : 0 <= b -> a * a <= b * b -> Rabs a <= b.
Proof. intros Hb H. rewrite <- (Rabs_right b) by lra. apply Rsqr_le_abs_0. exact H. Qed.

Lemma inv_ratio a b x : 0 < a -> 0 < b -> 0 <= x -> b <= (1 + x) * a -> / a <= (1 + x) * / b.
Proof.
  intros Ha Hb Hx H. apply Rmult_le_reg_l with a; auto. rewrite Rinv_r by lra. apply Rmult_le_reg_l with b; auto.
  replace (b * (a * ((1 + x) * / b))) with ((1 + x) * a) by (field; lra). lra.
Qed.

Lemma law1 a b u v r x : 0 < a -> 0 < b -> 0 <= x -> 0 <= r -> Rabs (u - v) <= r -> Rabs v <= b -> Rabs (a - b) <= r -> r <= x * a ->
  Rabs (u / (a * a * a) - v / (b * b * b)) <= bh_err1 x / (b * b).
Proof.
  intros Ha Hb Hx Hr H1 H2 H3 H4.
  assert (B : b <= (1 + x) * a) by (rewrite Rabs_minus_sym in H3; pose proof (Rle_abs (b - a)); lra).
  pose proof (inv_ratio Ha Hb Hx B) as PQ. set (p := / a) in *. set (q := / b) in *.
  assert (P0 : 0 < p) by now apply Rinv_0_lt_compat. assert (Q0 : 0 < q) by now apply Rinv_0_lt_compat.
  assert (RP : r * p <= x).
  { apply Rmult_le_reg_r with a; auto. unfold p. rewrite Rmult_assoc, Rinv_l by lra. lra. }
  replace (u / (a * a * a) - v / (b * b * b)) with ((u - v) * (p * p * p) + (v * q) * ((b - a) * (p * (p * p + p * q + q * q)))) by (unfold p, q; field; lra).
  assert (V1 : Rabs (v * q) <= 1).
  { rewrite Rabs_mult, (Rabs_right q) by lra. apply Rle_trans with (b * q); [apply Rmult_le_compat_r; lra|]. unfold q. rewrite Rinv_r; lra. }
  assert (PP : 0 <= p * p) by (apply Rmult_le_pos; lra). assert (Pq : 0 <= p * q) by (apply Rmult_le_pos; lra). assert (QQ : 0 <= q * q) by (apply Rmult_le_pos; lra).
  assert (PPl : p * p <= (1 + x) * (1 + x) * (q * q)).
  { replace ((1 + x) * (1 + x) * (q * q)) with (((1 + x) * q) * ((1 + x) * q)) by ring. apply Rmult_le_compat; lra. }
  assert (Pql : p * q <= (1 + x) * (q * q)).
  { replace ((1 + x) * (q * q)) with (((1 + x) * q) * q) by ring. apply Rmult_le_compat_r; lra. }
  eapply Rle_trans; [apply Rabs_triang|].
  apply Rle_trans with (x * (p * p) + x * (p * p + p * q + q * q)).
  - apply Rplus_le_compat.
    + rewrite Rabs_mult, (Rabs_right (p * p * p)) by (apply Rle_ge, Rmult_le_pos; lra).
      apply Rle_trans with (r * p * (p * p)); [|apply Rmult_le_compat_r; lra].
      replace (r * p * (p * p)) with (r * (p * p * p)) by ring. apply Rmult_le_compat_r; auto. apply Rmult_le_pos; lra.
    + rewrite Rabs_mult. rewrite <- (Rmult_1_l (x * (p * p + p * q + q * q))).
      apply Rmult_le_compat; auto using Rabs_pos. rewrite Rabs_mult.
      rewrite (Rabs_right (p * (p * p + p * q + q * q))) by (apply Rle_ge, Rmult_le_pos; lra).
      apply Rle_trans with (r * p * (p * p + p * q + q * q)); [|apply Rmult_le_compat_r; lra].
      rewrite Rmult_assoc. apply Rmult_le_compat_r; [apply Rmult_le_pos; lra|]. rewrite Rabs_minus_sym. exact H3.
  - unfold bh_err1, Rdiv. replace (/ (b * b)) with (q * q) by (unfold q; field; lra).
    rewrite <- Rmult_plus_distr_l. rewrite (Rmult_assoc x). apply Rmult_le_compat_l; auto. lra.
Qed.

(** second order, at unit distance: [s] = u.w, [o] = |w|^2, [t] = |u - w| *)
Lemma law2_unit u w s o t x : 0 <= x -> x < 1 -> 0 < t -> Rabs u <= 1 -> Rabs w <= x -> Rabs s <= x -> 0 <= o <= x * x -> Rabs (1 - t) <= x ->
  t * t = 1 - 2 * s + o ->
  Rabs ((u - w) / (t * t * t) - u + w - 3 * s * u) <=
  x * x * (3 / 2 + (1 + x) * (3 / 2 + 3 / (1 - x) + 2 / ((1 - x) * (1 - x)) + 1 / ((1 - x) * (1 - x) * (1 - x))) + 3 / 2 * (2 + x)).
Proof.
  intros Hx Hx1 Ht Hu Hw Hs Ho Ht1 E.
  set (i := / t). set (k := / (1 - x)).
  assert (I0 : 0 < i) by now apply Rinv_0_lt_compat.
  assert (IK : i <= k) by (apply Rinv_le_contravar; [lra|]; pose proof (Rle_abs (1 - t)); lra).
  set (q := (1 - t) * (1 - t) * (3 / 2 + 3 * i + 2 * (i * i) + i * i * i)).
  set (Q := 3 / 2 + 3 * k + 2 * (k * k) + k * k * k).
  assert (II : 0 <= i * i <= k * k) by (split; [apply Rmult_le_pos; lra|apply Rmult_le_compat; lra]).
  assert (III : 0 <= i * i * i <= k * k * k) by (split; [apply Rmult_le_pos; lra|apply Rmult_le_compat; lra]).
  assert (TT : 0 <= (1 - t) * (1 - t) <= x * x).
  { split; [apply Rle_0_sqr|]. rewrite <- (Rabs_right ((1 - t) * (1 - t))) by (apply Rle_ge, Rle_0_sqr). rewrite Rabs_mult.
    apply Rmult_le_compat; auto using Rabs_pos. }
  assert (Hq : 0 <= q <= x * x * Q).
  { unfold q, Q. split; [apply Rmult_le_pos; lra|]. apply Rmult_le_compat; lra. }
  assert (Ei : i * i * i = 1 - 3 / 2 * (o - 2 * s) + q).
  { unfold q. replace (o - 2 * s) with (t * t - 1) by lra. unfold i. field. lra. }
  replace ((u - w) / (t * t * t)) with ((u - w) * (i * i * i)) by (unfold i; field; lra).
  rewrite Ei.
  replace ((u - w) * (1 - 3 / 2 * (o - 2 * s) + q) - u + w - 3 * s * u) with
    (- (3 / 2) * (u * o) + q * (u - w) + 3 / 2 * ((o - 2 * s) * w)) by field.
  replace (3 / 2 + 3 / (1 - x) + 2 / ((1 - x) * (1 - x)) + 1 / ((1 - x) * (1 - x) * (1 - x))) with Q by (unfold Q, k; field; lra).
  assert (A1 : Rabs (- (3 / 2) * (u * o)) <= 3 / 2 * (x * x)).
  { rewrite !Rabs_mult, Rabs_Ropp, (Rabs_right (3 / 2)), (Rabs_right o) by lra. apply Rmult_le_compat_l; [lra|].
    rewrite <- (Rmult_1_l (x * x)). apply Rmult_le_compat; try lra. apply Rabs_pos. }
  assert (A2 : Rabs (q * (u - w)) <= x * x * Q * (1 + x)).
  { rewrite Rabs_mult, (Rabs_right q) by lra. apply Rmult_le_compat; try lra; [apply Rabs_pos|].
    unfold Rminus. eapply Rle_trans; [apply Rabs_triang|]. rewrite Rabs_Ropp. lra. }
  assert (A3 : Rabs (3 / 2 * ((o - 2 * s) * w)) <= 3 / 2 * ((x * x + 2 * x) * x)).
  { rewrite !Rabs_mult, (Rabs_right (3 / 2)) by lra. apply Rmult_le_compat_l; [lra|].
    apply Rmult_le_compat; auto using Rabs_pos. unfold Rminus. eapply Rle_trans; [apply Rabs_triang|].
    rewrite Rabs_Ropp, Rabs_mult, (Rabs_right o), (Rabs_right 2) by lra. lra. }
  pose proof (Rabs_triang (- (3 / 2) * (u * o) + q * (u - w)) (3 / 2 * ((o - 2 * s) * w))) as T1.
  pose proof (Rabs_triang (- (3 / 2) * (u * o)) (q * (u - w))) as T2. lra.
Qed.

Lemma law2 a b u w s o r x : 0 < a -> 0 < b -> 0 <= x -> x < 1 -> 0 <= r -> Rabs u <= a -> Rabs w <= r -> Rabs s <= a * r -> 0 <= o <= r * r ->
  Rabs (a - b) <= r -> r <= x * a -> b * b = a * a - 2 * s + o ->
  Rabs ((u - w) / (b * b * b) - u / (a * a * a) + w / (a * a * a) - 3 * s * u / (a * a * a * a * a)) <= bh_err2 x / (b * b).
Proof.
  intros Ha Hb Hx Hx1 Hr Hu Hw Hs Ho Hab Hra E.
  assert (B : b <= (1 + x) * a) by (rewrite Rabs_minus_sym in Hab; pose proof (Rle_abs (b - a)); lra).
  pose proof (inv_ratio Ha Hb Hx B) as PQ. set (p := / a) in *. set (q := / b) in *.
  assert (P0 : 0 < p) by now apply Rinv_0_lt_compat. assert (Q0 : 0 < q) by now apply Rinv_0_lt_compat.
  assert (AP : a * p = 1) by (unfold p; rewrite Rinv_r; lra).
  assert (RP : 0 <= r * p <= x).
  { split; [apply Rmult_le_pos; lra|]. apply Rle_trans with (x * a * p); [apply Rmult_le_compat_r; lra|]. rewrite Rmult_assoc, AP. lra. }
  pose proof (@law2_unit (u * p) (w * p) (s * (p * p)) (o * (p * p)) (b * p) x Hx Hx1) as X.
  assert (PP : 0 < p * p) by (apply Rmult_lt_0_compat; auto).
  assert (RR : 0 <= r * p * (r * p) <= x * x) by (split; [apply Rmult_le_pos; lra|apply Rmult_le_compat; lra]).
  set (K := 3 / 2 + (1 + x) * (3 / 2 + 3 / (1 - x) + 2 / ((1 - x) * (1 - x)) + 1 / ((1 - x) * (1 - x) * (1 - x))) + 3 / 2 * (2 + x)) in *.
  assert (X' : Rabs ((u * p - w * p) / (b * p * (b * p) * (b * p)) - u * p + w * p - 3 * (s * (p * p)) * (u * p)) <= x * x * K).
  { apply X.
    - apply Rmult_lt_0_compat; auto.
    - rewrite Rabs_mult, (Rabs_right p) by lra. apply Rle_trans with (a * p); [apply Rmult_le_compat_r; lra|lra].
    - rewrite Rabs_mult, (Rabs_right p) by lra. apply Rle_trans with (r * p); [apply Rmult_le_compat_r; lra|lra].
    - rewrite Rabs_mult, (Rabs_right (p * p)) by lra. apply Rle_trans with (a * r * (p * p)); [apply Rmult_le_compat_r; lra|].
      replace (a * r * (p * p)) with ((a * p) * (r * p)) by ring. rewrite AP. lra.
    - split; [apply Rmult_le_pos; lra|]. apply Rle_trans with (r * r * (p * p)); [apply Rmult_le_compat_r; lra|]. lra.
    - replace (1 - b * p) with ((a - b) * p) by (rewrite Rmult_minus_distr_r; lra). rewrite Rabs_mult, (Rabs_right p) by lra.
      apply Rle_trans with (r * p); [apply Rmult_le_compat_r; lra|lra].
    - replace (b * p * (b * p)) with (b * b * (p * p)) by ring. rewrite E. replace ((a * a - 2 * s + o) * (p * p)) with ((a * p) * (a * p) - 2 * (s * (p * p)) + o * (p * p)) by ring.
      rewrite AP. ring. }
  assert (K0 : 0 <= K).
  { assert (0 < / (1 - x)) by (apply Rinv_0_lt_compat; lra).
    unfold K. replace (3 / 2 + 3 / (1 - x) + 2 / ((1 - x) * (1 - x)) + 1 / ((1 - x) * (1 - x) * (1 - x))) with
      (3 / 2 + 3 * / (1 - x) + 2 * (/ (1 - x) * / (1 - x)) + / (1 - x) * / (1 - x) * / (1 - x)) by (field; lra).
    assert (0 < / (1 - x) * / (1 - x)) by (apply Rmult_lt_0_compat; auto).
    assert (0 < / (1 - x) * / (1 - x) * / (1 - x)) by (apply Rmult_lt_0_compat; auto).
    assert (0 <= (1 + x) * (3 / 2 + 3 * / (1 - x) + 2 * (/ (1 - x) * / (1 - x)) + / (1 - x) * / (1 - x) * / (1 - x))) by (apply Rmult_le_pos; lra).
    lra. }
  replace ((u - w) / (b * b * b) - u / (a * a * a) + w / (a * a * a) - 3 * s * u / (a * a * a * a * a)) with
    (((u * p - w * p) / (b * p * (b * p) * (b * p)) - u * p + w * p - 3 * (s * (p * p)) * (u * p)) * (p * p)) by (unfold p; field; lra).
  rewrite Rabs_mult, (Rabs_right (p * p)) by lra.
  apply Rle_trans with (x * x * K * (p * p)); [apply Rmult_le_compat_r; lra|].
  unfold bh_err2. fold K. unfold Rdiv. replace (/ (b * b)) with (q * q) by (unfold q; field; lra).
  replace (x * x * ((1 + x) * (1 + x)) * K * (q * q)) with (x * x * K * (((1 + x) * q) * ((1 + x) * q))) by ring.
  apply Rmult_le_compat_l; [apply Rmult_le_pos; auto; apply Rle_0_sqr|]. apply Rmult_le_compat; lra.
Qed.

(** ** In space *)
Definition nrm (v : vec3 R) : R := vx v * vx v + vy v * vy v + vz v * vz v.
Definition dif (a b : vec3 R) : vec3 R := V3 (vx a - vx b) (vy a - vy b) (vz a - vz b).
Definition dot (a b : vec3 R) : R := vx a * vx b + vy a * vy b + vz a * vz b.
Lemma nrm_pos v : 0 <= nrm v.
Proof. unfold nrm. pose proof (Rle_0_sqr (vx v)). pose proof (Rle_0_sqr (vy v)). pose proof (Rle_0_sqr (vz v)). unfold Rsqr in *. lra. Qed.
Lemma nrm_dif u w : nrm (dif u w) = nrm u - 2 * dot u w + nrm w.
Proof. unfold nrm, dif, dot. cbn. ring. Qed.
Lemma dot_le u w A B : 0 <= A -> 0 <= B -> nrm u <= A * A -> nrm w <= B * B -> Rabs (dot u w) <= A * B.
Proof.
  intros HA HB Hu Hw. apply abs_le_sqr; [now apply Rmult_le_pos|].
  apply Rle_trans with (nrm u * nrm w).
  - assert (E : nrm u * nrm w - dot u w * dot u w =
      (vx u * vy w - vy u * vx w) * (vx u * vy w - vy u * vx w) + (vx u * vz w - vz u * vx w) * (vx u * vz w - vz u * vx w) +
      (vy u * vz w - vz u * vy w) * (vy u * vz w - vz u * vy w)) by (unfold nrm, dot; ring).
    pose proof (Rle_0_sqr (vx u * vy w - vy u * vx w)). pose proof (Rle_0_sqr (vx u * vz w - vz u * vx w)). pose proof (Rle_0_sqr (vy u * vz w - vz u * vy w)).
    unfold Rsqr in *. lra.
  - replace (A * B * (A * B)) with ((A * A) * (B * B)) by ring. apply Rmult_le_compat; auto using nrm_pos.
Qed.
Lemma axis_le c v : axis c -> c v * c v <= nrm v.
Proof.
  intros H. pose proof (Rle_0_sqr (vx v)). pose proof (Rle_0_sqr (vy v)). pose proof (Rle_0_sqr (vz v)). unfold Rsqr, nrm in *.
  destruct H as [->|[->| ->]]; lra.
Qed.
Lemma axis_dif c a b : axis c -> c (dif a b) = c a - c b.
Proof. intros [->|[->| ->]]; reflexivity. Qed.

Section Soft.
  Variable mind : R.
  Hypothesis Hm : 0 < mind.
  Lemma rho_up u w r : 0 <= r -> nrm w <= r * r -> rho mind (nrm (dif u w)) <= rho mind (nrm u) + r.
  Proof.
    intros Hr Hw. destruct (@rho_pos mind Hm (nrm u)) as [P0 P1]. set (a := rho mind (nrm u)) in *.
    assert (Ea : a * a = Rmax mind (nrm u)) by now apply rho_sq.
    assert (D : Rabs (dot u w) <= a * r).
    { apply dot_le; auto; [lra|]. rewrite Ea. apply Rmax_r. }
    unfold rho at 1. rewrite <- (sqrt_square (a + r)) by lra. apply sqrt_le_1_alt.
    assert (0 <= a * r) by (apply Rmult_le_pos; lra). assert (0 <= r * r) by (apply Rmult_le_pos; lra).
    apply Rmax_lub.
    - assert (mind <= a * a) by (rewrite Ea; apply Rmax_l). lra.
    - rewrite nrm_dif. assert (nrm u <= a * a) by (rewrite Ea; apply Rmax_r). pose proof (Rle_abs (- dot u w)) as X. rewrite Rabs_Ropp in X. lra.
  Qed.
  Lemma nrm_opp u w : nrm (dif u w) = nrm (dif w u).
  Proof. unfold nrm, dif. cbn. ring. Qed.
  Lemma rho_tri u w r : 0 <= r -> nrm w <= r * r -> Rabs (rho mind (nrm u) - rho mind (nrm (dif u w))) <= r.
  Proof.
    intros Hr Hw. pose proof (@rho_up u w r Hr Hw) as A.
    pose proof (@rho_up (dif u w) (dif (V3 0 0 0) w) r Hr) as B.
    assert (E1 : nrm (dif (V3 0 0 0) w) = nrm w) by (unfold nrm, dif; cbn; ring).
    assert (E2 : nrm (dif (dif u w) (dif (V3 0 0 0) w)) = nrm u) by (unfold nrm, dif; cbn; ring).
    rewrite E1, E2 in B. specialize (B Hw). unfold Rabs. destruct Rcase_abs; lra.
  Qed.
  Lemma cube_rho s : soft_cube mind s = rho mind s * rho mind s * rho mind s.
  Proof. rewrite rho_sq by auto. reflexivity. Qed.
  Lemma rho_axis c v : axis c -> Rabs (c v) <= rho mind (nrm v).
  Proof. intros H. apply rho_ge; auto. now apply axis_le. Qed.
  Lemma rho_0 v : 0 < rho mind (nrm v).
  Proof. destruct (@rho_pos mind Hm (nrm v)). lra. Qed.

  (** one body of a cluster: [u] points from the centre, [w] is the body's place from the centre *)
  Lemma body1 c u w r x : axis c -> 0 <= x -> 0 <= r -> nrm w <= r * r -> r <= x * rho mind (nrm u) ->
    Rabs (c u / soft_cube mind (nrm u) - c (dif u w) / soft_cube mind (nrm (dif u w))) <= bh_err1 x / Rmax mind (nrm (dif u w)).
  Proof.
    intros Hc Hx Hr Hw H. rewrite !cube_rho, <- (@rho_sq mind Hm (nrm (dif u w))).
    apply (@law1 (rho mind (nrm u)) (rho mind (nrm (dif u w))) (c u) (c (dif u w)) r x); auto using rho_0, rho_axis, rho_tri.
    rewrite axis_dif by auto. replace (c u - (c u - c w)) with (c w) by ring. apply abs_le_sqr; auto.
    eapply Rle_trans; [now apply axis_le|auto].
  Qed.
  Lemma body2 c u w r x : axis c -> 0 <= x -> x < 1 -> 0 <= r -> nrm w <= r * r -> r <= x * rho mind (nrm u) ->
    mind <= nrm u -> mind <= nrm (dif u w) ->
    Rabs (c (dif u w) / soft_cube mind (nrm (dif u w)) - c u / soft_cube mind (nrm u)
          + c w / soft_cube mind (nrm u) - 3 * dot u w * c u / (soft_cube mind (nrm u) * nrm u)) <= bh_err2 x / Rmax mind (nrm (dif u w)).
  Proof.
    intros Hc Hx Hx1 Hr Hw H M1 M2. rewrite !cube_rho.
    assert (Ea : rho mind (nrm u) * rho mind (nrm u) = nrm u) by (rewrite rho_sq by auto; rewrite Rmax_right; auto).
    assert (Eb : rho mind (nrm (dif u w)) * rho mind (nrm (dif u w)) = nrm (dif u w)) by (rewrite rho_sq by auto; rewrite Rmax_right; auto).
    assert (A : Rabs (c u) <= rho mind (nrm u)) by now apply rho_axis.
    assert (D : Rabs (dot u w) <= rho mind (nrm u) * r) by (apply dot_le; auto; [left; apply rho_0|lra]).
    pose proof (@rho_tri u w r Hr Hw) as Tr. pose proof (rho_0 u) as P1. pose proof (rho_0 (dif u w)) as P2.
    assert (W : Rabs (c w) <= r) by (apply abs_le_sqr; auto; eapply Rle_trans; [now apply axis_le|auto]).
    rewrite (Rmax_right mind (nrm (dif u w))) by auto.
    set (a := rho mind (nrm u)) in *. set (b := rho mind (nrm (dif u w))) in *.
    rewrite <- Eb, <- Ea, (axis_dif _ _ Hc). replace (a * a * a * (a * a)) with (a * a * a * a * a) by ring.
    apply (@law2 a b (c u) (c w) (dot u w) (nrm w) r x); auto.
    - split; [apply nrm_pos|auto].
    - rewrite Eb, Ea. apply nrm_dif.
  Qed.
End Soft.

(** ** A whole traversal *)
Definition psum (g : tree (T := R) -> R) (l : list (tree (T := R))) : R := fold_right (fun s a => g s + a) 0 l.
Lemma psum_app g l1 l2 : psum g (l1 ++ l2) = psum g l1 + psum g l2.
Proof. unfold psum. induction l1 as [|s l1 IH]; cbn [fold_right app]; [ring|]. rewrite IH. ring. Qed.

Section Walk.
  Variables (mind : R) (n : nat) (y mass : list R) (ratio : R) (v : vec3 R).
  Hypothesis Hmd : 0 < mind.
  Hypothesis Hy : (6 * n <= length y)%nat.
  Hypothesis Hm : (n <= length mass)%nat.
  Hypothesis Hpos : forall i, (i < n)%nat -> 0 < nth i mass 0.
  Hypothesis Hr : 1 <= ratio.
  Notation tree := (tree (T := R)).
  Notation N := (Rops mind).
  Definition term (c : vec3 R -> R) (b : nat) : R := nth b mass 0 * (c (dif v (pos y n b)) / soft_cube mind (nrm (dif v (pos y n b)))).
  Definition group (c : vec3 R -> R) (s : tree) : R := p_mass (pay s) * (c (dif v (p_center (pay s))) / soft_cube mind (nrm (dif v (p_center (pay s))))).
  Definition wgt (b : nat) : R := if elsewhere n y v b then nth b mass 0 / Rmax mind (nrm (dif v (pos y n b))) else 0.

  Lemma sqd_nrm a b : sqd a b = nrm (dif a b).
  Proof. reflexivity. Qed.
  Lemma dif_dif p X : dif (dif v X) (dif p X) = dif v p.
  Proof. unfold dif. cbn. f_equal; ring. Qed.

  Lemma wgt_pos b : (b < n)%nat -> 0 <= wgt b.
  Proof.
    intros Hb. unfold wgt. destruct elsewhere; [|lra]. specialize (Hpos Hb). left. apply Rmult_lt_0_compat; auto.
    apply Rinv_0_lt_compat. apply Rlt_le_trans with mind; auto. apply Rmax_l.
  Qed.

  (** an accepted cluster: everything known about it *)
  Lemma cluster_facts s : wf mind n y mass ratio s -> bh_accept N v (pay s) = true ->
    exists r, 0 <= r /\ (ratio * r) * (ratio * r) < nrm (dif v (p_center (pay s))) /\
      (forall b, In b (bodies s) -> nrm (dif (pos y n b) (p_center (pay s))) <= r * r /\ elsewhere n y v b = true /\ (b < n)%nat).
  Proof.
    intros W A. pose proof (wf_strong mind n y mass ratio Hy Hm Hpos s W) as [S _].
    destruct S as (_ & _ & _ & _ & _ & _ & _ & _ & (r & Hr0 & Er & _ & Hin)).
    exists r. split; auto. split.
    - pose proof A as A'. apply accept_R in A'. rewrite Er in A'. rewrite sqd_nrm in A'.
      replace (ratio * r * (ratio * r)) with (r * r * (ratio * ratio)) by ring. exact A'.
    - intros b Hb. split; [rewrite <- sqd_nrm; now apply Hin|]. split.
      + apply (accepted_elsewhere mind n y mass ratio Hy Hm Hpos v s b); auto.
      + now apply W.
  Qed.
  Lemma group_sum c s : wf mind n y mass ratio s ->
    group c s = lsum (bodies s) (fun b => nth b mass 0 * (c (dif v (p_center (pay s))) / soft_cube mind (nrm (dif v (p_center (pay s)))))).
  Proof.
    intros W. pose proof (wf_strong mind n y mass ratio Hy Hm Hpos s W) as [S _]. destruct S as (E & _).
    unfold group. rewrite E. rewrite Rmult_comm, <- lsum_scal. apply lsum_ext. intros; ring.
  Qed.
  Lemma radius_small r u : 0 <= r -> (ratio * r) * (ratio * r) < nrm u -> r <= / ratio * rho mind (nrm u).
  Proof.
    intros H0 H. assert (P : 0 < / ratio) by (apply Rinv_0_lt_compat; lra).
    assert (X : ratio * r <= rho mind (nrm u)).
    { unfold rho. rewrite <- (sqrt_square (ratio * r)) by (apply Rmult_le_pos; lra). apply sqrt_le_1_alt.
      apply Rle_trans with (nrm u); [lra|apply Rmax_r]. }
    apply Rmult_le_reg_l with ratio; [lra|]. rewrite <- Rmult_assoc, Rinv_r by lra. lra.
  Qed.

  Lemma cluster1 c s : axis c -> wf mind n y mass ratio s -> bh_accept N v (pay s) = true ->
    Rabs (group c s - lsum (bodies s) (term c)) <= bh_err1 (/ ratio) * lsum (bodies s) wgt.
  Proof.
    intros Hc W A. destruct (cluster_facts W A) as (r & H0 & HR & HB).
    rewrite group_sum by auto.
    match goal with |- Rabs (lsum _ ?f - lsum _ ?g) <= _ => replace (lsum (bodies s) f - lsum (bodies s) g) with (lsum (bodies s) (fun b => f b + -1 * g b))
      by (rewrite lsum_plus, lsum_scal; ring) end.
    rewrite <- lsum_scal. apply lsum_abs. intros b Hb. destruct (HB b Hb) as (B1 & B2 & B3). specialize (Hpos B3).
    set (X := p_center (pay s)) in *. unfold term, wgt. rewrite B2.
    assert (Px : 0 < / ratio) by (apply Rinv_0_lt_compat; lra).
    pose proof (@body1 mind Hmd c (dif v X) (dif (pos y n b) X) r (/ ratio) Hc ltac:(lra) H0 B1 (@radius_small r (dif v X) H0 HR)) as Y.
    rewrite dif_dif in Y.
    match goal with |- Rabs (?m * ?p + -1 * (?m * ?q)) <= _ => replace (m * p + -1 * (m * q)) with (m * (p - q)) by ring end.
    rewrite Rabs_mult, Rabs_right by lra.
    replace (bh_err1 (/ ratio) * (nth b mass 0 / Rmax mind (nrm (dif v (pos y n b))))) with (nth b mass 0 * (bh_err1 (/ ratio) / Rmax mind (nrm (dif v (pos y n b))))) by (unfold Rdiv; ring).
    apply Rmult_le_compat_l; lra.
  Qed.

  Lemma tree_has (s : tree) : exists b, In b (bodies s).
  Proof. induction s as [p b|p l [b Hb] r _]; [exists b; now left|exists b; apply in_or_app; now left]. Qed.

  Lemma cluster2 c s : axis c -> 1 < ratio -> wf mind n y mass ratio s -> bh_accept N v (pay s) = true ->
    (forall b, (b < n)%nat -> elsewhere n y v b = true -> (1 + / ratio) * (1 + / ratio) * mind <= nrm (dif v (pos y n b))) ->
    Rabs (group c s - lsum (bodies s) (term c)) <= bh_err2 (/ ratio) * lsum (bodies s) wgt.
  Proof.
    intros Hc Hr1 W A Hfar. destruct (cluster_facts W A) as (r & H0 & HR & HB).
    pose proof (wf_strong mind n y mass ratio Hy Hm Hpos s W) as [S _]. destruct S as (E0 & Ex & Ey & Ez & _).
    assert (Px : 0 < / ratio) by (apply Rinv_0_lt_compat; lra).
    assert (Px1 : / ratio < 1) by (rewrite <- Rinv_1; apply Rinv_lt_contravar; lra).
    set (x := / ratio) in *. set (X := p_center (pay s)) in *. set (u := dif v X) in *.
    set (w := fun b => dif (pos y n b) X).
    assert (Z : forall k, axis k -> lsum (bodies s) (fun b => nth b mass 0 * k (w b)) = 0).
    { assert (Z' : forall k f, (forall b, k (w b) = f b - k X) -> p_mass (pay s) * k X = lsum (bodies s) (fun b => nth b mass 0 * f b) ->
        lsum (bodies s) (fun b => nth b mass 0 * k (w b)) = 0).
      { intros k f Hk Hs. rewrite (lsum_ext _ _ (fun b => nth b mass 0 * f b + (- k X) * nth b mass 0)).
        - rewrite lsum_plus, lsum_scal, <- Hs, <- E0. ring.
        - intros b _. rewrite Hk. ring. }
      intros k [->|[->| ->]]; eapply Z'; eauto; intros; reflexivity. }
    assert (XR : x * ratio = 1) by (unfold x; rewrite Rinv_l; lra).
    assert (Rl : r <= x * sqrt (nrm u)).
    { assert (Y : ratio * r <= sqrt (nrm u)).
      { rewrite <- (sqrt_square (ratio * r)) by (apply Rmult_le_pos; lra). apply sqrt_le_1_alt. lra. }
      apply Rmult_le_reg_l with ratio; [lra|]. rewrite <- Rmult_assoc, (Rmult_comm ratio x), XR. lra. }
    assert (Mu : mind <= nrm u).
    { destruct (tree_has s) as [b Hb]. destruct (HB b Hb) as (B1 & B2 & B3). pose proof (Hfar b B3 B2) as Fb.
      assert (Q : nrm (dif v (pos y n b)) <= ((1 + x) * (1 + x)) * nrm u).
      { rewrite <- (dif_dif (pos y n b) X). fold u. rewrite nrm_dif. set (a := sqrt (nrm u)) in *.
        assert (Pa : 0 <= a) by apply sqrt_pos. assert (Ea : a * a = nrm u) by (apply sqrt_sqrt, nrm_pos).
        assert (D : Rabs (dot u (dif (pos y n b) X)) <= a * r) by (apply dot_le; auto; lra).
        pose proof (Rle_abs (- dot u (dif (pos y n b) X))) as D'. rewrite Rabs_Ropp in D'.
        assert (a * r <= a * (x * a)) by (apply Rmult_le_compat_l; auto).
        assert (r * r <= (x * a) * (x * a)) by (apply Rmult_le_compat; auto).
        rewrite <- Ea. replace ((1 + x) * (1 + x) * (a * a)) with (a * a + 2 * (a * (x * a)) + (x * a) * (x * a)) by ring. lra. }
      assert (P : 0 < (1 + x) * (1 + x)) by (apply Rmult_lt_0_compat; lra).
      apply Rmult_le_reg_l with ((1 + x) * (1 + x)); auto. lra. }
    rewrite group_sum by auto. fold X. fold u.
    assert (Hu : 0 < nrm u) by lra.
    assert (Hcu : soft_cube mind (nrm u) <> 0).
    { rewrite cube_rho by auto. pose proof (rho_0 Hmd u). assert (0 < rho mind (nrm u) * rho mind (nrm u)) by (apply Rmult_lt_0_compat; auto).
      apply Rgt_not_eq, Rmult_lt_0_compat; auto. }
    set (lin := fun b => c (w b) / soft_cube mind (nrm u) - 3 * dot u (w b) * c u / (soft_cube mind (nrm u) * nrm u)).
    assert (ZL : lsum (bodies s) (fun b => nth b mass 0 * lin b) = 0).
    { rewrite (lsum_ext _ _ (fun b => / soft_cube mind (nrm u) * (nth b mass 0 * c (w b)) +
        ((- 3 * vx u * c u / (soft_cube mind (nrm u) * nrm u)) * (nth b mass 0 * vx (w b)) +
        ((- 3 * vy u * c u / (soft_cube mind (nrm u) * nrm u)) * (nth b mass 0 * vy (w b)) +
         (- 3 * vz u * c u / (soft_cube mind (nrm u) * nrm u)) * (nth b mass 0 * vz (w b)))))).
      - rewrite !lsum_plus, !lsum_scal, (Z c Hc), (Z (@vx R)), (Z (@vy R)), (Z (@vz R)); [ring| | |]; unfold axis; auto.
      - intros b _. unfold lin, dot. field. split; auto. lra. }
    match goal with |- Rabs (lsum _ ?f - lsum _ ?g) <= _ => replace (lsum (bodies s) f - lsum (bodies s) g) with
      (lsum (bodies s) (fun b => f b + (-1 * g b + -1 * (nth b mass 0 * lin b))))
      by (rewrite !lsum_plus, !lsum_scal, ZL; ring) end.
    rewrite <- lsum_scal. apply lsum_abs. intros b Hb. destruct (HB b Hb) as (B1 & B2 & B3). specialize (Hpos B3).
    unfold term, wgt. rewrite B2.
    assert (Mb : mind <= nrm (dif u (dif (pos y n b) X))).
    { unfold u. rewrite dif_dif. eapply Rle_trans; [|apply (Hfar b B3 B2)]. assert (0 <= x * x) by (apply Rmult_le_pos; lra).
      rewrite <- (Rmult_1_l mind) at 1. apply Rmult_le_compat_r; [lra|]. lra. }
    pose proof (@body2 mind Hmd c u (dif (pos y n b) X) r x Hc ltac:(lra) Px1 H0 B1 (@radius_small r u H0 HR) Mu Mb) as Y.
    assert (Eu : dif u (dif (pos y n b) X) = dif v (pos y n b)) by (unfold u; apply dif_dif). rewrite Eu in Y. fold (w b) in Y. cbn beta.
    match type of Y with Rabs ?e <= _ => match goal with |- Rabs ?e' <= _ => replace e' with (nth b mass 0 * - e) by (unfold lin; ring) end end.
    rewrite Rabs_mult, Rabs_Ropp, (Rabs_right (nth b mass 0)) by lra.
    replace (bh_err2 x * (nth b mass 0 / Rmax mind (nrm (dif v (pos y n b))))) with (nth b mass 0 * (bh_err2 x / Rmax mind (nrm (dif v (pos y n b))))) by (unfold Rdiv; ring).
    apply Rmult_le_compat_l; lra.
  Qed.

  (** clusters to traversals *)
  Lemma walk_bound K c : axis c -> 0 <= K ->
    (forall s, wf mind n y mass ratio s -> bh_accept N v (pay s) = true -> Rabs (group c s - lsum (bodies s) (term c)) <= K * lsum (bodies s) wgt) ->
    forall t, wf mind n y mass ratio t ->
      Rabs (psum (group c) (accepted (bh_accept N v) t) - lsum (bodies t) (term c)) <= K * lsum (bodies t) wgt.
  Proof.
    intros Hc HK HS. induction t as [p b|p l IHl r IHr]; intros W; cbn [accepted].
    - destruct (bh_accept N v (pay (Leaf p b))) eqn:A.
      + cbn [psum fold_right]. rewrite Rplus_0_r. now apply HS.
      + apply accept_R_false in A. pose proof W as W'. apply wf_leaf in W'; auto. destruct W' as [Hb ->].
        cbn [pay p_rad p_center] in A. apply sqd_zero in A. cbn [psum fold_right bodies]. unfold lsum. cbn [fold_right].
        assert (E : term c b = 0).
        { unfold term. rewrite axis_dif by auto. rewrite A. rewrite (Rminus_diag_eq (c _)) by reflexivity. unfold Rdiv. ring. }
        rewrite E, !Rplus_0_r, Rminus_0_r, Rabs_R0. apply Rmult_le_pos; auto. now apply wgt_pos.
    - destruct (bh_accept N v (pay (Node p l r))) eqn:A.
      + cbn [psum fold_right]. rewrite Rplus_0_r. now apply HS.
      + apply wf_node in W. destruct W as (Wl & Wr & _). rewrite psum_app. cbn [bodies]. rewrite !lsum_app.
        specialize (IHl Wl). specialize (IHr Wr).
        match goal with |- Rabs (?a + ?b - (?d + ?e)) <= _ => replace (a + b - (d + e)) with ((a - d) + (b - e)) by ring end.
        eapply Rle_trans; [apply Rabs_triang|]. lra.
  Qed.

  Lemma fold_group m1 c l : axis c -> forall F, c (fold_left (cluster_force N v m1) l F) = c F - m1 * psum (group c) l.
  Proof.
    intros Hc. induction l as [|s l IH]; intros F; cbn [fold_left psum fold_right]; [ring|].
    rewrite IH. unfold cluster_force. rewrite force_R. fold (psum (group c) l).
    assert (E : c (vadd N F (let w := - (m1 * p_mass (pay s)) / soft_cube mind (vd2 v (p_center (pay s))) in
      V3 ((vx v - vx (p_center (pay s))) * w) ((vy v - vy (p_center (pay s))) * w) ((vz v - vz (p_center (pay s))) * w))) =
      c F - m1 * group c s).
    { unfold group. rewrite axis_dif by auto. change (vd2 v (p_center (pay s))) with (nrm (dif v (p_center (pay s)))).
      destruct Hc as [->|[->| ->]]; unfold vadd; cbn; unfold Rdiv; ring. }
    rewrite E. ring.
  Qed.
End Walk.

Lemma bh_err2_pos x : 0 < x -> x < 1 -> 0 <= bh_err2 x.
Proof.
  intros H0 H1. unfold bh_err2. set (k := / (1 - x)). assert (K : 0 < k) by (apply Rinv_0_lt_compat; lra).
  replace (3 / 2 + 3 / (1 - x) + 2 / ((1 - x) * (1 - x)) + 1 / ((1 - x) * (1 - x) * (1 - x))) with (3 / 2 + 3 * k + 2 * (k * k) + k * k * k) by (unfold k; field; lra).
  assert (0 < k * k) by (apply Rmult_lt_0_compat; auto). assert (0 < k * k * k) by (apply Rmult_lt_0_compat; auto).
  assert (0 <= (1 + x) * (3 / 2 + 3 * k + 2 * (k * k) + k * k * k)) by (apply Rmult_le_pos; lra).
  apply Rmult_le_pos; [|lra]. apply Rmult_le_pos; apply Rmult_le_pos; lra.
Qed.
