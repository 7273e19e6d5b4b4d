(** Generated galaxies over the real numbers *)
From Coq Require Import List NArith ZArith Arith Lia Reals Lra Psatz.
From Verif Require Import Num Arr ModelVertex ModelForce ModelText ModelData SpecData
  SpecPhys RLemmas LemPhys LemForce LemData LemData2.
Import ListNotations.
Local Open Scope R_scope.

Lemma norm2_pos : forall a, 0 <= norm2 a.
Proof. intros a. unfold norm2. nra. Qed.
Lemma sqrt_lt_sq : forall a b, 0 <= a -> 0 < b -> sqrt a < b -> a < b * b.
Proof. intros a b Ha Hb H. pose proof (sqrt_sqrt a Ha). pose proof (sqrt_pos a). nra. Qed.

Lemma place_offset : forall d center r,
  minus (star_place (Rops d) center r) center = V3 (vx r) (vy r) (3 / 10 * vz r).
Proof.
  intros. unfold minus, star_place, vadd. cbn [vx vy vz nadd nmul ndiv nlit Rops]. f_equal; field.
Qed.

Section Star.
  Variables (mind : R) (center p : vec3 R).
  Hypothesis Hmind : 0 < mind.
  Let o := minus p center.

  Lemma direction : ~ (vy o = 0 /\ vz o = 0 /\ Rabs (vx o) < 1 / 10000000) ->
    dot (star_direction (Rops mind) center p) o = 0 /\
    norm2 (star_direction (Rops mind) center p) = 1.
  Proof.
    intros Hnd.
    assert (Hunit : forall w, 0 < norm2 w -> dot w o = 0 ->
      dot (vnormalize (Rops mind) w) o = 0 /\ norm2 (vnormalize (Rops mind) w) = 1).
    { intros w Hw Hd.
      assert (El : vlength (Rops mind) w = sqrt (norm2 w)) by reflexivity.
      pose proof (sqrt_lt_R0 _ Hw) as Hs. pose proof (sqrt_sqrt (norm2 w) ltac:(lra)) as Hss.
      unfold vnormalize. rewrite El. set (s := sqrt (norm2 w)) in *.
      unfold vdivs, dot, norm2. cbn [vx vy vz ndiv Rops]. split.
      - replace (vx w / s * vx o + vy w / s * vy o + vz w / s * vz o) with (dot w o / s)
          by (unfold dot; field; lra). rewrite Hd. field. lra.
      - replace (vx w / s * (vx w / s) + vy w / s * (vy w / s) + vz w / s * (vz w / s))
          with (norm2 w / (s * s)) by (unfold norm2; field; lra).
        rewrite Hss. field. lra. }
    unfold star_direction. change (vsub (Rops mind) p center) with o.
    set (w1 := vcross (Rops mind) o _). set (w2 := vcross (Rops mind) o _).
    assert (E1 : w1 = V3 (vy o) (- vx o) 0).
    { unfold w1, vcross. cbn [vx vy vz nsub nmul nlit Rops]. f_equal; ring. }
    assert (E2 : w2 = V3 0 (vz o) (- vy o)).
    { unfold w2, vcross. cbn [vx vy vz nsub nmul nlit Rops]. f_equal; ring. }
    change (vlength (Rops mind) w1) with (sqrt (norm2 w1)).
    destruct (nltb (Rops mind) (sqrt (norm2 w1)) _) eqn:E; apply Hunit.
    - apply nltb_R in E. cbn [ndiv nlit Rops] in E.
      apply sqrt_lt_sq in E; [|apply norm2_pos|lra]. rewrite E1 in E. unfold norm2 in E. cbn [vx vy vz] in E.
      rewrite E2. unfold norm2. cbn [vx vy vz].
      destruct (Req_dec (vy o) 0) as [Hy|Hy]; [|nra].
      destruct (Req_dec (vz o) 0) as [Hz|Hz]; [|nra].
      exfalso. apply Hnd. repeat split; auto. rewrite Hy in E.
      apply Rsqr_lt_abs_0 in E || idtac.
      assert (Hx : (vx o) * (vx o) < 1 / 10000000 * (1 / 10000000)) by nra.
      unfold Rabs. destruct (Rcase_abs (vx o)); nra.
    - rewrite E2. unfold dot. cbn [vx vy vz]. ring.
    - apply nltb_R_false in E. cbn [ndiv nlit Rops] in E.
      destruct (Rle_lt_or_eq_dec 0 (norm2 w1) (norm2_pos w1)) as [H|H]; [exact H|].
      rewrite <- H, sqrt_0 in E. lra.
    - rewrite E1. unfold dot. cbn [vx vy vz]. ring.
  Qed.

  Lemma speed : forall radius m all hole q,
    0 < m -> 0 <= all * (q / radius) ^ 3 + hole ->
    ~ (vy o = 0 /\ vz o = 0 /\ Rabs (vx o) < 1 / 10000000) ->
    let w := star_velocity (Rops mind) (fun x => x ^ 3) center radius m all hole q p in
    dot w o = 0 /\
    (mind <= norm2 o -> norm2 w * sqrt (norm2 o) = all * (q / radius) ^ 3 + hole).
  Proof.
    intros radius m all hole q Hm He Hnd w. destruct (direction Hnd) as [D1 D2].
    unfold star_velocity in w. cbn [nmul nadd ndiv nsqrt Rops] in w.
    set (eff := (q / radius) ^ 3 * all + hole) in w.
    assert (Heff : eff = all * (q / radius) ^ 3 + hole) by (unfold eff; ring).
    set (u := star_direction (Rops mind) center p) in *.
    set (s := sqrt _) in w.
    assert (Ew : w = V3 (vx u * s) (vy u * s) (vz u * s)) by reflexivity.
    split.
    - rewrite Ew. replace (dot (V3 (vx u * s) (vy u * s) (vz u * s)) o) with (dot u o * s)
        by (unfold dot; cbn [vx vy vz]; ring). rewrite D1. ring.
    - intros Hd. rewrite <- Heff in He |- *.
      replace (norm2 w) with (norm2 u * (s * s)) by (rewrite Ew; unfold norm2; cbn [vx vy vz]; ring).
      rewrite D2.
      destruct (force_central mind p center m eff Hmind) as (_ & _ & _ & _ & _ & HF & _).
      assert (En : (vx p - vx center) ^ 2 + (vy p - vy center) ^ 2 + (vz p - vz center) ^ 2 = norm2 o)
        by (unfold norm2, o, minus; cbn [vx vy vz]; ring).
      rewrite En in HF. specialize (HF Hd).
      assert (El : vlength (Rops mind) (vsub (Rops mind) p center) = sqrt (norm2 o)) by reflexivity.
      assert (Ho : 0 < norm2 o) by lra.
      pose proof (sqrt_lt_R0 _ Ho) as Hs. pose proof (sqrt_sqrt (norm2 o) ltac:(lra)) as Hss.
      unfold s. rewrite HF, El. rewrite Rabs_right by nra.
      set (t := sqrt (norm2 o)) in *.
      replace (m * eff / norm2 o * t / m) with (eff / t).
      2: { rewrite <- Hss. field. lra. }
      rewrite sqrt_sqrt; [field; lra|]. apply Rmult_le_pos; [exact He|]. left. now apply Rinv_0_lt_compat.
  Qed.
End Star.

Lemma star_orbits : forall mind uniform center velosity radius m all hole p v,
  0 < mind -> 0 < radius -> 0 < m -> 0 <= all -> 0 <= hole ->
  star_of (Rops mind) (fun x => x ^ 3) uniform center velosity radius m all hole p v ->
  orbiting mind center velosity radius all hole p v.
Proof.
  intros mind uniform center velosity radius m all hole p v Hmind Hr Hm Ha Hh (k & Hk & Hp & Hv).
  apply nltb_R_false in Hk. set (r := sample uniform k) in *.
  set (q := vlength (Rops mind) r) in *.
  assert (Hq : q = sqrt (norm2 r)) by reflexivity.
  assert (Hq0 : 0 <= q) by (rewrite Hq; apply sqrt_pos).
  assert (Hqq : q * q = norm2 r) by (rewrite Hq; apply sqrt_sqrt, norm2_pos).
  pose proof (place_offset mind center r) as Ho. rewrite <- Hp in Ho.
  unfold orbiting. exists q. split; [lra|]. rewrite Ho.
  split; [rewrite Hqq; unfold norm2; cbn [vx vy vz]; nra|].
  split.
  { cbn [vz]. rewrite Rabs_mult, (Rabs_right (3 / 10)) by lra.
    assert (Hz : Rabs (vz r) <= q).
    { rewrite Hq. rewrite <- sqrt_Rsqr_abs. apply sqrt_le_1_alt. unfold norm2, Rsqr. nra. }
    lra. }
  rewrite <- Ho. intros Hnd.
  assert (Hw : minus v velosity =
    star_velocity (Rops mind) (fun x => x ^ 3) center radius m all hole q p).
  { rewrite Hv. unfold minus, vadd. cbn [vx vy vz nadd Rops].
    set (w := star_velocity _ _ _ _ _ _ _ _ _). destruct w as [a b c]; cbn [vx vy vz].
    f_equal; ring. }
  rewrite Hw. apply speed; auto.
  assert (0 <= (q / radius) ^ 3).
  { apply pow_le. apply Rmult_le_pos; [exact Hq0|]. left. now apply Rinv_0_lt_compat. }
  nra.
Qed.

Lemma total_cons : forall x a, total (x :: a) = x + total a.
Proof. reflexivity. Qed.
Lemma total_app : forall a b, total (a ++ b) = total a + total b.
Proof.
  induction a as [|x a IH]; intros b; cbn [app].
  - change (total []) with 0. ring.
  - rewrite !total_cons, IH. ring.
Qed.
Lemma total_repeat : forall x n, total (repeat x n) = INR n * x.
Proof.
  induction n as [|n IH]; [change (0 = 0 * x); ring|]. cbn [repeat]. change (total (x :: repeat x n)) with (x + total (repeat x n)).
  rewrite IH, S_INR. ring.
Qed.
