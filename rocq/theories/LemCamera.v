(** Lemmas about the cameras *)
From Coq Require Import ZArith Reals List Lra Lia QArith.
From Verif Require Import Num ModelVertex ModelView ModelCamera SpecView SpecCamera LemView RLemmas.
Import ListNotations.
Local Open Scope R_scope.

(** ** Vectors *)
Lemma inner_pos : forall a, 0 <= inner a a.
Proof. intros a. unfold inner. nra. Qed.
Lemma len_pos : forall a, 0 <= len a.
Proof. intros. apply sqrt_pos. Qed.
Lemma len_sq : forall a, len a * len a = inner a a.
Proof. intros. apply sqrt_sqrt, inner_pos. Qed.
Lemma inner_comm : forall a b, inner a b = inner b a.
Proof. intros. unfold inner. ring. Qed.
Lemma sq_le : forall x y, 0 <= y -> x * x <= y * y -> x <= y.
Proof. intros x y H1 H2. destruct (Rle_dec x y); [assumption|]. nra. Qed.
Lemma cauchy : forall a b, Rabs (inner a b) <= len a * len b.
Proof.
  intros a b. apply sq_le; [apply Rmult_le_pos; apply len_pos|].
  replace (len a * len b * (len a * len b)) with ((len a * len a) * (len b * len b)) by ring. rewrite !len_sq.
  replace (Rabs (inner a b) * Rabs (inner a b)) with (inner a b * inner a b) by (unfold Rabs; destruct (Rcase_abs _); ring).
  unfold inner. destruct a as [a1 a2 a3], b as [b1 b2 b3]. cbn.
  assert (Q : forall z, 0 <= z * z) by (intros; nra).
  pose proof (Q (a1 * b2 - a2 * b1)). pose proof (Q (a1 * b3 - a3 * b1)). pose proof (Q (a2 * b3 - a3 * b2)). lra.
Qed.
Lemma inner_unit : forall a b, 0 < len b -> inner a (unit_of b) = inner a b / len b.
Proof. intros a b H. unfold unit_of, inner at 1. cbn [vx vy vz]. unfold inner. field. lra. Qed.
Lemma unit_unit : forall a, 0 < len a -> inner (unit_of a) (unit_of a) = 1.
Proof. intros a H. rewrite inner_unit by exact H. rewrite inner_comm, inner_unit by exact H. rewrite <- len_sq. field. lra. Qed.
Lemma len_of_inner : forall a, inner a a = 1 -> len a = 1.
Proof. intros a H. unfold len. rewrite H. apply sqrt_1. Qed.
Lemma outer_left : forall a b, inner a (outer a b) = 0.
Proof. intros. unfold inner, outer. cbn. ring. Qed.
Lemma outer_right : forall a b, inner b (outer a b) = 0.
Proof. intros. unfold inner, outer. cbn. ring. Qed.
Lemma lagrange : forall a b, inner (outer a b) (outer a b) = inner a a * inner b b - inner a b * inner a b.
Proof. intros. unfold inner, outer. cbn. ring. Qed.
Lemma minus_split : forall x c e a, inner (minus x e) a = inner (minus x c) a + inner (minus c e) a.
Proof. intros. unfold inner, minus. cbn. ring. Qed.

(** ** A camera that looks at the centre of a ball from outside *)
Section Look.
  Context (p : @picture R).
  Let ray := minus (pic_center p) (pic_eye p).
  Context (Hray : 0 < len ray) (Hup : 0 < len (outer ray (pic_up p))).

  Lemma front_unit : inner (front p) (front p) = 1.
  Proof. apply unit_unit, Hray. Qed.
  Lemma turned : 0 < len (outer (front p) (pic_up p)).
  Proof.
    apply sqrt_lt_R0. unfold front. fold ray.
    assert (E : inner (outer (unit_of ray) (pic_up p)) (outer (unit_of ray) (pic_up p)) =
      inner (outer ray (pic_up p)) (outer ray (pic_up p)) / (len ray * len ray)).
    { unfold unit_of, inner, outer. cbn [vx vy vz]. field. lra. }
    rewrite E. apply Rdiv_lt_0_compat; [|nra]. rewrite <- len_sq. nra.
  Qed.
  Lemma right_unit : inner (right_ p) (right_ p) = 1.
  Proof. apply unit_unit, turned. Qed.
  Lemma front_right : inner (front p) (right_ p) = 0.
  Proof. unfold right_. rewrite inner_unit by apply turned. rewrite outer_left. unfold Rdiv. ring. Qed.
  Lemma above_unit : inner (above p) (above p) = 1.
  Proof. unfold above. rewrite lagrange, front_unit, right_unit, inner_comm, front_right. ring. Qed.
  Lemma front_above : inner (front p) (above p) = 0.
  Proof. unfold above. apply outer_right. Qed.
  Lemma ray_front : forall a, inner ray a = len ray * inner (front p) a.
  Proof. intros a. unfold front. fold ray. rewrite (inner_comm (unit_of ray)), inner_unit by exact Hray. rewrite (inner_comm a). field. lra. Qed.

  Lemma look : forall x r, len (minus x (pic_center p)) <= r ->
    let d := minus x (pic_eye p) in
    len ray - r <= inner d (front p) <= len ray + r /\ Rabs (inner d (above p)) <= r /\ Rabs (inner d (right_ p)) <= r.
  Proof.
    intros x r Hr d. unfold d.
    assert (G : forall a, inner a a = 1 -> Rabs (inner (minus x (pic_center p)) a) <= r).
    { intros a Ha. eapply Rle_trans; [apply cauchy|]. rewrite (len_of_inner a Ha). lra. }
    rewrite !(minus_split x (pic_center p) (pic_eye p)). fold ray. rewrite !ray_front, front_unit, front_above, front_right.
    pose proof (G _ front_unit) as A. pose proof (G _ above_unit) as B. pose proof (G _ right_unit) as C.
    rewrite !Rmult_0_r, !Rplus_0_r. split; [|auto]. unfold Rabs in A. destruct (Rcase_abs _); lra.
  Qed.
End Look.

(** ** The eyes *)
Lemma eyes : forall mind stereo v q camera up p,
  let ray := minus (view_center (Rops mind) v) camera in
  0 < len (outer ray up) -> In p (paint_port (Rops mind) stereo v q camera up) ->
  let b := IZR stereo / 1000 in
  let ray' := minus (pic_center p) (pic_eye p) in
  pic_port p = q /\ pic_center p = view_center (Rops mind) v /\ pic_up p = up /\ pic_fovy p = 60 /\ pic_near p = 1 /\ pic_far p = 1000 /\
  pic_aspect p = 1 / (IZR (q_h q) / IZR (q_w q)) /\
  inner ray' ray' = inner ray ray * (1 + b * b) /\ 0 < len (outer ray' up).
Proof.
  intros mind stereo v q camera up p ray H I b ray'. unfold paint_port in I.
  set (center := view_center (Rops mind) v) in *.
  destruct (Z.eqb_spec stereo 0) as [->|Hs].
  - destruct I as [<-|[]]. unfold ray', b, setup_projection. cbn [pic_port pic_center pic_up pic_fovy pic_near pic_far pic_aspect pic_eye].
    repeat (split; [reflexivity|]). split; [fold ray; field|exact H].
  - set (base := eye_base (Rops mind) stereo center camera up) in *.
    set (c := outer ray up) in *. set (k := len ray / len c * b).
    assert (Eb : base = V3 (vx c * k) (vy c * k) (vz c * k)).
    { unfold base, eye_base. change (vcross (Rops mind) (vsub (Rops mind) center camera) up) with c.
      change (vlength (Rops mind) (vsub (Rops mind) center camera)) with (len ray). change (vlength (Rops mind) c) with (len c).
      unfold vscale, k, b. cbn. f_equal; ring. }
    assert (Lc : 0 < inner c c) by (rewrite <- len_sq; nra).
    assert (Bb : inner base base = inner ray ray * (b * b)).
    { rewrite Eb. transitivity (inner c c * k * k); [unfold inner; cbn; ring|]. rewrite <- (len_sq c), <- (len_sq ray). unfold k. field. lra. }
    assert (Rb : inner ray base = 0).
    { rewrite Eb. transitivity (inner ray c * k); [unfold inner; cbn; ring|]. unfold c. rewrite outer_left. ring. }
    assert (Cb : forall s, inner (outer (V3 (vx ray - s * vx base) (vy ray - s * vy base) (vz ray - s * vz base)) up) c = inner c c).
    { intros s. transitivity (inner (outer ray up) c - s * k * inner c (outer c up)).
      - rewrite Eb. unfold inner, outer. cbn. ring.
      - rewrite outer_left. fold c. ring. }
    assert (G : forall s e, s * s = 1 -> minus center e = V3 (vx ray - s * vx base) (vy ray - s * vy base) (vz ray - s * vz base) ->
       inner (minus center e) (minus center e) = inner ray ray * (1 + b * b) /\ 0 < len (outer (minus center e) up)).
    { intros s e Hs1 E. split.
      - rewrite E. transitivity (inner ray ray + s * s * inner base base - 2 * s * inner ray base); [unfold inner; cbn; ring|]. rewrite Hs1, Bb, Rb. ring.
      - destruct (len_pos (outer (minus center e) up)) as [L|L]; [exact L|]. exfalso.
        pose proof (cauchy (outer (minus center e) up) c) as Q. rewrite <- L in Q. rewrite E, Cb in Q. rewrite Rabs_pos_eq in Q; lra. }
    destruct I as [<-|[<-|[]]]; unfold ray', setup_projection; cbn [pic_port pic_center pic_up pic_fovy pic_near pic_far pic_aspect pic_eye];
      repeat (split; [reflexivity|]).
    + apply (G 1); [ring|]. unfold minus, ray, vadd. cbn. unfold minus. cbn. f_equal; ring.
    + apply (G (-1)); [ring|]. unfold minus, ray, vsub. cbn. unfold minus. cbn. f_equal; ring.
Qed.

(** ** All four *)
Lemma cameras : forall mind width height split stereo scale v p,
  let D := diagonal v in
  0 < D -> 0 < scale -> (0 <= stereo <= 100)%Z -> In p (paint (Rops mind) width height split stereo scale v) ->
  let ray := minus (pic_center p) (pic_eye p) in
  In (pic_port p) (ports width height split) /\
  pic_center p = view_center (Rops mind) v /\ pic_fovy p = 60 /\ pic_near p = 1 /\ pic_far p = 1000 /\
  pic_aspect p = 1 / (IZR (q_h (pic_port p)) / IZR (q_w (pic_port p))) /\
  D * scale <= len ray <= 3 / 2 * (D * scale) /\ 0 < len (outer ray (pic_up p)).
Proof.
  intros mind width height split stereo scale v p D HD Hs Hst I ray. unfold paint in I.
  set (center := view_center (Rops mind) v) in *.
  change (nmul (Rops mind) (vlength (Rops mind) (vsub (Rops mind) (v_bmax v) (v_bmin v))) scale) with (D * scale) in I.
  set (dist := D * scale) in *. assert (Hd : 0 < dist) by (unfold dist; nra).
  set (x := split_at width (fst split)) in *. set (y := split_at height (snd split)) in *.
  assert (B : 0 <= IZR stereo / 1000 * (IZR stereo / 1000) <= 1 / 100).
  { assert (0 <= IZR stereo <= 100) by (split; [apply (IZR_le 0)|apply (IZR_le _ 100)]; lia). split; nra. }
  assert (G : forall q camera up, In q (ports width height split) -> In p (paint_port (Rops mind) stereo v q camera up) ->
     let r := minus center camera in dist * dist <= inner r r <= 2 * (dist * dist) -> 0 < len (outer r up) ->
     In (pic_port p) (ports width height split) /\
     pic_center p = center /\ pic_fovy p = 60 /\ pic_near p = 1 /\ pic_far p = 1000 /\
     pic_aspect p = 1 / (IZR (q_h (pic_port p)) / IZR (q_w (pic_port p))) /\
     dist <= len ray <= 3 / 2 * dist /\ 0 < len (outer ray (pic_up p))).
  { intros q camera up Iq Ip r Hr Hu. destruct (eyes mind stereo v q camera up p Hu Ip) as (E1 & E2 & E3 & E4 & E5 & E6 & E7 & E8 & E9).
    rewrite E1. rewrite <- E3 in E9. repeat (split; [assumption|]). split; [|exact E9]. fold center in E8. fold r in E8. fold ray in E8.
    pose proof (len_pos ray). rewrite <- len_sq in E8. split; apply sq_le; nra. }
  assert (P : forall a, 0 < inner a a -> 0 < len a) by (intros a Ha; now apply sqrt_lt_R0).
  apply in_app_or in I. destruct I as [I|I]; [|apply in_app_or in I; destruct I as [I|I]; [|apply in_app_or in I; destruct I as [I|I]]];
    (eapply G; [| exact I | |]; [unfold ports; fold x y; cbn [In]; tauto| |]); try apply P; unfold minus, inner, outer, vsub, vadd; cbn [vx vy vz nsub nadd nlit nopp Rops];
    destruct center as [c1 c2 c3]; cbn [vx vy vz]; nra.
Qed.

