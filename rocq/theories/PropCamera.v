(** What the player shows: C93. *)
From Coq Require Import ZArith Reals List Lra Lia QArith.
From Verif Require Import Num ModelVertex ModelView ModelCamera SpecView SpecCamera LemView LemCamera RLemmas PropView.
Import ListNotations.
Local Open Scope R_scope.

(** ** C93 *)

Lemma in_the_middle : forall mind pos vel v x,
  v_bmin v = v_bmax v -> vel <> [] -> Forall moderate pos -> Forall moderate vel -> In x pos ->
  let v' := setup_view_box (Rops mind) pos vel v in len (minus x (view_center (Rops mind) v')) <= diagonal v' / 4.
Proof.
  intros mind pos vel v x Hd Hv Mp Mv I v'.
  assert (Hp : pos <> []) by (intros ->; destruct I).
  destruct (C77_box mind pos vel v Hd Hp Hv Mp Mv) as (_ & lo & hi & SB & E1 & E2). fold v' in E1, E2.
  destruct SB as (F & _). rewrite Forall_forall in F. specialize (F x I). destruct F as (F1 & F2 & F3).
  apply sq_le; [pose proof (len_pos (minus (v_bmax v') (v_bmin v'))); unfold diagonal; lra|].
  replace (diagonal v' / 4 * (diagonal v' / 4)) with (diagonal v' * diagonal v' / 16) by field. unfold diagonal. rewrite !len_sq.
  unfold inner, minus, view_center, vscale, vadd. cbn [vx vy vz nadd nmul ndiv nlit Rops]. rewrite E1, E2. cbn [vx vy vz].
  assert (Q : forall a b t, a <= t <= b -> (t - (b + (b - a) / 2 + (a - (b - a) / 2)) * (1 / 2)) * (t - (b + (b - a) / 2 + (a - (b - a) / 2)) * (1 / 2)) <=
     (b + (b - a) / 2 - (a - (b - a) / 2)) * (b + (b - a) / 2 - (a - (b - a) / 2)) / 16) by (intros a b t H; nra).
  pose proof (Q _ _ _ F1). pose proof (Q _ _ _ F2). pose proof (Q _ _ _ F3). lra.
Qed.

(** The frame that sets up the view: every body is in every picture, with one eye or two, if the camera is not zoomed in too much for
    the shape of the viewport and the box around the bodies is neither too small nor too large for the fixed clipping planes. *)
Theorem C93_visible : forall mind pos vel v width height split stereo scale,
  v_bmin v = v_bmax v -> vel <> [] -> Forall moderate pos -> Forall moderate vel -> (0 <= stereo <= 100)%Z ->
  let v' := setup_view_box (Rops mind) pos vel v in let D := diagonal v' in
  0 < D -> sqrt 3 <= 4 * scale - 1 -> 1 <= D * (scale - 1 / 4) -> D * (3 / 2 * scale + 1 / 4) <= 1000 ->
  forall p x, In p (paint (Rops mind) width height split stereo scale v') -> In x pos ->
  (0 < q_w (pic_port p))%Z -> (0 < q_h (pic_port p))%Z ->
  IZR (q_h (pic_port p)) * sqrt 3 <= IZR (q_w (pic_port p)) * (4 * scale - 1) ->
  sees p x.
Proof.
  intros mind pos vel v width height split stereo scale Hd Hv Mp Mv Hst v' D HD Hs Hn Hf p x Ip Ix Hw Hh Ha.
  pose proof (in_the_middle mind pos vel v x Hd Hv Mp Mv Ix) as M. cbv zeta in M. fold v' in M. fold D in M.
  assert (S3 : 0 < sqrt 3) by (apply sqrt_lt_R0; lra).
  destruct (cameras mind width height split stereo scale v' p HD ltac:(lra) Hst Ip) as (_ & E1 & E2 & E3 & E4 & E5 & (L1 & L2) & L3).
  fold D in L1, L2. set (ray := minus (pic_center p) (pic_eye p)) in *.
  rewrite <- E1 in M. assert (Hr : 0 < len ray) by nra.
  destruct (look p Hr L3 x (D / 4) M) as ((A1 & A2) & A3 & A4). cbv zeta in A1, A2, A3, A4. fold ray in A1, A2.
  unfold sees. cbv zeta. rewrite E2, E3, E4, E5.
  replace (60 / 2 * (PI / 180)) with (PI / 6) by field. rewrite tan_PI6.
  set (depth := inner (minus x (pic_eye p)) (front p)) in *.
  assert (Dp : D * (4 * scale - 1) / 4 <= depth) by lra.
  apply (IZR_lt 0) in Hw. apply (IZR_lt 0) in Hh. set (w := IZR (q_w (pic_port p))) in *. set (h := IZR (q_h (pic_port p))) in *.
  split; [lra|]. split.
  - eapply Rle_trans; [exact A3|]. replace (depth * (1 / sqrt 3)) with (depth / sqrt 3) by (field; lra).
    apply Rle_trans with (D * (4 * scale - 1) / 4 / sqrt 3).
    + replace (D * (4 * scale - 1) / 4 / sqrt 3) with (D / 4 * ((4 * scale - 1) / sqrt 3)) by (field; lra).
      assert (1 <= (4 * scale - 1) / sqrt 3). { apply Rmult_le_reg_r with (sqrt 3); [lra|]. unfold Rdiv. rewrite Rmult_assoc, Rinv_l; lra. }
      nra.
    + apply Rmult_le_compat_r; [left; now apply Rinv_0_lt_compat|exact Dp].
  - eapply Rle_trans; [exact A4|]. replace (depth * (1 / sqrt 3) * (1 / (h / w))) with (depth * (w / (sqrt 3 * h))) by (field; lra).
    assert (K : 0 < sqrt 3 * h) by nra.
    apply Rle_trans with (D * (4 * scale - 1) / 4 * (w / (sqrt 3 * h))).
    + replace (D * (4 * scale - 1) / 4 * (w / (sqrt 3 * h))) with (D / 4 * (w * (4 * scale - 1) / (sqrt 3 * h))) by (field; lra).
      assert (1 <= w * (4 * scale - 1) / (sqrt 3 * h)). { apply Rmult_le_reg_r with (sqrt 3 * h); [lra|]. unfold Rdiv at 1. rewrite Rmult_assoc, Rinv_l; lra. }
      nra.
    + apply Rmult_le_compat_r; [|exact Dp]. left. now apply Rdiv_lt_0_compat.
Qed.
Print Assumptions C93_visible.

(** The clipping planes do not follow the box: a scene that is too small is in front of the near plane and one that is too large is behind the
    far plane, and then no picture shows any body. *)
Theorem C93_empty : forall mind pos vel v width height split stereo scale,
  v_bmin v = v_bmax v -> vel <> [] -> Forall moderate pos -> Forall moderate vel -> (0 <= stereo <= 100)%Z ->
  let v' := setup_view_box (Rops mind) pos vel v in let D := diagonal v' in
  0 < D -> 0 < scale -> D * (3 / 2 * scale + 1 / 4) < 1 \/ 1000 < D * (scale - 1 / 4) ->
  forall p x, In p (paint (Rops mind) width height split stereo scale v') -> In x pos -> ~ sees p x.
Proof.
  intros mind pos vel v width height split stereo scale Hd Hv Mp Mv Hst v' D HD Hs Hn p x Ip Ix S.
  pose proof (in_the_middle mind pos vel v x Hd Hv Mp Mv Ix) as M. cbv zeta in M. fold v' in M. fold D in M.
  destruct (cameras mind width height split stereo scale v' p HD Hs Hst Ip) as (_ & E1 & E2 & E3 & E4 & E5 & (L1 & L2) & L3).
  fold D in L1, L2. set (ray := minus (pic_center p) (pic_eye p)) in *.
  rewrite <- E1 in M. assert (Hr : 0 < len ray) by nra.
  destruct (look p Hr L3 x (D / 4) M) as ((A1 & A2) & _). cbv zeta in A1, A2. fold ray in A1, A2.
  destruct S as ((S1 & S2) & _). rewrite E3 in S1. rewrite E4 in S2. destruct Hn as [Hn|Hn]; nra.
Qed.
Print Assumptions C93_empty.

(** The pictures are those of the four viewports, in each of them the camera looks at the centre of the box. *)
Theorem C93_ports : forall mind width height split stereo scale v p,
  0 < diagonal v -> 0 < scale -> (0 <= stereo <= 100)%Z -> In p (paint (Rops mind) width height split stereo scale v) ->
  In (pic_port p) (ports width height split) /\
  (forall a, pic_center p = a -> vx a * 2 = vx (v_bmin v) + vx (v_bmax v) /\ vy a * 2 = vy (v_bmin v) + vy (v_bmax v) /\
    vz a * 2 = vz (v_bmin v) + vz (v_bmax v)).
Proof.
  intros mind width height split stereo scale v p HD Hs Hst I.
  destruct (cameras mind width height split stereo scale v p HD Hs Hst I) as (A & B & _). split; [exact A|].
  intros a <-. rewrite B. unfold view_center, vscale, vadd. cbn [vx vy vz nadd nmul ndiv nlit Rops]. lra.
Qed.
Print Assumptions C93_ports.

(** The two eyes: the camera is half way between them, they are level (the line between them is at right angles to the line of sight and to
    the upward direction) and their distance is the given part of the distance of the camera. *)
Theorem C93_eyes : forall mind stereo v q camera up,
  let center := view_center (Rops mind) v in let ray := minus center camera in
  stereo <> 0%Z -> 0 < len (outer ray up) ->
  exists l r, map (@pic_eye R) (paint_port (Rops mind) stereo v q camera up) = [l; r] /\
    minus l camera = minus camera r /\ inner (minus l r) ray = 0 /\ inner (minus l r) up = 0 /\
    len (minus l r) = 2 * Rabs (IZR stereo) / 1000 * len ray /\
    inner (outer ray up) (minus l r) = len (outer ray up) * len ray * (2 * IZR stereo / 1000).
Proof.
  intros mind stereo v q camera up center ray Hs H. unfold paint_port. fold center.
  destruct (Z.eqb_spec stereo 0) as [E|_]; [contradiction|]. cbn [map pic_eye setup_projection].
  set (base := eye_base (Rops mind) stereo center camera up).
  do 2 eexists. split; [reflexivity|]. cbn [pic_eye setup_projection].
  set (c := outer ray up) in *. set (b := IZR stereo / 1000). set (k := len ray / len c * b).
  assert (Eb : base = V3 (vx c * k) (vy c * k) (vz c * k)).
  { unfold base, eye_base. change (vcross (Rops mind) (vsub (Rops mind) center camera) up) with c.
    change (vlength (Rops mind) (vsub (Rops mind) center camera)) with (len ray). change (vlength (Rops mind) c) with (len c).
    unfold vscale, k, b. cbn. f_equal; ring. }
  assert (Em : minus (vadd (Rops mind) camera base) (vsub (Rops mind) camera base) = V3 (2 * k * vx c) (2 * k * vy c) (2 * k * vz c)).
  { rewrite Eb. unfold minus, vadd, vsub. cbn. f_equal; ring. }
  split; [unfold minus, vadd, vsub; cbn; f_equal; ring|]. rewrite Em.
  assert (I1 : forall a, inner (V3 (2 * k * vx c) (2 * k * vy c) (2 * k * vz c)) a = 2 * k * inner a c) by (intros a; unfold inner; cbn; ring).
  split; [rewrite I1; unfold c; rewrite outer_left; ring|]. split; [rewrite I1; unfold c; rewrite outer_right; ring|]. split.
  - unfold len at 1. rewrite I1.
    replace (inner (V3 (2 * k * vx c) (2 * k * vy c) (2 * k * vz c)) c) with (2 * k * inner c c) by (unfold inner; cbn; ring).
    rewrite <- len_sq.
    assert (E : 2 * Rabs (IZR stereo) / 1000 * len ray = 2 * Rabs b * len ray).
    { unfold b. unfold Rdiv. rewrite Rabs_mult, (Rabs_pos_eq (/ 1000)) by lra. ring. }
    rewrite E. replace (2 * k * (2 * k * (len c * len c))) with ((2 * Rabs b * len ray) * (2 * Rabs b * len ray)).
    + apply sqrt_square. apply Rmult_le_pos; [pose proof (Rabs_pos b); lra|apply len_pos].
    + replace (2 * Rabs b * len ray * (2 * Rabs b * len ray)) with (4 * (Rabs b * Rabs b) * len ray * len ray) by ring.
      replace (Rabs b * Rabs b) with (b * b) by (unfold Rabs; destruct (Rcase_abs b); ring). unfold k. field. lra.
  - rewrite inner_comm, I1. rewrite <- len_sq. unfold k, b. field. lra.
Qed.
Print Assumptions C93_eyes.

(** The box: a line between any two corners that differ in one coordinate, drawn once, and no others; every end has the colour of its corner. *)
Theorem C93_box : forall mind v,
  exists edges, box_lines (Rops mind) v = map (fun e => ((corner_color (fst e), corner v (fst e)), (corner_color (snd e), corner v (snd e)))) edges /\
    NoDup edges /\ (forall e, In e edges -> ~ In (snd e, fst e) edges) /\
    forall c d, next_to c d <-> In (c, d) edges \/ In (d, c) edges.
Proof.
  intros mind v.
  exists (map (fun e => let at_ i := nth i [(false, false, false); (true, false, false); (true, true, false); (false, true, false);
                                            (false, false, true); (true, false, true); (true, true, true); (false, true, true)] (false, false, false) in
                (at_ (fst e), at_ (snd e))) cube_idx).
  split.
  { unfold box_lines. rewrite map_map. cbn. repeat f_equal; destruct (v_bmin v); reflexivity. }
  split; [cbn; repeat constructor; cbn; intuition congruence|]. split.
  - intros [c d] H. cbn in H. cbn [fst snd]. repeat (destruct H as [H|H]; [injection H as <- <-; cbn; intuition congruence|]). destruct H.
  - intros [[[] []] []] [[[] []] []]; cbn; intuition congruence.
Qed.
Print Assumptions C93_box.

(** How the axes lie in the four pictures (one eye) and how far away the camera is. *)
Theorem C93_axes : forall mind width height split scale v,
  0 < diagonal v -> 0 < scale ->
  let D := diagonal v in let h := / sqrt 2 in
  map (fun p => (pic_port p, right_ p, above p, len (minus (pic_center p) (pic_eye p)))) (paint (Rops mind) width height split 0 scale v) =
  match ports width height split with
  | [a; b; c; d] =>
      [(a, V3 1 0 0, V3 0 (- h) h, sqrt 2 * (D * scale)); (b, V3 (-1) 0 0, V3 0 1 0, D * scale);
       (c, V3 0 0 (-1), V3 0 1 0, D * scale); (d, V3 (-1) 0 0, V3 0 0 (-1), D * scale)]
  | _ => []
  end.
Proof.
  intros mind width height split scale v HD Hs D h. unfold paint, ports.
  change (nmul (Rops mind) (vlength (Rops mind) (vsub (Rops mind) (v_bmax v) (v_bmin v))) scale) with (D * scale).
  set (dist := D * scale). assert (Hd : 0 < dist) by (unfold dist, D; nra).
  assert (S2 : 0 < sqrt 2) by (apply sqrt_lt_R0; lra). assert (Q2 : sqrt 2 * sqrt 2 = 2) by (apply sqrt_sqrt; lra).
  set (x := split_at width (fst split)). set (y := split_at height (snd split)).
  assert (L : forall a s, 0 <= s -> inner a a = s * s -> len a = s) by (intros a s H E; unfold len; rewrite E; now apply sqrt_square).
  assert (V : forall a b c a' b' c' : R, a = a' -> b = b' -> c = c' -> V3 a b c = V3 a' b' c') by (intros; subst; reflexivity).
  unfold paint_port. cbn [Z.eqb app map]. unfold setup_projection. cbn [pic_port pic_center pic_eye].
  set (c := view_center (Rops mind) v).
  assert (G : forall q eye up r s rt ab, minus c eye = r -> 0 < s -> inner r r = s * s ->
     let f := V3 (vx r / s) (vy r / s) (vz r / s) in let o := outer f up in
     forall k, 0 < k -> inner o o = k * k -> V3 (vx o / k) (vy o / k) (vz o / k) = rt -> outer rt f = ab ->
     let p := mkPicture q (nlit (Rops mind) 60) (ndiv (Rops mind) (nlit (Rops mind) 1) (ndiv (Rops mind) (nlit (Rops mind) (q_h q)) (nlit (Rops mind) (q_w q))))
                (nlit (Rops mind) 1) (nlit (Rops mind) 1000) eye c up in
     (q, right_ p, above p, len (minus c eye)) = (q, rt, ab, s)).
  { intros q eye up r s rt ab Er Hs1 Es f o k Hk Ek Ert Eab p.
    assert (Lr : len r = s) by (apply L; [lra|exact Es]).
    assert (Ef : front p = f) by (unfold front, p; cbn [pic_center pic_eye]; rewrite Er; unfold unit_of; rewrite Lr; reflexivity).
    assert (Er2 : right_ p = rt).
    { unfold right_. rewrite Ef. unfold p. cbn [pic_up]. fold o. unfold unit_of. rewrite (L o k); [exact Ert|lra|exact Ek]. }
    unfold above. rewrite Er2, Ef, Eab, Er, Lr. reflexivity. }
  assert (F : forall A (a b : A) l m, a = b -> l = m -> a :: l = b :: m) by (intros; subst; reflexivity).
  assert (I2 : / sqrt 2 * / sqrt 2 = / 2) by (rewrite <- Rinv_mult; now rewrite Q2).
  repeat apply F; [| | | |reflexivity].
  - apply G with (r := V3 0 dist dist) (k := / sqrt 2); try (unfold inner, outer, minus, vsub; cbn [vx vy vz nsub nlit Rops]).
    + apply V; ring.
    + nra.
    + rewrite <- (Rmult_assoc (sqrt 2 * dist)). replace (sqrt 2 * dist * sqrt 2 * dist) with (sqrt 2 * sqrt 2 * (dist * dist)) by ring. rewrite Q2. ring.
    + now apply Rinv_0_lt_compat.
    + rewrite I2. replace (dist / (sqrt 2 * dist)) with (/ sqrt 2) by (field; lra). transitivity (/ sqrt 2 * / sqrt 2); [field; lra|exact I2].
    + apply V; field; lra.
    + unfold h. apply V; field; lra.
  - apply G with (r := V3 0 0 dist) (k := 1); try (unfold inner, outer, minus, vsub; cbn [vx vy vz nsub nlit Rops]); try lra; try (apply V; field; lra); field; lra.
  - apply G with (r := V3 (- dist) 0 0) (k := 1); try (unfold inner, outer, minus, vadd; cbn [vx vy vz nadd nlit Rops]); try lra; try (apply V; field; lra); field; lra.
  - apply G with (r := V3 0 dist 0) (k := 1); try (unfold inner, outer, minus, vsub; cbn [vx vy vz nsub nlit nopp Rops]); try lra; try (apply V; field; lra); field; lra.
Qed.
Print Assumptions C93_axes.

Lemma two_bodies : forall mind a, 0 < a <= 10 ^ 30 ->
  let pos := [V3 0 0 0; V3 a 0 0] in
  Forall moderate pos /\ diagonal (setup_view_box (Rops mind) pos [V3 0 0 0] (new_view (Rops mind))) = 2 * a.
Proof.
  intros mind a Ha pos.
  assert (M0 : moderate (V3 0 0 0)) by (unfold moderate; cbn [vx vy vz]; rewrite Rabs_R0; lra).
  assert (M : Forall moderate pos).
  { constructor; [exact M0|]. constructor; [|constructor]. unfold moderate; cbn [vx vy vz]. rewrite Rabs_R0, Rabs_pos_eq by lra. lra. }
  split; [exact M|].
  destruct (C77_box mind pos [V3 0 0 0] (new_view (Rops mind)) eq_refl ltac:(discriminate) ltac:(discriminate) M ltac:(auto)) as (_ & lo & hi & SB & E1 & E2).
  destruct SB as (F & (p1 & I1 & P1) & (p2 & I2 & P2) & (p3 & I3 & P3) & (q1 & J1 & Q1) & (q2 & J2 & Q2) & (q3 & J3 & Q3)).
  rewrite Forall_forall in F. pose proof (F _ (or_introl eq_refl)) as F0. pose proof (F _ (or_intror (or_introl eq_refl))) as F1.
  unfold inside in F0, F1. cbn [vx vy vz] in F0, F1.
  assert (X : vx lo = 0 /\ vx hi = a).
  { split; [destruct I1 as [<-|[<-|[]]]|destruct J1 as [<-|[<-|[]]]]; cbn [vx] in *; lra. }
  assert (Y : vy lo = 0 /\ vy hi = 0).
  { split; [destruct I2 as [<-|[<-|[]]]|destruct J2 as [<-|[<-|[]]]]; cbn [vy] in *; lra. }
  assert (Z : vz lo = 0 /\ vz hi = 0).
  { split; [destruct I3 as [<-|[<-|[]]]|destruct J3 as [<-|[<-|[]]]]; cbn [vz] in *; lra. }
  destruct X as [X1 X2], Y as [Y1 Y2], Z as [Z1 Z2].
  unfold diagonal. rewrite E1, E2, X1, X2, Y1, Y2, Z1, Z2. unfold len, inner, minus. cbn [vx vy vz].
  match goal with |- sqrt ?z = _ => replace z with (2 * a * (2 * a)) by field end. apply sqrt_square. lra.
Qed.

(** A new view at 100%, in a window of 800 by 600 pixels with one eye.  Bodies a tenth apart cannot be seen at all, neither can bodies 2000 apart... *)
Theorem C93_refuted : forall mind, let u := Rops mind in
  exists near far, Forall moderate near /\ Forall moderate far /\
  let shown pos p x := In p (paint u 800 600 (1 # 2, 1 # 2)%Q 0 1 (setup_view_box u pos [V3 0 0 0] (new_view u))) /\ In x pos /\ sees p x in
  (forall p x, ~ shown near p x) /\ (forall p x, ~ shown far p x).
Proof.
  intros mind u. exists [V3 0 0 0; V3 (1 / 10) 0 0], [V3 0 0 0; V3 2000 0 0].
  destruct (two_bodies mind (1 / 10) ltac:(lra)) as [M1 D1]. destruct (two_bodies mind 2000 ltac:(lra)) as [M2 D2].
  assert (M0 : Forall moderate [V3 0 0 0]) by (constructor; [|constructor]; unfold moderate; cbn [vx vy vz]; rewrite Rabs_R0; lra).
  split; [exact M1|]. split; [exact M2|]. cbv zeta.
  subst u. split; intros p x (I & J & S); revert S.
  - apply (C93_empty mind [V3 0 0 0; V3 (1 / 10) 0 0] [V3 0 0 0] (new_view (Rops mind)) 800 600 (1 # 2, 1 # 2)%Q 0 1); auto; try discriminate; try lia; rewrite ?D1; lra.
  - apply (C93_empty mind [V3 0 0 0; V3 2000 0 0] [V3 0 0 0] (new_view (Rops mind)) 800 600 (1 # 2, 1 # 2)%Q 0 1); auto; try discriminate; try lia; rewrite ?D2; lra.
Qed.
Print Assumptions C93_refuted.

(** ... bodies 10 apart are in all four pictures. *)
Example C93_case : forall mind, let u := Rops mind in let pos := [V3 0 0 0; V3 10 0 0] in
  let ps := paint u 800 600 (1 # 2, 1 # 2)%Q 0 1 (setup_view_box u pos [V3 0 0 0] (new_view u)) in
  length ps = 4%nat /\ forall p x, In p ps -> In x pos -> sees p x.
Proof.
  intros mind u pos ps. split; [reflexivity|]. intros p x Ip Ix.
  destruct (two_bodies mind 10 ltac:(lra)) as [M D]. fold pos in D, M.
  assert (M0 : Forall moderate [V3 0 0 0]) by (constructor; [|constructor]; unfold moderate; cbn [vx vy vz]; rewrite Rabs_R0; lra).
  assert (S3 : sqrt 3 <= 2). { apply sq_le; [lra|]. rewrite sqrt_sqrt; lra. }
  assert (Q : q_w (pic_port p) = 400%Z /\ q_h (pic_port p) = 300%Z).
  { unfold ps, paint, paint_port in Ip. cbn [Z.eqb app In] in Ip. repeat (destruct Ip as [<-|Ip]; [split; reflexivity|]). destruct Ip. }
  destruct Q as [Q1 Q2].
  subst u. cbv zeta in D.
  apply (C93_visible mind pos [V3 0 0 0] (new_view (Rops mind)) 800 600 (1 # 2, 1 # 2)%Q 0 1); auto; try discriminate; try lia; rewrite ?D, ?Q1, ?Q2; try lia; lra.
Qed.

(** The number in the box "view scale", in per cent: at twice the scale the cameras are half as far away. *)
Theorem C93_scale : forall mind width height split value v, 0 < diagonal v -> 0 < value ->
  let distances s := map (fun p => len (minus (pic_center p) (pic_eye p))) (paint (Rops mind) width height split 0 s v) in
  map (fun d => d * value) (distances (scale_of (Rops mind) value)) = map (fun d => d * 100) (distances 1).
Proof.
  intros mind width height split value v HD Hv distances.
  assert (E : forall s, 0 < s -> distances s = [sqrt 2 * (diagonal v * s); diagonal v * s; diagonal v * s; diagonal v * s]).
  { intros s Hs. pose proof (C93_axes mind width height split s v HD Hs) as A. cbv zeta in A. apply (f_equal (map snd)) in A. rewrite map_map in A. exact A. }
  assert (P : scale_of (Rops mind) value = 100 / value) by reflexivity.
  rewrite P, !E by (try lra; apply Rdiv_lt_0_compat; lra). cbn [map]. repeat (f_equal; try (field; lra)).
Qed.
Print Assumptions C93_scale.
