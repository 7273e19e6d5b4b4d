(** C76: colours from velocities; C77: the box and the layout of the window *)
From Coq Require Import ZArith Reals List Arith QArith Lia Lra.
From Verif Require Import Num Arr ModelVertex ModelTree ModelView SpecView LemView.
Import ListNotations.
Local Open Scope R_scope.

(** The table is read inside its bounds exactly for the values up to 3/4 and from 1 on, and then the colour
    is the one on the polyline blue - green - yellow - red with nodes at 0, 1/4, 1/2, 3/4. *)
Theorem C76_color : forall mind x,
  ((exists c, get_color (Rops mind) x = Some c) <-> has_color x) /\
  (x <= 0 -> get_color (Rops mind) x = Some (palette 0)) /\
  (1 <= x -> get_color (Rops mind) x = Some (palette 3)) /\
  (forall k, (k < 3)%nat -> INR k / 4 <= x <= INR (k + 1) / 4 ->
     get_color (Rops mind) x = Some (mix (4 * x - INR k) (palette k) (palette (k + 1)))).
Proof.
  intros mind x. destruct (get_color_R mind x) as (A & B & C & D). split; [|auto]. split.
  - intros [c E]. unfold has_color. destruct (Rle_lt_dec x (3 / 4)); [auto|].
    destruct (Rle_lt_dec 1 x); [auto|]. rewrite C in E by lra. discriminate.
  - intros [H|H]; [|eauto]. destruct (Rle_lt_dec x 0); [eauto|]. destruct (Rle_lt_dec x (1 / 4)).
    + rewrite (D 0%nat); [eauto|lia|cbn [INR Nat.add]; lra].
    + destruct (Rle_lt_dec x (1 / 2)).
      * rewrite (D 1%nat); [eauto|lia|cbn [INR Nat.add]; lra].
      * rewrite (D 2%nat); [eauto|lia|cbn [INR Nat.add]; lra].
Qed.
Print Assumptions C76_color.

(** So a frame can be drawn exactly if no body's speed is above 3/4 of and below the diagonal of the box of
    velocities fixed at the first frame. *)
Theorem C76_frame : forall mind pos vel v,
  let v' := setup_view_box (Rops mind) pos vel v in
  let top := vlength (Rops mind) (vsub (Rops mind) (v_vmax v') (v_vmin v')) in
  0 < top ->
  ((exists c, draw (Rops mind) pos vel v = Some (c, v')) <->
   Forall (fun u => has_color (vlength (Rops mind) u / top)) vel).
Proof.
  intros mind pos vel v v' top Ht. unfold draw. fold v'. fold top. rewrite <- (colors_R mind top vel Ht).
  split; intros [c E].
  - destruct (color_from_velosity (Rops mind) top vel); [eauto|discriminate].
  - exists c. now rewrite E.
Qed.
Print Assumptions C76_frame.

(** "Every frame can be drawn" is false.  Three bodies with speeds 0, 8 and 10, in exact arithmetic and in
    binary64: the entry behind the table is read.  Bodies at rest, in binary64: 0/0 is converted to an
    index. *)
Theorem C76_refuted :
  (forall mind, draw (Rops mind) [V3 0 0 0; V3 1 0 0; V3 2 0 0] [V3 0 0 0; V3 8 0 0; V3 10 0 0] (new_view (Rops mind)) = None) /\
  (let f := F_of_Z in
   draw Fops [V3 (f 0) (f 0) (f 0); V3 (f 1) (f 0) (f 0); V3 (f 2) (f 0) (f 0)]%Z
     [V3 (f 0) (f 0) (f 0); V3 (f 8) (f 0) (f 0); V3 (f 10) (f 0) (f 0)]%Z (new_view Fops) = None /\
   draw Fops [V3 (f 0) (f 0) (f 0); V3 (f 1) (f 0) (f 0)]%Z [V3 (f 0) (f 0) (f 0); V3 (f 0) (f 0) (f 0)]%Z
     (new_view Fops) = None).
Proof.
  split; [|split; vm_compute; reflexivity].
  intros mind. set (pos := [V3 0 0 0; V3 1 0 0; V3 2 0 0]). set (vel := [V3 0 0 0; V3 8 0 0; V3 10 0 0]).
  assert (Bx : forall p, In p vel -> moderate p).
  { assert (Rabs 0 <= 10 ^ 30) by (rewrite Rabs_R0; apply pow_le; lra).
    assert (T1 : 10 ^ 1 <= 10 ^ 30) by (apply Rle_pow; [lra|lia]). rewrite pow_1 in T1.
    intros p [<-|[<-|[<-|[]]]]; repeat split; cbn [vx vy vz]; auto; rewrite Rabs_right; lra. }
  destruct (get_box (Rops mind) vel) as [lo hi] eqn:E.
  assert (SB : smallest_box vel lo hi).
  { apply (get_box_R mind); auto; [discriminate|]. apply Forall_forall. exact Bx. }
  assert (V : setup_view_box (Rops mind) pos vel (new_view (Rops mind)) =
    let (a, b) := get_box (Rops mind) pos in
    let m := vscale (Rops mind) (vsub (Rops mind) b a) (ndiv (Rops mind) (nlit (Rops mind) 1) (nlit (Rops mind) 2)) in
    mkView (vsub (Rops mind) a m) (vadd (Rops mind) b m) lo hi).
  { unfold setup_view_box. unfold new_view at 1 2. cbn [v_bmin v_bmax].
    assert (veqb (Rops mind) (vzero (Rops mind)) (vzero (Rops mind)) = true) as ->.
    { unfold veqb, vzero. cbn. destruct (Req_EM_T 0 0); [reflexivity|lra]. }
    cbn [negb orb length pos Nat.eqb]. fold pos. rewrite E. reflexivity. }
  unfold draw. rewrite V. destruct (get_box (Rops mind) pos) as [a b]. cbv zeta. cbn [v_vmax v_vmin].
  destruct SB as (F & (p1 & I1 & L1) & (p2 & I2 & L2) & (p3 & I3 & L3) & (p4 & I4 & L4) & (p5 & I5 & L5) & (p6 & I6 & L6)).
  assert (Q : vx lo = 0 /\ vy lo = 0 /\ vz lo = 0 /\ vx hi = 10 /\ vy hi = 0 /\ vz hi = 0).
  { inversion F as [|? ? Q1 F1]; subst. inversion F1 as [|? ? Q2 F2]; subst. inversion F2 as [|? ? Q3 F3]; subst.
    unfold inside in Q1, Q2, Q3. cbn [vx vy vz] in Q1, Q2, Q3.
    assert (P : forall p, In p vel -> 0 <= vx p <= 10 /\ vy p = 0 /\ vz p = 0).
    { intros p [<-|[<-|[<-|[]]]]; cbn; repeat split; lra. }
    apply P in I1. apply P in I2. apply P in I3. apply P in I4. apply P in I5. apply P in I6. lra. }
  destruct Q as (Q1 & Q2 & Q3 & Q4 & Q5 & Q6).
  assert (Lt : vlength (Rops mind) (vsub (Rops mind) hi lo) = 10).
  { unfold vlength, vdot, vsub. cbn. rewrite Q1, Q2, Q3, Q4, Q5, Q6.
    replace ((10 - 0) * (10 - 0) + (0 - 0) * (0 - 0) + (0 - 0) * (0 - 0)) with (10 * 10) by lra.
    apply sqrt_square. lra. }
  rewrite Lt. destruct (color_from_velosity (Rops mind) 10 vel) as [l|] eqn:El; [|reflexivity]. exfalso.
  assert (H : Forall (fun v => has_color (vlength (Rops mind) v / 10)) vel) by (apply colors_R; [lra|eauto]).
  inversion H as [|? ? _ H1]; subst. inversion H1 as [|? ? H2 _]; subst.
  assert (L8 : vlength (Rops mind) (V3 8 0 0) = 8).
  { unfold vlength, vdot. cbn. replace (8 * 8 + 0 * 0 + 0 * 0) with (8 * 8) by lra. apply sqrt_square. lra. }
  rewrite L8 in H2. destruct H2; lra.
Qed.
Print Assumptions C76_refuted.
(** hypotheses are met: speeds 0, 5 and 10 have colours *)
Example C76_case : let f := F_of_Z in exists c v,
  draw Fops [V3 (f 0) (f 0) (f 0); V3 (f 1) (f 0) (f 0); V3 (f 2) (f 0) (f 0)]%Z
     [V3 (f 0) (f 0) (f 0); V3 (f 5) (f 0) (f 0); V3 (f 10) (f 0) (f 0)]%Z (new_view Fops) = Some (c, v) /\
  nth_error c 1 = Some (V4 (f 1) (f 1) (f 0) (f 1))%Z.
Proof. do 2 eexists. split; vm_compute; reflexivity. Qed.

(** C77.  While the view has no box, drawing a frame makes the smallest box around its bodies, widened by half
    its size on every side; and the smallest box of the velocities. *)
Theorem C77_box : forall mind pos vel v,
  v_bmin v = v_bmax v -> pos <> [] -> vel <> [] -> Forall moderate pos -> Forall moderate vel ->
  let v' := setup_view_box (Rops mind) pos vel v in
  smallest_box vel (v_vmin v') (v_vmax v') /\
  exists lo hi, smallest_box pos lo hi /\
    v_bmin v' = V3 (vx lo - (vx hi - vx lo) / 2) (vy lo - (vy hi - vy lo) / 2) (vz lo - (vz hi - vz lo) / 2) /\
    v_bmax v' = V3 (vx hi + (vx hi - vx lo) / 2) (vy hi + (vy hi - vy lo) / 2) (vz hi + (vz hi - vz lo) / 2).
Proof.
  intros mind pos vel v Hd Hp Hv Mp Mv. unfold setup_view_box. rewrite Hd.
  assert (veqb (Rops mind) (v_bmax v) (v_bmax v) = true) as ->.
  { unfold veqb. cbn. destruct (Req_EM_T (vx (v_bmax v)) (vx (v_bmax v))); [|lra].
    destruct (Req_EM_T (vy (v_bmax v)) (vy (v_bmax v))); [|lra].
    destruct (Req_EM_T (vz (v_bmax v)) (vz (v_bmax v))); [reflexivity|lra]. }
  assert (Nat.eqb (length pos) 0 = false) as -> by (destruct pos; [congruence|reflexivity]). cbn [negb orb].
  destruct (get_box (Rops mind) pos) as [lo hi] eqn:E1. destruct (get_box (Rops mind) vel) as [a b] eqn:E2.
  cbv zeta. cbn [v_vmin v_vmax v_bmin v_bmax]. split; [apply (get_box_R mind); auto|].
  exists lo, hi. split; [apply (get_box_R mind); auto|]. unfold vsub, vadd, vscale. cbn.
  split; f_equal; lra.
Qed.
Print Assumptions C77_box.

(** From the first frame on that has two bodies at different places, every body of that frame is inside the
    box and no later frame changes the view. *)
Theorem C77_box_fixed : forall mind pos vel v p q later,
  v_bmin v = v_bmax v -> vel <> [] -> Forall moderate pos -> Forall moderate vel -> In p pos -> In q pos -> p <> q ->
  let v' := setup_view_box (Rops mind) pos vel v in
  Forall (inside (v_bmin v') (v_bmax v')) pos /\
  fold_left (fun v f => setup_view_box (Rops mind) (fst f) (snd f) v) later v' = v'.
Proof.
  intros mind pos vel v p q later Hd Hv Mp Mv Ip Iq Hpq v'.
  assert (Hp : pos <> []) by (intros ->; destruct Ip).
  destruct (C77_box mind pos vel v Hd Hp Hv Mp Mv) as (_ & lo & hi & SB & E1 & E2). fold v' in E1, E2.
  destruct SB as (F & _). rewrite Forall_forall in F.
  pose proof (F p Ip) as Fp. pose proof (F q Iq) as Fq. unfold inside in Fp, Fq.
  split.
  - apply Forall_forall. intros r Ir. specialize (F r Ir). rewrite E1, E2. unfold inside in *. cbn [vx vy vz]. lra.
  - assert (D : veqb (Rops mind) (v_bmin v') (v_bmax v') = false).
    { rewrite E1, E2. unfold veqb. cbn [vx vy vz neqb Rops].
      assert (vx lo < vx hi \/ vy lo < vy hi \/ vz lo < vz hi).
      { destruct (Rlt_dec (vx lo) (vx hi)); [auto|]. destruct (Rlt_dec (vy lo) (vy hi)); [auto|].
        destruct (Rlt_dec (vz lo) (vz hi)); [auto|]. exfalso. apply Hpq. destruct p as [a b c], q as [a' b' c'].
        cbn in *. f_equal; lra. }
      destruct (Req_EM_T _ _); [|reflexivity]. destruct (Req_EM_T _ _); [|reflexivity].
      destruct (Req_EM_T _ _); [|reflexivity]. exfalso. lra. }
    clearbody v'. induction later as [|f later IH]; [reflexivity|]. cbn [fold_left].
    unfold setup_view_box at 2. rewrite D. cbn [negb orb]. exact IH.
Qed.
Print Assumptions C77_box_fixed.

(** The four viewports cover every pixel of the window exactly once, wherever the split is. *)
Theorem C77_tiling : forall width height s i j,
  (0 <= width)%Z -> (0 <= height)%Z -> (0 <= fst s <= 1)%Q -> (0 <= snd s <= 1)%Q ->
  (0 <= i < width)%Z -> (0 <= j < height)%Z ->
  exists k p, nth_error (ports width height s) k = Some p /\ covers p i j /\
    forall k' p', nth_error (ports width height s) k' = Some p' -> covers p' i j -> k' = k.
Proof.
  intros w h [sx sy] i j Hw Hh Sx Sy Hi Hj. cbn [fst snd] in *.
  pose proof (split_range w sx Hw Sx) as Rx. pose proof (split_range h sy Hh Sy) as Ry.
  unfold ports. cbn [fst snd]. set (x := split_at w sx) in *. set (y := split_at h sy) in *.
  assert (U : forall k p, (forall k' p', nth_error [mkPort x y (w - x) (h - y); mkPort 0 0 x y; mkPort x 0 (w - x) y; mkPort 0 y x (h - y)] k' = Some p' -> covers p' i j -> k' = k) ->
            nth_error [mkPort x y (w - x) (h - y); mkPort 0 0 x y; mkPort x 0 (w - x) y; mkPort 0 y x (h - y)] k = Some p ->
            covers p i j -> exists k p, nth_error [mkPort x y (w - x) (h - y); mkPort 0 0 x y; mkPort x 0 (w - x) y; mkPort 0 y x (h - y)] k = Some p /\ covers p i j /\
            forall k' p', nth_error [mkPort x y (w - x) (h - y); mkPort 0 0 x y; mkPort x 0 (w - x) y; mkPort 0 y x (h - y)] k' = Some p' -> covers p' i j -> k' = k).
  { intros k p A B C. exists k, p. auto. }
  destruct (Z_lt_dec i x), (Z_lt_dec j y).
  - eapply (U 1%nat); [|reflexivity|unfold covers; cbn; lia].
    intros [|[|[|[|k']]]] p' Ek; try (destruct k'; discriminate Ek); cbn [nth_error] in Ek; injection Ek as <-; unfold covers; cbn [q_x q_y q_w q_h]; intros; lia.
  - eapply (U 3%nat); [|reflexivity|unfold covers; cbn; lia].
    intros [|[|[|[|k']]]] p' Ek; try (destruct k'; discriminate Ek); cbn [nth_error] in Ek; injection Ek as <-; unfold covers; cbn [q_x q_y q_w q_h]; intros; lia.
  - eapply (U 2%nat); [|reflexivity|unfold covers; cbn; lia].
    intros [|[|[|[|k']]]] p' Ek; try (destruct k'; discriminate Ek); cbn [nth_error] in Ek; injection Ek as <-; unfold covers; cbn [q_x q_y q_w q_h]; intros; lia.
  - eapply (U 0%nat); [|reflexivity|unfold covers; cbn; lia].
    intros [|[|[|[|k']]]] p' Ek; try (destruct k'; discriminate Ek); cbn [nth_error] in Ek; injection Ek as <-; unfold covers; cbn [q_x q_y q_w q_h]; intros; lia.
Qed.
Print Assumptions C77_tiling.

(** A double click in the window split in the middle, off the middle lines, gives the whole window to the
    viewport that was clicked; the next one anywhere splits it in the middle again. *)
Theorem C77_double_click : forall width height px py qx qy,
  (0 <= px < width)%Z -> (0 <= py < height)%Z -> px <> (width / 2)%Z -> py <> (height / 2)%Z ->
  let s' := double_click width height px py (1 # 2, 1 # 2) in
  (exists k p p', nth_error (ports width height (1 # 2, 1 # 2)) k = Some p /\ covers p px (height - 1 - py) /\
     nth_error (ports width height s') k = Some p' /\ p' = mkPort 0 0 width height) /\
  double_click width height qx qy s' = (1 # 2, 1 # 2)%Q.
Proof.
  intros w h px py qx qy Hx Hy Dx Dy s'. unfold s', double_click.
  rewrite !Z.quot_div_nonneg by lia.
  assert (Ex : split_at w (1 # 2) = (w / 2)%Z) by (apply split_half; [lia|reflexivity]).
  assert (Ey : split_at h (1 # 2) = (h / 2)%Z) by (apply split_half; [lia|reflexivity]).
  pose proof (Z.div_mod w 2 ltac:(lia)). pose proof (Z.mod_pos_bound w 2 ltac:(lia)).
  pose proof (Z.div_mod h 2 ltac:(lia)). pose proof (Z.mod_pos_bound h 2 ltac:(lia)).
  change (Qeq_bool (fst (1 # 2, 1 # 2)) (1 # 2) && Qeq_bool (snd (1 # 2, 1 # 2)) (1 # 2))%bool with true. cbv iota.
  destruct (Z.ltb_spec (w / 2) px), (Z.ltb_spec (h / 2) py); cbn [andb].
  - split; [|reflexivity]. exists 2%nat. do 2 eexists. unfold ports. cbn [fst snd nth_error]. rewrite Ex, Ey, split_zero, split_one.
    split; [reflexivity|]. split; [unfold covers; cbn; lia|]. split; [reflexivity|]. f_equal; lia.
  - destruct (Z.ltb_spec py (h / 2)); [|lia]. split; [|reflexivity]. exists 0%nat. do 2 eexists.
    unfold ports. cbn [fst snd nth_error]. rewrite Ex, Ey, !split_zero.
    split; [reflexivity|]. split; [unfold covers; cbn; lia|]. split; [reflexivity|]. f_equal; lia.
  - destruct (Z.ltb_spec px (w / 2)); [|lia]. split; [|reflexivity]. exists 1%nat. do 2 eexists.
    unfold ports. cbn [fst snd nth_error]. rewrite Ex, Ey, !split_one.
    split; [reflexivity|]. split; [unfold covers; cbn; lia|]. split; [reflexivity|]. f_equal; lia.
  - destruct (Z.ltb_spec px (w / 2)); [|lia]. destruct (Z.ltb_spec py (h / 2)); [|lia]. cbn [andb].
    split; [|reflexivity]. exists 3%nat. do 2 eexists.
    unfold ports. cbn [fst snd nth_error]. rewrite Ex, Ey, split_zero, split_one.
    split; [reflexivity|]. split; [unfold covers; cbn; lia|]. split; [reflexivity|]. f_equal; lia.
Qed.
Print Assumptions C77_double_click.
(** ... and so does a double click whenever one of the two splits is off the middle *)
Theorem C77_double_click_back : forall width height px py (s : Q * Q),
  ~ (fst s == 1 # 2 /\ snd s == 1 # 2)%Q -> double_click width height px py s = (1 # 2, 1 # 2)%Q.
Proof.
  intros w h px py s H. unfold double_click.
  destruct (Qeq_bool (fst s) (1 # 2) && Qeq_bool (snd s) (1 # 2))%bool eqn:E; [|reflexivity].
  exfalso. apply H. apply andb_prop in E. destruct E as [E1 E2]. split; now apply Qeq_bool_iff.
Qed.
Print Assumptions C77_double_click_back.
Example C77_case :
  ports 101 51 (1 # 2, 1 # 2)%Q = [mkPort 50 25 51 26; mkPort 0 0 50 25; mkPort 50 0 51 25; mkPort 0 25 50 26] /\
  double_click 101 51 90 3 (1 # 2, 1 # 2)%Q = (0, 0)%Q.
Proof. split; reflexivity. Qed.
