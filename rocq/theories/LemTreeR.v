(** Space trees over the reals: node summaries, exactly-once, agreement with the direct sum. *)
From Coq Require Import ZArith Reals List Arith Lia Lra Psatz Permutation.
From Verif Require Import Num Arr ArrLemmas SpecPhys RLemmas ModelVertex ModelForce ModelEngine ModelTree
  SpecTree LemEngine LemPhys LemTree.
Import ListNotations.
Local Open Scope R_scope.

Lemma lsum_nil f : lsum [] f = 0.
Proof. reflexivity. Qed.
Lemma lsum_cons b l f : lsum (b :: l) f = f b + lsum l f.
Proof. reflexivity. Qed.

Lemma lsum_app l1 l2 f : lsum (l1 ++ l2) f = lsum l1 f + lsum l2 f.
Proof.
  induction l1 as [|b l IH]; [change ([] ++ l2) with l2; rewrite lsum_nil; lra|].
  rewrite <- app_comm_cons, !lsum_cons, IH. lra.
Qed.

Lemma lsum_ext l f g : (forall b, In b l -> f b = g b) -> lsum l f = lsum l g.
Proof.
  induction l as [|b l IH]; intros H; auto. rewrite !lsum_cons.
  rewrite IH by (intros; apply H; right; auto). rewrite H by (left; auto). reflexivity.
Qed.

Lemma lsum_pos l f : l <> [] -> (forall b, In b l -> 0 < f b) -> 0 < lsum l f.
Proof.
  intros Hl. induction l as [|b l IH]; [contradiction|]. intros H. rewrite lsum_cons.
  assert (0 < f b) by (apply H; left; auto).
  destruct l as [|b2 l]; [rewrite lsum_nil; lra|].
  assert (0 < lsum (b2 :: l) f) by (apply IH; [discriminate|intros; apply H; right; auto]).
  lra.
Qed.

Lemma lsum_perm l1 l2 f : Permutation l1 l2 -> lsum l1 f = lsum l2 f.
Proof. induction 1; rewrite ?lsum_cons; lra. Qed.

Lemma lsum_scal l c f : lsum l (fun b => c * f b) = c * lsum l f.
Proof. induction l as [|b l IH]; [rewrite !lsum_nil; lra|]. rewrite !lsum_cons, IH. lra. Qed.

Lemma lsum_zero l f : (forall b, In b l -> f b = 0) -> lsum l f = 0.
Proof.
  induction l as [|b l IH]; intros H; auto. rewrite lsum_cons.
  rewrite IH by (intros; apply H; right; auto). rewrite H by (left; auto). lra.
Qed.

Lemma lsum_filter l (c : nat -> bool) f :
  (forall b, In b l -> c b = false -> f b = 0) -> lsum (filter c l) f = lsum l f.
Proof.
  induction l as [|b l IH]; intros H; auto. cbn [filter].
  destruct (c b) eqn:E; rewrite ?lsum_cons, IH by (intros; apply H; auto; right; auto); auto.
  rewrite (H b) by (auto; left; auto). lra.
Qed.

Lemma lsum_seq n f : lsum (seq 0 n) f = rsum n f.
Proof.
  induction n as [|n IH]; auto. rewrite seq_S, lsum_app, IH, lsum_cons, lsum_nil. cbn. lra.
Qed.

(** ** Geometry *)

Lemma sqd_nonneg a b : 0 <= sqd a b.
Proof.
  unfold sqd. pose proof (Rle_0_sqr (vx a - vx b)). pose proof (Rle_0_sqr (vy a - vy b)).
  pose proof (Rle_0_sqr (vz a - vz b)). unfold Rsqr in *. lra.
Qed.

Lemma sqd_sym a b : sqd a b = sqd b a.
Proof. unfold sqd. ring. Qed.

Lemma sq_zero x : x * x <= 0 -> x = 0.
Proof. intros H. pose proof (Rle_0_sqr x) as H2. unfold Rsqr in H2. assert (x * x = 0) as E by lra.
  apply Rmult_integral in E. tauto. Qed.

Lemma sqd_zero a b : sqd a b <= 0 -> a = b.
Proof.
  unfold sqd. intros H. pose proof (Rle_0_sqr (vx a - vx b)). pose proof (Rle_0_sqr (vy a - vy b)).
  pose proof (Rle_0_sqr (vz a - vz b)). unfold Rsqr in *.
  apply vec3_eq; apply Rminus_diag_uniq, sq_zero; lra.
Qed.

Lemma sqd_refl a : sqd a a = 0.
Proof. unfold sqd. ring. Qed.

(** Cauchy-Schwarz in the form needed for the triangle inequality *)
Lemma cauchy a b c d e f :
  a * d + b * e + c * f <= sqrt (a * a + b * b + c * c) * sqrt (d * d + e * e + f * f).
Proof.
  pose proof (Rle_0_sqr a); pose proof (Rle_0_sqr b); pose proof (Rle_0_sqr c);
  pose proof (Rle_0_sqr d); pose proof (Rle_0_sqr e); pose proof (Rle_0_sqr f); unfold Rsqr in *.
  rewrite <- sqrt_mult by lra.
  apply Rle_trans with (Rabs (a * d + b * e + c * f)); [apply Rle_abs|].
  rewrite <- sqrt_Rsqr_abs. apply sqrt_le_1_alt. unfold Rsqr.
  replace ((a * a + b * b + c * c) * (d * d + e * e + f * f)) with
    ((a * d + b * e + c * f) * (a * d + b * e + c * f) +
     ((a * e - b * d) * (a * e - b * d) + (a * f - c * d) * (a * f - c * d) +
      (b * f - c * e) * (b * f - c * e))) by ring.
  pose proof (Rle_0_sqr (a * e - b * d)); pose proof (Rle_0_sqr (a * f - c * d));
  pose proof (Rle_0_sqr (b * f - c * e)); unfold Rsqr in *. lra.
Qed.

Lemma triangle2 a b c :
  sqd a c <= (sqrt (sqd a b) + sqrt (sqd b c)) * (sqrt (sqd a b) + sqrt (sqd b c)).
Proof.
  pose proof (cauchy (vx a - vx b) (vy a - vy b) (vz a - vz b) (vx b - vx c) (vy b - vy c) (vz b - vz c)) as H.
  fold (sqd a b) in H. fold (sqd b c) in H.
  pose proof (sqrt_sqrt (sqd a b) (sqd_nonneg a b)) as E1.
  pose proof (sqrt_sqrt (sqd b c) (sqd_nonneg b c)) as E2.
  replace (sqd a c) with (sqd a b + sqd b c + 2 * ((vx a - vx b) * (vx b - vx c) +
     (vy a - vy b) * (vy b - vy c) + (vz a - vz b) * (vz b - vz c))) by (unfold sqd; ring).
  nra.
Qed.

Lemma nmin_R d a b : nmin (Rops d) a b = Rmin a b.
Proof.
  unfold nmin. cbn [nltb Rops]. destruct (Rlt_dec b a); [rewrite Rmin_right|rewrite Rmin_left]; lra.
Qed.
Lemma nmax_R d a b : nmax (Rops d) a b = Rmax a b.
Proof.
  unfold nmax. cbn [nltb Rops]. destruct (Rlt_dec a b); [rewrite Rmax_right|rewrite Rmax_left]; lra.
Qed.

Lemma vlength_R d a b : vlength (Rops d) (vsub (Rops d) a b) = sqrt (sqd a b).
Proof. reflexivity. Qed.

Lemma mid_sq lo hi x : lo <= x <= hi ->
  (x - (hi + lo) / 2) * (x - (hi + lo) / 2) <= (hi - lo) * (hi - lo) / 4.
Proof. intros H. nra. Qed.

(** weighted mean of two numbers lies between bounds of both *)
Lemma mean_bounds a b m1 m2 lo hi : 0 < m1 -> 0 < m2 -> lo <= a <= hi -> lo <= b <= hi ->
  lo <= (a * m1 + b * m2) / (m1 + m2) <= hi.
Proof.
  intros H1 H2 Ha Hb. split.
  - apply Rmult_le_reg_r with (m1 + m2); [lra|]. unfold Rdiv. rewrite Rmult_assoc, Rinv_l by lra. nra.
  - apply Rmult_le_reg_r with (m1 + m2); [lra|]. unfold Rdiv. rewrite Rmult_assoc, Rinv_l by lra. nra.
Qed.

Definition axis (c : vec3 R -> R) : Prop := c = @vx R \/ c = @vy R \/ c = @vz R.

Section Tree.
  Variables (mind : R) (n : nat) (y mass : list R) (ratio : R).
  Let N := Rops mind.
  Hypothesis Hy : (6 * n <= length y)%nat.
  Hypothesis Hm : (n <= length mass)%nat.
  Hypothesis Hpos : forall i, (i < n)%nat -> 0 < nth i mass 0.
  Notation tree := (tree (T := R)).

  Definition wf (t : tree) : Prop :=
    tree_wf N n y mass (ratio * ratio) t /\ (forall b, In b (bodies t) -> (b < n)%nat).

  Lemma wf_node p l r : wf (Node p l r) -> wf l /\ wf r /\ p = merge N (ratio * ratio) (pay l) (pay r).
  Proof.
    intros [(E & Wl & Wr) B]. cbn [bodies] in B.
    split; [|split]; auto; split; auto; intros b Hb; apply B; apply in_or_app; auto.
  Qed.

  Lemma wf_sub s t : subtree s t -> wf t -> wf s.
  Proof.
    induction 1; auto; intros W; apply IHsubtree; apply wf_node in W; tauto.
  Qed.

  Lemma wf_leaf p b : wf (Leaf p b) ->
    (b < n)%nat /\ p = Pay (pos y n b) (nth b mass 0) 0 (pos y n b) (pos y n b).
  Proof.
    intros [E B]. assert (b < n)%nat as Hb by (apply B; left; auto). split; auto.
    cbn [tree_wf] in E. rewrite (leaf_payload_ok N) in E by auto. now injection E as <-.
  Qed.

  Definition strong (s : tree) : Prop :=
    summary ratio n y mass s /\ 0 < p_mass (pay s) /\
    (forall c : vec3 R -> R, axis c ->
       c (p_bmin (pay s)) <= c (p_center (pay s)) <= c (p_bmax (pay s))) /\
    (forall v D, (forall b, In b (bodies s) -> sqd v (pos y n b) <= D) -> sqd v (p_center (pay s)) <= D) /\
    p_rad (pay s) = ratio * ratio *
      Rsqr (sqrt (sqd (p_bmax (pay s)) (p_bmin (pay s))) * (1 / 2) +
            sqrt (sqd (vdivs N (vadd N (p_bmax (pay s)) (p_bmin (pay s))) 2) (p_center (pay s)))).

  Lemma axis_min_max (l r : tree) al bl ar br (k : nat) :
    In al (bodies l) -> In bl (bodies l) -> In ar (bodies r) -> In br (bodies r) ->
    exists a b, In a (bodies l ++ bodies r : list nat) /\ In b (bodies l ++ bodies r) /\
      Rmin (comp y n k al) (comp y n k ar) = comp y n k a /\
      Rmax (comp y n k bl) (comp y n k br) = comp y n k b.
  Proof.
    intros H1 H2 H3 H4.
    assert (exists a, In a (bodies l ++ bodies r) /\ Rmin (comp y n k al) (comp y n k ar) = comp y n k a) as (a & Ha & Ea).
    { unfold Rmin. destruct (Rle_dec _ _); [exists al|exists ar]; split; auto; apply in_or_app; auto. }
    assert (exists b, In b (bodies l ++ bodies r) /\ Rmax (comp y n k bl) (comp y n k br) = comp y n k b) as (b & Hb & Eb).
    { unfold Rmax. destruct (Rle_dec _ _); [exists br|exists bl]; split; auto; apply in_or_app; auto. }
    exists a, b. auto.
  Qed.

  Lemma wf_strong t : wf t -> strong t.
  Proof.
    induction t as [p b|p l IHl r IHr]; intros W.
    - apply wf_leaf in W. destruct W as [Hb ->]. unfold strong, summary. cbn [pay p_mass p_center p_bmin p_bmax p_rad bodies].
      split.
      + cbn [lsum fold_right pos vx vy vz].
        repeat (split; [lra|]).
        split; [intros b' [<-|[]]; lra|].
        repeat (split; [exists b, b; cbn; auto|]).
        exists 0. split; [lra|]. split; [lra|]. rewrite sqd_refl. split; [lra|].
        intros b' [<-|[]]. rewrite sqd_refl. lra.
      + split; [now apply Hpos|]. split; [intros c _; lra|].
        split; [intros v D H; apply H; left; auto|].
        rewrite sqd_refl, sqrt_0.
        replace (sqd _ _) with 0.
        * rewrite sqrt_0. unfold Rsqr. lra.
        * unfold sqd, vdivs, vadd. cbn. field.
    - apply wf_node in W. destruct W as (Wl & Wr & Ep).
      destruct (IHl Wl) as (Sl & Ml & Cl & Vl & Rl). destruct (IHr Wr) as (Sr & Mr & Cr & Vr & Rr).
      clear IHl IHr.
      destruct Sl as (L1 & L2 & L3 & L4 & L5 & (xa & xb & Xa & Xb & XA & XB) & (ya & yb & Ya & Yb & YA & YB) &
        (za & zb & Za & Zb & ZA & ZB) & _).
      destruct Sr as (R1 & R2 & R3 & R4 & R5 & (xa' & xb' & Xa' & Xb' & XA' & XB') & (ya' & yb' & Ya' & Yb' & YA' & YB') &
        (za' & zb' & Za' & Zb' & ZA' & ZB') & _).
      set (pl := pay l) in *. set (pr := pay r) in *.
      assert (Emass : p_mass p = p_mass pl + p_mass pr) by (rewrite Ep; reflexivity).
      assert (Ecx : vx (p_center p) = (vx (p_center pl) * p_mass pl + vx (p_center pr) * p_mass pr) / (p_mass pl + p_mass pr))
        by (rewrite Ep; reflexivity).
      assert (Ecy : vy (p_center p) = (vy (p_center pl) * p_mass pl + vy (p_center pr) * p_mass pr) / (p_mass pl + p_mass pr))
        by (rewrite Ep; reflexivity).
      assert (Ecz : vz (p_center p) = (vz (p_center pl) * p_mass pl + vz (p_center pr) * p_mass pr) / (p_mass pl + p_mass pr))
        by (rewrite Ep; reflexivity).
      assert (Enx : vx (p_bmin p) = Rmin (vx (p_bmin pl)) (vx (p_bmin pr))) by (rewrite Ep; apply nmin_R).
      assert (Eny : vy (p_bmin p) = Rmin (vy (p_bmin pl)) (vy (p_bmin pr))) by (rewrite Ep; apply nmin_R).
      assert (Enz : vz (p_bmin p) = Rmin (vz (p_bmin pl)) (vz (p_bmin pr))) by (rewrite Ep; apply nmin_R).
      assert (Exx : vx (p_bmax p) = Rmax (vx (p_bmax pl)) (vx (p_bmax pr))) by (rewrite Ep; apply nmax_R).
      assert (Exy : vy (p_bmax p) = Rmax (vy (p_bmax pl)) (vy (p_bmax pr))) by (rewrite Ep; apply nmax_R).
      assert (Exz : vz (p_bmax p) = Rmax (vz (p_bmax pl)) (vz (p_bmax pr))) by (rewrite Ep; apply nmax_R).
      assert (Erad : p_rad p = ratio * ratio *
        Rsqr (sqrt (sqd (p_bmax p) (p_bmin p)) * (1 / 2) +
              sqrt (sqd (vdivs N (vadd N (p_bmax p) (p_bmin p)) 2) (p_center p)))).
      { rewrite Rmult_comm. rewrite Ep. reflexivity. }
      clear Ep.
      (* bounding box and centre *)
      assert (Hcen : forall c : vec3 R -> R, axis c ->
         c (p_bmin p) <= c (p_center p) <= c (p_bmax p)).
      { intros c Hc. pose proof (Cl c Hc) as A. pose proof (Cr c Hc) as B.
        assert (c (p_bmin p) = Rmin (c (p_bmin pl)) (c (p_bmin pr)) /\
                c (p_bmax p) = Rmax (c (p_bmax pl)) (c (p_bmax pr)) /\
                c (p_center p) = (c (p_center pl) * p_mass pl + c (p_center pr) * p_mass pr) / (p_mass pl + p_mass pr))
          as (E1 & E2 & E3) by (destruct Hc as [->|[->| ->]]; auto).
        rewrite E1, E2, E3.
        pose proof (Rmin_l (c (p_bmin pl)) (c (p_bmin pr))). pose proof (Rmin_r (c (p_bmin pl)) (c (p_bmin pr))).
        pose proof (Rmax_l (c (p_bmax pl)) (c (p_bmax pr))). pose proof (Rmax_r (c (p_bmax pl)) (c (p_bmax pr))).
        apply mean_bounds; auto; lra. }
      assert (Hbox : forall b, In b (bodies l ++ bodies r) ->
         vx (p_bmin p) <= comp y n 0 b <= vx (p_bmax p) /\
         vy (p_bmin p) <= comp y n 1 b <= vy (p_bmax p) /\
         vz (p_bmin p) <= comp y n 2 b <= vz (p_bmax p)).
      { intros b Hb.
        rewrite Enx, Eny, Enz, Exx, Exy, Exz.
        pose proof (Rmin_l (vx (p_bmin pl)) (vx (p_bmin pr))). pose proof (Rmin_r (vx (p_bmin pl)) (vx (p_bmin pr))).
        pose proof (Rmin_l (vy (p_bmin pl)) (vy (p_bmin pr))). pose proof (Rmin_r (vy (p_bmin pl)) (vy (p_bmin pr))).
        pose proof (Rmin_l (vz (p_bmin pl)) (vz (p_bmin pr))). pose proof (Rmin_r (vz (p_bmin pl)) (vz (p_bmin pr))).
        pose proof (Rmax_l (vx (p_bmax pl)) (vx (p_bmax pr))). pose proof (Rmax_r (vx (p_bmax pl)) (vx (p_bmax pr))).
        pose proof (Rmax_l (vy (p_bmax pl)) (vy (p_bmax pr))). pose proof (Rmax_r (vy (p_bmax pl)) (vy (p_bmax pr))).
        pose proof (Rmax_l (vz (p_bmax pl)) (vz (p_bmax pr))). pose proof (Rmax_r (vz (p_bmax pl)) (vz (p_bmax pr))).
        apply in_app_or in Hb. destruct Hb as [Hb|Hb]; [apply L5 in Hb|apply R5 in Hb]; lra. }
      set (A := sqrt (sqd (p_bmax p) (p_bmin p)) * (1 / 2)) in *.
      set (mid := vdivs N (vadd N (p_bmax p) (p_bmin p)) 2) in *.
      set (B := sqrt (sqd mid (p_center p))) in *.
      assert (HA : 0 <= A) by (unfold A; pose proof (sqrt_pos (sqd (p_bmax p) (p_bmin p))); lra).
      assert (HB : 0 <= B) by apply sqrt_pos.
      assert (HAA : A * A = sqd (p_bmax p) (p_bmin p) / 4).
      { unfold A. pose proof (sqrt_sqrt _ (sqd_nonneg (p_bmax p) (p_bmin p))). nra. }
      assert (Hmid : forall v : vec3 R,
        (forall c : vec3 R -> R, axis c -> c (p_bmin p) <= c v <= c (p_bmax p)) ->
        sqd v mid <= sqd (p_bmax p) (p_bmin p) / 4).
      { intros v Hv. unfold sqd, mid, vdivs, vadd. cbn [vx vy vz N Rops nadd ndiv].
        pose proof (mid_sq _ _ _ (Hv (@vx R) (or_introl eq_refl))).
        pose proof (mid_sq _ _ _ (Hv (@vy R) (or_intror (or_introl eq_refl)))).
        pose proof (mid_sq _ _ _ (Hv (@vz R) (or_intror (or_intror eq_refl)))). lra. }
      assert (Hroot : forall x, 0 <= x <= sqd (p_bmax p) (p_bmin p) / 4 -> sqrt x <= A).
      { intros x [H1 H2]. rewrite <- HAA in H2. rewrite <- (sqrt_square A HA). now apply sqrt_le_1_alt. }
      split; [|split; [|split; [|split]]]; cbn [pay bodies].
      + unfold summary. cbn [pay bodies]. rewrite !lsum_app, <- L1, <- R1, <- L2, <- R2, <- L3, <- R3, <- L4, <- R4.
        split; [auto|].
        split; [rewrite Ecx, Emass; field; lra|].
        split; [rewrite Ecy, Emass; field; lra|].
        split; [rewrite Ecz, Emass; field; lra|].
        split; [exact Hbox|].
        split; [rewrite Enx, Exx, XA, XB, XA', XB'; now apply axis_min_max|].
        split; [rewrite Eny, Exy, YA, YB, YA', YB'; now apply axis_min_max|].
        split; [rewrite Enz, Exz, ZA, ZB, ZA', ZB'; now apply axis_min_max|].
        exists (A + B). split; [lra|]. split; [rewrite Erad; unfold Rsqr; ring|].
        split.
        * assert (B <= A).
          { apply Hroot. split; [apply sqd_nonneg|]. rewrite sqd_sym. now apply Hmid. }
          nra.
        * intros b Hb. apply Hbox in Hb. destruct Hb as (B1 & B2 & B3).
          assert (sqrt (sqd (pos y n b) mid) <= A) as HC.
          { apply Hroot. split; [apply sqd_nonneg|]. apply Hmid.
            intros c [->|[->| ->]]; cbn; auto. }
          pose proof (triangle2 (pos y n b) mid (p_center p)) as HT. fold B in HT.
          pose proof (sqrt_pos (sqd (pos y n b) mid)). nra.
      + lra.
      + exact Hcen.
      + intros v D HD.
        assert (HL : sqd v (p_center pl) <= D) by (apply Vl; intros; apply HD; apply in_or_app; auto).
        assert (HR : sqd v (p_center pr) <= D) by (apply Vr; intros; apply HD; apply in_or_app; auto).
        set (w := p_mass pl / (p_mass pl + p_mass pr)).
        assert (Hw : 0 <= w <= 1).
        { unfold w. split; [apply Rlt_le, Rdiv_lt_0_compat; lra|].
          apply Rmult_le_reg_r with (p_mass pl + p_mass pr); [lra|].
          unfold Rdiv. rewrite Rmult_assoc, Rinv_l by lra. lra. }
        assert (Hc : forall c : R -> R -> R, True) by auto.
        assert (Kx : vx v - vx (p_center p) = w * (vx v - vx (p_center pl)) + (1 - w) * (vx v - vx (p_center pr)))
          by (rewrite Ecx; unfold w; field; lra).
        assert (Ky : vy v - vy (p_center p) = w * (vy v - vy (p_center pl)) + (1 - w) * (vy v - vy (p_center pr)))
          by (rewrite Ecy; unfold w; field; lra).
        assert (Kz : vz v - vz (p_center p) = w * (vz v - vz (p_center pl)) + (1 - w) * (vz v - vz (p_center pr)))
          by (rewrite Ecz; unfold w; field; lra).
        assert (E : sqd v (p_center p) = w * sqd v (p_center pl) + (1 - w) * sqd v (p_center pr)
                    - w * (1 - w) * sqd (p_center pl) (p_center pr)).
        { unfold sqd. rewrite Kx, Ky, Kz. ring. }
        rewrite E. pose proof (sqd_nonneg (p_center pl) (p_center pr)).
        assert (0 <= w * (1 - w)) by nra. nra.
      + exact Erad.
  Qed.

  Lemma wf_summary t s : wf t -> subtree s t -> summary ratio n y mass s.
  Proof. intros W S. apply wf_strong. now apply wf_sub with t. Qed.

  (** ** Exactly once *)

  Lemma accept_R v p : bh_accept N v p = true <-> p_rad p < sqd v (p_center p).
  Proof. apply nltb_R. Qed.
  Lemma accept_R_false v p : bh_accept N v p = false <-> sqd v (p_center p) <= p_rad p.
  Proof.
    transitivity (~ p_rad p < sqd v (p_center p)); [apply nltb_R_false|]. split; intros; lra.
  Qed.

  Definition elsewhere (v : vec3 R) (b : nat) : bool :=
    if Req_EM_T (sqd v (pos y n b)) 0 then false else true.

  Lemma elsewhere_false v b : elsewhere v b = false <-> v = pos y n b.
  Proof.
    unfold elsewhere. destruct (Req_EM_T (sqd v (pos y n b)) 0) as [E|E]; split; auto.
    - intros _. apply sqd_zero. lra.
    - discriminate.
    - intros ->. elim E. apply sqd_refl.
  Qed.

  Lemma accepted_elsewhere v s b : 1 <= ratio -> wf s -> bh_accept N v (pay s) = true ->
    In b (bodies s) -> elsewhere v b = true.
  Proof.
    intros Hr W Ha Hb. apply accept_R in Ha.
    destruct (wf_strong s W) as (S & _).
    destruct S as (_ & _ & _ & _ & _ & _ & _ & _ & (r & Hr0 & Er & _ & Hin)).
    specialize (Hin b Hb).
    destruct (elsewhere v b) eqn:E; auto. apply elsewhere_false in E. subst v.
    rewrite Er in Ha. exfalso.
    assert (1 <= ratio * ratio) by nra. assert (0 <= r * r) by nra. nra.
  Qed.

  Lemma accepted_bodies v t : 1 <= ratio -> wf t ->
    flat_map bodies (accepted (bh_accept N v) t) = filter (elsewhere v) (bodies t).
  Proof.
    intros Hr. induction t as [p b|p l IHl r IHr]; intros W; cbn [accepted].
    - destruct (bh_accept N v (pay (Leaf p b))) eqn:E.
      + cbn [flat_map app]. cbn [bodies filter].
        rewrite (accepted_elsewhere v (Leaf p b) b) by (auto; left; auto). reflexivity.
      + apply accept_R_false in E. apply wf_leaf in W. destruct W as [Hb ->].
        cbn [pay p_rad p_center] in E. apply sqd_zero in E.
        cbn [flat_map bodies filter]. assert (elsewhere v b = false) as -> by (now apply elsewhere_false).
        reflexivity.
    - destruct (bh_accept N v (pay (Node p l r))) eqn:E.
      + cbn [flat_map]. rewrite app_nil_r. symmetry.
        assert (G : forall l', (forall b, In b l' -> elsewhere v b = true) -> filter (elsewhere v) l' = l').
        { induction l' as [|b l' IH]; intros H; cbn; auto. rewrite H by (left; auto). f_equal.
          apply IH. intros; apply H; right; auto. }
        apply G. intros b Hb. eapply accepted_elsewhere; eauto.
      + apply wf_node in W. destruct W as (Wl & Wr & _). rewrite flat_map_app, IHl, IHr by auto.
        cbn [bodies]. now rewrite filter_app.
  Qed.

  (** ** Agreement with the direct sum *)

  (** force of a cluster whose bodies all sit at its centre *)
  Definition vforce (v : vec3 R) (m1 : R) (b : nat) : vec3 R :=
    force N v (pos y n b) m1 (nth b mass 0).

  Definition lsumV (l : list nat) (f : nat -> vec3 R) : vec3 R :=
    V3 (lsum l (fun b => vx (f b))) (lsum l (fun b => vy (f b))) (lsum l (fun b => vz (f b))).

  Lemma lsumV_app l1 l2 f : lsumV (l1 ++ l2) f = vadd N (lsumV l1 f) (lsumV l2 f).
  Proof. unfold lsumV, vadd. cbn. now rewrite !lsum_app. Qed.

  Lemma cluster_direct v m1 s : wf s -> (forall b, In b (bodies s) -> pos y n b = p_center (pay s)) ->
    force N v (p_center (pay s)) m1 (p_mass (pay s)) = lsumV (bodies s) (vforce v m1).
  Proof.
    intros W Hb. destruct (wf_strong s W) as ((E & _) & _). rewrite E. clear E.
    generalize dependent (p_center (pay s)). generalize (bodies s). intros l c Hb.
    unfold lsumV. unfold N at 1. rewrite force_R. cbn zeta.
    assert (G : forall (g : vec3 R -> R) , (forall b, In b l -> g (vforce v m1 b) =
        (g v - g c) * (- (m1 * nth b mass 0) / soft_cube mind (vd2 v c))) ->
      (g v - g c) * (- (m1 * lsum l (fun b => nth b mass 0)) / soft_cube mind (vd2 v c)) =
      lsum l (fun b => g (vforce v m1 b))).
    { intros g Hg. erewrite (lsum_ext l (fun b => g (vforce v m1 b))) by (intros b Hin; apply Hg; auto).
      transitivity (((g v - g c) * (- m1 / soft_cube mind (vd2 v c))) * lsum l (fun b => nth b mass 0)).
      - unfold Rdiv. ring.
      - rewrite <- lsum_scal. apply lsum_ext. intros b _. unfold Rdiv. ring. }
    f_equal; apply G; intros b Hin; unfold vforce; rewrite Hb by auto; unfold N; rewrite force_R; reflexivity.
  Qed.

  Lemma fold_cluster v m1 l F : (forall s, In s l -> wf s /\
      forall b, In b (bodies s) -> pos y n b = p_center (pay s)) ->
    fold_left (cluster_force N v m1) l F = vadd N F (lsumV (flat_map bodies l) (vforce v m1)).
  Proof.
    revert F. induction l as [|s l IH]; intros F H; cbn [fold_left flat_map].
    - unfold lsumV, vadd. cbn. rewrite !Rplus_0_r. now destruct F.
    - rewrite IH by (intros; apply H; right; auto). unfold cluster_force at 1.
      destruct (H s) as [W Hb]; [left; auto|]. rewrite cluster_direct by auto.
      rewrite lsumV_app. unfold vadd. cbn. f_equal; ring.
  Qed.

  Lemma vforce_same v m1 b : v = pos y n b -> vforce v m1 b = V3 0 0 0.
  Proof. intros ->. unfold vforce, N. rewrite force_R. cbn zeta. f_equal; ring. Qed.

  (** positions of bodies that differ are at least [dmin] apart, no two are more than [dmax] apart *)
  Lemma far_accept dmin dmax v s : 0 < dmin -> 0 <= dmax -> 2 * dmax <= ratio * dmin -> 0 <= ratio ->
    wf s ->
    (forall a b, In a (bodies s) -> In b (bodies s) -> pos y n a = pos y n b \/ dmin * dmin <= sqd (pos y n a) (pos y n b)) ->
    (forall b, In b (bodies s) -> sqd v (pos y n b) <= dmax * dmax) ->
    bh_accept N v (pay s) = true -> forall b, In b (bodies s) -> pos y n b = p_center (pay s).
  Proof.
    intros Hdm HdM Hrat Hr0 W Hsep Hfar Ha b Hb.
    destruct (wf_strong s W) as (S & Mp & Hcen & Hconv & Erad).
    destruct S as (S1 & S2 & S3 & S4 & Hbox & _ & _ & _ & (r & Hr & Er & Hle & Hin)).
    (* either all coincide or some pair is separated *)
    assert (Hdec : (forall a, In a (bodies s) -> pos y n a = pos y n b) \/
                   exists a, In a (bodies s) /\ dmin * dmin <= sqd (pos y n a) (pos y n b)).
    { revert Hsep Hb. generalize (bodies s). intros l Hsep Hb.
      assert (G : forall l', (forall a, In a l' -> In a l) ->
        (forall a, In a l' -> pos y n a = pos y n b) \/
        exists a, In a l' /\ dmin * dmin <= sqd (pos y n a) (pos y n b)).
      { induction l' as [|a l' IH]; intros Hsub; [left; intros a []|].
        destruct IH as [IH|(a' & Ha' & E')]; [intros; apply Hsub; right; auto| |].
        - destruct (Hsep a b) as [E|E]; auto; [apply Hsub; left; auto| |].
          + left. intros a' [<-|Hin']; auto.
          + right. exists a. split; auto. left; auto.
        - right. exists a'. split; auto. right; auto. }
      apply G. auto. }
    destruct Hdec as [Hall|(a & Ha' & Hd)].
    - (* degenerate cluster: the centre is the common position *)
      assert (Hz : sqd (pos y n b) (p_center (pay s)) <= 0).
      { apply Hconv. intros a Hin'. rewrite (Hall a Hin'), sqd_refl. lra. }
      now apply sqd_zero.
    - exfalso. apply accept_R in Ha.
      assert (HD : sqd v (p_center (pay s)) <= dmax * dmax) by (apply Hconv; auto).
      (* half the diagonal is at least dmin / 2 *)
      assert (HB : sqd (pos y n a) (pos y n b) <= sqd (p_bmax (pay s)) (p_bmin (pay s))).
      { destruct (Hbox a Ha') as (A1 & A2 & A3). destruct (Hbox b Hb) as (B1 & B2 & B3).
        assert (G : forall lo hi x z, lo <= x <= hi -> lo <= z <= hi -> (x - z) * (x - z) <= (hi - lo) * (hi - lo))
          by (intros; nra).
        unfold sqd, pos. cbn [vx vy vz].
        pose proof (G _ _ _ _ A1 B1). pose proof (G _ _ _ _ A2 B2). pose proof (G _ _ _ _ A3 B3). lra. }
      set (D := sqd (p_bmax (pay s)) (p_bmin (pay s))) in *.
      assert (HsD : dmin <= sqrt D).
      { rewrite <- (sqrt_square dmin) by lra. apply sqrt_le_1_alt. lra. }
      match type of Erad with _ = _ * Rsqr (_ + ?B) => set (Bm := B) in *; assert (HBm : 0 <= Bm) by apply sqrt_pos end.
      assert (Hbig : dmax * dmax <= p_rad (pay s)).
      { rewrite Erad. unfold Rsqr. set (q := sqrt D * (1 / 2) + Bm).
        assert (dmin * (1 / 2) <= q) by (unfold q; lra).
        assert (dmax <= ratio * q) by nra.
        replace (ratio * ratio * (q * q)) with ((ratio * q) * (ratio * q)) by ring. nra. }
      lra.
  Qed.
End Tree.
