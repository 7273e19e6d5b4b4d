(** Errors of a Bulirsch-Stoer step against an exact solution. *)
From Coq Require Import ZArith Reals List Arith Lia Lra.
From Verif Require Import Num Arr ArrLemmas SpecPhys SpecEngine RLemmas ModelSolverBase ModelButcher ModelExtrap
  ModelSolver LemOk LemBufR SpecSolver SpecImplicit SpecBS SpecConv SpecExtrap LemRk LemExact LemImplicit LemExtrap LemBS LemConv.
Import ListNotations.
Set Implicit Arguments.
Local Open Scope R_scope.

(** Lagrange weights at 0 sum to one *)
Definition bs_weight (m i : nat) : R :=
  rprod m (fun j => if Nat.eqb j i then 1
    else (/ INR (bs_seq j)) ^ 2 / ((/ INR (bs_seq j)) ^ 2 - (/ INR (bs_seq i)) ^ 2)).
Lemma bs_weight_sum l : rsum (S l) (bs_weight (S l)) = 1.
Proof.
  set (cn := map bs_seq (seq 0 (S l))).
  assert (G : good_counts cn) by apply bs_counts_good.
  assert (Len : length cn = S l) by (unfold cn; now rewrite map_length, seq_length).
  destruct (node_good (ext_counts_good (o := 2) ltac:(lia) G)) as [P D].
  rewrite ext_counts_length, Len in P, D.
  pose proof (@tri_lagrange _ (S l) P D (fun _ => 1) l l ltac:(lia)) as X.
  rewrite (@tri_const _ (S l) D) in X by lia. rewrite Nat.sub_diag in X. rewrite X.
  unfold at_zero. apply rsum_ext. intros i Hi. rewrite Rmult_1_l. unfold bs_weight.
  assert (Q : forall i, (i < S l)%nat -> / node (ext_counts 2 cn) i = (/ INR (bs_seq i)) ^ 2).
  { intros q Hq. unfold node. rewrite ext_counts_nth by lia.
    unfold cn. rewrite nth_map_seq0 by auto. rewrite pow_INR. symmetry. apply pow_inv. }
  apply rprod_ext. intros q Hq. destruct (Nat.eqb q i); auto. cbn [Nat.add]. now rewrite !Q by lia.
Qed.
Lemma extrapolated_nth ps F t dt y l c : (c < ps)%nat ->
  nth c (extrapolated ps F t dt y 0 (S l)) 0 =
  rsum (S l) (fun i => nth c (smoothed ps F t dt y (bs_seq i)) 0 * bs_weight (S l) i).
Proof. intros H. unfold extrapolated. rewrite nth_map_seq0 by auto. reflexivity. Qed.
Lemma bs_seq_pos i : (1 <= bs_seq i)%nat.
Proof.
  destruct i as [|i]; cbn [bs_seq]; [lia|].
  destruct (Nat.even i).
  - pose proof (Nat.pow_nonzero 2 (i / 2 + 2)). lia.
  - pose proof (Nat.pow_nonzero 2 (i / 2 + 1)). lia.
Qed.

Lemma smoothed_len ps F t dt y n : length (smoothed ps F t dt y n) = ps.
Proof. unfold smoothed. destruct (run_steps _ _ _ _). now rewrite map_length, seq_length. Qed.

Section Conv.
  Variables (ps : nat) (Z : Type) (F : Z -> R -> list R -> list R) (adm : Z -> R -> Prop) (t0 T : R) (Y : R -> list R).
  Notation V := (V ps).
  Notation near := (near ps).
  Notation lincomb := (lincomb ps).
  Notation inr := (inr t0 T).
  Notation incr_le := (incr_le ps Y).
  Hypothesis Hpos : forall z d, adm z d -> 0 <= d.
  Hypothesis Hup : forall z d d', adm z d -> d <= d' -> adm z d'.
  Hypothesis HT : 0 <= T.

  Lemma incr_trans t h g y y1 y2 b c : incr_le t h y y1 b -> incr_le (t + h) g y1 y2 c -> incr_le t (h + g) y y2 (b + c).
  Proof.
    intros H1 H2 q Hq. specialize (H1 q Hq). specialize (H2 q Hq). rewrite <- Rplus_assoc.
    match goal with |- Rabs ?x <= _ => replace x with
      (((nth q y1 0 - nth q y 0) - (nth q (Y (t + h)) 0 - nth q (Y t) 0)) +
       ((nth q y2 0 - nth q y1 0) - (nth q (Y (t + h + g)) 0 - nth q (Y (t + h)) 0))) by ring end.
    eapply Rle_trans; [apply Rabs_triang|]. lra.
  Qed.
  Lemma grown_time K c h1 h2 d : 0 <= K -> 0 <= c -> 0 <= d -> 0 <= h1 <= h2 -> grown K c h1 d <= grown K c h2 d.
  Proof.
    intros HK Hc Hd Hh. replace h2 with (h1 + (h2 - h1)) by ring.
    eapply Rle_trans; [|apply grown_grown; lra].
    apply grown_ge; try lra. eapply Rle_trans; [exact Hd|]. apply grown_ge; lra.
  Qed.

  Variables (K C : R).
  Hypothesis HP : good_pair ps F adm t0 T Y K C.

  Lemma pair_run z t h y d n g : inr t h -> adm z d -> V y -> near y (Y t) d -> 0 <= g -> INR n * g = h ->
    forall c, (c <= n)%nat ->
    let uv := run_steps (stetter_value ps (F z)) t (y, y) (repeat g c) in
    let E := grown K (C * g) h d in
    V (fst uv) /\ V (snd uv) /\
    near (fst uv) (Y (t + INR c * g)) (grown K (C * g) (INR c * g) d) /\
    near (snd uv) (Y (t + INR c * g)) (grown K (C * g) (INR c * g) d) /\
    incr_le t (INR c * g) y (fst uv) (INR c * g * (K * E + C * g)) /\
    incr_le t (INR c * g) y (snd uv) (INR c * g * (K * E + C * g)).
  Proof.
    intros Hi Ha Vy Hy Hg Hn. pose proof (Hpos Ha) as Hd. pose proof HP as (HK & HC & HP'). pose proof Hi as (I1 & I2 & I3).
    assert (HCg : 0 <= C * g) by now apply Rmult_le_pos.
    induction c as [|c IH]; intros Hc.
    - cbn [repeat run_steps fst snd INR]. cbv zeta. rewrite !Rmult_0_l, Rplus_0_r.
      unfold grown at 1 2. rewrite !Rmult_0_r, exp_0, Rmult_1_l, Rplus_0_r.
      split; auto. split; auto. split; auto. split; auto.
      assert (Z0 : incr_le t 0 y y 0).
      { intros q Hq. rewrite Rplus_0_r. match goal with |- Rabs ?x <= _ => replace x with 0 by ring end. rewrite Rabs_R0. lra. }
      auto.
    - cbv zeta in *. rewrite run_steps_snoc.
      destruct IH as (A1 & A2 & A3 & A4 & A5 & A6); [lia|].
      set (uv := run_steps (stetter_value ps (F z)) t (y, y) (repeat g c)) in *.
      set (E := grown K (C * g) h d) in *. set (dc := grown K (C * g) (INR c * g) d) in *.
      assert (P0 : 0 <= INR c * g) by (apply Rmult_le_pos; auto; apply pos_INR).
      assert (P1 : INR (S c) * g <= h) by (rewrite <- Hn; apply Rmult_le_compat_r; auto; now apply le_INR).
      assert (P2 : INR (S c) * g = INR c * g + g) by (rewrite S_INR; ring).
      assert (Q1 : 0 <= dc) by (eapply Rle_trans; [exact Hd|apply grown_ge; auto]).
      assert (Q2 : dc <= E) by (apply grown_time; auto; lra).
      assert (I' : inr (t + INR c * g) g) by (split; [lra|]; split; lra).
      destruct (HP' z (t + INR c * g) g uv dc I' (Hup Ha (grown_ge HK HCg P0 Hd)) A1 A2 A3 A4) as (B1 & B2 & B3 & B4).
      assert (G1 : grown K (C * g) g dc <= grown K (C * g) (INR (S c) * g) d).
      { rewrite P2. apply grown_grown; auto. }
      assert (G2 : dc + (K * g * dc + C * g * g) <= grown K (C * g) (INR (S c) * g) d).
      { eapply Rle_trans; [|exact G1]. apply grown_step; auto. }
      assert (G3 : INR c * g * (K * E + C * g) + (K * g * dc + C * g * g) <= INR (S c) * g * (K * E + C * g)).
      { rewrite P2. assert (K * dc <= K * E) by now apply Rmult_le_compat_l.
        assert (g * (K * dc) <= g * (K * E)) by now apply Rmult_le_compat_l. lra. }
      split; auto. split; auto.
      assert (TT : t + INR (S c) * g = t + INR c * g + g) by (rewrite P2; ring). rewrite !TT.
      split; [exact (near_mono (incr_near A3 B3) G2)|].
      split; [exact (near_mono (incr_near A4 B4) G2)|].
      split; (eapply incr_mono; [|exact G3]); rewrite P2; [exact (incr_trans A5 B3)|exact (incr_trans A6 B4)].
  Qed.

  Lemma good_smoothed n : (1 <= n)%nat -> good_step ps adm t0 T Y 0 (fun z t h y => smoothed ps (F z) t h y n).
  Proof.
    intros Hn. pose proof HP as (HK & HC & _).
    set (X := exp (K * T)). assert (HX : 0 < X) by apply exp_pos.
    exists (K * X), (K * X * C * T + C).
    assert (HKX : 0 <= K * X) by (apply Rmult_le_pos; lra).
    assert (HKXC : 0 <= K * X * C) by (apply Rmult_le_pos; lra).
    split; auto. split; [assert (0 <= K * X * C * T) by (apply Rmult_le_pos; lra); lra|].
    intros z t h y d Hi Ha Vy Hy. pose proof (Hpos Ha) as Hd. split; [apply smoothed_len|].
    pose proof Hi as (I1 & I2 & I3). pose proof (inr_T Hi) as Hh.
    assert (Hn' : 0 < INR n) by (apply lt_0_INR; lia).
    assert (Hn1 : 1 <= INR n) by (change 1 with (INR 1); now apply le_INR).
    set (g := h / INR n).
    assert (Hg : 0 <= g) by (unfold g, Rdiv; apply Rmult_le_pos; [lra|]; left; now apply Rinv_0_lt_compat).
    assert (Hng : INR n * g = h) by (unfold g; field; lra).
    assert (Hgh : g <= h) by (rewrite <- Hng; rewrite <- (Rmult_1_l g) at 1; apply Rmult_le_compat_r; auto).
    destruct (@pair_run z t h y d n g Hi Ha Vy Hy Hg Hng n (Nat.le_refl n)) as (A1 & A2 & _ & _ & A5 & A6).
    rewrite Hng in A5, A6. set (uv := run_steps _ _ _ _) in *.
    set (E := grown K (C * g) h d) in *.
    assert (HE : E <= X * (d + C * h * h)).
    { unfold E, grown. apply Rmult_le_compat.
      - left. apply exp_pos.
      - apply Rplus_le_le_0_compat; [lra|]. apply Rmult_le_pos; [apply Rmult_le_pos; lra|lra].
      - unfold X. destruct (Req_dec (K * h) (K * T)) as [->|]; [lra|]. left. apply exp_increasing.
        assert (K * h <= K * T) by (apply Rmult_le_compat_l; lra). lra.
      - apply Rplus_le_compat_l. apply Rmult_le_compat_r; [lra|]. apply Rmult_le_compat_l; lra. }
    assert (HB : h * (K * E + C * g) <= K * X * h * d + (K * X * C * T + C) * h * (h + 0)).
    { apply Rle_trans with (h * (K * (X * (d + C * h * h)) + C * h)).
      - apply Rmult_le_compat_l; [lra|]. apply Rplus_le_compat; apply Rmult_le_compat_l; auto.
      - replace (h * (K * (X * (d + C * h * h)) + C * h)) with (K * X * h * d + (K * X * C * (h * h)) * h + C * (h * h)) by ring.
        replace (K * X * h * d + (K * X * C * T + C) * h * (h + 0)) with (K * X * h * d + (K * X * C * (h * h)) * T + C * (h * h)) by ring.
        assert (0 <= K * X * C * (h * h)) by (apply Rmult_le_pos; auto; apply Rmult_le_pos; lra).
        assert ((K * X * C * (h * h)) * h <= (K * X * C * (h * h)) * T) by (apply Rmult_le_compat_l; lra). lra. }
    intros q Hq. eapply Rle_trans; [|exact HB]. specialize (A5 q Hq). specialize (A6 q Hq).
    unfold smoothed. fold g. fold uv. destruct uv as [u v]. cbn [fst snd] in *. rewrite nth_map_seq0 by auto.
    set (b := h * (K * E + C * g)) in *. set (r := nth q (Y (t + h)) 0 - nth q (Y t) 0) in *.
    match goal with |- Rabs ?x <= _ => replace x with
      (/ 2 * (nth q u 0 - nth q y 0 - r) + / 2 * (nth q v 0 - nth q y 0 - r)) by field end.
    eapply Rle_trans; [apply Rabs_triang|]. rewrite !Rabs_mult, (Rabs_right (/ 2)) by lra. lra.
  Qed.

  (** all levels below a bound at once *)
  Lemma smoothed_all m : exists K' C', 0 <= K' /\ 0 <= C' /\ forall i, (i < m)%nat -> forall z t h y d, inr t h -> adm z d -> V y -> near y (Y t) d ->
    incr_le t h y (smoothed ps (F z) t h y (bs_seq i)) (K' * h * d + C' * h * h).
  Proof.
    induction m as [|m (K1 & C1 & H1 & H2 & H)].
    - exists 0, 0. split; [lra|]. split; [lra|]. intros; lia.
    - destruct (@good_smoothed (bs_seq m) (bs_seq_pos m)) as (K2 & C2 & H3 & H4 & H').
      exists (K1 + K2), (C1 + C2). split; [lra|]. split; [lra|]. intros i Hi z t h y d Hin Ha Vy Hy. pose proof (Hpos Ha) as Hd.
      pose proof (inr_T Hin) as Hh.
      assert (W : forall a b, 0 <= a -> 0 <= b -> 0 <= a * h * d + b * h * h).
      { intros a b Ha0 Hb0. apply Rplus_le_le_0_compat; repeat apply Rmult_le_pos; lra. }
      destruct (Nat.eq_dec i m) as [->|].
      + eapply incr_mono; [apply (H' z t h y d); auto|]. specialize (W _ _ H1 H2). rewrite Rplus_0_r. lra.
      + eapply incr_mono; [exact (H i ltac:(lia) z t h y d Hin Ha Vy Hy)|]. specialize (W _ _ H3 H4). lra.
  Qed.
  Lemma extrapolated_all m : exists K' C', 0 <= K' /\ 0 <= C' /\ forall l, (l < m)%nat -> forall z t h y d, inr t h -> adm z d -> V y -> near y (Y t) d ->
    incr_le t h y (extrapolated ps (F z) t h y 0 (S l)) (K' * h * d + C' * h * h).
  Proof.
    destruct (smoothed_all m) as (K1 & C1 & H1 & H2 & H).
    set (B := rsum m (fun l => rsum (S l) (fun i => Rabs (bs_weight (S l) i)))).
    assert (B0 : forall l, 0 <= rsum (S l) (fun i => Rabs (bs_weight (S l) i))) by (intros; apply rsum_pos; intros; apply Rabs_pos).
    assert (HB : 0 <= B) by (apply rsum_pos; auto).
    exists (B * K1), (B * C1). split; [now apply Rmult_le_pos|]. split; [now apply Rmult_le_pos|].
    intros l Hl z t h y d Hin Ha Vy Hy q Hq. pose proof (Hpos Ha) as Hd. pose proof (inr_T Hin) as Hh. rewrite extrapolated_nth by auto.
    set (b := K1 * h * d + C1 * h * h).
    assert (Hb : 0 <= b) by (apply Rplus_le_le_0_compat; repeat apply Rmult_le_pos; lra).
    set (r := nth q (Y (t + h)) 0 - nth q (Y t) 0).
    match goal with |- Rabs ?x <= _ => replace x with
      (rsum (S l) (fun i => (nth q (smoothed ps (F z) t h y (bs_seq i)) 0 - nth q y 0 - r) * bs_weight (S l) i)) end.
    - eapply Rle_trans; [apply rsum_abs|].
      apply Rle_trans with (rsum (S l) (fun i => b * Rabs (bs_weight (S l) i))).
      + apply rsum_le. intros i Hi. rewrite Rabs_mult. apply Rmult_le_compat_r; [apply Rabs_pos|].
        apply (H i ltac:(lia) z); auto.
      + rewrite rsum_scal. replace (B * K1 * h * d + B * C1 * h * h) with (b * B) by (unfold b; ring).
        apply Rmult_le_compat_l; auto. apply (@rsum_in m (fun l => rsum (S l) (fun i => Rabs (bs_weight (S l) i)))); auto.
    - rewrite (@rsum_ext (S l) (fun i => (nth q (smoothed ps (F z) t h y (bs_seq i)) 0 - nth q y 0 - r) * bs_weight (S l) i)
        (fun i => nth q (smoothed ps (F z) t h y (bs_seq i)) 0 * bs_weight (S l) i - (nth q y 0 + r) * bs_weight (S l) i)) by (intros; ring).
      rewrite rsum_minus, rsum_scal, bs_weight_sum. ring.
  Qed.

  Lemma good_bs Lv thr : (1 <= Lv)%nat -> exists K' C', 0 <= K' /\ 0 <= C' /\ forall z t h y y' d, inr t h -> adm z d -> V y -> near y (Y t) d ->
    bs_result ps (F z) Lv thr t h y y' -> V y' /\ incr_le t h y y' (K' * h * d + C' * h * h).
  Proof.
    intros HLv.
    destruct (smoothed_all 2) as (K1 & C1 & H1 & H2 & HS). destruct (extrapolated_all Lv) as (K2 & C2 & H3 & H4 & HE).
    exists (K1 + K2), (C1 + C2). split; [lra|]. split; [lra|]. intros z t h y y' d Hin Ha Vy Hy HB. pose proof (Hpos Ha) as Hd.
    pose proof (inr_T Hin) as Hh.
    assert (W : forall a b, 0 <= a -> 0 <= b -> 0 <= a * h * d + b * h * h).
    { intros a b Ha0 Hb0. apply Rplus_le_le_0_compat; repeat apply Rmult_le_pos; lra. }
    pose proof (W _ _ H1 H2). pose proof (W _ _ H3 H4).
    destruct Lv as [|[|[|Lv]]]; [lia| | |]; cbn [bs_result] in HB.
    - subst y'. split; [apply smoothed_len|]. eapply incr_mono; [exact (HS 0%nat ltac:(lia) z t h y d Hin Ha Vy Hy)|]. lra.
    - subst y'. split; [apply smoothed_len|]. eapply incr_mono; [exact (HS 1%nat ltac:(lia) z t h y d Hin Ha Vy Hy)|]. lra.
    - destruct HB as (l & Hl & -> & _). split.
      { unfold extrapolated, LemBufR.V. now rewrite map_length, seq_length. }
      eapply incr_mono; [exact (HE l ltac:(lia) z t h y d Hin Ha Vy Hy)|]. lra.
  Qed.
End Conv.
