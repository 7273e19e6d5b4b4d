(** Errors of every solver against an exact solution. *)
From Coq Require Import ZArith Reals List Arith Lia Lra.
From Verif Require Import Num Arr ArrLemmas SpecPhys SpecEngine RLemmas ModelSolverBase ModelButcher ModelExtrap
  ModelSolver LemOk LemBufR SpecSolver SpecImplicit SpecBS SpecConv LemSolver LemRk LemSolverTime LemExact LemImplicit
  LemExtrap LemBS LemConv LemConvBs LemConvRk.
Import ListNotations.
Set Implicit Arguments.
Local Open Scope R_scope.

(** the same solver but for its buffers *)
Fixpoint same (a b : @solver R) : Prop :=
  match a, b with
  | SEuler _, SEuler _ | SMidpoint _, SMidpoint _ | SStetter _, SStetter _ | SRk4 _, SRk4 _ => True
  | STrapeze r _, STrapeze r' _ => r' = r
  | SButcher p _, SButcher p' _ => p' = p
  | SBs p _, SBs p' _ => p' = p
  | SAdams p a _ _, SAdams p' b _ _ => p' = p /\ same a b
  | _, _ => False
  end.
Lemma same_refl s : same s s.
Proof. induction s; cbn; auto. Qed.

Lemma ab_sum r : (1 <= r <= 5)%nat -> rsum r (fun k => nth k (ab_coeff r) 0) = 1.
Proof. intros H. destruct r as [|[|[|[|[|[|r]]]]]]; try lia; cbn [rsum nth ab_coeff]; lra. Qed.

Section Conv.
  Context {E : Type} (mind : R) (ps : nat) (Z : Type)
          (ef : Z -> E -> nat -> R -> list R -> list R -> option (E * list R))
          (garbage : Z -> nat -> list R) (F : Z -> R -> list R -> list R).
  Notation N := (Rops mind).
  Notation eng := (@eng R E).
  Variables (adm : Z -> R -> Prop) (G : R -> list R) (L t0 T : R) (Y : R -> list R) (M : R).
  Notation V := (V ps).
  Notation near := (near ps).
  Notation lincomb := (lincomb ps).
  Notation inr := (inr t0 T).
  Notation incr_le := (incr_le ps Y).
  Notation kn := (kn ps G).
  Notation kns := (kns ps G).
  Notation Ex := (@Ex E ps).
  Hypothesis Hps : (0 < ps)%nat.
  Hypothesis Hgarb : forall z n, V (garbage z n).
  Hypothesis HF : forall z t y, V y -> V (F z t y).
  Hypothesis Hef : forall z q step t y f, V y -> V f -> ef z q step t y f = Some (q, F z t y).
  Hypothesis HL0 : 0 <= L.
  Hypothesis Hpos : forall z d, adm z d -> 0 <= d.
  Hypothesis Hup : forall z d d', adm z d -> d <= d' -> adm z d'.
  Hypothesis HL : forall z t t' u d, adm z d -> V u -> t0 <= t' <= t0 + T -> near u (Y t') d ->
    near (F z t u) (G t') (L * (d + Rabs (t - t'))).
  Hypothesis HT : 0 <= T.
  Hypothesis HYd : forall t q, t0 <= t <= t0 + T -> (q < ps)%nat ->
    derivable_pt_lim (fun s => nth q (Y s) 0) t (nth q (G t) 0).
  Hypothesis HM0 : 0 <= M.
  Hypothesis HM : forall t q, t0 <= t <= t0 + T -> (q < ps)%nat -> Rabs (nth q (G t) 0) <= M.
  Hypothesis HG : forall t h, inr t h -> near (G (t + h)) (G t) (L * (M + 1) * h).
  Let mf := False.
  Notation mu := (L * (M + 1)).

  (** the private state agrees with the exact solution up to [d] at time [t] *)
  Fixpoint J (z : Z) (hm : R) (s : @solver R) (t : R) (y : list R) (d : R) : Prop :=
    match s with
    | SEuler b => euler_inv ps b
    | SMidpoint b => midpoint_inv ps b
    | SStetter b => exists uv, stx ps (F z) t uv b /\ (~ running b -> fst uv = snd uv) /\ y = half_sum ps uv /\
        near (fst uv) (Y t) d /\ near (snd uv) (Y t) d
    | SRk4 b => rk4_inv ps b
    | STrapeze _ b => trapeze_inv ps b
    | SButcher p b => forall b', b = Some b' -> bufs_ok ps p b' /\
        (bt_implicit (rp_table p) = true -> kns t (stX L M p hm d) (bt_steps (rp_table p)) (rb_k b'))
    | SBs p b => bs_good ps (F z) p b
    | SAdams p st b step =>
        ((step <= ap_rank p)%nat -> J z hm st t y d) /\
        match b with
        | None => step = O
        | Some b => length (ab_f b) = ap_rank p /\ Forall V (ab_f b) /\
            (forall i, (i < step <= i + ap_rank p)%nat ->
               kn t (L * d + mu * INR (step - i) * hm) (nth (i mod ap_rank p) (ab_f b) [])) /\
            (ap_corr p = true -> V (ab_corr b) /\ zeros (ab_corr b))
        end
    end.
  Lemma mu_pos : 0 <= mu. Proof. apply Rmult_le_pos; lra. Qed.
  Lemma J_mono z hm s : forall t y d d', d <= d' -> J z hm s t y d -> J z hm s t y d'.
  Proof.
    induction s as [b|b|b|b|rf b|p b|p b|p st IH b step]; intros t y d d' Hd; cbn [J]; auto.
    - intros (uv & A & B & C & D1 & D2). exists uv. split; [exact A|]. split; [exact B|]. split; [exact C|]. split; eapply near_mono; eauto.
    - intros H b' X. destruct (H b' X) as [A B]. split; auto. intros I. eapply kns_mono; [apply B; auto|].
      unfold stX. apply Rplus_le_compat_r. apply Rmult_le_compat_l; auto. unfold stD. lra.
    - intros [A B]. split; [intros X; eapply IH; eauto|]. destruct b as [b|]; auto.
      destruct B as (B1 & B2 & B3 & B4). split; auto. split; auto. split; auto.
      intros i Hi. eapply kn_mono; [apply B3; auto|]. apply Rplus_le_compat_r. apply Rmult_le_compat_l; auto.
  Qed.

  Lemma grown_of K C del h hm d t y y' : 0 <= K -> 0 <= C -> 0 <= del -> inr t h -> h <= hm -> 0 <= d -> near y (Y t) d ->
    incr_le t h y y' (K * h * d + C * h * (h + del)) -> near y' (Y (t + h)) (grown K (C * (hm + del)) h d).
  Proof.
    intros HK HC Hdel Hi Hh Hd Hy HI. pose proof (inr_T Hi) as HhT.
    eapply near_mono; [eapply incr_near; eauto|].
    eapply Rle_trans; [|apply grown_step; auto; try lra].
    - replace (C * (hm + del) * h) with (C * h * (hm + del)) by ring.
      do 2 apply Rplus_le_compat_l. apply Rmult_le_compat_l; [apply Rmult_le_pos; lra|lra].
    - apply Rmult_le_pos; lra.
  Qed.

  Lemma half_near uv t d : near (fst uv) (Y t) d -> near (snd uv) (Y t) d -> near (half_sum ps uv) (Y t) d.
  Proof.
    intros A B q Hq. unfold half_sum. rewrite lincomb_nth by auto. cbn [rsum nth].
    assert (Z0 : nth q (repeat 0 ps) 0 = 0) by (apply nth_error_nth; now rewrite nth_error_repeat).
    rewrite Z0. specialize (A q Hq). specialize (B q Hq).
    set (a := nth q (fst uv) 0) in *. set (b := nth q (snd uv) 0) in *. set (z := nth q (Y t) 0) in *.
    replace (0 + 1 / 2 * (0 + 1 * a + 1 * b) - z) with (1 / 2 * (a - z) + 1 / 2 * (b - z)) by field.
    eapply Rle_trans; [apply Rabs_triang|]. rewrite !Rabs_mult, (Rabs_right (1 / 2)) by lra. lra.
  Qed.

  Definition step_conv (s0 : @solver R) : Prop :=
    exists K C h0, 0 <= K /\ 0 <= C /\ 0 < h0 /\
    forall z hm s t y d h (e : eng), same s0 s -> 0 < h <= hm -> hm <= h0 -> inr t h -> adm z d ->
      near y (Y t) d -> J z hm s t y d -> Ex t y e ->
      ok mf (advise N ps (ef z) (garbage z) h s e) (fun r => same s0 (fst r) /\
        let d' := grown K (C * (hm + defect s0)) h d in
        exists y', Ex (t + h) y' (snd r) /\ near y' (Y (t + h)) d' /\ J z hm (fst r) (t + h) y' d').

  Lemma defect_pos s : 0 <= defect s.
  Proof. induction s; cbn [defect]; auto; try lra. apply Rabs_pos. Qed.

  Lemma conv_euler b : step_conv (SEuler b).
  Proof.
    destruct (@good_euler ps Z F adm G L t0 T Y HF HL0 Hpos HL HYd M HM0 HM HG) as (K & C & HK & HC & H).
    exists K, C, 1. split; auto. split; auto. split; [lra|].
    intros z hm s t y d h e Hs Hh _ Hi Ha Hy HJ HE. pose proof (Hpos Ha) as Hd. destruct s; try contradiction. cbn [advise J defect] in *.
    eapply ok_bind; [apply (@euler_x E mind ps (ef z) (garbage z) (F z)); eauto|]. intros [b' e'] [A B]. apply ok_some. cbn [fst snd] in *.
    split; [exact I|]. cbv zeta. eexists. split; [exact B|]. split; auto.
    destruct (H z t h y d Hi Ha (proj2 (proj2 HE)) Hy) as [_ HI]. eapply grown_of; eauto; lra.
  Qed.
  Lemma conv_midpoint b : step_conv (SMidpoint b).
  Proof.
    destruct (@good_midpoint ps Z F adm G L t0 T Y HF HL0 Hpos Hup HL HT HYd M HM0 HM HG) as (K & C & HK & HC & H).
    exists K, C, 1. split; auto. split; auto. split; [lra|].
    intros z hm s t y d h e Hs Hh _ Hi Ha Hy HJ HE. pose proof (Hpos Ha) as Hd. destruct s; try contradiction. cbn [advise J defect] in *.
    eapply ok_bind; [apply (@midpoint_x E mind ps (ef z) (garbage z) (F z)); eauto|]. intros [b' e'] [A B]. apply ok_some. cbn [fst snd] in *.
    split; [exact I|]. cbv zeta. eexists. split; [exact B|]. split; auto.
    destruct (H z t h y d Hi Ha (proj2 (proj2 HE)) Hy) as [_ HI]. eapply grown_of; eauto; lra.
  Qed.
  Lemma conv_rk4 b : step_conv (SRk4 b).
  Proof.
    destruct (@good_rk4 ps Z F adm G L t0 T Y HF HL0 Hpos Hup HL HT HYd M HM0 HM HG) as (K & C & HK & HC & H).
    exists K, C, 1. split; auto. split; auto. split; [lra|].
    intros z hm s t y d h e Hs Hh _ Hi Ha Hy HJ HE. pose proof (Hpos Ha) as Hd. destruct s; try contradiction. cbn [advise J defect] in *.
    eapply ok_bind; [apply (@rk4_x E mind ps (ef z) (garbage z) (F z)); eauto|]. intros [b' e'] [A B]. apply ok_some. cbn [fst snd] in *.
    split; [exact I|]. cbv zeta. eexists. split; [exact B|]. split; auto.
    destruct (H z t h y d Hi Ha (proj2 (proj2 HE)) Hy) as [_ HI]. eapply grown_of; eauto; lra.
  Qed.
  Lemma conv_trapeze r b : step_conv (STrapeze r b).
  Proof.
    destruct (@good_trapeze ps Z F adm G L t0 T Y HF HL0 Hpos Hup HL HT HYd M HM0 HM HG r) as (K & C & HK & HC & H).
    exists K, C, 1. split; auto. split; auto. split; [lra|].
    intros z hm s t y d h e Hs Hh _ Hi Ha Hy HJ HE. pose proof (Hpos Ha) as Hd. destruct s; try contradiction. cbn [advise J defect same] in *. subst.
    eapply ok_bind; [apply (@trapeze_x E mind ps (ef z) (garbage z) (F z)); eauto|]. intros [b' e'] [A B]. apply ok_some. cbn [fst snd] in *.
    split; [reflexivity|]. cbv zeta. eexists. split; [exact B|]. split; auto.
    destruct (H z t h y d Hi Ha (proj2 (proj2 HE)) Hy) as [_ HI]. eapply grown_of; eauto; lra.
  Qed.
  Lemma conv_stetter b : step_conv (SStetter b).
  Proof.
    destruct (@pair_good ps Z F adm G L t0 T Y HF HL0 Hpos Hup HL HT HYd M HM0 HM HG) as (K & C & HK & HC & H).
    exists K, C, 1. split; auto. split; auto. split; [lra|].
    intros z hm s t y d h e Hs Hh _ Hi Ha Hy HJ HE. pose proof (Hpos Ha) as Hd. destruct s; try contradiction. cbn [advise J defect same] in *.
    destruct HJ as (uv & S1 & S2 & S3 & N1 & N2).
    eapply ok_bind; [apply (@stetter_x E mind ps (ef z) (garbage z) (F z)) with (uv := uv) (t := t) (y := y); eauto|].
    { intros X. specialize (S2 X). destruct uv as [u v]. cbn [fst snd] in *. subst v. rewrite S3, half_sum_same; auto. apply S1. }
    intros [b' e'] (R1 & R2 & R3). apply ok_some. cbn [fst snd] in *.
    split; [exact I|]. cbv zeta.
    destruct (H z t h uv d Hi Ha (proj1 S1) (proj1 (proj2 S1)) N1 N2) as (_ & _ & I1 & I2).
    assert (G1 : near (fst (stetter_value ps (F z) t h uv)) (Y (t + h)) (grown K (C * (hm + 0)) h d)).
    { eapply grown_of with (y := fst uv); eauto; try lra. eapply incr_mono; [exact I1|]. lra. }
    assert (G2 : near (snd (stetter_value ps (F z) t h uv)) (Y (t + h)) (grown K (C * (hm + 0)) h d)).
    { eapply grown_of with (y := snd uv); eauto; try lra. eapply incr_mono; [exact I2|]. lra. }
    exists (half_sum ps (stetter_value ps (F z) t h uv)). split; [exact R3|]. split; [now apply half_near|].
    exists (stetter_value ps (F z) t h uv). split; auto. split; [intros X; contradiction|]. auto.
  Qed.
  Lemma conv_bs p b : (1 <= bp_max_level p)%nat -> step_conv (SBs p b).
  Proof.
    intros Hlv. destruct (@pair_good ps Z F adm G L t0 T Y HF HL0 Hpos Hup HL HT HYd M HM0 HM HG) as (K0 & C0 & G0).
    destruct (@good_bs ps Z F adm t0 T Y Hpos Hup HT K0 C0 G0 (bp_max_level p) (bp_threshold p) Hlv) as (K & C & HK & HC & H).
    exists K, C, 1. split; auto. split; auto. split; [lra|].
    intros z hm s t y d h e Hs Hh _ Hi Ha Hy HJ HE. pose proof (Hpos Ha) as Hd. destruct s; try contradiction. cbn [advise J defect same] in *. subst.
    eapply ok_bind; [apply (@bs_x E mind ps (ef z) (garbage z) (F z)); eauto|]. intros [b' e'] (A & y' & B & D). apply ok_some. cbn [fst snd] in *.
    split; [reflexivity|]. cbv zeta. exists y'. split; [exact D|]. split; auto.
    destruct (H z t h y y' d Hi Ha (proj2 (proj2 HE)) Hy B) as [_ HI]. eapply grown_of with (y := y); eauto; try lra.
    eapply incr_mono; [exact HI|]. lra.
  Qed.

  Lemma rk_time z p h b (e : eng) r : rk_step N ps (ef z) (garbage z) p h b e = Some r -> e_time (snd (fst r)) = e_time e + h.
  Proof.
    intros H. pose proof (@advise_time_step R E N ps (ef z) (garbage z) h (SButcher p b) e) as X. cbn [advise] in X. unfold rk_advise in X.
    rewrite H in X. destruct r as [[b' e'] tr]. cbn [obind] in X. destruct (X _ eq_refl) as (Z1 & _). exact Z1.
  Qed.

  Lemma conv_butcher p b : convergent (SButcher p b) -> step_conv (SButcher p b).
  Proof.
    intros (Hwf & Hsub & [[Hex Hrow]|[Himp Hrf]]).
    - destruct (@good_table ps Z F adm G L t0 T Y HF HL0 Hpos Hup HL HT HYd M HM0 HM HG (rp_table p) (defect (SButcher p b)) (Rle_refl _))
        as (K & C & HK & HC & H).
      exists K, C, 1. split; auto. split; auto. split; [lra|].
      intros z hm s t y d h e Hs Hh _ Hi Ha Hy HJ HE. pose proof (Hpos Ha) as Hd. destruct s as [| | | | |p' b'| |]; try contradiction. cbn [same] in Hs. subst p'.
      cbn [advise]. unfold rk_advise. destruct HE as (E1 & E2 & E3).
      assert (Hh0 : h <> 0) by lra.
      pose proof (@rk_step_x E mind ps (ef z) (garbage z) (F z) Hps (Hgarb z) (HF z) (Hef z) p Hwf Hex Hrow Hsub h b' e Hh0) as X.
      rewrite E2 in X. specialize (X E3 (fun q Hq => proj1 (HJ q Hq))).
      destruct (rk_step N ps (ef z) (garbage z) p h b' e) as [r|] eqn:Er; [|contradiction].
      pose proof (@rk_time z p h b' e r Er) as Tm.
      pose proof (@rk_step_covers E mind ps (ef z) (garbage z) p) as CV.
      destruct r as [[b2 e2] tr]. cbn [fst snd ok] in *. destruct X as [X1 X2]. cbn [obind]. apply ok_some. cbn [fst snd].
      split; [reflexivity|]. cbv zeta.
      assert (Cv : covers t tr (t + h) /\ Forall (fun a => 0 <= ac_dt a <= hm) tr).
      { destruct (CV Hsub h b' e _ Er) as (A1 & _ & _ & A4). cbn [snd] in *. rewrite E1 in A1. split; auto.
        eapply Forall_impl; [|exact A4]. intros a [_ Ea]. rewrite Ea.
        assert (P1 : 1 <= INR (rp_subdivisions p) ^ ac_level a).
        { apply pow_R1_Rle. apply (le_INR 1). lia. }
        split; [unfold Rdiv; apply Rmult_le_pos; [lra|left; apply Rinv_0_lt_compat; lra]|]. apply Rle_trans with h; [|lra].
        unfold Rdiv. rewrite <- (Rmult_1_r h) at 2. apply Rmult_le_compat_l; [lra|].
        rewrite <- Rinv_1. apply Rinv_le_contravar; lra. }
      destruct Cv as [Cv Fa].
      destruct (@replay_near ps (F z) (adm z) t0 T Y (Hpos (z:=z)) (Hup (z:=z)) (rp_table p) (defect (SButcher p b)) K C hm HK HC (defect_pos _) (H z) tr Fa
                  t (t + h) y (e_y e2) d Cv X2 (proj1 Hi) (proj2 (proj2 Hi)) Ha E3 Hy) as [V' N'].
      replace (t + h - t) with h in N' by ring.
      exists (e_y e2). split; [|split; [exact N'|]].
      + split; [now rewrite Tm, E1|]. auto.
      + cbn [J]. intros q Hq. injection Hq as <-. split; auto. congruence.
    - set (a := rowA p). set (c := nodeC p).
      assert (Pa : 0 <= L * a) by (apply Rmult_le_pos; auto; apply rowA_pos).
      assert (Pc : 0 <= L * c) by (apply Rmult_le_pos; auto; apply nodeC_pos).
      exists (implK L p), (implC L M p), (/ (2 * (L * a) + L * c + 1)).
      split; [apply implK_pos; auto|]. split; [apply implC_pos; auto|]. split; [apply Rinv_0_lt_compat; lra|].
      intros z hm s t y d h e Hs Hh Hh0 Hi Ha Hy HJ HE. pose proof (Hpos Ha) as Hd. destruct s as [| | | | |p' b'| |]; try contradiction. cbn [same] in Hs. subst p'.
      cbn [advise]. unfold rk_advise. destruct HE as (E1 & E2 & E3).
      set (D := 2 * (L * a) + L * c + 1) in *. assert (PD : 0 < D) by (unfold D; lra).
      assert (Q : hm * D <= 1).
      { apply Rle_trans with (/ D * D); [apply Rmult_le_compat_r; lra|]. rewrite Rinv_l; lra. }
      assert (Q1 : 0 <= hm * (L * a)) by (apply Rmult_le_pos; lra).
      assert (Q2 : 0 <= hm * (L * c)) by (apply Rmult_le_pos; lra).
      assert (Q3 : hm * D = 2 * (hm * (L * a)) + hm * (L * c) + hm) by (unfold D; ring).
      eassert (X : ok False (rk_step N ps (ef z) (garbage z) p h b' e) _).
      { apply (@impl_step E mind ps (ef z) (garbage z) (F z) (adm z) G L t0 T Y M Hps (Hgarb z) (HF z) (Hef z) HL0 (Hpos (z:=z)) (Hup (z:=z)) (HL (z:=z)) HYd HM0 HM HG p Hwf Himp Hsub Hrf hm) with (d := d); auto.
        - lra.
        - fold a. rewrite Rmult_assoc. lra.
        - fold c. rewrite Rmult_assoc. lra.
        - rewrite E1. apply Hi.
        - rewrite E1. apply Hi.
        - now rewrite E2.
        - now rewrite E1, E2.
        - intros q Hq. rewrite E1. cbn [J] in HJ. destruct (HJ q Hq) as [A1 A2]. split; auto. apply A2. apply Himp. }
      destruct (rk_step N ps (ef z) (garbage z) p h b' e) as [[[b2 e2] tr]|]; [|contradiction]. cbn [ok fst snd] in X.
      cbv zeta in X. rewrite E1 in X. destruct X as (A1 & A2 & A3 & A4 & A5). cbn [obind]. apply ok_some. cbn [fst snd] in *.
      split; [reflexivity|]. exists (e_y e2). split; [split; auto|]. split; [exact A4|].
      cbn [J]. intros q Hq. injection Hq as <-. split; auto.
  Qed.

  Lemma conv_adams p st b n : (1 <= ap_rank p <= 5)%nat -> step_conv st -> step_conv (SAdams p st b n).
  Proof.
    intros Hr (K1 & C1 & h1 & HK1 & HC1 & Hh1 & HS).
    set (rk := ap_rank p). set (B := rsum rk (fun k => Rabs (nth k (ab_coeff rk) 0))).
    assert (PB : 0 <= B) by (apply rsum_pos; intros; apply Rabs_pos).
    pose proof mu_pos as Pmu. set (m := mu) in *.
    assert (Prk : 0 <= INR rk) by apply pos_INR.
    set (K2 := B * L). set (C2 := B * (m * INR rk) + m).
    assert (PK2 : 0 <= K2) by now apply Rmult_le_pos.
    assert (PC2 : 0 <= C2). { unfold C2. apply Rplus_le_le_0_compat; auto. apply Rmult_le_pos; auto. now apply Rmult_le_pos. }
    exists (K1 + K2), (C1 + C2), h1. split; [lra|]. split; [lra|]. split; auto.
    intros z hm s t y d h e Hs Hh Hh0 Hi Ha Hy HJ HE. pose proof (Hpos Ha) as Hd. destruct s as [| | | | | | |p' st' b' step]; try contradiction.
    cbn [same] in Hs. destruct Hs as [-> Hst]. cbn [J] in HJ. fold rk in HJ. destruct HJ as [HJs HB].
    pose proof (defect_pos st) as Pdl. cbn [defect]. set (dl := defect st) in *. cbv zeta.
    set (g := grown (K1 + K2) ((C1 + C2) * (hm + dl)) h d).
    assert (Pc : 0 <= (C1 + C2) * (hm + dl)) by (apply Rmult_le_pos; lra).
    assert (Dg : d <= g) by (apply grown_ge; lra).
    cbn [advise]. cbv zeta. fold rk.
    destruct (Nat.eqb_spec rk 0); [unfold rk in *; lia|].
    destruct (rd_some (adams_rows N) (i := rk)) as (a & Har); [cbn; unfold rk; lia|].
    rewrite Har. cbn [obind].
    assert (Hf : (step mod rk < rk)%nat) by (apply Nat.mod_upper_bound; lia).
    pose proof (proj1 HE) as T0.
    eapply ok_bind with (Q := fun r => Ex t y (snd r) /\
      length (ab_f (fst r)) = rk /\ Forall V (ab_f (fst r)) /\
      (forall i, (i < step <= i + rk)%nat -> kn t (L * d + m * INR (step - i) * hm) (nth (i mod rk) (ab_f (fst r)) [])) /\
      (ap_corr p = true -> V (ab_corr (fst r)) /\ zeros (ab_corr (fst r)))).
    { destruct b' as [b'|].
      - apply ok_some. cbn [fst snd]. auto.
      - rewrite HB. unfold adams_alloc. fold rk.
        pose proof (@news_x E ps (garbage z) (Hgarb z) t y rk e HE) as (LB & VB & EB).
        destruct (new_buffers (garbage z) rk e) as [fb e1]. cbn [fst snd] in *. destruct (ap_corr p).
        + pose proof (@new_x E ps (garbage z) (Hgarb z) t y e1 EB) as (VB' & EB').
          destruct (new_buffer (garbage z) e1) as [c e2]. cbn [fst snd] in *.
          eapply ok_bind; [apply (ok_fill mind ps)|]. intros c' (L1 & _ & Z1). apply ok_some. cbn [fst snd ab_f ab_corr].
          split; auto. split; auto. split; auto. split; [intros; lia|]. intros _. split; auto.
          unfold LemBufR.V in *. congruence.
        + apply ok_some. cbn [fst snd ab_f ab_corr]. split; auto. split; auto. split; auto. split; [intros; lia|discriminate]. }
    intros [b1 e1] (A1 & A2 & A3 & A4 & A5). cbn [fst snd] in *.
    rewrite (rd_nth (ab_f b1) []) by lia. cbn [obind].
    pose proof A1 as (T1 & Y1 & V1). rewrite Y1, T0.
    eapply ok_bind.
    { eapply (@fc_E E ps (ef z) (F z) (Hef z)); eauto. apply Forall_V_nth; auto. lia. }
    intros [e2 fb] [E2 KK]. cbn [fst snd] in *. pose proof E2 as (T2 & Y2 & V2).
    assert (Vfb : V fb) by (subst fb; auto).
    eapply ok_bind; [apply ok_wr; lia|]. intros f Ef. cbn beta in Ef.
    assert (F1 : length f = rk) by (subst f; now rewrite upd_length).
    assert (F2 : Forall V f) by (subst f; apply Forall_upd; auto).
    assert (F3 : forall i, (i < S step <= i + rk)%nat -> kn t (L * d + m * INR (step - i) * hm) (nth (i mod rk) f [])).
    { intros i Hii. assert (Him : (i mod rk < rk)%nat) by (apply Nat.mod_upper_bound; lia).
      rewrite Ef. rewrite nth_upd by lia. destruct (Nat.eq_dec i step) as [->|Hne].
      - rewrite Nat.eqb_refl, Nat.sub_diag, KK. cbn [INR]. rewrite Rmult_0_r, Rmult_0_l, Rplus_0_r.
        apply (@kn_first ps Z F adm G L t0 T Y HF HL0 HL z t h y d); auto.
      - destruct (Nat.eqb_spec (i mod rk) (step mod rk)) as [Q|Q].
        + exfalso. pose proof (Nat.div_mod i rk ltac:(lia)) as D1.
          pose proof (Nat.div_mod step rk ltac:(lia)) as D2. rewrite Q in D1.
          assert (i / rk <> step / rk)%nat by (intros X; rewrite X in D1; lia). nia.
        + apply A4. lia. }
    (* the slots one step later *)
    assert (F4 : forall i, (i < S step <= i + rk)%nat -> kn (t + h) (L * g + m * INR (S step - i) * hm) (nth (i mod rk) f [])).
    { intros i Hii. eapply kn_mono; [apply (@kn_move ps G L t0 T M HG t h _ _ Hi (F3 i Hii))|].
      fold m. replace (S step - i)%nat with (S (step - i)) by lia. rewrite S_INR.
      assert (L * d <= L * g) by (apply Rmult_le_compat_l; auto).
      assert (m * h <= m * hm) by (apply Rmult_le_compat_l; lra). lra. }
    destruct (Nat.ltb_spec rk step) as [Hlt|Hge].
    - eapply ok_bind.
      { eapply (@adams_coeff_x mind ps Hps) with (f := f) (fn := fun k => nth ((rk + step mod rk - k) mod rk) f []); eauto. }
      intros c (Lc & Cc).
      set (ks := map (fun k => nth ((rk + step mod rk - k) mod rk) f []) (seq 0 rk)).
      set (y1 := lincomb y h rk (fun k => nth k (ab_coeff rk) 0) ks).
      assert (nks : forall k, (k < rk)%nat -> nth k ks [] = nth ((rk + step mod rk - k) mod rk) f []).
      { intros k Hk. unfold ks. rewrite (nth_indep _ [] (nth ((rk + step mod rk - 0) mod rk) f [])) by (rewrite map_length, seq_length; lia).
        rewrite (map_nth (fun k => nth ((rk + step mod rk - k) mod rk) f [])). now rewrite seq_nth by lia. }
      assert (CL : forall y', V y' -> (forall w, lin ps w y' = lin ps w y + wsum ps rk c f w) -> y' = y1).
      { intros y' Vy Ly. apply lincomb_eq; auto. intros w. rewrite Ly, Cc. f_equal. f_equal.
        apply rsum_ext. intros k Hk. now rewrite nks. }
      assert (KN : kns t (L * d + m * INR rk * hm) rk ks).
      { intros k Hk. rewrite nks by auto.
        replace ((rk + step mod rk - k) mod rk)%nat with ((step - k) mod rk)%nat.
        - eapply kn_mono; [apply F3; lia|]. replace (step - (step - k))%nat with k by lia.
          apply Rplus_le_compat_l. apply Rmult_le_compat_r; [lra|]. apply Rmult_le_compat_l; auto. apply le_INR. lia.
        - pose proof (Nat.div_mod step rk ltac:(lia)) as D.
          destruct (Nat.le_gt_cases k (step mod rk)) as [Lk|Lk].
          + replace (rk + step mod rk - k)%nat with (step mod rk - k + 1 * rk)%nat by lia.
            rewrite Nat.mod_add by lia.
            replace (step - k)%nat with (step mod rk - k + (step / rk) * rk)%nat by lia.
            now rewrite Nat.mod_add by lia.
          + assert (1 <= step / rk)%nat by nia.
            replace (step - k)%nat with (rk + step mod rk - k + (step / rk - 1) * rk)%nat by nia.
            now rewrite Nat.mod_add by lia. }
      assert (NY : near y1 (Y (t + h)) g).
      { eapply near_mono; [eapply incr_near; [exact Hy|]|].
        - apply (@comb_incr ps G L t0 T Y HL0 HYd M HM0 HM HG t h _ y h rk _ ks 0 Hi KN).
          rewrite ab_sum by auto. rewrite Rmult_1_r, Rmult_0_r, Rminus_diag_eq, Rabs_R0 by auto. lra.
        - match goal with |- context [rsum rk ?f] => change (rsum rk f) with B end. fold m. rewrite Rabs_right by lra.
          apply Rle_trans with (grown K2 (C2 * (hm + dl)) h d).
          + eapply Rle_trans; [|apply grown_step; try lra; apply Rmult_le_pos; lra].
            assert (Z1 : m * h * h <= m * h * hm) by (apply Rmult_le_compat_l; [apply Rmult_le_pos; lra|lra]).
            assert (Z2 : 0 <= C2 * dl * h) by (apply Rmult_le_pos; [apply Rmult_le_pos; lra|lra]).
            replace (C2 * (hm + dl) * h) with (B * (m * INR rk) * hm * h + m * h * hm + C2 * dl * h) by (unfold C2; ring).
            replace (K2 * h * d) with (h * (B * (L * d))) by (unfold K2; ring).
            replace (h * (B * (L * d + m * INR rk * hm))) with (h * (B * (L * d)) + B * (m * INR rk) * hm * h) by ring.
            clear - Z1 Z2. clearbody C2. clearbody B m. lra.
          + unfold g. apply grown_mono; try lra. split; [apply Rmult_le_pos; lra|]. apply Rmult_le_compat_r; lra. }
      rewrite Y2. destruct (ap_corr p) eqn:EC.
      + destruct (A5 eq_refl) as [V5 Z5].
        eapply ok_bind; [apply ok_fmaddn_corr; eauto; lia|].
        intros [y' cr] (Q1 & Q2 & Q3 & Q4). cbn [fst snd] in *. apply ok_some. cbn [fst snd].
        split; [cbn [same]; auto|]. exists y1. split; [|split; [exact NY|]].
        * split; [cbn; now rewrite T2|]. cbn [e_y advise_time set_y]. split; [now apply CL|apply lincomb_V].
        * cbn [J ab_f ab_corr]. fold rk. split; [lia|]. rewrite EC. split; [auto|]. split; [auto|]. split; [exact F4|]. auto.
      + eapply ok_bind; [apply ok_fmaddn_inplace with (bs := f); eauto; lia|].
        intros y' (Q1 & Q4). cbn [fst snd] in *. apply ok_some. cbn [fst snd].
        split; [cbn [same]; auto|]. exists y1. split; [|split; [exact NY|]].
        * split; [cbn; now rewrite T2|]. cbn [e_y advise_time set_y]. split; [now apply CL|apply lincomb_V].
        * cbn [J ab_f ab_corr]. fold rk. split; [lia|]. rewrite EC. split; [auto|]. split; [auto|]. split; [exact F4|]. intros; discriminate.
    - eapply ok_bind; [apply (HS z hm st' t y d h e2); auto|].
      intros [st2 e3] (S1 & y' & S2 & S3 & S4). cbn [fst snd] in *. fold dl in S3, S4.
      assert (GG : grown K1 (C1 * (hm + dl)) h d <= g).
      { unfold g. apply grown_mono; try lra. split; [apply Rmult_le_pos; lra|]. apply Rmult_le_compat_r; lra. }
      apply ok_some. cbn [fst snd]. split; [cbn [same]; auto|]. exists y'. split; auto. split; [eapply near_mono; eauto|].
      cbn [J ab_f ab_corr]. fold rk. split; [intros _; eapply J_mono; eauto|]. split; [auto|]. split; [auto|]. split; [exact F4|]. auto.
  Qed.

  Lemma conv_all s : convergent s -> step_conv s.
  Proof.
    induction s as [b|b|b|b|rf b|p b|p b|p st IH b step]; intros H.
    - apply conv_euler.
    - apply conv_midpoint.
    - apply conv_stetter.
    - apply conv_rk4.
    - apply conv_trapeze.
    - now apply conv_butcher.
    - now apply conv_bs.
    - destruct H as [H1 H2]. apply conv_adams; auto.
  Qed.

  Lemma fresh_J z hm s t y d : fresh s -> V y -> near y (Y t) d -> J z hm s t y d.
  Proof.
    intros Hf Vy Hy. induction s as [b|b|b|b|rf b|p b|p b|p st IH b step]; cbn [fresh J] in *; subst;
      try (intros q X; discriminate).
    - exists (y, y). cbn [fst snd]. split; [|split; auto].
      + split; auto. split; auto. intros q X; discriminate.
      + split; auto. symmetry. now apply half_sum_same.
    - destruct Hf as (A & -> & ->). split; auto.
  Qed.

  Lemma history s0 K C h0 : 0 <= K -> 0 <= C ->
    (forall z hm s t y d h (e : eng), same s0 s -> 0 < h <= hm -> hm <= h0 -> inr t h -> adm z d ->
      near y (Y t) d -> J z hm s t y d -> Ex t y e ->
      ok mf (advise N ps (ef z) (garbage z) h s e) (fun r => same s0 (fst r) /\
        let d' := grown K (C * (hm + defect s0)) h d in
        exists y', Ex (t + h) y' (snd r) /\ near y' (Y (t + h)) d' /\ J z hm (fst r) (t + h) y' d')) ->
    forall z hm, hm <= h0 -> forall dts s t y d (e : eng), same s0 s -> 0 <= hm -> Forall (fun h => 0 < h <= hm) dts -> t0 <= t ->
      t + total dts <= t0 + T -> adm z d -> near y (Y t) d -> J z hm s t y d -> Ex t y e ->
      ok mf (advise_all N ps (ef z) (garbage z) dts s e)
        (fun r => near (e_y (snd r)) (Y (t + total dts)) (grown K (C * (hm + defect s0)) (total dts) d)).
  Proof.
    intros HK HC HS z hm Hhm. pose proof (defect_pos s0) as Pd.
    assert (Pt : forall l, Forall (fun h => 0 < h <= hm) l -> 0 <= total l).
    { induction 1; cbn; [lra|]. unfold total in *. lra. }
    induction dts as [|h dts IH]; intros s t y d e Hs Hm0 Hd Ht He Pa Hy HJ HE; pose proof (Hpos Pa) as Pd0; cbn [advise_all].
    - apply ok_some. cbn. destruct HE as (_ & -> & _). rewrite Rplus_0_r.
      eapply near_mono; [exact Hy|]. apply grown_ge; try lra. apply Rmult_le_pos; lra.
    - apply Forall_cons_iff in Hd. destruct Hd as [Hh Hd]. specialize (Pt _ Hd).
      change (total (h :: dts)) with (h + total dts) in *.
      assert (Pc : 0 <= C * (hm + defect s0)) by (apply Rmult_le_pos; lra).
      eapply ok_bind; [apply (HS z hm s t y d h e); auto; split; [lra|split; lra]|].
      cbv zeta. intros [s' e'] (A & y' & B1 & B2 & B3). cbn [fst snd] in *.
      eapply ok_mono; [apply (IH s' (t + h) y' (grown K (C * (hm + defect s0)) h d) e' A Hm0 Hd); auto; try lra|].
      + eapply Hup; [exact Pa|apply grown_ge; lra].
      + intros r Hr. cbn beta in *. replace (t + (h + total dts)) with (t + h + total dts) by ring.
        eapply near_mono; [exact Hr|]. apply grown_grown; lra.
  Qed.
End Conv.

(** ** a history of steps under a force that is only close to that of the equations *)
Lemma perturbed_run (E : Type) mind ps (Z : Type) (ef : Z -> E -> nat -> R -> list R -> list R -> option (E * list R))
    (garbage : Z -> nat -> list R) (F : Z -> R -> list R -> list R) (eps : Z -> R) F0 L t0 T Y s :
  (0 < ps)%nat -> (forall z n, V ps (garbage z n)) -> (forall z t y, V ps y -> V ps (F z t y)) ->
  (forall z q step t y f, V ps y -> V ps f -> ef z q step t y f = Some (q, F z t y)) ->
  smooth_rhs ps F0 L -> (forall z, 0 <= eps z) -> (forall z t u, V ps u -> near ps (F z t u) (F0 t u) (eps z)) ->
  0 <= T -> exact_on ps F0 t0 T Y -> fresh s -> convergent s ->
  exists C h0, 0 <= C /\ 0 < h0 /\ forall z (e : @eng R E) dts h d, e_time e = t0 -> V ps (e_y e) -> 0 <= d -> near ps (e_y e) (Y t0) d ->
    0 <= h <= h0 -> Forall (fun dt => 0 < dt <= h) dts -> total dts <= T ->
    exists r, advise_all (Rops mind) ps (ef z) (garbage z) dts s e = Some r /\
      near ps (e_y (snd r)) (Y (t0 + total dts)) (C * (d + h + defect s + eps z)).
Proof.
  intros H1 H2 H3 H4 [HL0 HL] HE0 HE HT HY Hf Hc.
  destruct (@slope_bounded ps F0 L t0 T Y HL0 HL HT HY) as (M & HM0 & HM).
  set (G := fun t => F0 t (Y t)). set (adm := fun (z : Z) (d : R) => eps z <= d).
  assert (A1 : forall z d, adm z d -> 0 <= d) by (intros z d X; specialize (HE0 z); unfold adm in X; lra).
  assert (A2 : forall z d d', adm z d -> d <= d' -> adm z d') by (intros z d d' X X'; unfold adm in *; lra).
  assert (A3 : forall z t t' u d, adm z d -> V ps u -> t0 <= t' <= t0 + T -> near ps u (Y t') d ->
    near ps (F z t u) (G t') ((L + 1) * (d + Rabs (t - t')))).
  { intros z t t' u d X Vu Ht Hu. apply near_mono with (d := eps z + L * (d + Rabs (t - t'))).
    - apply near_tri with (v := F0 t u); auto. apply HL; auto. now apply HY.
    - pose proof (Rabs_pos (t - t')). unfold adm in X. lra. }
  assert (A4 : forall t h, inr t0 T t h -> near ps (G (t + h)) (G t) ((L + 1) * (M + 1) * h)).
  { intros t h Hi. eapply near_mono; [exact (@F_move ps F0 L t0 T Y HL HY M HM t h Hi)|].
    apply Rmult_le_compat_r; [apply Hi|]. apply Rmult_le_compat_r; lra. }
  assert (A5 : forall t q, t0 <= t <= t0 + T -> (q < ps)%nat -> derivable_pt_lim (fun s => nth q (Y s) 0) t (nth q (G t) 0)).
  { intros t q Ht Hq. now apply HY. }
  assert (HL1 : 0 <= L + 1) by lra.
  destruct (@conv_all E mind ps Z ef garbage F adm G (L + 1) t0 T Y M H1 H2 H3 H4 HL1 A1 A2 A3 HT A5 HM0 HM A4 s Hc)
    as (K & C & h0 & HK & HC & Hh0 & HS).
  set (X := exp (K * T)). assert (PX : 0 <= X) by (left; apply exp_pos).
  exists (X * (1 + C * T)), h0. assert (PCT : 0 <= C * T) by now apply Rmult_le_pos.
  split; [apply Rmult_le_pos; lra|]. split; auto.
  intros z e dts h d He Hy Hd Hn Hh Hds Ht. apply ok_exists. pose proof (HE0 z) as Pe.
  pose proof (defect_pos s) as Pdf.
  assert (Ptot : 0 <= total dts).
  { clear - Hds. induction Hds; cbn; [lra|]. unfold total in *. lra. }
  assert (Hn' : near ps (e_y e) (Y t0) (d + eps z)) by (eapply near_mono; [exact Hn|lra]).
  eapply ok_mono.
  - apply (@history E mind ps Z ef garbage F adm G (L + 1) t0 T Y M A1 A2 s K C h0 HK HC HS z h (proj2 Hh) dts s t0 (e_y e) (d + eps z) e); auto; try lra.
    + apply same_refl.
    + unfold adm. lra.
    + now apply fresh_J.
    + split; auto.
  - intros r Hr. cbn beta in Hr. eapply near_mono; [exact Hr|]. unfold grown.
    assert (E1 : exp (K * total dts) <= X).
    { unfold X. assert (Q : K * total dts <= K * T) by (apply Rmult_le_compat_l; auto).
      destruct Q as [Q| ->]; [left; now apply exp_increasing|lra]. }
    assert (E2 : C * (h + defect s) * total dts <= C * T * (h + defect s)).
    { replace (C * T * (h + defect s)) with (C * (h + defect s) * T) by ring. apply Rmult_le_compat_l; auto. apply Rmult_le_pos; lra. }
    assert (E3 : d + eps z + C * (h + defect s) * total dts <= (1 + C * T) * (d + h + defect s + eps z)).
    { assert (0 <= C * T * d) by (apply Rmult_le_pos; lra). assert (0 <= C * T * eps z) by (apply Rmult_le_pos; lra). lra. }
    assert (E4 : 0 <= C * (h + defect s) * total dts) by (apply Rmult_le_pos; [apply Rmult_le_pos; lra|lra]).
    rewrite (Rmult_assoc X). apply Rmult_le_compat; [left; apply exp_pos|lra|exact E1|exact E3].
Qed.
