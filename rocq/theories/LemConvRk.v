(** Errors of a tableau step, with subdivision, against an exact solution. *)
From Coq Require Import ZArith Reals List Arith Lia Lra.
From Verif Require Import Num Arr ArrLemmas SpecPhys SpecEngine RLemmas ModelSolverBase ModelButcher ModelExtrap
  ModelSolver LemOk LemBufR SpecSolver SpecImplicit SpecBS SpecConv LemSolver LemRk LemExact LemImplicit LemExtrap LemBS LemConv LemConvBs.
Import ListNotations.
Set Implicit Arguments.
Local Open Scope R_scope.

Section Conv.
  Context {E : Type} (mind : R) (ps : nat)
          (ef : E -> nat -> R -> list R -> list R -> option (E * list R))
          (garbage : nat -> list R) (F : R -> list R -> list R).
  Notation N := (Rops mind).
  Notation eng := (@eng R E).
  Variables (adm : R -> Prop) (G : R -> list R) (L t0 T : R) (Y : R -> list R) (M : R).
  Notation V := (V ps).
  Notation near := (near ps).
  Notation lincomb := (lincomb ps).
  Notation inr := (inr t0 T).
  Notation incr_le := (incr_le ps Y).
  Notation kn := (kn ps G).
  Notation kns := (kns ps G).
  Hypothesis Hps : (0 < ps)%nat.
  Hypothesis Hgarb : forall n, V (garbage n).
  Hypothesis HF : forall t y, V y -> V (F t y).
  Hypothesis Hef : forall q step t y f, V y -> V f -> ef q step t y f = Some (q, F t y).
  Hypothesis HL0 : 0 <= L.
  Hypothesis Hpos : forall d, adm d -> 0 <= d.
  Hypothesis Hup : forall d d', adm d -> d <= d' -> adm d'.
  Hypothesis HL : forall t t' u d, adm d -> V u -> t0 <= t' <= t0 + T -> near u (Y t') d ->
    near (F t u) (G t') (L * (d + Rabs (t - t'))).
  Hypothesis HT : 0 <= T.
  Hypothesis HYd : forall t q, t0 <= t <= t0 + T -> (q < ps)%nat ->
    derivable_pt_lim (fun s => nth q (Y s) 0) t (nth q (G t) 0).
  Hypothesis HM0 : 0 <= M.
  Hypothesis HM : forall t q, t0 <= t <= t0 + T -> (q < ps)%nat -> Rabs (nth q (G t) 0) <= M.
  Hypothesis HG : forall t h, inr t h -> near (G (t + h)) (G t) (L * (M + 1) * h).
  Let mf := False.

  (** *** explicit: the accepted substeps *)
  Section Explicit.
    Variables (bt : table R) (del K C hm : R).
    Hypothesis HK : 0 <= K.
    Hypothesis HC : 0 <= C.
    Hypothesis Hdel : 0 <= del.
    Hypothesis Hstep : forall t h y d, inr t h -> adm d -> V y -> near y (Y t) d ->
      V (rk_value ps F bt t h y) /\ incr_le t h y (rk_value ps F bt t h y) (K * h * d + C * h * (h + del)).
    Lemma covers_le l : Forall (fun a => 0 <= ac_dt a) l -> forall t t', covers t l t' -> t <= t'.
    Proof.
      induction 1 as [|a l Ha Hl IH]; intros t t' H; cbn [covers] in H; [lra|].
      destruct H as [_ H]. specialize (IH _ _ H). lra.
    Qed.
    Lemma replay_near l : Forall (fun a => 0 <= ac_dt a <= hm) l -> forall t t' y y' d,
      covers t l t' -> rk_replay ps F bt y l y' -> t0 <= t -> t' <= t0 + T -> adm d -> V y -> near y (Y t) d ->
      V y' /\ near y' (Y t') (grown K (C * (hm + del)) (t' - t) d).
    Proof.
      induction 1 as [|a l Hac Hl IH]; intros t t' y y' d Cv Rp Ht Ht' Ha Vy Hy; pose proof (Hpos Ha) as Hd; cbn [covers rk_replay] in *.
      - subst. split; auto. unfold grown. replace (t' - t') with 0 by ring.
        rewrite !Rmult_0_r, exp_0, Rmult_1_l, Rplus_0_r. exact Hy.
      - destruct Cv as [E1 Cv]. destruct Rp as [_ Rp]. rewrite E1 in Rp.
        assert (Q : t + ac_dt a <= t').
        { eapply covers_le; [|exact Cv]. eapply Forall_impl; [|exact Hl]. intros; lra. }
        assert (Hi : inr t (ac_dt a)) by (split; [lra|]; split; lra).
        destruct (Hstep Hi Ha Vy Hy) as [V1 I1]. pose proof (incr_near Hy I1) as N1.
        assert (HCh : 0 <= C * (hm + del)) by (apply Rmult_le_pos; lra).
        set (g := ac_dt a) in *.
        assert (D1 : d + (K * g * d + C * g * (g + del)) <= grown K (C * (hm + del)) g d).
        { eapply Rle_trans; [|apply grown_step; lra].
          assert (C * g * (g + del) <= C * (hm + del) * g).
          { replace (C * (hm + del) * g) with (C * g * (hm + del)) by ring. apply Rmult_le_compat_l; [apply Rmult_le_pos; lra|lra]. }
          lra. }
        assert (D0 : adm (grown K (C * (hm + del)) g d)) by (eapply Hup; [exact Ha|apply grown_ge; lra]).
        destruct (IH (t + g) t' (rk_value ps F bt t g y) y' (grown K (C * (hm + del)) g d) Cv Rp) as [A B]; auto; [lra| |].
        { eapply near_mono; eauto. }
        split; auto. eapply near_mono; [exact B|]. eapply Rle_trans; [apply grown_grown; lra|].
        right. f_equal. ring.
    Qed.
  End Explicit.

  (** *** implicit: the sweeps *)
  Section Implicit.
    Variable p : @rk_params R.
    Notation bt := (rp_table p).
    Notation s := (bt_steps bt).
    Hypothesis Hwf : table_wf bt.
    Hypothesis Hrows : implicit_rows bt.
    Hypothesis Hsub : (1 <= rp_subdivisions p)%nat.
    Hypothesis Href : (1 <= rp_refine p)%nat.
    Notation a i := (fun j => nth j (nth i (bt_a bt) []) 0).
    Definition rowA : R := rsum s (fun i => rsum s (fun j => Rabs (a i j))).
    Definition nodeC : R := rsum s (fun i => Rabs (nth i (bt_c bt) 0)).
    Lemma rowA_pos : 0 <= rowA.
    Proof. apply rsum_pos. intros. apply rsum_pos. intros. apply Rabs_pos. Qed.
    Lemma nodeC_pos : 0 <= nodeC.
    Proof. apply rsum_pos. intros. apply Rabs_pos. Qed.
    Definition slackK : R := L * (M + 1).
    Definition stD : R := 2 * L.
    Definition stS : R := 2 * (L * rowA * M + L * nodeC * (M + 1) + slackK).
    Definition stX (hm d : R) : R := stD * d + stS * hm.
    Lemma slack_pos : 0 <= slackK. Proof. apply Rmult_le_pos; lra. Qed.
    Lemma stS_pos : 0 <= stS /\ 0 <= L * rowA * M /\ 0 <= L * nodeC * (M + 1).
    Proof.
      pose proof rowA_pos. pose proof nodeC_pos. pose proof slack_pos.
      assert (0 <= L * rowA * M) by (repeat apply Rmult_le_pos; lra).
      assert (0 <= L * nodeC * (M + 1)) by (repeat apply Rmult_le_pos; lra). unfold stS. lra.
    Qed.

    Variables (hm : R).
    Hypothesis Hhm : 0 <= hm.
    Hypothesis Hsm : hm * L * rowA <= 1 / 2.
    Hypothesis Hsm2 : hm * L * nodeC <= 1.

    Lemma stage_new t h y d ks i : inr t h -> h <= hm -> adm d -> V y -> near y (Y t) d -> (i < s)%nat ->
      kns t (stX hm d) s ks -> kn t (stX hm d - slackK * hm) (impl_stage ps F bt t h y ks i).
    Proof.
      intros Hi Hh Ha Vy Hy Hs Hk. pose proof (Hpos Ha) as Hd. pose proof (inr_T Hi) as HhT. pose proof (inr_t Hi) as Ht.
      set (x0 := stX hm d) in *. pose proof stS_pos as (S1 & S2 & S3). pose proof slack_pos as S4. pose proof rowA_pos as PA. pose proof nodeC_pos as PC.
      assert (Hx0 : 0 <= x0).
      { unfold x0, stX, stD. apply Rplus_le_le_0_compat; [|now apply Rmult_le_pos]. apply Rmult_le_pos; lra. }
      assert (R1 : rsum s (fun j => Rabs (a i j)) <= rowA).
      { apply (@rsum_in s (fun i => rsum s (fun j => Rabs (a i j)))); auto. intros. apply rsum_pos. intros. apply Rabs_pos. }
      assert (R2 : Rabs (nth i (bt_c bt) 0) <= nodeC).
      { apply (@rsum_in s (fun i => Rabs (nth i (bt_c bt) 0))); auto. intros. apply Rabs_pos. }
      unfold impl_stage. eapply kn_mono.
      - apply (@F_kn ps unit (fun _ => F) (fun _ => adm) G L t0 T Y (fun _ => HF) HL0 (fun _ => HL) tt t _ _ (d + h * (rowA * (M + x0))) (nodeC * h)); auto.
        + apply (Hup Ha). assert (0 <= h * (rowA * (M + x0))) by (repeat apply Rmult_le_pos; lra). lra.
        + apply lincomb_V.
        + eapply near_mono; [eapply comb_near; eauto|]. apply Rplus_le_compat_l.
          rewrite Rabs_right by lra. apply Rmult_le_compat_l; [lra|]. apply Rmult_le_compat_r; [lra|]. exact R1.
        + replace (t + nth i (bt_c bt) 0 * h - t) with (nth i (bt_c bt) 0 * h) by ring.
          rewrite Rabs_mult, (Rabs_right h) by lra. apply Rmult_le_compat_r; lra.
      - assert (B1 : h * L * rowA * x0 <= 1 / 2 * x0).
        { apply Rmult_le_compat_r; auto. eapply Rle_trans; [|exact Hsm].
          rewrite !Rmult_assoc. apply Rmult_le_compat_r; auto. now apply Rmult_le_pos. }
        assert (B2 : h * (L * rowA * M) <= hm * (L * rowA * M)) by (apply Rmult_le_compat_r; auto).
        assert (B3 : h * (L * nodeC) <= hm * (L * nodeC)) by (apply Rmult_le_compat_r; auto; now apply Rmult_le_pos).
        assert (B4 : 0 <= hm * (L * nodeC * M)) by (repeat apply Rmult_le_pos; lra).
        replace (L * (d + h * (rowA * (M + x0)) + nodeC * h)) with
          (L * d + h * (L * rowA * M) + h * L * rowA * x0 + h * (L * nodeC)) by ring.
        assert (B5 : 1 / 2 * x0 = L * d + hm * (L * rowA * M) + hm * (L * nodeC) + hm * (L * nodeC * M) + slackK * hm).
        { unfold x0, stX, stD, stS. field. }
        assert (B6 : x0 = 1 / 2 * x0 + 1 / 2 * x0) by field.
        assert (B7 : 0 <= hm * (L * rowA * M)) by now apply Rmult_le_pos.
        assert (B8 : 0 <= hm * (L * nodeC)) by (apply Rmult_le_pos; auto; now apply Rmult_le_pos).
        assert (B9 : 0 <= slackK * hm) by now apply Rmult_le_pos.
        clear - B1 B2 B3 B4 B5 B6 B7 B8 B9. lra.
    Qed.

    Lemma sweep_new t h y d ks : inr t h -> h <= hm -> adm d -> V y -> near y (Y t) d -> length ks = s ->
      kns t (stX hm d) s ks -> kns t (stX hm d - slackK * hm) s (impl_sweep ps F bt t h y ks).
    Proof.
      intros Hi Hh Hd Vy Hy Hl Hk.
      assert (Q : 0 <= slackK * hm) by (apply Rmult_le_pos; auto; apply slack_pos).
      enough (X : forall i, (i <= s)%nat ->
        let ks' := fold_left (fun ks i => put ks i (impl_stage ps F bt t h y ks i)) (seq 0 i) ks in
        length ks' = s /\ kns t (stX hm d) s ks' /\ kns t (stX hm d - slackK * hm) i ks').
      { unfold impl_sweep. apply (X s (Nat.le_refl s)). }
      induction i as [|i IH]; intros Hs; cbv zeta.
      - cbn [seq fold_left]. split; auto. split; auto. intros j Hj. lia.
      - destruct IH as (I1 & I2 & I3); [lia|]. rewrite seq_S, fold_left_app. cbn [fold_left Nat.add].
        set (ks' := fold_left _ (seq 0 i) ks) in *.
        rewrite put_upd by lia. rewrite upd_length. split; auto.
        assert (NW : kn t (stX hm d - slackK * hm) (impl_stage ps F bt t h y ks' i)) by (apply stage_new; auto).
        split; intros j Hj; rewrite nth_upd by lia; destruct (Nat.eqb_spec j i); auto.
        + eapply kn_mono; [exact NW|lra].
        + apply I3. lia.
    Qed.
    Lemma sweeps_new r : (1 <= r)%nat -> forall t h y d ks, inr t h -> h <= hm -> adm d -> V y -> near y (Y t) d -> length ks = s ->
      kns t (stX hm d) s ks -> kns t (stX hm d - slackK * hm) s (impl_sweeps ps F bt r t h y ks).
    Proof.
      assert (Q : 0 <= slackK * hm) by (apply Rmult_le_pos; auto; apply slack_pos).
      intros Hr. destruct r as [|r]; [lia|]. clear Hr.
      induction r as [|r IH]; intros t h y d ks Hi Hh Hd Vy Hy Hl Hk.
      - cbn [impl_sweeps]. now apply sweep_new.
      - change (impl_sweeps ps F bt (S (S r)) t h y ks) with (impl_sweeps ps F bt (S r) t h y (impl_sweep ps F bt t h y ks)).
        apply IH; auto.
        + rewrite sweep_length; auto.
        + apply kns_mono with (x := stX hm d - slackK * hm); [now apply sweep_new|lra].
    Qed.
    Lemma guess_new t h y d : inr t h -> h <= hm -> adm d -> V y -> near y (Y t) d ->
      kns t (stX hm d) s (impl_guess ps F bt t h y).
    Proof.
      intros Hi Hh Ha Vy Hy i Hs. pose proof (Hpos Ha) as Hd. rewrite guess_nth by auto. pose proof (inr_T Hi) as HhT. pose proof (inr_t Hi) as Ht.
      pose proof stS_pos as (S1 & S2 & S3). pose proof slack_pos as S4. pose proof rowA_pos as PA. pose proof nodeC_pos as PC.
      assert (R2 : Rabs (nth i (bt_c bt) 0) <= nodeC).
      { apply (@rsum_in s (fun i => Rabs (nth i (bt_c bt) 0))); auto. intros. apply Rabs_pos. }
      assert (Ld : 0 <= L * d) by now apply Rmult_le_pos.
      eapply kn_mono.
      - apply (@F_kn ps unit (fun _ => F) (fun _ => adm) G L t0 T Y (fun _ => HF) HL0 (fun _ => HL) tt t _ _ (d + (nodeC * h) * (M + L * d)) (nodeC * h)); auto.
        + apply (Hup Ha). assert (0 <= nodeC * h * (M + L * d)) by (repeat apply Rmult_le_pos; lra). lra.
        + apply lincomb_V.
        + unfold shift. eapply near_mono.
          * eapply comb_near with (x := L * d); eauto. apply kns_cons; [|apply kns_nil].
            apply (@kn_first ps unit (fun _ => F) (fun _ => adm) G L t0 T Y (fun _ => HF) HL0 (fun _ => HL) tt t h y d); auto.
          * apply Rplus_le_compat_l. cbn [rsum]. rewrite Rabs_R1, Rplus_0_l, Rmult_1_l.
            apply Rmult_le_compat_r; [lra|]. rewrite Rabs_mult, (Rabs_right h), Rmult_comm by lra.
            apply Rmult_le_compat_r; lra.
        + replace (t + nth i (bt_c bt) 0 * h - t) with (nth i (bt_c bt) 0 * h) by ring.
          rewrite Rabs_mult, (Rabs_right h) by lra. apply Rmult_le_compat_r; lra.
      - assert (B1 : h * L * nodeC * (L * d) <= 1 * (L * d)).
        { apply Rmult_le_compat_r; auto. eapply Rle_trans; [|exact Hsm2].
          rewrite !Rmult_assoc. apply Rmult_le_compat_r; auto. now apply Rmult_le_pos. }
        assert (B2 : h * (L * nodeC * (M + 1)) <= hm * (L * nodeC * (M + 1))) by (apply Rmult_le_compat_r; auto).
        replace (L * (d + nodeC * h * (M + L * d) + nodeC * h)) with
          (L * d + h * L * nodeC * (L * d) + h * (L * nodeC * (M + 1))) by ring.
        assert (B3 : 0 <= hm * (L * rowA * M)) by now apply Rmult_le_pos.
        assert (B4 : 0 <= hm * (L * nodeC * (M + 1))) by now apply Rmult_le_pos.
        assert (B5 : 0 <= slackK * hm) by now apply Rmult_le_pos.
        replace (stX hm d) with (2 * (L * d) + 2 * (hm * (L * rowA * M)) + 2 * (hm * (L * nodeC * (M + 1))) + 2 * (slackK * hm))
          by (unfold stX, stD, stS; ring).
        clear - B1 B2 B3 B4 B5. lra.
    Qed.

    Definition implB : R := rsum s (fun i => Rabs (nth i (bt_b2 bt) 0)).
    Definition implK : R := implB * stD.
    Definition implC : R := implB * stS + M + L * (M + 1).
    Lemma implB_pos : 0 <= implB. Proof. apply rsum_pos. intros. apply Rabs_pos. Qed.
    Lemma implK_pos : 0 <= implK. Proof. apply Rmult_le_pos; [apply implB_pos|unfold stD; lra]. Qed.
    Lemma implC_pos : 0 <= implC.
    Proof.
      unfold implC. pose proof stS_pos as (S1 & _). pose proof slack_pos as S4. unfold slackK in S4.
      assert (0 <= implB * stS) by (apply Rmult_le_pos; auto; apply implB_pos). lra.
    Qed.
    Notation del := (Rabs (rsum s (fun i => nth i (bt_b2 bt) 0) - 1)).
    Lemma value_incr t h y d ks : inr t h -> h <= hm -> adm d -> kns t (stX hm d) s ks ->
      incr_le t h y (impl_value ps bt h y ks) (implK * h * d + implC * (hm + del) * h).
    Proof.
      intros Hi Hh Ha Hk. pose proof (Hpos Ha) as Hd. pose proof (inr_T Hi) as HhT. pose proof implB_pos as PB.
      pose proof stS_pos as (S1 & _). pose proof slack_pos as S4. unfold slackK in S4.
      unfold impl_value. eapply incr_mono.
      - apply (@comb_incr ps G L t0 T Y HL0 HYd M HM0 HM HG t h (stX hm d) y h s (fun i => nth i (bt_b2 bt) 0) ks del); auto.
        replace (h * rsum s (fun i => nth i (bt_b2 bt) 0) - h) with (h * (rsum s (fun i => nth i (bt_b2 bt) 0) - 1)) by ring.
        rewrite Rabs_mult, (Rabs_right h) by lra. apply Rle_refl.
      - fold implB. rewrite Rabs_right by lra. set (dl := del). assert (Pd : 0 <= dl) by apply Rabs_pos.
        clearbody dl. unfold implK, implC, stX.
        assert (E1 : L * (M + 1) * h * h <= L * (M + 1) * h * hm).
        { apply Rmult_le_compat_l; auto. apply Rmult_le_pos; lra. }
        assert (E2 : 0 <= implB * stS * dl * h) by (apply Rmult_le_pos; [apply Rmult_le_pos; [now apply Rmult_le_pos|exact Pd]|lra]).
        assert (E3 : 0 <= M * hm * h) by (repeat apply Rmult_le_pos; lra).
        assert (E4 : 0 <= L * (M + 1) * dl * h) by (apply Rmult_le_pos; [apply Rmult_le_pos; lra|lra]).
        replace (h * (implB * (stD * d + stS * hm)) + h * dl * M + L * (M + 1) * h * h) with
          (implB * stD * h * d + implB * stS * h * hm + M * h * dl + L * (M + 1) * h * h) by ring.
        replace (implB * stD * h * d + (implB * stS + M + L * (M + 1)) * (hm + dl) * h) with
          (implB * stD * h * d + (implB * stS * h * hm + M * h * dl + L * (M + 1) * h * hm) +
            (implB * stS * dl * h + M * hm * h + L * (M + 1) * dl * h)) by ring.
        clear - E1 E2 E3 E4. lra.
    Qed.

    Lemma impl_step h st (e : eng) d : t0 <= e_time e -> 0 < h <= hm -> e_time e + h <= t0 + T -> adm d ->
      V (e_y e) -> near (e_y e) (Y (e_time e)) d ->
      (forall b, st = Some b -> bufs_ok ps p b /\ kns (e_time e) (stX hm d) s (rb_k b)) ->
      ok mf (rk_step N ps ef garbage p h st e)
        (fun r => let d' := grown implK (implC * (hm + del)) h d in
          bufs_ok ps p (fst (fst r)) /\ V (e_y (snd (fst r))) /\ e_time (snd (fst r)) = e_time e + h /\
          near (e_y (snd (fst r))) (Y (e_time e + h)) d' /\
          kns (e_time e + h) (stX hm d') s (rb_k (fst (fst r)))).
    Proof.
      intros Ht Hh He Ha Vy Hy Hb. pose proof (Hpos Ha) as Hd. set (ts := e_time e) in *. set (c := implC * (hm + del)).
      pose proof (Rabs_pos (rsum s (fun i => nth i (bt_b2 bt) 0) - 1)) as Pd.
      assert (Hc : 0 <= c) by (apply Rmult_le_pos; [apply implC_pos|lra]).
      pose proof implK_pos as HK. pose proof slack_pos as S4. pose proof stS_pos as (S1 & _).
      set (D := fun t => grown implK c (t - ts) d).
      assert (D0 : D ts = d) by (unfold D, grown; replace (ts - ts) with 0 by ring; rewrite !Rmult_0_r, exp_0; ring).
      assert (DA : forall t, ts <= t -> adm (D t)) by (intros t X; eapply Hup; [exact Ha|apply grown_ge; lra]).
      assert (DP : forall t, ts <= t -> 0 <= D t) by auto.
      eapply ok_mono.
      - apply (@step_inv E mind ps ef garbage F Hps Hgarb HF Hef p Hwf Hrows Hsub ts (ts + h)
          (fun t y => near y (Y t) (D t)) (fun t y ks => kns t (stX hm (D t)) s ks)); auto; try lra.
        + intros nf t g y ks Hl (Q1 & Q2 & Q3 & Q4 & Q5 & Q6).
          assert (Hi : inr t g) by (split; [lra|]; split; lra).
          apply kns_mono with (x := stX hm (D t) - slackK * hm); [apply sweeps_new; auto; [lra| |]|].
          * destruct nf; auto. apply guess_length.
          * destruct nf; [apply guess_new; auto; lra|apply Q6; auto].
          * assert (0 <= slackK * hm) by now apply Rmult_le_pos. lra.
        + intros nf t g y ks Hl (Q1 & Q2 & Q3 & Q4 & Q5 & Q6).
          assert (Hi : inr t g) by (split; [lra|]; split; lra).
          assert (KN : kns t (stX hm (D t) - slackK * hm) s (impl_sweeps ps F bt (rp_refine p) t g y (if nf then impl_guess ps F bt t g y else ks))).
          { apply sweeps_new; auto; [lra| |].
            - destruct nf; auto. apply guess_length.
            - destruct nf; [apply guess_new; auto; lra|apply Q6; auto]. }
          set (ks' := impl_sweeps _ _ _ _ _ _ _ _) in *.
          assert (DD : grown implK c g (D t) <= D (t + g)).
          { unfold D. eapply Rle_trans; [apply grown_grown; lra|]. right. f_equal. ring. }
          assert (Qs : 0 <= slackK * hm) by now apply Rmult_le_pos.
          split.
          * eapply near_mono; [eapply incr_near; [exact Q5|]|].
            { apply value_incr with (d := D t); auto; [lra|]. eapply kns_mono; [exact KN|lra]. }
            eapply Rle_trans; [apply grown_step; auto; lra|exact DD].
          * intros j Hj. eapply kn_mono; [apply (@kn_move ps G L t0 T M HG t g _ _ Hi (KN j Hj))|].
            assert (G1 : D t <= D (t + g)) by (eapply Rle_trans; [apply grown_ge with (h := g); auto; try lra|exact DD]; auto).
            unfold stX. assert (stD * D t <= stD * D (t + g)) by (apply Rmult_le_compat_l; auto; unfold stD; lra).
            assert (slackK * g <= slackK * hm) by (apply Rmult_le_compat_l; lra).
            unfold slackK in *. lra.
        + unfold ts; lra.
        + unfold ts; lra.
        + fold ts. now rewrite D0.
        + intros b X. fold ts. rewrite D0. auto.
      - cbv zeta. intros r (A1 & A2 & A3 & A4 & A5). fold ts in A3, A4, A5. cbn beta in *.
        assert (DE : D (ts + h) = grown implK c h d) by (unfold D; f_equal; ring). rewrite DE in A4, A5. auto.
    Qed.
  End Implicit.
End Conv.
