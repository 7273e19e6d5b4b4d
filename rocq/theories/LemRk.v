(** The adaptive Runge-Kutta solver: the trace of accepted substeps, and the exact result for an
    explicit table and an engine whose right-hand side is a function. *)
From Coq Require Import ZArith Reals List Arith Lia Lra.
From Verif Require Import Num Arr ArrLemmas SpecPhys SpecEngine RLemmas ModelVertex ModelForce ModelSum
  ModelEngine ModelSolverBase ModelButcher ModelExtrap ModelSolver LemOk LemBufR SpecSolver SpecExtrap
  LemExtrap LemSolver.
Import ListNotations.
Set Implicit Arguments.

(** ** C31, in any arithmetic *)
Section Accept.
  Context {T E : Type} (N : NumOps T) (ps : nat)
          (ef : E -> nat -> T -> list T -> list T -> option (E * list T))
          (garbage : nat -> list T) (p : @rk_params T).
  Let bt := rp_table p.

  Definition good_acc (a : @accepted T) : Prop :=
    nltb N (rp_threshold p) (ac_err a) = false \/ ac_level a = rp_max_recursion p \/
    nltb N (rp_min_step p) (ac_dt a) = false \/ bt_embedded bt = false.

  Lemma sub_step_acc rem : forall level substeps nf dt st, level + rem = rp_max_recursion p ->
    Forall good_acc (snd st) ->
    ok True (sub_step N ps ef p rem level substeps nf dt st) (fun r => Forall good_acc (snd r)).
  Proof.
    induction rem as [|rem IH]; intros level substeps nf dt st Hl H0; cbn [sub_step];
      apply (@ok_for_const _ True (fun st : rk_loop => Forall good_acc (snd st))); auto;
      intros i [[[[e b] y] t] tr] H; cbn [snd] in *.
    - apply ok_bind_any. intros [e1 b1] _. apply ok_bind_any. intros [er b2] _.
      apply ok_bind_any. intros [y' b3] _. apply ok_some. cbn [snd]. apply Forall_app. split; auto.
      constructor; auto. right. left. cbn. lia.
    - apply ok_bind_any. intros [e1 b1] _. apply ok_bind_any. intros [er b2] _.
      fold bt. destruct (_ && _ && _)%bool eqn:C.
      + apply ok_bind_any. intros cy _. apply ok_bind_any. intros cy' _. apply ok_bind_any. intros st' _.
        eapply ok_bind; [apply IH; [lia|exact H]|]. intros [[[[e3 b3] y3] t3] tr3] H3.
        apply ok_bind_any. intros st3 _. apply ok_bind_any. intros y4 _. apply ok_some. exact H3.
      + apply ok_bind_any. intros [y' b3] _. apply ok_some. cbn [snd]. apply Forall_app. split; auto.
        constructor; auto. unfold good_acc. cbn [ac_err ac_level ac_dt].
        destruct (bt_embedded bt); cbn [andb] in C; auto.
        destruct (nltb N (rp_min_step p) dt); cbn [andb] in C; auto.
  Qed.

  Lemma rk_step_acc dt s (e : @eng T E) r : rk_step N ps ef garbage p dt s e = Some r ->
    Forall good_acc (snd r).
  Proof.
    intros H.
    enough (X : ok True (rk_step N ps ef garbage p dt s e) (fun r => Forall good_acc (snd r)))
      by (rewrite H in X; exact X).
    clear H. unfold rk_step.
    apply ok_bind_any. intros [[b e1] nf] _.
    eapply ok_bind; [apply sub_step_acc; [lia|constructor]|].
    intros [[[[e3 b3] y3] t3] tr3] H3. apply ok_some. exact H3.
  Qed.
End Accept.

Local Open Scope R_scope.

(** ** C30: the substeps cover the step *)
Lemma covers_app l1 : forall t l2 t1 t2, covers t l1 t1 -> covers t1 l2 t2 -> covers t (l1 ++ l2) t2.
Proof.
  induction l1 as [|a l1 IH]; intros t l2 t1 t2 H1 H2; cbn in *.
  - now subst.
  - destruct H1 as [A B]. split; auto. eapply IH; eauto.
Qed.

Lemma covers_sum l : forall t t', covers t l t' -> t' = t + fold_right Rplus 0 (map ac_dt l).
Proof.
  induction l as [|a l IH]; intros t t' H; cbn in *.
  - lra.
  - destruct H as [_ H]. apply IH in H. lra.
Qed.

Section Cover.
  Context {E : Type} (mind : R) (ps : nat)
          (ef : E -> nat -> R -> list R -> list R -> option (E * list R))
          (garbage : nat -> list R) (p : @rk_params R).
  Notation N := (Rops mind).
  Hypothesis Hsub : (1 <= rp_subdivisions p)%nat.
  Notation m := (rp_subdivisions p).

  Definition part (level rem : nat) (dt : R) (a : @accepted R) : Prop :=
    (level <= ac_level a <= level + rem)%nat /\ ac_dt a = dt / INR m ^ (ac_level a - level).

  Lemma part_up level rem dt a : part (S level) rem (dt / INR m) a -> part level (S rem) dt a.
  Proof.
    intros (A & B). split; [lia|]. rewrite B.
    replace (ac_level a - level)%nat with (S (ac_level a - S level)) by lia. cbn [pow].
    assert (INR m <> 0) by (apply not_0_INR; lia). field. split; auto. now apply pow_nonzero.
  Qed.

  Lemma sub_step_covers rem : forall level substeps nf dt (st : @rk_loop R E),
    ok True (sub_step N ps ef p rem level substeps nf dt st)
      (fun r => exists l, snd r = snd st ++ l /\
         snd (fst r) = snd (fst st) + INR substeps * dt /\
         covers (snd (fst st)) l (snd (fst st) + INR substeps * dt) /\
         Forall (part level rem dt) l /\ (length l <= substeps * m ^ rem)%nat).
  Proof.
    induction rem as [|rem IH]; intros level substeps nf dt st; cbn [sub_step];
      (apply (@ok_for0 _ True (fun c (r : @rk_loop R E) => exists l, snd r = snd st ++ l /\
         snd (fst r) = snd (fst st) + INR c * dt /\
         covers (snd (fst st)) l (snd (fst st) + INR c * dt) /\
         Forall (part level _ dt) l /\ (length l <= c * m ^ _)%nat));
       [exists []; cbn; split; [now rewrite app_nil_r|]; split; [lra|]; split; [lra|]; split; [constructor|lia]|]);
      intros c [[[[e b] y] t] tr] _ (l & A1 & A2 & A3 & A4 & A5); cbn [snd fst] in *; subst tr t.
    - apply ok_bind_any. intros [e1 b1] _. apply ok_bind_any. intros [er b2] _.
      apply ok_bind_any. intros [y' b3] _. apply ok_some. cbn [snd fst].
      eexists (l ++ [_]). rewrite app_assoc. split; [reflexivity|]. cbn [nadd Rops]. rewrite S_INR.
      split; [lra|]. split; [|split].
      + eapply covers_app; [exact A3|]. cbn. split; auto. lra.
      + apply Forall_app. split; auto. constructor; auto. split; cbn [ac_level ac_dt]; [lia|].
        rewrite Nat.sub_diag. cbn [pow]. lra.
      + rewrite app_length. cbn in *. lia.
    - apply ok_bind_any. intros [e1 b1] _. apply ok_bind_any. intros [er b2] _.
      assert (P0 : (0 < m ^ S rem)%nat).
      { apply Nat.neq_0_lt_0. apply Nat.pow_nonzero. lia. }
      destruct (_ && _ && _)%bool.
      + apply ok_bind_any. intros cy _. apply ok_bind_any. intros cy' _. apply ok_bind_any. intros st' _.
        eapply ok_bind; [apply IH|]. intros [[[[e3 b3] y3] t3] tr3] (l' & B1 & B2 & B3 & B4 & B5).
        cbn [snd fst] in *. subst tr3.
        apply ok_bind_any. intros st3 _. apply ok_bind_any. intros y4 _. apply ok_some. cbn [snd fst].
        exists (l ++ l'). rewrite app_assoc. split; [reflexivity|]. cbn [nadd Rops]. rewrite S_INR.
        split; [lra|]. split; [|split].
        * eapply covers_app; [exact A3|]. revert B3. rewrite nnat_R. cbn [ndiv Rops].
          replace (snd (fst st) + INR c * dt + INR m * (dt / INR m))
            with (snd (fst st) + (INR c + 1) * dt); auto.
          field. apply not_0_INR. lia.
        * apply Forall_app. split; auto. eapply Forall_impl; [|exact B4]. intros a Ha.
          apply part_up. revert Ha. rewrite nnat_R. auto.
        * rewrite app_length. cbn [Nat.pow Nat.mul] in *. lia.
      + apply ok_bind_any. intros [y' b3] _. apply ok_some. cbn [snd fst].
        eexists (l ++ [_]). rewrite app_assoc. split; [reflexivity|]. cbn [nadd Rops]. rewrite S_INR.
        split; [lra|]. split; [|split].
        * eapply covers_app; [exact A3|]. cbn. split; auto. lra.
        * apply Forall_app. split; auto. constructor; auto. split; cbn [ac_level ac_dt]; [lia|].
          rewrite Nat.sub_diag. cbn [pow]. lra.
        * rewrite app_length. cbn [length]. cbn [Nat.mul]. lia.
  Qed.

  Lemma rk_step_covers dt s (e : @eng R E) r : rk_step N ps ef garbage p dt s e = Some r ->
    covers (e_time e) (snd r) (e_time e + dt) /\
    fold_right Rplus 0 (map ac_dt (snd r)) = dt /\
    (length (snd r) <= m ^ rp_max_recursion p)%nat /\
    Forall (fun a => (ac_level a <= rp_max_recursion p)%nat /\ ac_dt a = dt / INR m ^ ac_level a) (snd r).
  Proof.
    intros H. assert (X : covers (e_time e) (snd r) (e_time e + dt) /\
      (length (snd r) <= m ^ rp_max_recursion p)%nat /\
      Forall (fun a => (ac_level a <= rp_max_recursion p)%nat /\ ac_dt a = dt / INR m ^ ac_level a) (snd r)).
    2: { destruct X as (A & B & C). split; auto. split; auto. apply covers_sum in A. lra. }
    enough (X : ok True (rk_step N ps ef garbage p dt s e) (fun r =>
      covers (e_time e) (snd r) (e_time e + dt) /\
      (length (snd r) <= m ^ rp_max_recursion p)%nat /\
      Forall (fun a => (ac_level a <= rp_max_recursion p)%nat /\ ac_dt a = dt / INR m ^ ac_level a) (snd r)))
      by (rewrite H in X; exact X).
    clear H. unfold rk_step.
    apply ok_bind_any. intros [[b e1] nf] _.
    eapply ok_bind; [apply sub_step_covers|].
    intros [[[[e3 b3] y3] t3] tr3] (l & A & B & C & D & F). cbn [snd fst app] in *. subst l.
    apply ok_some. cbn [snd]. cbn [INR] in C. rewrite Rmult_1_l in C. split; auto. split; [lia|].
    eapply Forall_impl; [|exact D]. intros a [A1 A2]. rewrite Nat.sub_0_r in A2. split; [lia|auto].
  Qed.
End Cover.

(** ** The exact result *)
Section Exact.
  Context {E : Type} (mind : R) (ps : nat)
          (ef : E -> nat -> R -> list R -> list R -> option (E * list R))
          (garbage : nat -> list R) (F : R -> list R -> list R).
  Notation N := (Rops mind).
  Notation V := (V ps).
  Notation lin := (lin ps).
  Notation eng := (@eng R E).
  Notation lincomb := (lincomb ps).
  Hypothesis Hps : (0 < ps)%nat.
  Hypothesis Hgarb : forall n, V (garbage n).
  Hypothesis HF : forall t y, V y -> V (F t y).
  Hypothesis Hef : forall q step t y f, V y -> V f -> ef q step t y f = Some (q, F t y).
  Let mf := False.

  Lemma fc_F (e : eng) t y f : V y -> V f ->
    ok mf (eng_fcompute ef e t y f) (fun r => fst r = e /\ snd r = F t y).
  Proof. intros Hy Hf. unfold eng_fcompute. rewrite Hef by auto. cbn. destruct e; auto. Qed.

  Lemma lincomb_V y h m c ks : V (lincomb y h m c ks).
  Proof. unfold lincomb, LemBufR.V. now rewrite map_length, seq_length. Qed.
  Lemma lincomb_nth y h m c ks q : (q < ps)%nat ->
    nth q (lincomb y h m c ks) 0 = nth q y 0 + h * rsum m (fun j => c j * nth q (nth j ks []) 0).
  Proof. intros H. unfold lincomb. rewrite nth_map_seq; auto. Qed.
  Lemma lincomb_lin y h m c ks w :
    lin w (lincomb y h m c ks) = lin w y + h * rsum m (fun j => c j * lin w (nth j ks [])).
  Proof.
    unfold LemBufR.lin.
    rewrite (rsum_ext _ _ (fun q => w q * nth q y 0 + h * rsum m (fun j => c j * (w q * nth q (nth j ks []) 0)))).
    - rewrite rsum_plus, rsum_scal, rsum_swap. do 2 f_equal. apply rsum_ext. intros j Hj. now rewrite rsum_scal.
    - intros q Hq. rewrite lincomb_nth by auto.
      rewrite (rsum_ext m (fun j => c j * (w q * nth q (nth j ks []) 0))
                 (fun j => w q * (c j * nth q (nth j ks []) 0))) by (intros; lra).
      rewrite rsum_scal. lra.
  Qed.
  Lemma lincomb_ext y h m c ks ks' : (forall j, (j < m)%nat -> nth j ks [] = nth j ks' []) ->
    lincomb y h m c ks = lincomb y h m c ks'.
  Proof.
    intros H. unfold lincomb. apply map_ext. intros q. do 2 f_equal. apply rsum_ext.
    intros j Hj. now rewrite H.
  Qed.
  Lemma lincomb_eq y y' h m c ks : V y' ->
    (forall w, lin w y' = lin w y + h * rsum m (fun j => c j * lin w (nth j ks []))) ->
    y' = lincomb y h m c ks.
  Proof. intros Hy H. apply V_ext with (ps := ps); auto using lincomb_V. intros w. now rewrite H, lincomb_lin. Qed.
  Lemma lincomb_0 y h c ks : V y -> lincomb y h 0 c ks = y.
  Proof. intros H. symmetry. apply lincomb_eq; auto. intros w. cbn [rsum]. lra. Qed.

  Section Table.
    Variable p : @rk_params R.
    Notation bt := (rp_table p).
    Notation steps := (bt_steps bt).
    Hypothesis Hwf : table_wf bt.
    Hypothesis Himp : bt_implicit bt = false.
    Hypothesis Hrows : rp_correction p = true \/
      forall i, (0 < i < steps)%nat -> exists j, (j < i)%nat /\ nth j (nth i (bt_a bt) []) 0 <> 0.
    Notation stages := (rk_stages ps F bt).

    Lemma stages_len t h y i : length (stages t h y i) = i.
    Proof. induction i as [|i IH]; cbn [rk_stages]; auto. rewrite app_length, IH. cbn. lia. Qed.
    Lemma stages_nth t h y i n j : (j < i)%nat -> (i <= n)%nat ->
      nth j (stages t h y n) [] = nth j (stages t h y i) [].
    Proof.
      intros Hj Hn. induction Hn as [|n Hn IH]; auto. cbn [rk_stages].
      rewrite app_nth1 by (rewrite stages_len; lia). exact IH.
    Qed.
    Lemma stages_last t h y i : nth i (stages t h y (S i)) [] =
      F (t + nth i (bt_c bt) 0 * h) (lincomb y h i (fun j => nth j (nth i (bt_a bt) []) 0) (stages t h y i)).
    Proof. cbn [rk_stages]. rewrite app_nth2 by (rewrite stages_len; lia). now rewrite stages_len, Nat.sub_diag. Qed.

    Lemma row_x dt i : (i < steps)%nat ->
      ok mf (row_coeff N p dt i i)
        (fun r => r = map (fun j => dt * nth j (nth i (bt_a bt) []) 0) (seq 0 i)).
    Proof.
      intros Hi. destruct Hwf as (W1 & W2 & _). unfold row_coeff.
      rewrite (rd_nth (bt_a bt) []) by lia. cbn [obind].
      apply ok_collect. intros k Hk.
      rewrite (rd_nth _ 0); [reflexivity|].
      specialize (W2 i (nth i (bt_a bt) []) Hi).
      rewrite (nth_error_nth' (bt_a bt) []) in W2 by lia. specialize (W2 eq_refl).
      rewrite Himp in W2. lia.
    Qed.

    (** the first [i] derivatives *)
    Definition kx t h y i (b : @rk_bufs R) : Prop :=
      forall j, (j < i)%nat -> nth j (rb_k b) [] = nth j (stages t h y i) [].

    Lemma stage_x t h y i (e : eng) b : h <> 0 -> (i < steps)%nat -> V y -> bufs_ok ps p b ->
      kx t h y i b ->
      ok mf (stage_explicit N ps ef p t h y i (e, b))
        (fun r => fst r = e /\ bufs_ok ps p (snd r) /\ kx t h y (S i) (snd r)).
    Proof.
      intros Hh Hi Hy Hb Hk. pose proof Hb as (A & B & C & D & G1 & G2 & H).
      pose proof Hwf as (_ & _ & _ & W4 & _).
      unfold stage_explicit. rewrite (rd_nth (bt_c bt) 0) by lia.
      rewrite (rd_nth (rb_k b) []) by lia. cbn [obind].
      assert (Vi : V (nth i (rb_k b) [])) by (apply Forall_V_nth; auto; lia).
      assert (KS : forall mt (b' : rk_bufs),
         mt = lincomb y h i (fun j => nth j (nth i (bt_a bt) []) 0) (stages t h y i) ->
         rb_k b' = upd (rb_k b) i (F (t + nth i (bt_c bt) 0 * h) mt) -> kx t h y (S i) b').
      { intros mt b' Em E1 j Hj. rewrite E1, nth_upd by lia. destruct (Nat.eqb_spec j i).
        - subst j. rewrite stages_last. now rewrite Em.
        - rewrite (@stages_nth t h y i (S i)) by lia. apply Hk. lia. }
      destruct (Nat.eqb_spec i 0) as [->|Hi0].
      - eapply ok_bind; [apply fc_F; eauto|]. intros [e1 k1] (P1 & P2). cbn [fst snd] in *. subst e1 k1.
        eapply ok_bind; [apply ok_wr; lia|]. intros k' ->. apply ok_some. cbn [fst snd]. split; auto. split.
        + apply bufs_upd; auto. intros X. now apply G1.
        + eapply KS; [|reflexivity]. now rewrite lincomb_0.
      - eapply ok_bind; [apply row_x; auto|]. intros coeff Hcoeff. cbn beta in Hcoeff.
        assert (Lc : length coeff = i) by (subst coeff; now rewrite map_length, seq_length).
        assert (WS : forall w, wsum ps i coeff (rb_k b) w =
                    h * rsum i (fun j => nth j (nth i (bt_a bt) []) 0 * lin w (nth j (stages t h y i) []))).
        { intros w. unfold wsum. rewrite <- rsum_scal. apply rsum_ext. intros j Hj. subst coeff.
          rewrite nth_map_seq by auto. rewrite Hk by auto. lra. }
        eapply ok_bind with (Q := fun r =>
          fst r = lincomb y h i (fun j => nth j (nth i (bt_a bt) []) 0) (stages t h y i) /\
          (rp_correction p = true -> V (snd r))).
        { destruct (rp_correction p) eqn:EC.
          - destruct (G1 eq_refl) as (F1 & F2 & F3).
            eapply ok_bind; [apply (ok_copy mind); auto|]. intros tc ->.
            eapply ok_bind; [apply (ok_copy mind); eauto|]. intros mt ->.
            eapply ok_mono; [apply ok_fmaddn_corr; eauto; lia|].
            intros [mt tc] (X1 & X2 & X3 & X4). cbn [fst snd] in *. split; auto.
            apply lincomb_eq; auto. intros w. rewrite X4, WS. reflexivity.
          - destruct Hrows as [Hr|Hr]; [congruence|]. destruct (Hr i ltac:(lia)) as (j & Hj & Xj).
            eapply ok_bind; [apply ok_fmaddn_some; eauto; lia|]. intros mt (X1 & X2 & _).
            apply ok_some. cbn [fst snd]. split; [|discriminate].
            apply lincomb_eq; auto. intros w. rewrite X2, WS; auto.
            exists j. split; auto. subst coeff. rewrite nth_map_seq by auto.
            now apply Rmult_integral_contrapositive_currified. }
        intros [mt tc] (X1 & X2). cbn [fst snd] in *.
        assert (Vm : V mt) by (subst mt; apply lincomb_V).
        eapply ok_bind; [apply fc_F; eauto|]. intros [e1 k1] (P1 & P2). cbn [fst snd] in *. subst e1 k1.
        eapply ok_bind; [apply ok_wr; lia|]. intros k' ->. apply ok_some. cbn [fst snd]. split; auto. split.
        + apply bufs_upd; auto.
        + eapply KS; [exact X1|reflexivity].
    Qed.

    Lemma stages_x nf t h y (e : eng) b : h <> 0 -> V y -> bufs_ok ps p b ->
      ok mf (if bt_implicit bt then sub_step_implicit N ps ef p nf t h y (e, b)
             else sub_step_explicit N ps ef p t h y (e, b))
        (fun r => fst r = e /\ bufs_ok ps p (snd r) /\ kx t h y steps (snd r)).
    Proof.
      intros Hh Hy Hb. rewrite Himp. unfold sub_step_explicit.
      apply (@ok_for0 _ mf (fun i st => fst st = e /\ bufs_ok ps p (snd st) /\ kx t h y i (snd st))).
      - cbn [fst snd]. split; auto. split; auto. intros j Hj. lia.
      - intros i [e3 b3] Hi (S1 & S2 & S3). cbn [fst snd] in *. subst e3. now apply stage_x.
    Qed.

    Lemma estimate_x t h y b : bufs_ok ps p b -> kx t h y steps b ->
      ok mf (estimate N ps p b) (fun r => bufs_ok ps p (snd r) /\ kx t h y steps (snd r) /\
        if bt_embedded bt then rk_error ps F bt t h y (fst r) else fst r = 0).
    Proof.
      intros Hb HK. pose proof Hb as (A & B & C & D & G1 & G2 & H).
      pose proof Hwf as (_ & _ & W3 & _ & W5).
      unfold estimate. destruct (bt_embedded bt).
      - specialize (W5 eq_refl).
        eapply ok_bind.
        { apply ok_collect with (h := fun n => nth n (bt_b2 bt) 0 - nth n (bt_b1 bt) 0).
          intros k Hk. rewrite !(rd_nth _ 0) by lia. reflexivity. }
        intros coeff Hc. cbn beta in Hc. eapply ok_bind.
        { apply ok_fmaddn_none; eauto; subst coeff; rewrite ?map_length, ?seq_length; lia. }
        intros mt (Vm & Lm). eapply ok_bind; [apply ok_fmaxabs; auto|]. intros er (M1 & M2).
        apply ok_some. cbn [fst snd].
        split; [|split; auto].
        + unfold bufs_ok. cbn [rb_k rb_t rb_tmpk rb_ycorr rb_tcorr rb_stack]. repeat (split; auto).
        + assert (Cm : forall q, (q < ps)%nat -> nth q mt 0 = rsum steps (fun i =>
             (nth i (bt_b2 bt) 0 - nth i (bt_b1 bt) 0) * nth q (nth i (stages t h y steps) []) 0)).
          { intros q Hq. pose proof (Lm (unit_w q)) as X. rewrite lin_unit in X by auto. rewrite X.
            unfold wsum. apply rsum_ext. intros i Hi. rewrite lin_unit by auto.
            subst coeff. rewrite nth_map_seq by auto. rewrite HK by auto. reflexivity. }
          unfold rk_error. split.
          * destruct M2 as (q & Hq & ->). exists q. split; auto. now rewrite Cm.
          * intros q Hq. rewrite <- Cm by auto. auto.
      - apply ok_some. cbn [fst snd]. auto.
    Qed.

    Lemma accept_x t h y b : V y -> bufs_ok ps p b -> kx t h y steps b ->
      ok mf (accept N ps p h y b) (fun r => fst r = rk_value ps F bt t h y /\ bufs_ok ps p (snd r)).
    Proof.
      intros Hy Hb HK. pose proof Hb as (A & B & C & D & G1 & G2 & H).
      pose proof Hwf as (_ & _ & W3 & _ & _).
      unfold accept. eapply ok_bind.
      { apply ok_collect with (h := fun n => nth n (bt_b2 bt) 0 * h).
        intros k Hk. rewrite !(rd_nth _ 0) by lia. reflexivity. }
      intros coeff Hc. cbn beta in Hc. rewrite A.
      assert (Lc : length coeff = steps) by (subst coeff; now rewrite map_length, seq_length).
      assert (FIN : forall y', V y' -> (forall w, lin w y' = lin w y + wsum ps steps coeff (rb_k b) w) ->
                    y' = rk_value ps F bt t h y).
      { intros y' Vy' L. apply lincomb_eq; auto. intros w. rewrite L. f_equal.
        unfold wsum. rewrite <- rsum_scal. apply rsum_ext. intros j Hj. subst coeff.
        rewrite nth_map_seq by auto. rewrite HK by auto. lra. }
      destruct (rp_correction p) eqn:EC.
      - destruct (G1 eq_refl) as (F1 & F2 & F3).
        eapply ok_bind; [apply ok_fmaddn_corr; eauto; lia|]. intros [y' yc] (X1 & X2 & X3 & X4).
        cbn [fst snd] in *. apply ok_some. cbn [fst snd]. split; auto.
        unfold bufs_ok. cbn [rb_k rb_t rb_tmpk rb_ycorr rb_tcorr rb_stack]. repeat (split; auto).
      - eapply ok_bind; [apply ok_fmaddn_inplace; eauto; lia|]. intros y' (X1 & X4).
        apply ok_some. cbn [fst snd]. auto.
    Qed.

    Lemma replay_app l1 : forall y l2 y1 y2,
      rk_replay ps F bt y l1 y1 -> rk_replay ps F bt y1 l2 y2 -> rk_replay ps F bt y (l1 ++ l2) y2.
    Proof.
      induction l1 as [|a l1 IH]; intros y l2 y1 y2 H1 H2; cbn [rk_replay app] in *.
      - now subst.
      - destruct H1 as [A B]. split; auto. eapply IH; eauto.
    Qed.

    Hypothesis Hsub : (1 <= rp_subdivisions p)%nat.

    Lemma sub_step_x rem : forall level substeps nf h (e : eng) b y0 t0 tr,
      (level + rem <= rp_max_recursion p)%nat -> h <> 0 -> bufs_ok ps p b -> V y0 ->
      ok mf (sub_step N ps ef p rem level substeps nf h (e, b, y0, t0, tr))
        (fun r => let '(e', b', y', t', tr') := r in e' = e /\ bufs_ok ps p b' /\ V y' /\
           exists l, tr' = tr ++ l /\ rk_replay ps F bt y0 l y').
    Proof.
      assert (VV : forall t h y, V (rk_value ps F bt t h y)) by (intros; apply lincomb_V).
      induction rem as [|rem IH]; intros level substeps nf h e b0 y0 t0 tr Hlev Hh H0 Hy0; cbn [sub_step];
        (apply (@ok_for_const _ mf (fun r : @rk_loop R E => let '(e', b', y', t', tr') := r in
             e' = e /\ bufs_ok ps p b' /\ V y' /\ exists l, tr' = tr ++ l /\ rk_replay ps F bt y0 l y'));
         [split; auto; split; auto; split; auto; exists []; split; [now rewrite app_nil_r|reflexivity]|]);
        intros c [[[[e' b] y] t] tr'] (-> & A2 & A3 & l & -> & A5).
      - eapply ok_bind; [eapply stages_x; eauto|]. intros [e1 b1] (B1 & B2 & B3). cbn [fst snd] in *. subst e1.
        eapply ok_bind; [apply estimate_x; eauto|]. intros [er b2] (C1 & C2 & C3). cbn [fst snd] in *.
        eapply ok_bind; [eapply accept_x; eauto|]. intros [y' b3] (D1 & D2). cbn [fst snd] in *. subst y'.
        apply ok_some. split; auto. split; auto. split; auto.
        eexists (l ++ [_]). rewrite app_assoc. split; [reflexivity|]. eapply replay_app; [exact A5|].
        cbn. auto.
      - eapply ok_bind; [eapply stages_x; eauto|]. intros [e1 b1] (B1 & B2 & B3). cbn [fst snd] in *. subst e1.
        eapply ok_bind; [apply estimate_x; eauto|]. intros [er b2] (C1 & C2 & C3). cbn [fst snd] in *.
        destruct (_ && _ && _)%bool.
        + pose proof C1 as (Q1 & Q2 & Q3 & Q4 & Q5 & Q6 & Q7).
          rewrite (rd_nth (rb_stack b2) []) by lia. cbn [obind].
          eapply ok_bind; [apply (ok_copy mind); eauto; apply Forall_V_nth; auto; lia|]. intros cy ->.
          eapply ok_bind; [apply ok_wr; lia|]. intros st2 Est. cbn beta in Est.
          eapply ok_bind.
          { apply IH; auto; [lia| |].
            - rewrite nnat_R. cbn [ndiv Rops]. unfold Rdiv.
              apply Rmult_integral_contrapositive_currified; auto. apply Rinv_neq_0_compat.
              apply not_0_INR. lia.
            - unfold bufs_ok. cbn [rb_k rb_t rb_tmpk rb_ycorr rb_tcorr rb_stack]. subst st2. rewrite upd_length.
              repeat (split; auto). apply Forall_upd; eauto. }
          intros [[[[e3 b3] y3] t3] tr3] (-> & D2 & D3 & l' & -> & D5).
          pose proof D2 as (U1 & U2 & U3 & U4 & U5 & U6 & U7).
          eapply ok_bind; [apply ok_wr; lia|]. intros st3 Est3. cbn beta in Est3.
          eapply ok_bind; [apply (ok_copy mind); eauto|]. intros y4 ->. apply ok_some.
          split; auto. split.
          { unfold bufs_ok. cbn [rb_k rb_t rb_tmpk rb_ycorr rb_tcorr rb_stack]. subst st3. rewrite upd_length.
            repeat (split; auto). apply Forall_upd; eauto. }
          split; auto. exists (l ++ l'). rewrite app_assoc. split; [reflexivity|]. eapply replay_app; eauto.
        + eapply ok_bind; [eapply accept_x; eauto|]. intros [y' b3] (D1 & D2). cbn [fst snd] in *. subst y'.
          apply ok_some. split; auto. split; auto. split; auto.
          eexists (l ++ [_]). rewrite app_assoc. split; [reflexivity|]. eapply replay_app; [exact A5|].
          cbn. auto.
    Qed.

    Lemma alloc_x (e : eng) : V (e_y e) ->
      ok mf (rk_alloc N garbage p e) (fun r => bufs_ok ps p (fst r) /\ e_y (snd r) = e_y e /\
                                               e_time (snd r) = e_time e).
    Proof.
      clear Hrows. intros Hy.
      assert (NB : forall k (e : eng), length (fst (new_buffers garbage k e)) = k /\
         Forall V (fst (new_buffers garbage k e)) /\ e_y (snd (new_buffers garbage k e)) = e_y e /\
         e_time (snd (new_buffers garbage k e)) = e_time e).
      { induction k as [|k IH]; intros e0; cbn [new_buffers]; [cbn; auto|].
        unfold new_buffer. specialize (IH (mkEng (e_y e0) (e_time e0) (e_step e0) (e_priv e0) (S (e_nbuf e0)))).
        destruct (new_buffers garbage k _) as [l e1]. cbn [fst snd length e_y e_time] in *.
        destruct IH as (I1 & I2 & I3 & I4). auto. }
      unfold rk_alloc.
      pose proof (NB steps e) as (N1 & N2 & N3 & N4).
      destruct (new_buffers garbage steps e) as [k e1]. cbn [fst snd] in *. unfold new_buffer at 1 2.
      cbn [e_y e_time e_step e_priv e_nbuf].
      match goal with |- context [new_buffers garbage ?k ?e] =>
        pose proof (NB k e) as (M1 & M2 & M3 & M4); destruct (new_buffers garbage k e) as [st e2] end.
      cbn [fst snd e_y e_time] in *.
      destruct (rp_correction p) eqn:EC.
      - unfold new_buffer. cbn [e_y e_time e_step e_priv e_nbuf].
        eapply ok_bind; [apply (ok_fill mind ps)|]. intros yc (L1 & _ & Z1).
        eapply ok_bind; [apply (ok_fill mind ps)|]. intros tc (L2 & _ & Z2). apply ok_some.
        cbn [fst snd e_y e_time].
        assert (VG : forall n, length (garbage n) = ps) by exact Hgarb.
        split; [|split; congruence]. unfold bufs_ok. cbn [rb_k rb_t rb_tmpk rb_ycorr rb_tcorr rb_stack].
        unfold LemBufR.V in *. rewrite !VG in *. repeat (split; auto); congruence.
      - apply ok_some. cbn [fst snd]. split; [|split; congruence]. unfold bufs_ok.
        cbn [rb_k rb_t rb_tmpk rb_ycorr rb_tcorr rb_stack]. repeat (split; auto); congruence.
    Qed.

    Lemma rk_step_x h s (e : eng) : h <> 0 -> V (e_y e) ->
      (forall b, s = Some b -> bufs_ok ps p b) ->
      ok mf (rk_step N ps ef garbage p h s e)
        (fun r => bufs_ok ps p (fst (fst r)) /\ rk_replay ps F bt (e_y e) (snd r) (e_y (snd (fst r)))).
    Proof.
      intros Hh Hy Hs. unfold rk_step.
      eapply ok_bind with (Q := fun r => bufs_ok ps p (fst (fst r)) /\ e_y (snd (fst r)) = e_y e /\
         e_time (snd (fst r)) = e_time e).
      { destruct s as [b|].
        - apply ok_some. cbn [fst snd]. auto.
        - eapply ok_bind; [apply alloc_x; auto|]. intros [b e1] (A & B & C). apply ok_some. cbn [fst snd] in *. auto. }
      intros [[b e1] nf] (A & B & C). cbn [fst snd] in *. rewrite B.
      eapply ok_bind; [apply sub_step_x; auto|].
      intros [[[[e3 b3] y3] t3] tr3] (-> & D2 & D3 & l' & -> & D5). apply ok_some. cbn [fst snd e_y set_y advise_time app].
      auto.
    Qed.
  End Table.
End Exact.
