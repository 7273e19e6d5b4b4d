(** Time and step counter: every arithmetic, every engine. *)
From Coq Require Import ZArith List Arith Lia.
From Verif Require Import Num Arr ModelEngine ModelSolverBase ModelButcher ModelExtrap ModelSolver SpecSolver LemOk LemExtrap.
Import ListNotations.
Set Implicit Arguments.

Section Time.
  Context {T E : Type} (N : NumOps T) (ps : nat)
          (ef : E -> nat -> T -> list T -> list T -> option (E * list T))
          (garbage : nat -> list T).
  Notation eng := (@eng T E).

  (** same clock *)
  Definition clock (t : T) (n : nat) (e : eng) : Prop := e_time e = t /\ e_step e = n.

  Lemma clock_new t n (e : eng) : clock t n e -> clock t n (snd (new_buffer garbage e)).
  Proof. auto. Qed.
  Lemma clock_news t n k (e : eng) : clock t n e -> clock t n (snd (new_buffers garbage k e)).
  Proof.
    revert e. induction k as [|k IH]; intros e H; cbn; auto.
    destruct (new_buffers garbage k _) as [l e'] eqn:X. cbn.
    change e' with (snd (l, e')). rewrite <- X. apply IH. auto.
  Qed.
  Lemma clock_fcompute t n (e : eng) t' y f :
    clock t n e -> ok True (eng_fcompute ef e t' y f) (fun r => clock t n (fst r)).
  Proof. intros H. unfold eng_fcompute. apply ok_bind_any. intros a _. apply ok_some. exact H. Qed.
  Lemma clock_set_y t n (e : eng) y : clock t n e -> clock t n (set_y e y).
  Proof. auto. Qed.
  Lemma clock_adv t n (e : eng) dt : clock t n e -> clock (nadd N t dt) (S n) (advise_time N e dt).
  Proof. intros [H1 H2]. split; cbn; congruence. Qed.

  Ltac alloc :=
    repeat match goal with
    | |- context [new_buffer garbage ?e] =>
        let b := fresh "b" in let e' := fresh "e" in let X := fresh "X" in
        destruct (new_buffer garbage e) as [b e'] eqn:X;
        pose proof (@clock_new _ _ e ltac:(eassumption));
        rewrite X in *; cbn [snd] in *
    | |- context [new_buffers garbage ?k ?e] =>
        let b := fresh "b" in let e' := fresh "e" in let X := fresh "X" in
        destruct (new_buffers garbage k e) as [b e'] eqn:X;
        pose proof (@clock_news _ _ k e ltac:(eassumption));
        rewrite X in *; cbn [snd] in *
    end.
  Ltac fc := eapply ok_bind; [apply clock_fcompute; eassumption|];
             let e := fresh "e" in intros [e ?] ?; cbn [fst] in *.
  Ltac any := apply ok_bind_any; intros ? _.
  Ltac fin := apply ok_some; cbn [snd fst]; auto using clock_adv, clock_set_y.

  Lemma clock_euler dt s (e : eng) t n : clock t n e ->
    ok True (euler_advise N ps ef garbage dt s e) (fun r => clock (nadd N t dt) (S n) (snd r)).
  Proof.
    intros H. unfold euler_advise. destruct s as [b|]; alloc; fc; any; fin.
  Qed.
  Lemma clock_midpoint dt s (e : eng) t n : clock t n e ->
    ok True (midpoint_advise N ps ef garbage dt s e) (fun r => clock (nadd N t dt) (S n) (snd r)).
  Proof.
    intros H. unfold midpoint_advise. destruct s as [b|]; alloc; fc; any; fc; any; fin.
  Qed.
  Lemma clock_stetter dt s (e : eng) t n : clock t n e ->
    ok True (stetter_advise N ps ef garbage dt s e) (fun r => clock (nadd N t dt) (S n) (snd r)).
  Proof.
    intros H. unfold stetter_advise.
    assert (G : forall (s : stetter) (e : eng) (fr : bool) t0, clock t n e ->
      ok True
       (let* u := rd (sm_uv s) 0 in
        let* v := rd (sm_uv s) 1 in
        let* fu0 := rd (sm_fu s) 0 in
        let* fu1 := rd (sm_fu s) 1 in
        let* (u, v, first_run) :=
          if orb (negb (sm_init s)) fr then
            let* u := copy_buffer ps u (e_y e) in
            let* v := copy_buffer ps v (e_y e) in
            Some (u, v, true)
          else Some (u, v, fr) in
        let* (e, fu0) := if (first_run : bool) then eng_fcompute ef e t0 u fu0 else Some (e, fu0) in
        let* tmp := fmadd N ps (sm_tmp s) v fu0 (ndiv N dt (nlit N 2)) in
        let* (e, du) := eng_fcompute ef e (nadd N t0 (ndiv N dt (nlit N 2))) tmp (sm_du s) in
        let* u := fmadd_inplace N ps u du dt in
        let* (e, fu1) := eng_fcompute ef e (nadd N t0 dt) u fu1 in
        let* v := fmaddn_inplace N ps v [fu0; fu1] [ndiv N dt (nlit N 2); ndiv N dt (nlit N 2)] 2 in
        let half := ndiv N (nlit N 1) (nlit N 2) in
        let* y := fmaddn N ps (e_y e) None [u; v] [half; half] 2 in
        Some (Some (mkStetter tmp du [fu1; fu0] [u; v] true), advise_time N (set_y e y) dt))
       (fun r => clock (nadd N t dt) (S n) (snd r))).
    { clear. intros s e fr t0 H. any. any. any. any. apply ok_bind_any. intros [[u v] r] _.
      eapply ok_bind with (Q := fun r => clock t n (fst r)).
      - destruct r; [now apply clock_fcompute|exact H].
      - intros [e1 fu] H1. cbn [fst] in H1. any. fc. any. fc. any. cbv zeta. any. fin. }
    destruct s as [b|].
    - apply G. exact H.
    - alloc. apply G. auto.
  Qed.
  Lemma clock_rk4 dt s (e : eng) t n : clock t n e ->
    ok True (rk4_advise N ps ef garbage dt s e) (fun r => clock (nadd N t dt) (S n) (snd r)).
  Proof.
    intros H. unfold rk4_advise. cbv zeta.
    destruct s as [b|]; alloc; (any; any; any; any; fc; any; fc; any; fc; any; fc; any; fin).
  Qed.
  Lemma clock_trapeze refine dt s (e : eng) t n : clock t n e ->
    ok True (trapeze_advise N ps ef garbage refine dt s e) (fun r => clock (nadd N t dt) (S n) (snd r)).
  Proof.
    intros H. unfold trapeze_advise. cbv zeta.
    assert (L : forall t0 f0 (e : eng) pred f1, clock t n e ->
      ok True (for_ (S refine) 0 (trapeze_refine N ps ef refine dt t0 f0) (e, pred, f1))
        (fun r => clock t n (fst (fst r)))).
    { clear. intros t0 f0 e pred f1 H.
      apply (@ok_for_const (eng * list T * list T) True (fun r => clock t n (fst (fst r)))); auto.
      intros k [[e1 p1] g1] H1. cbn [fst] in H1. unfold trapeze_refine. cbv zeta. fc.
      destruct (Nat.eqb k refine); any; fin. }
    destruct s as [b|]; alloc.
    - any. any. fc. any. eapply ok_bind; [apply L; auto|]. intros [[eA pA] gA] HA. fin.
    - any. any. fc. any. eapply ok_bind; [apply L; auto|]. intros [[eA pA] gA] HA. fin.
  Qed.

  Section Butcher.
    Variable p : @rk_params T.
    Lemma clock_stage_explicit t0 dt y k (st : eng * rk_bufs) t n : clock t n (fst st) ->
      ok True (stage_explicit N ps ef p t0 dt y k st) (fun r => clock t n (fst r)).
    Proof.
      destruct st as [e b]. cbn [fst]. intros H. unfold stage_explicit. any. any.
      destruct (Nat.eqb k 0).
      - fc. any. fin.
      - any. apply ok_bind_any. intros [mt tc] _. fc. any. fin.
    Qed.
    Lemma clock_stage_first t0 dt y k (st : eng * rk_bufs) t n : clock t n (fst st) ->
      ok True (stage_first N ps ef p t0 dt y k st) (fun r => clock t n (fst r)).
    Proof.
      destruct st as [e b]. cbn [fst]. intros H. unfold stage_first. any. any. any. fc. any. fin.
    Qed.
    Lemma clock_stage_implicit t0 dt y k (st : eng * rk_bufs) t n : clock t n (fst st) ->
      ok True (stage_implicit N ps ef p t0 dt y k st) (fun r => clock t n (fst r)).
    Proof.
      destruct st as [e b]. cbn [fst]. intros H. unfold stage_implicit. any. any. any. any. fc. any. fin.
    Qed.
    Lemma clock_sub_explicit t0 dt y (st : eng * rk_bufs) t n : clock t n (fst st) ->
      ok True (sub_step_explicit N ps ef p t0 dt y st) (fun r => clock t n (fst r)).
    Proof.
      intros H. apply (@ok_for_const (eng * rk_bufs) True (fun r => clock t n (fst r))); auto.
      intros. now apply clock_stage_explicit.
    Qed.
    Lemma clock_sub_implicit nf t0 dt y (st : eng * rk_bufs) t n : clock t n (fst st) ->
      ok True (sub_step_implicit N ps ef p nf t0 dt y st) (fun r => clock t n (fst r)).
    Proof.
      intros H. unfold sub_step_implicit.
      eapply ok_bind with (Q := fun r => clock t n (fst r)).
      - destruct nf; [|exact H]. destruct st as [e b]. cbn [fst] in H. fc.
        apply (@ok_for_const (eng * rk_bufs) True (fun r => clock t n (fst r))); auto.
        intros. now apply clock_stage_first.
      - intros st1 H1.
        apply (@ok_for_const (eng * rk_bufs) True (fun r => clock t n (fst r))); auto.
        intros k s Hs. apply (@ok_for_const (eng * rk_bufs) True (fun r => clock t n (fst r))); auto.
        intros. now apply clock_stage_implicit.
    Qed.

    Definition loop_clock t n (st : @rk_loop T E) : Prop :=
      clock t n (fst (fst (fst (fst st)))).

    Lemma clock_sub_step rem : forall level substeps nf dt (st : rk_loop) t n, loop_clock t n st ->
      ok True (sub_step N ps ef p rem level substeps nf dt st) (loop_clock t n).
    Proof.
      induction rem as [|rem IH]; intros level substeps nf dt st t n H; cbn [sub_step];
        (apply ok_for_const; [exact H|]); intros k [[[[e b] y] t1] tr] Hs;
        unfold loop_clock in Hs; cbn [fst] in Hs.
      - eapply ok_bind with (Q := fun r => clock t n (fst r)).
        { destruct (bt_implicit _); [now apply clock_sub_implicit|now apply clock_sub_explicit]. }
        intros [e1 b1] H1. cbn [fst] in H1.
        apply ok_bind_any. intros [err b2] _. cbv zeta.
        apply ok_bind_any. intros [y2 b3] _. apply ok_some. exact H1.
      - eapply ok_bind with (Q := fun r => clock t n (fst r)).
        { destruct (bt_implicit _); [now apply clock_sub_implicit|now apply clock_sub_explicit]. }
        intros [e1 b1] H1. cbn [fst] in H1.
        apply ok_bind_any. intros [err b2] _. cbv zeta.
        destruct (andb _ _).
        + any. any. any. eapply ok_bind; [apply IH; unfold loop_clock; cbn [fst]; exact H1|].
          intros [[[[e2 b5] y2] t2] tr2] H2. unfold loop_clock in H2. cbn [fst] in H2.
          any. any. apply ok_some. exact H2.
        + apply ok_bind_any. intros [y2 b3] _. apply ok_some. exact H1.
    Qed.

    Lemma clock_rk_alloc (e : eng) t n : clock t n e ->
      ok True (rk_alloc N garbage p e) (fun r => clock t n (snd r)).
    Proof.
      intros H. unfold rk_alloc. alloc. destruct (rp_correction p); alloc.
      - any. any. fin.
      - fin.
    Qed.

    Lemma clock_rk dt s (e : eng) t n : clock t n e ->
      ok True (rk_advise N ps ef garbage p dt s e) (fun r => clock (nadd N t dt) (S n) (snd r)).
    Proof.
      intros H. unfold rk_advise, rk_step. cbv zeta.
      eapply ok_bind with (Q := fun r => clock (nadd N t dt) (S n) (snd (fst r))).
      - eapply ok_bind with (Q := fun r => clock t n (snd (fst r))).
        + destruct s as [b|]; [exact H|]. eapply ok_bind; [apply clock_rk_alloc; eassumption|].
          intros [b e1] H1. exact H1.
        + intros [[b e1] nf] H1. cbn [fst snd] in H1.
          eapply ok_bind; [apply clock_sub_step with (t := t) (n := n); exact H1|].
          intros [[[[e2 b5] y2] t2] tr2] H2. unfold loop_clock in H2. cbn [fst] in H2.
          apply ok_some. cbn [fst snd]. now apply clock_adv, clock_set_y.
      - intros [[b e1] tr] H1. apply ok_some. exact H1.
    Qed.
  End Butcher.

  (** the Bulirsch-Stoer solver: the time is right, the step counter counts the substeps *)
  Lemma steps_substeps cnt sdt st : forall n, e_step (snd st) = n ->
    ok True (bs_substeps N ps ef garbage cnt sdt st) (fun r => e_step (snd r) = n + cnt).
  Proof.
    intros n H. unfold bs_substeps.
    apply (@ok_for0 (option stetter * eng) True (fun k r => e_step (snd r) = n + k)).
    - lia.
    - intros k [s e] _ Hk. cbn [fst snd] in *.
      eapply ok_mono; [apply (@clock_stetter sdt s e (e_time e) (n + k)); split; auto|].
      intros [s' e'] [_ H']. cbn [snd] in *. lia.
  Qed.

  Lemma steps_compute counts level dt t0 b (e : eng) :
    ok True (bs_compute N ps ef garbage counts level dt t0 b e)
      (fun r => exists c, nth_error counts level = Some c /\ e_step (snd r) = e_step e + c).
  Proof.
    unfold bs_compute. any. apply ok_bind_any. intros c Hc.
    eapply ok_bind; [apply steps_substeps; reflexivity|].
    intros [int e1] H1. cbn [snd] in H1. any. apply ok_some. exists c. split; auto.
  Qed.

  (** sum of the substep counts of the levels [lo, lo + k) *)
  Fixpoint level_sum (counts : list nat) (lo k : nat) : nat :=
    match k with O => 0 | S k' => nth lo counts 0 + level_sum counts (S lo) k' end.

  Lemma steps_levels pr counts dt t0 left : forall level b (e : eng),
    ok True (bs_levels N ps ef garbage pr counts dt t0 left level b e)
      (fun r => exists k, k <= left /\ (k = left \/ 3 <= level + k) /\
                e_step (snd r) = e_step e + level_sum counts level k).
  Proof.
    induction left as [|left IH]; intros level b e; cbn [bs_levels].
    - apply ok_some. exists 0. split; [lia|]. split; [now left|]. cbn. lia.
    - eapply ok_bind; [apply steps_compute|]. intros [b1 e1] (c & Hc & H1). cbn [snd] in H1.
      assert (K : forall b0 (e0 : eng), e_step e0 = e_step e1 ->
        ok True (bs_levels N ps ef garbage pr counts dt t0 left (S level) b0 e0)
          (fun r => exists k, k <= S left /\ (k = S left \/ 3 <= level + k) /\
                    e_step (snd r) = e_step e + level_sum counts level k)).
      { intros b0 e0 H0. eapply ok_mono; [apply IH|]. intros [b2 e2] (k & Hk & Hk' & H2).
        exists (S k). split; [lia|]. split; [lia|]. cbn [level_sum].
        rewrite (nth_error_nth _ _ 0 Hc). cbn [snd] in *. lia. }
      destruct (Nat.ltb_spec level 2); [now apply K|].
      apply ok_bind_any. intros [md ext] _. cbv zeta.
      destruct (orb _ _); [|now apply K].
      any. apply ok_some. exists 1. split; [lia|]. split; [lia|].
      cbn [snd set_y e_step level_sum].
      rewrite (nth_error_nth _ _ 0 Hc). lia.
  Qed.

  Lemma clock_bs p dt s (e : eng) counts :
    init_steps (bp_max_level p) = Some counts ->
    ok True (bs_advise N ps ef garbage p dt s e)
      (fun r => e_time (snd r) = nadd N (e_time e) dt /\
         exists k, k <= bp_max_level p /\ (k = bp_max_level p \/ 3 <= k) /\
                   e_step (snd r) = S (e_step e + level_sum counts 0 k)).
  Proof.
    intros HC. unfold bs_advise. rewrite HC. cbn [obind].
    assert (G : forall b (e1 : eng), clock (e_time e) (e_step e) e1 ->
      ok True
       (let t0 := e_time e1 in
        let* y0 := copy_buffer ps (bb_y0 b) (e_y e1) in
        let b0 := mkBsBufs y0 (bb_int b) (bb_ext b) in
        let* (b1, e0) := bs_levels N ps ef garbage p counts dt t0 (bp_max_level p) 0 b0 e1 in
        Some (Some b1, advise_time N (set_time e0 t0) dt))
       (fun r => e_time (snd r) = nadd N (e_time e) dt /\
         exists k, k <= bp_max_level p /\ (k = bp_max_level p \/ 3 <= k) /\
                   e_step (snd r) = S (e_step e + level_sum counts 0 k))).
    { intros b e1 [H1 H2]. cbv zeta. any. eapply ok_bind; [apply steps_levels|].
      intros [b1 e2] (k & Hk & Hk' & H3). apply ok_some. cbn [snd]. split.
      - cbn. now rewrite H1.
      - exists k. split; auto. split; auto. cbn. cbn [snd] in H3. rewrite H3, H2. reflexivity. }
    destruct s as [b|].
    - apply G. split; auto.
    - assert (clock (e_time e) (e_step e) e) by (split; auto). alloc. apply G; auto.
  Qed.

  Lemma clock_adams_alloc p (e : eng) t n : clock t n e ->
    ok True (adams_alloc N garbage p e) (fun r => clock t n (snd r)).
  Proof.
    intros H. unfold adams_alloc. alloc. destruct (ap_corr p); alloc.
    - any. fin.
    - fin.
  Qed.

  Lemma bs_more_len c : forall j l l', bs_more c j l = Some l' -> length l' = length l + c.
  Proof.
    induction c as [|c IH]; intros j l l' H; cbn in H.
    - injection H as <-. lia.
    - destruct (rd l (j - 2)); [|discriminate]. cbn [obind] in H. apply IH in H.
      rewrite app_length in H. cbn in H. lia.
  Qed.

  (** every solver: the time; the step counter at least one more, exactly one more without
      Bulirsch-Stoer *)
  Lemma clock_advise dt s : forall (e : eng),
    ok True (advise N ps ef garbage dt s e)
      (fun r => e_time (snd r) = nadd N (e_time e) dt /\ S (e_step e) <= e_step (snd r) /\
                (~ uses_bs s -> e_step (snd r) = S (e_step e)) /\
                (~ uses_bs s -> ~ uses_bs (fst r))).
  Proof.
    assert (C0 : forall e : eng, clock (e_time e) (e_step e) e) by (split; auto).
    induction s as [b|b|b|b|r b|p b|p b|p st IH b step]; intros e; cbn [advise].
    - eapply ok_bind; [apply clock_euler, C0|]. intros [b' e'] [H1 H2]. cbn [snd] in *.
      apply ok_some. cbn. rewrite H1, H2. repeat split; auto.
    - eapply ok_bind; [apply clock_midpoint, C0|]. intros [b' e'] [H1 H2]. cbn [snd] in *.
      apply ok_some. cbn. rewrite H1, H2. repeat split; auto.
    - eapply ok_bind; [apply clock_stetter, C0|]. intros [b' e'] [H1 H2]. cbn [snd] in *.
      apply ok_some. cbn. rewrite H1, H2. repeat split; auto.
    - eapply ok_bind; [apply clock_rk4, C0|]. intros [b' e'] [H1 H2]. cbn [snd] in *.
      apply ok_some. cbn. rewrite H1, H2. repeat split; auto.
    - eapply ok_bind; [apply clock_trapeze, C0|]. intros [b' e'] [H1 H2]. cbn [snd] in *.
      apply ok_some. cbn. rewrite H1, H2. repeat split; auto.
    - eapply ok_bind; [apply clock_rk, C0|]. intros [b' e'] [H1 H2]. cbn [snd] in *.
      apply ok_some. cbn. rewrite H1, H2. repeat split; auto.
    - destruct (init_steps (bp_max_level p)) as [cs|] eqn:EC.
      + eapply ok_bind; [apply clock_bs; eassumption|]. intros [b' e'] (H1 & k & _ & _ & H2).
        apply ok_some. cbn [uses_bs snd fst] in *. split; auto. split; [lia|]. tauto.
      + unfold bs_advise. rewrite EC. exact I.
    - cbv zeta. destruct (Nat.eqb_spec (ap_rank p) 0); [exact I|]. any.
      eapply ok_bind with (Q := fun r => clock (e_time e) (e_step e) (snd r)).
      { destruct b; [apply C0|]. apply clock_adams_alloc, C0. }
      intros [b1 e1] H1. cbn [snd] in H1. any.
      eapply ok_bind; [apply clock_fcompute; eassumption|]. intros [e2 fb] H2. cbn [fst] in H2.
      any. destruct (Nat.ltb_spec (ap_rank p) step).
      + any. destruct (ap_corr p).
        * apply ok_bind_any. intros [y c] _. apply ok_some. cbn. destruct H2 as [-> ->].
          split; auto. split; auto. split; auto. intros _. lia.
        * any. apply ok_some. cbn. destruct H2 as [-> ->].
          split; auto. split; auto. split; auto. intros _. lia.
      + eapply ok_bind; [apply IH|]. intros [s' e'] (A1 & A2 & A3 & A4). apply ok_some.
        cbn [fst snd uses_bs] in *. destruct H2 as [<- <-].
        split; auto. split; auto. split; [intros; apply A3; tauto|]. intros HN [HL HU].
        apply A4 in HU; auto.
  Qed.

  Lemma clock_advise_all dts : forall s (e : eng),
    ok True (advise_all N ps ef garbage dts s e)
      (fun r => e_time (snd r) = fold_left (nadd N) dts (e_time e) /\
                e_step e + length dts <= e_step (snd r) /\
                (~ uses_bs s -> e_step (snd r) = e_step e + length dts)).
  Proof.
    induction dts as [|dt r IH]; intros s e; cbn [advise_all].
    - apply ok_some. cbn. repeat split; intros; lia.
    - eapply ok_bind; [apply clock_advise|]. intros [s1 e1] (A1 & A2 & A3 & A4). cbn [fst snd] in *.
      eapply ok_mono; [apply IH|]. intros [s2 e2] (B1 & B2 & B3). cbn [fold_left length snd] in *.
      rewrite B1, A1. split; auto. split; [lia|]. intros HN. rewrite B3, A3; auto. lia.
  Qed.

  Lemma level_sum_nsum n lo k : lo + k <= n ->
    nsum lo bs_seq + level_sum (map bs_seq (seq 0 n)) lo k = nsum (lo + k) bs_seq.
  Proof.
    revert lo. induction k as [|k IH]; intros lo H; cbn [level_sum].
    - now rewrite !Nat.add_0_r.
    - replace (lo + S k) with (S lo + k) by lia. rewrite <- IH by lia. cbn [nsum].
      rewrite (nth_error_nth _ _ 0 (@ArrLemmas.nth_map nat bs_seq n lo ltac:(lia))). lia.
  Qed.

  Lemma bs_step_count p dt b (e : eng) r :
    advise N ps ef garbage dt (SBs p b) e = Some r ->
    exists k, k <= bp_max_level p /\ (k = bp_max_level p \/ 3 <= k) /\
              e_step (snd r) = S (e_step e + nsum k bs_seq).
  Proof.
    intros H. cbn [advise] in H.
    destruct (bs_advise N ps ef garbage p dt b e) as [[b' e']|] eqn:EB; [|discriminate].
    injection H as <-. pose proof (clock_bs p dt b e (init_steps_ok (bp_max_level p))) as K.
    rewrite EB in K. destruct K as (_ & k & K1 & K2 & K3). exists k. cbn [snd] in *.
    split; auto. split; auto. rewrite K3. f_equal. f_equal.
    apply (@level_sum_nsum (bp_max_level p) 0 k). lia.
  Qed.

  Lemma advise_all_time dts s (e : eng) r :
    advise_all N ps ef garbage dts s e = Some r ->
    e_time (snd r) = fold_left (nadd N) dts (e_time e) /\
    e_step e + length dts <= e_step (snd r) /\
    (~ uses_bs s -> e_step (snd r) = e_step e + length dts).
  Proof.
    intros H. pose proof (clock_advise_all dts s e) as K. rewrite H in K. exact K.
  Qed.

  Lemma advise_time_step dt s (e : eng) r :
    advise N ps ef garbage dt s e = Some r ->
    e_time (snd r) = nadd N (e_time e) dt /\
    S (e_step e) <= e_step (snd r) /\
    (~ uses_bs s -> e_step (snd r) = S (e_step e)).
  Proof.
    intros H. pose proof (clock_advise dt s e) as K. rewrite H in K. destruct K as (A & B & C & _); auto.
  Qed.
End Time.
