(** Stopping a run and resuming it from its last frame. *)
From Coq Require Import Bool ZArith List Arith Lia.
From Verif Require Import Num Arr ArrLemmas ModelVertex ModelForce ModelEngine ModelBlock ModelSolverBase ModelButcher ModelExtrap
  ModelSolver ModelRun ModelArgs ModelObject SpecSolver SpecRun SpecResume LemEngine LemBlock LemBuffers LemOk LemSafe LemTwin LemRun.
Import ListNotations.
Set Implicit Arguments.

Section Loop.
  Context {T E W : Type} (U : NumOps T) (ps : nat)
          (ef : E -> nat -> T -> list T -> list T -> option (E * list T))
          (garbage : nat -> list T) (count : nat) (write : W -> frame T -> W * bool).
  Notation run_state := (@run_state T E W).
  Notation iter := (run_iter U ps ef garbage count write).
  Notation loop := (run_loop U ps ef garbage count write).
  Notation time st := (e_time (rs_e st)).

  (** [n] iterations, all of them before [max_time] *)
  Fixpoint goes (p : @run_params T) (n : nat) (st st' : run_state) : Prop :=
    match n with
    | O => st = st'
    | S n => nltb U (time st) (rn_max_time p) = true /\
             exists st1, iter p st = Some (st1, true) /\ goes p n st1 st'
    end.
  Lemma goes_snoc p n : forall st st1 st', goes p n st st1 -> nltb U (time st1) (rn_max_time p) = true ->
    iter p st1 = Some (st', true) -> goes p (S n) st st'.
  Proof.
    induction n as [|n IH]; intros st st1 st' H Ht Hi; cbn [goes] in *.
    - subst st1. split; auto. exists st'. auto.
    - destruct H as (H1 & st2 & H2 & H3). split; auto. exists st2. split; auto. eapply IH; eauto.
  Qed.
  Lemma loop_goes p fuel : forall st st', loop fuel p st = Some (Returned 0 st') ->
    exists n, n <= fuel /\ goes p n st st' /\ nltb U (time st') (rn_max_time p) = false.
  Proof.
    induction fuel as [|fuel IH]; intros st st' H; cbn [run_loop] in H;
      destruct (nltb U (time st) (rn_max_time p)) eqn:Ht.
    - discriminate.
    - injection H as <-. exists 0. cbn. auto.
    - destruct (iter p st) as [[st1 good]|] eqn:Hi; [|discriminate]. cbn [obind] in H.
      destruct good; [|discriminate]. destruct (IH _ _ H) as (n & Hn & Hg & Hf).
      exists (S n). split; [lia|]. split; auto. split; auto. exists st1. auto.
    - injection H as <-. exists 0. split; [lia|]. cbn. auto.
  Qed.
  Lemma goes_loop p n : forall fuel st st', n <= fuel -> goes p n st st' -> nltb U (time st') (rn_max_time p) = false ->
    loop fuel p st = Some (Returned 0 st').
  Proof.
    induction n as [|n IH]; intros fuel st st' Hf Hg Ht; cbn [goes] in Hg.
    - subst st'. destruct fuel; cbn [run_loop]; now rewrite Ht.
    - destruct Hg as (H1 & st1 & H2 & H3). destruct fuel as [|fuel]; [lia|]. cbn [run_loop].
      rewrite H1, H2. cbn [obind]. apply IH; auto. lia.
  Qed.
  (** two runs of the same parameters but the end time *)
  Definition but_max (p1 p2 : @run_params T) : Prop :=
    rn_dt p1 = rn_dt p2 /\ rn_dump_dt p1 = rn_dump_dt p2 /\ rn_check_dt p1 = rn_check_dt p2 /\
    rn_clamp p1 = rn_clamp p2 /\ rn_box p1 = rn_box p2.
  Lemma iter_but p1 p2 st : but_max p1 p2 -> iter p1 st = iter p2 st.
  Proof. intros (A & C & D & K & M). unfold run_iter, due. now rewrite A, C, D, K, M. Qed.
  (** the shorter run is a beginning of the longer one *)
  Lemma goes_prefix p1 p2 n1 : forall n2 st st1 st2, but_max p1 p2 ->
    (forall t, nltb U t (rn_max_time p1) = true -> nltb U t (rn_max_time p2) = true) ->
    goes p1 n1 st st1 -> goes p2 n2 st st2 -> nltb U (time st2) (rn_max_time p2) = false ->
    goes p2 n1 st st1 /\ exists k, n2 = n1 + k /\ goes p2 k st1 st2.
  Proof.
    induction n1 as [|n1 IH]; intros n2 st st1 st2 HB HT H1 H2 H3; cbn [goes] in H1.
    - subst st1. split; [reflexivity|]. exists n2. auto.
    - destruct H1 as (A & sa & C & D). destruct n2 as [|n2]; cbn [goes] in H2.
      + subst st2. rewrite (HT _ A) in H3. discriminate.
      + destruct H2 as (A' & sb & C' & D'). rewrite (@iter_but _ _ st HB), C' in C. injection C as <-.
        destruct (@IH n2 sb st1 st2 HB HT D D' H3) as (G & k & -> & G').
        split; [|exists k; auto]. split; auto. exists sb. auto.
  Qed.
  (** going to the last dump *)
  Lemma last_dump p n : forall st st' D f, goes p n st st' -> rs_dumps st' = D ++ [f] ->
    (rs_dumps st = D ++ [f] -> frame_of (rs_e st) = f /\ rs_last_dump st = time st) ->
    exists m stm k, n = m + k /\ goes p m st stm /\ goes p k stm st' /\ rs_dumps stm = D ++ [f] /\
      frame_of (rs_e stm) = f /\ rs_last_dump stm = time stm.
  Proof.
    intros st st' D f. revert n st' D f.
    assert (G : forall n st' D f, goes p n st st' -> rs_dumps st' = D ++ [f] ->
      (rs_dumps st = D ++ [f] -> frame_of (rs_e st) = f /\ rs_last_dump st = time st) ->
      forall st'' j, goes p j st' st'' ->
      exists m stm k, n + j = m + k /\ goes p m st stm /\ goes p k stm st'' /\ rs_dumps stm = D ++ [f] /\
        frame_of (rs_e stm) = f /\ rs_last_dump stm = time stm).
    2: { intros n st' D f H1 H2 H3. destruct (G n st' D f H1 H2 H3 st' 0 eq_refl) as (m & stm & k & A & X).
         exists m, stm, k. rewrite Nat.add_0_r in A. auto. }
    induction n as [|n IH]; intros st' D f H1 H2 H3 st'' j Hj.
    - cbn [goes] in H1. subst st'. destruct (H3 H2) as [H4 H5]. exists 0, st, j. repeat (split; auto).
    - (* the last iteration *)
      assert (S1 : forall n st, goes p (S n) st st' -> exists sp, goes p n st sp /\
        nltb U (time sp) (rn_max_time p) = true /\ iter p sp = Some (st', true)).
      { clear. induction n as [|n IH]; intros st H; cbn [goes] in H.
        - destruct H as (A & s1 & C & <-). exists st. cbn. auto.
        - destruct H as (A & s1 & C & D). destruct (IH s1 D) as (sp & G1 & G2 & G3).
          exists sp. split; auto. cbn [goes]. split; auto. exists s1. auto. }
      destruct (S1 n st H1) as (sp & G1 & G2 & G3). clear S1.
      pose proof (run_iter_spec _ _ _ _ _ _ _ _ G3) as (e1 & P1 & P2 & P3).
      cbv zeta in P3. destruct P3 as [_ P3].
      destruct (rs_w sp) as [w|].
      + destruct (andb _ _) in P3.
        * destruct P3 as (Q1 & Q2 & Q3 & Q4). rewrite H2 in Q2. apply app_inj_tail in Q2. destruct Q2 as [_ Q2].
          exists (S n), st', j. split; auto. split; auto. split; auto. split; auto. rewrite P2. split; auto.
        * destruct P3 as (Q1 & Q2 & Q3 & Q4).
          destruct (IH sp D f G1 ltac:(congruence) H3 st'' (S j)) as (m & stm & k & R1 & R2).
          { cbn [goes]. split; auto. exists st'. auto. }
          exists m, stm, k. split; [lia|auto].
      + destruct P3 as (Q1 & Q2 & Q3).
        destruct (IH sp D f G1 ltac:(congruence) H3 st'' (S j)) as (m & stm & k & R1 & R2).
        { cbn [goes]. split; auto. exists st'. auto. }
        exists m, stm, k. split; [lia|auto].
  Qed.
End Loop.

Section Resume.
  Context {T E W W' : Type} (U : NumOps T) (ps : nat)
          (ef : E -> nat -> T -> list T -> list T -> option (E * list T))
          (garbage : nat -> list T) (count : nat)
          (write : W -> frame T -> W * bool) (write' : W' -> frame T -> W' * bool)
          (F : nat -> T -> list T -> list T).
  Hypothesis Hps : 0 < ps.
  Hypothesis Hgarb : forall n, length (garbage n) = ps.
  Hypothesis Hef : forall q step t y f, length y = ps -> length f = ps -> exists q', ef q step t y f = Some (q', F step t y).
  Hypothesis HF : forall n t y, length y = ps -> length (F n t y) = ps.
  Variable p : @run_params T.
  Hypothesis Hcl : rn_clamp p = true -> 3 * count <= ps.

  (** the two runs are in the same place *)
  Definition RR (D : list (frame T)) (a : @run_state T E W) (b : @run_state T E W') : Prop :=
    same_kind (rs_s a) (rs_s b) /\ memoryless U (rn_dt p) (rs_s a) /\ solver_ok (rs_s a) /\
    i_solver ps (rs_s a) /\ i_solver ps (rs_s b) /\ EQ ps (rs_e a) (rs_e b) /\
    rs_last_dump a = rs_last_dump b /\ rs_dumps a = D ++ rs_dumps b /\
    (exists w, rs_w a = Some w) /\ (exists w, rs_w b = Some w).

  Lemma clamp_twin (e1 e2 : @eng T E) : EQ ps e1 e2 ->
    twin (if rn_clamp p then let* y := engine_clamp U count (rn_box p) (e_y e1) in Some (set_y e1 y) else Some e1)
         (if rn_clamp p then let* y := engine_clamp U count (rn_box p) (e_y e2) in Some (set_y e2 y) else Some e2)
      (EQ ps).
  Proof.
    intros (A & C & D & K). unfold B in K. destruct (rn_clamp p) eqn:HC.
    - rewrite <- A. destruct (@clamp_cells T U count (e_y e1) (rn_box p)) as (y & -> & L & _); [rewrite K; auto|].
      cbn. unfold EQ. cbn. split; auto. split; auto. split; auto. unfold B. congruence.
    - apply twin_some. split; auto.
  Qed.
  Lemma iter_twin D a b a' : RR D a b -> (forall w f, snd (write' w f) = true) ->
    run_iter U ps ef garbage count write p a = Some (a', true) ->
    exists b', run_iter U ps ef garbage count write' p b = Some (b', true) /\ RR D a' b'.
  Proof.
    intros (K1 & K2 & K3 & K4 & K5 & K6 & K7 & K8 & (wa & K9) & (wb & K10)) HW. unfold run_iter.
    pose proof (@clamp_twin _ _ K6) as CT.
    destruct (if rn_clamp p then _ else _) as [e1|]; [|intros; discriminate].
    destruct (if rn_clamp p then _ else Some (rs_e b)) as [e2|]; [|destruct CT]. cbn [twin] in CT. cbn [obind].
    pose proof (@advise_twin T E U ps ef garbage garbage F Hps Hgarb Hgarb Hef HF (rn_dt p) _ _ _ _ K2 K1 K3 K4 K5 CT) as AT.
    destruct (advise U ps ef garbage (rn_dt p) (rs_s a) e1) as [[s1 x1]|]; [|intros; discriminate].
    destruct (advise U ps ef garbage (rn_dt p) (rs_s b) e2) as [[s2 x2]|]; [|destruct AT]. cbn [twin fst snd] in AT.
    destruct AT as (Q1 & Q2 & Q3 & Q4 & Q5 & Q6). cbn [obind].
    pose proof Q6 as (ey & et & es & eB).
    destruct (if andb _ (due U p (rs_last_check a) _ _) then _ else _) as [lca cha].
    destruct (if andb _ (due U p (rs_last_check b) _ _) then _ else _) as [lcb chb].
    cbn [rs_w rs_last_dump]. rewrite K9, K10, <- K7, <- et.
    destruct (andb _ _).
    - unfold run_write. cbn [rs_e rs_s rs_last_check rs_last_dump rs_checks rs_dumps].
      destruct (write wa _) as [wa' ga]. intros X. injection X as <- ->.
      assert (FE : frame_of x2 = frame_of x1) by (unfold frame_of; congruence). rewrite FE.
      pose proof (HW wb (frame_of x1)) as G. destruct (write' wb (frame_of x1)) as [wb' gb]. cbn in G. subst gb.
      eexists. split; [reflexivity|]. unfold RR. cbn [rs_e rs_s rs_w rs_last_check rs_last_dump rs_checks rs_dumps].
      rewrite K8, app_assoc. do 6 (split; auto). split; auto. split; auto. split; eauto.
    - intros X. injection X as <-. eexists. split; [reflexivity|]. unfold RR.
      cbn [rs_e rs_s rs_w rs_last_check rs_last_dump rs_checks rs_dumps].
      do 6 (split; auto). split; auto. split; auto. split; eauto.
  Qed.
  Lemma goes_twin D k : forall a b a', RR D a b -> (forall w f, snd (write' w f) = true) ->
    goes U ps ef garbage count write p k a a' ->
    exists b', goes U ps ef garbage count write' p k b b' /\ RR D a' b'.
  Proof.
    induction k as [|k IH]; intros a b a' HR HW H; cbn [goes] in *.
    - subst a'. exists b. auto.
    - destruct H as (H1 & a1 & H2 & H3). destruct (iter_twin HR HW H2) as (b1 & G1 & G2).
      destruct (IH _ _ _ G2 HW H3) as (b' & G3 & G4). exists b'. split; auto. split; [|exists b1; auto].
      destruct HR as (_ & _ & _ & _ & _ & (_ & Q & _) & _). now rewrite <- Q.
  Qed.
End Resume.

Section Whole.
  Context {T E : Type} (U : NumOps T) (ps : nat)
          (ef : E -> nat -> T -> list T -> list T -> option (E * list T))
          (garbage : nat -> list T) (count : nat).
  Hypothesis Hps : 0 < ps.
  Hypothesis Hgarb : forall n, length (garbage n) = ps.
  Hypothesis Hst : stateless ps ef.

  Lemma resumes W W' (write : W -> frame T -> W * bool) (write' : W' -> frame T -> W' * bool)
      p1 p2 s s' e e' w w' fuel1 fuel2 st1 st D f :
    but_max p1 p2 -> (forall t, nltb U t (rn_max_time p1) = true -> nltb U t (rn_max_time p2) = true) ->
    (rn_clamp p1 = true -> 3 * count <= ps) ->
    memoryless U (rn_dt p1) s -> solver_ok s -> fresh s -> fresh s' -> same_kind s s' ->
    length (e_y e) = ps -> (forall w f, snd (write' w f) = true) ->
    run U ps ef garbage count write fuel1 p1 s e (Some w) = Some (Returned 0 st1) ->
    run U ps ef garbage count write fuel2 p2 s e (Some w) = Some (Returned 0 st) ->
    rs_dumps st1 = D ++ [f] -> holds_frame e' f ->
    exists st2,
      run U ps ef garbage count write' fuel2 p2 s' e' (Some w') = Some (Returned 0 st2) /\
      frame_of (rs_e st2) = frame_of (rs_e st) /\
      rs_dumps st = (if nleb U (fr_time f) (nlit U 0) then D else D ++ [f]) ++ rs_dumps st2.
  Proof.
    intros HB HT HC HM HO HF1 HF2 HK HL HW R1 R2 HD (F1 & F2 & F3).
    destruct Hst as (F & HF). 
    assert (Hef : forall q step t y f, length y = ps -> length f = ps -> exists q', ef q step t y f = Some (q', F step t y)).
    { intros. now apply HF. }
    assert (HFl : forall n t y, length y = ps -> length (F n t y) = ps).
    { intros n t y Hy. assert (q : E) by exact (e_priv e). apply (HF q n t y y); auto. }
    unfold run in R1, R2.
    assert (RS : run_start U write p1 s e (Some w) = run_start U write p2 s e (Some w)).
    { destruct HB as (_ & HB & _). unfold run_start. now rewrite HB. }
    rewrite RS in R1. destruct (run_start U write p2 s e (Some w)) as [st0 good] eqn:E0. clear RS.
    destruct good; [|discriminate].
    destruct (loop_goes _ _ _ _ _ _ _ _ _ R1) as (n1 & _ & G1 & _).
    destruct (loop_goes _ _ _ _ _ _ _ _ _ R2) as (n2 & N2 & G2 & T2).
    destruct (@goes_prefix T E W U ps ef garbage count write p1 p2 n1 n2 st0 st1 st HB HT G1 G2 T2) as (G3 & k & -> & G4).
    (* the first state *)
    assert (I0 : rs_s st0 = s /\ rs_e st0 = e /\ rs_last_dump st0 = e_time e /\ (exists w, rs_w st0 = Some w) /\
      (rs_dumps st0 = [] \/ rs_dumps st0 = [frame_of e] /\ nltb U (nlit U 0) (rn_dump_dt p2) = true /\
         nleb U (e_time e) (nlit U 0) = true)).
    { unfold run_start in E0. destruct (andb _ _) eqn:X.
      - unfold run_write in E0. destruct (write w _) as [w1 g1]. injection E0 as <- _. cbn. apply andb_prop in X.
        destruct X. repeat split; eauto.
      - injection E0 as <-. cbn. repeat split; eauto. }
    destruct I0 as (I1 & I2 & I3 & I4 & I5).
    destruct (@last_dump T E W U ps ef garbage count write p2 n1 st0 st1 D f G3 HD) as (m & stm & j & -> & G5 & G6 & L1 & L2 & L3).
    { intros X. destruct I5 as [Y|[Y _]]; rewrite Y in X.
      - destruct D; discriminate.
      - destruct D as [|d D]; [|destruct D; discriminate]. injection X as <-. rewrite I2, I3. auto. }
    (* the state at the last dump satisfies the invariants *)
    assert (M2 : memoryless U (rn_dt p2) s) by (destruct HB as (<- & _); exact HM).
    assert (C2 : rn_clamp p2 = true -> 3 * count <= ps).
    { destruct HB as (_ & _ & _ & <- & _). exact HC. }
    set (wr0 := fun (_ : unit) (_ : frame T) => (tt, true)).
    pose (b0 := mkRunState s e (Some tt) (e_time e) (e_time e) [] []).
    assert (Q0 : RR U ps p2 (rs_dumps st0) st0 b0).
    { unfold RR, b0. cbn. rewrite I1, I2. split.
      { destruct s; cbn in HM |- *; auto; contradiction. }
      split; auto. split; auto. split; [now apply fresh_i|]. split; [now apply fresh_i|].
      split; [repeat split; auto|]. split; auto. split; [now rewrite app_nil_r|]. split; eauto. }
    destruct (@goes_twin T E W unit U ps ef garbage count write wr0 F Hps Hgarb Hef HFl p2 C2 _ m _ _ _ Q0 (fun _ _ => eq_refl) G5)
      as (bm & _ & (Q1 & Q2 & Q3 & Q4 & Q5 & Q6 & _ & _ & Q9 & _)).
    (* the resumed run *)
    assert (SK : same_kind (rs_s stm) s').
    { assert (TR : forall a b c : @solver T, same_kind a b -> same_kind a c -> same_kind c b).
      { intros a b c X Y. destruct a, b, c; cbn in *; try contradiction; auto; congruence. }
      assert (KK : forall k a b, goes U ps ef garbage count write p2 k a b -> memoryless U (rn_dt p2) (rs_s a) -> same_kind (rs_s a) (rs_s b)).
      { intros k0. clear. induction k0 as [|k0 IH]; intros a b; cbn [goes].
        - intros <- H. destruct (rs_s a); cbn in *; auto; contradiction.
        - intros (_ & a1 & H1 & H2) H. apply run_iter_spec in H1. destruct H1 as (e1 & H1 & _).
          assert (S1 : same_kind (rs_s a) (rs_s a1) /\ memoryless U (rn_dt p2) (rs_s a1)).
          { unfold plain_step in H1. destruct (if rn_clamp p2 then _ else _) as [y|]; [|discriminate]. cbn [obind] in H1.
            destruct (rs_s a) as [b0|b0|b0|b0|r b0|q b0|q b0|q st b0 stp]; cbn [memoryless] in H; try contradiction;
              cbn [advise] in H1;
              (match type of H1 with obind ?o _ = _ => destruct o as [[x1 x2]|]; [|discriminate] end);
              cbn [obind] in H1; injection H1 as <- <-; cbn; auto. }
          destruct S1 as [S1 S2]. specialize (IH _ _ H2 S2).
          destruct (rs_s a), (rs_s a1), (rs_s b); cbn in *; try contradiction; auto; congruence. }
      assert (X := KK m st0 stm G5 ltac:(rewrite I1; exact M2)). rewrite I1 in X.
      destruct s, (rs_s stm), s'; cbn in *; try contradiction; auto; congruence. }
    set (D2 := if nleb U (fr_time f) (nlit U 0) then D else D ++ [f]).
    assert (exists r0, run_start U write' p2 s' e' (Some w') = (r0, true) /\ RR U ps p2 D2 stm r0) as (r0 & S0 & SR).
    { assert (FE : frame_of e' = f) by (destruct f; unfold frame_of; cbn in *; congruence).
      assert (EE : EQ ps (rs_e stm) e').
      { assert (X : frame_of (rs_e stm) = frame_of e') by congruence. unfold frame_of in X. injection X as X1 X2 X3.
        split; auto. split; auto. split; auto. apply Q6. }
      assert (LD : rs_last_dump stm = e_time e') by (rewrite L3; apply EE).
      unfold run_start. rewrite F2. unfold D2.
      destruct (nleb U (fr_time f) (nlit U 0)) eqn:Z.
      - (* the first write needs a dump interval *)
        assert (DP : nltb U (nlit U 0) (rn_dump_dt p2) = true).
        { destruct I5 as [Y|[_ [Y _]]]; auto.
          assert (KD : forall k a b, goes U ps ef garbage count write p2 k a b ->
            rs_dumps a <> rs_dumps b -> nltb U (nlit U 0) (rn_dump_dt p2) = true).
          { clear. induction k as [|k IH]; intros a b; cbn [goes]; [intros <- H; congruence|].
            intros (_ & a1 & H1 & H2) H. apply run_iter_spec in H1. destruct H1 as (e1 & _ & _ & H1). cbv zeta in H1.
            destruct H1 as [_ H1]. destruct (rs_w a).
            - destruct (andb _ _) eqn:X in H1; [apply andb_prop in X; apply X|].
              destruct H1 as (_ & Q & _). apply (IH _ _ H2). congruence.
            - destruct H1 as (_ & Q & _). apply (IH _ _ H2). congruence. }
          apply (KD m st0 stm G5). rewrite Y, L1. destruct D; discriminate. }
        rewrite DP. cbn [andb]. unfold run_write. cbn [rs_e]. rewrite FE.
        pose proof (HW w' f) as G. destruct (write' w' f) as [w1 g1]. cbn in G. subst g1.
        eexists. split; [reflexivity|]. unfold RR. cbn [rs_e rs_s rs_w rs_last_check rs_last_dump rs_checks rs_dumps].
        split; auto. split; auto. split; auto. split; auto. split; [now apply fresh_i|]. split; auto.
        split; [congruence|]. split; auto. split; eauto.
      - rewrite andb_false_r. eexists. split; [reflexivity|]. unfold RR.
        cbn [rs_e rs_s rs_w rs_last_check rs_last_dump rs_checks rs_dumps].
        split; auto. split; auto. split; auto. split; auto. split; [now apply fresh_i|]. split; auto.
        split; [congruence|]. split; [now rewrite app_nil_r|]. split; eauto. }
    assert (G7 : goes U ps ef garbage count write p2 (j + k) stm st).
    { clear -G6 G4. revert stm G6. induction j as [|j IH]; intros stm G6; cbn [goes Nat.add] in *; [now subst|].
      destruct G6 as (A & s1 & C & Dd). split; auto. exists s1. split; auto. }
    destruct (@goes_twin T E W W' U ps ef garbage count write write' F Hps Hgarb Hef HFl p2 C2 _ _ _ _ _ SR HW G7)
      as (st2 & G8 & RZ).
    exists st2. destruct RZ as (_ & _ & _ & _ & _ & (Y1 & Y2 & Y3 & _) & _ & Y5 & _).
    split; [|split; [unfold frame_of; congruence|exact Y5]].
    unfold run. rewrite S0. eapply goes_loop; [|exact G8|now rewrite <- Y2]. lia.
  Qed.
End Whole.

(** ** the engines without private state *)
Section Engines.
  Context {T : Type} (U : NumOps T) (n : nat).
  Lemma deriv_any (V A : nat -> vec3 T) f g f' : length f = 6 * n -> length g = 6 * n ->
    deriv_cells n V A f f' -> deriv_cells n V A g f'.
  Proof.
    intros Hf Hg (L & C & O). split; [congruence|]. split; auto. intros q Hq. rewrite O by auto.
    transitivity (@None T); [|symmetry]; apply nth_error_None; lia.
  Qed.
  Lemma cells_stateless (Q : Type) (fc : list T -> list T -> option (list T)) (V A : list T -> nat -> vec3 T) :
    (forall y f, length y = 6 * n -> length f = 6 * n -> exists f', fc y f = Some f' /\ deriv_cells n (V y) (A y) f f') ->
    stateless (6 * n) (fun (q : Q) (step : nat) (t : T) y f => let* f' := fc y f in Some (q, f')).
  Proof.
    intros H. exists (fun _ _ y => match fc y (repeat (nlit U 0) (6 * n)) with Some f' => f' | None => [] end).
    intros q step t y f Hy Hf.
    destruct (H y (repeat (nlit U 0) (6 * n)) Hy (repeat_length _ _)) as (g & -> & G).
    destruct (H y f Hy Hf) as (f' & -> & F). split.
    - destruct G as [L _]. rewrite L. apply repeat_length.
    - exists q. cbn [obind]. do 2 f_equal. eapply deriv_cells_unique; [exact F|].
      eapply deriv_any; [| |exact G]; [apply repeat_length|exact Hf].
  Qed.
  Lemma simple_stateless mass : length mass = n -> stateless (6 * n) (simple_ef U n mass).
  Proof.
    intros Hm. apply (@cells_stateless unit (simple_fcompute U n mass) (fun y => cv U y n 3)
      (fun y i => vdivs U (acc_fold U n y mass i) (nth i mass (nlit U 0)))).
    intros y f Hy Hf. apply simple_fcompute_cells; lia.
  Qed.
  Lemma object_stateless mass split o : length mass = n ->
    o = ESimple \/ o = EOpenmp \/ o = EBlock /\ n mod 64 = 0 -> stateless (6 * n) (object_ef U n mass split o).
  Proof.
    intros Hm [->|[->|[-> Hz]]]; unfold object_ef.
    - apply (@cells_stateless object_state (simple_fcompute U n mass) (fun y => cv U y n 3)
        (fun y i => vdivs U (acc_fold U n y mass i) (nth i mass (nlit U 0)))).
      intros y f Hy Hf. apply simple_fcompute_cells; lia.
    - apply (@cells_stateless object_state (simple_fcompute U n mass) (fun y => cv U y n 3)
        (fun y i => vdivs U (acc_fold U n y mass i) (nth i mass (nlit U 0)))).
      intros y f Hy Hf. apply simple_fcompute_cells; lia.
    - apply (@cells_stateless object_state (block_fcompute U n mass) (fun y => cv U y n 3)
        (fun y => bacc U n y mass)).
      intros y f Hy Hf. unfold block_fcompute, NBODY_DATA_BLOCK_SIZE.
      assert (En : n = (n / 64 * 64)%nat). { pose proof (Nat.div_mod n 64 ltac:(lia)). lia. }
      destruct (@blocked_cells T U 64 ltac:(lia) (n / 64) y mass f) as (f' & E & C);
        rewrite <- ?En; try lia.
      rewrite <- En in E, C. exists f'. split; auto.
  Qed.
End Engines.
