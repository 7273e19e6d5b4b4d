(** The simulation loop. *)
From Coq Require Import ZArith Reals List Arith Lia Lra.
From Verif Require Import Num Arr ArrLemmas ModelEngine ModelSolverBase ModelSolver ModelRun SpecSolver
  LemBufProp LemOk LemSolver LemSolverTime LemBufR LemExact SpecRun.
Import ListNotations.
Set Implicit Arguments.

Lemma cadence_nil A T (time : A -> T) (due : T -> T -> Prop) last l : Forall (fun x => ~ due last (time x)) l ->
  cadence time due last l [].
Proof. auto. Qed.
Lemma cadence_skip A T (time : A -> T) (due : T -> T -> Prop) last x l picked :
  ~ due last (time x) -> cadence time due last l picked -> cadence time due last (x :: l) picked.
Proof.
  intros H C. destruct picked as [|d picked]; cbn in *.
  - constructor; auto.
  - destruct C as (b & a & -> & Hb & Hd & C). exists (x :: b), a. cbn. auto.
Qed.
Lemma cadence_take A T (time : A -> T) (due : T -> T -> Prop) last x l picked :
  due last (time x) -> cadence time due (time x) l picked -> cadence time due last (x :: l) (x :: picked).
Proof. intros H C. exists [], l. cbn. auto. Qed.

Lemma iter_shift A (f : A -> A) n x : Nat.iter (S n) f x = Nat.iter n f (f x).
Proof. induction n as [|n IH]; [reflexivity|]. change (f (Nat.iter (S n) f x) = f (Nat.iter n f (f x))). now rewrite IH. Qed.

Section Run.
  Context {T E W : Type} (N : NumOps T) (ps : nat)
          (ef : E -> nat -> T -> list T -> list T -> option (E * list T))
          (garbage : nat -> list T) (count : nat)
          (write : W -> frame T -> W * bool).
  Notation run_state := (@run_state T E W).
  Notation sim p := (simulates N ps ef garbage count (rn_clamp p) (rn_box p) (rn_dt p)).
  Notation dueP p i := (fun last t => due N p last i t = true).

  Definition positive (x : T) : bool := nltb N (nlit N 0) x.

  (** what one iteration does *)
  Definition iter_spec (p : run_params) (st st' : run_state) (good : bool) : Prop :=
    exists e1, plain_step N ps ef garbage count (rn_clamp p) (rn_box p) (rn_dt p) (rs_s st) (rs_e st)
                 = Some (rs_s st', e1) /\ rs_e st' = e1 /\
    let f := frame_of e1 in
    (if andb (positive (rn_check_dt p)) (due N p (rs_last_check st) (rn_check_dt p) (fr_time f))
     then rs_last_check st' = fr_time f /\ rs_checks st' = rs_checks st ++ [fr_time f]
     else rs_last_check st' = rs_last_check st /\ rs_checks st' = rs_checks st) /\
    match rs_w st with
    | None => rs_w st' = None /\ rs_dumps st' = rs_dumps st /\ good = true
    | Some w =>
        if andb (positive (rn_dump_dt p)) (due N p (rs_last_dump st) (rn_dump_dt p) (fr_time f))
        then rs_last_dump st' = fr_time f /\ rs_dumps st' = rs_dumps st ++ [f] /\
             rs_w st' = Some (fst (write w f)) /\ good = snd (write w f)
        else rs_last_dump st' = rs_last_dump st /\ rs_dumps st' = rs_dumps st /\
             rs_w st' = Some w /\ good = true
    end.
  Lemma run_iter_spec p st st' good :
    run_iter N ps ef garbage count write p st = Some (st', good) -> iter_spec p st st' good.
  Proof.
    unfold run_iter, iter_spec, plain_step, positive.
    assert (Hc : (if rn_clamp p then let* y := engine_clamp N count (rn_box p) (e_y (rs_e st)) in Some (set_y (rs_e st) y)
              else Some (rs_e st)) =
              (let* y := (if rn_clamp p then engine_clamp N count (rn_box p) (e_y (rs_e st)) else Some (e_y (rs_e st))) in
               Some (set_y (rs_e st) y))).
    { destruct (rn_clamp p); auto. cbn. destruct (rs_e st); reflexivity. }
    rewrite Hc. clear Hc.
    destruct (if rn_clamp p then _ else _) as [y|]; [|discriminate]. cbn [obind]. unfold set_y.
    destruct (advise _ _ _ _ _ _ _) as [[s1 e1]|]; [|discriminate]. cbn [obind].
    destruct (if andb (nltb N (nlit N 0) (rn_check_dt p)) _ then _ else _) as [lc ch] eqn:Ec.
    cbn [rs_w rs_s rs_e rs_last_check rs_last_dump rs_checks rs_dumps].
    assert (Hck : if andb (nltb N (nlit N 0) (rn_check_dt p)) (due N p (rs_last_check st) (rn_check_dt p) (e_time e1))
      then lc = e_time e1 /\ ch = rs_checks st ++ [e_time e1]
      else lc = rs_last_check st /\ ch = rs_checks st).
    { destruct (andb _ _); injection Ec as <- <-; auto. }
    destruct (rs_w st) as [w|].
    - destruct (andb (nltb N (nlit N 0) (rn_dump_dt p)) _) eqn:Ed.
      + unfold run_write. cbn [rs_w rs_s rs_e rs_last_check rs_last_dump rs_checks rs_dumps].
        destruct (write w (frame_of e1)) as [w1 g] eqn:Ew. cbn [rs_w rs_s rs_e rs_last_check rs_last_dump rs_checks rs_dumps].
        intros H. injection H as <- <-. exists e1.
        cbn [rs_w rs_s rs_e rs_last_check rs_last_dump rs_checks rs_dumps fr_time frame_of].
        split; auto. split; auto. split; [exact Hck|]. cbn zeta. fold (frame_of e1). rewrite Ed, Ew. auto.
      + intros H. injection H as <- <-. exists e1.
        cbn [rs_w rs_s rs_e rs_last_check rs_last_dump rs_checks rs_dumps fr_time frame_of].
        split; auto. split; auto. split; [exact Hck|]. rewrite Ed. auto.
    - intros H. injection H as <- <-. exists e1.
      cbn [rs_w rs_s rs_e rs_last_check rs_last_dump rs_checks rs_dumps fr_time frame_of].
      split; [auto|]. split; [auto|]. split; [exact Hck|auto].
  Qed.

  Definition before (p : @run_params T) (f : frame T) : Prop := nltb N (fr_time f) (rn_max_time p) = true.

  Lemma run_loop_spec p fuel : forall (st : run_state) (r : @run_result T E W),
    run_loop N ps ef garbage count write fuel p st = Some r ->
    let st' := final r in
    exists frames dumps checks,
      sim p (rs_s st) (rs_e st) frames (rs_s st') (rs_e st') /\ length frames <= fuel /\
      (frames <> [] -> before p (frame_of (rs_e st))) /\
      Forall (before p) (removelast frames) /\
      (match r with
       | Returned code _ => (code = 0%Z \/ code = (-1)%Z) /\
          (code = 0%Z -> nltb N (e_time (rs_e st')) (rn_max_time p) = false)
       | Unfinished _ => length frames = fuel /\ nltb N (e_time (rs_e st')) (rn_max_time p) = true
       end) /\
      rs_checks st' = rs_checks st ++ map (@fr_time T) checks /\
      (if positive (rn_check_dt p)
       then cadence (@fr_time T) (dueP p (rn_check_dt p)) (rs_last_check st) frames checks
       else checks = []) /\
      rs_dumps st' = rs_dumps st ++ dumps /\
      fed write (rs_w st) dumps (rs_w st') (succeeded r) /\
      (rs_w st <> None ->
       if positive (rn_dump_dt p)
       then cadence (@fr_time T) (dueP p (rn_dump_dt p)) (rs_last_dump st) frames dumps
       else dumps = []).
  Proof.
    assert (Stop : forall (st : run_state) (r : @run_result T E W), r = Returned 0 st \/ r = Unfinished st ->
      exists dumps checks,
      rs_checks (final r) = rs_checks st ++ map (@fr_time T) checks /\
      (if positive (rn_check_dt p)
       then cadence (@fr_time T) (dueP p (rn_check_dt p)) (rs_last_check st) [] checks
       else checks = []) /\
      rs_dumps (final r) = rs_dumps st ++ dumps /\
      fed write (rs_w st) dumps (rs_w (final r)) (succeeded r) /\
      (rs_w st <> None ->
       if positive (rn_dump_dt p)
       then cadence (@fr_time T) (dueP p (rn_dump_dt p)) (rs_last_dump st) [] dumps
       else dumps = [])).
    { intros st r Hr. exists [], []. assert (final r = st /\ succeeded r = true) as [-> ->] by (destruct Hr as [-> | ->]; auto).
      rewrite !app_nil_r. split; auto. split; [destruct (positive (rn_check_dt p)); cbn; auto|]. split; auto.
      split; [|intros _; destruct (positive (rn_dump_dt p)); cbn; auto].
      unfold fed. destruct (rs_w st); cbn; auto. }
    induction fuel as [|fuel IH]; intros st r; cbn [run_loop].
    - destruct (nltb N _ _) eqn:Et; intros H; injection H as <-; cbn [final succeeded].
      + destruct (Stop st (Unfinished st)) as (d & c & H1 & H2 & H3 & H4 & H5); [tauto|].
        exists [], d, c. split; [constructor|]. split; auto. split; [tauto|]. split; [constructor|]. auto 10.
      + destruct (Stop st (Returned 0 st)) as (d & c & H1 & H2 & H3 & H4 & H5); [tauto|].
        exists [], d, c. split; [constructor|]. split; auto. split; [tauto|]. split; [constructor|]. auto 10.
    - destruct (nltb N _ _) eqn:Et.
      2:{ intros H; injection H as <-; cbn [final succeeded].
        destruct (Stop st (Returned 0 st)) as (d & c & H1 & H2 & H3 & H4 & H5); [tauto|].
        exists [], d, c. split; [constructor|]. split; [cbn; lia|]. split; [tauto|]. split; [constructor|]. auto 10. }
      destruct (run_iter _ _ _ _ _ _ _ _) as [[st1 g]|] eqn:Ei; [|discriminate]. cbn [obind].
      apply run_iter_spec in Ei. destruct Ei as (e1 & Hs & <- & Hck & Hd). cbn zeta in Hck, Hd.
      set (f := frame_of (rs_e st1)) in *.
      (* what the rest of the run gives *)
      assert (Comb : forall (r : @run_result T E W) frames dumps checks,
        sim p (rs_s st1) (rs_e st1) frames (rs_s (final r)) (rs_e (final r)) ->
        rs_checks (final r) = rs_checks st1 ++ map (@fr_time T) checks ->
        (if positive (rn_check_dt p)
         then cadence (@fr_time T) (dueP p (rn_check_dt p)) (rs_last_check st1) frames checks
         else checks = []) ->
        rs_dumps (final r) = rs_dumps st1 ++ dumps ->
        (if g then fed write (rs_w st1) dumps (rs_w (final r)) (succeeded r)
         else dumps = [] /\ rs_w (final r) = rs_w st1 /\ succeeded r = false) ->
        (rs_w st1 <> None ->
         if positive (rn_dump_dt p)
         then cadence (@fr_time T) (dueP p (rn_dump_dt p)) (rs_last_dump st1) frames dumps
         else dumps = []) ->
        exists dumps' checks',
        sim p (rs_s st) (rs_e st) (f :: frames) (rs_s (final r)) (rs_e (final r)) /\
        rs_checks (final r) = rs_checks st ++ map (@fr_time T) checks' /\
        (if positive (rn_check_dt p)
         then cadence (@fr_time T) (dueP p (rn_check_dt p)) (rs_last_check st) (f :: frames) checks'
         else checks' = []) /\
        rs_dumps (final r) = rs_dumps st ++ dumps' /\
        fed write (rs_w st) dumps' (rs_w (final r)) (succeeded r) /\
        (rs_w st <> None ->
         if positive (rn_dump_dt p)
         then cadence (@fr_time T) (dueP p (rn_dump_dt p)) (rs_last_dump st) (f :: frames) dumps'
         else dumps' = [])).
      { clear IH. intros r' frames dumps checks S1 C1 C2 D1 D2 D3.
        assert (HC : exists checks',
          rs_checks (final r') = rs_checks st ++ map (@fr_time T) checks' /\
          (if positive (rn_check_dt p)
           then cadence (@fr_time T) (dueP p (rn_check_dt p)) (rs_last_check st) (f :: frames) checks'
           else checks' = [])).
        { destruct (positive (rn_check_dt p)); cbn [andb] in Hck.
          - destruct (due N p (rs_last_check st) (rn_check_dt p) (fr_time f)) eqn:Ed.
            + destruct Hck as [K1 K2]. exists (f :: checks). rewrite C1, K2, <- app_assoc. split; auto.
              apply cadence_take; auto. now rewrite K1 in C2.
            + destruct Hck as [K1 K2]. exists checks. rewrite C1, K2. split; auto.
              apply cadence_skip; [rewrite Ed; discriminate|]. now rewrite K1 in C2.
          - destruct Hck as [K1 K2]. subst checks. exists []. rewrite C1, K2. auto. }
        destruct HC as (checks' & HC1 & HC2).
        assert (HD : exists dumps', rs_dumps (final r') = rs_dumps st ++ dumps' /\
          fed write (rs_w st) dumps' (rs_w (final r')) (succeeded r') /\
          (rs_w st <> None ->
           if positive (rn_dump_dt p)
           then cadence (@fr_time T) (dueP p (rn_dump_dt p)) (rs_last_dump st) (f :: frames) dumps'
           else dumps' = [])).
        { destruct (rs_w st) as [w|] eqn:Ew.
          - destruct (positive (rn_dump_dt p)); cbn [andb] in Hd.
            + destruct (due N p (rs_last_dump st) (rn_dump_dt p) (fr_time f)) eqn:Ed.
              * destruct Hd as (K1 & K2 & K3 & K4). exists (f :: dumps). rewrite D1, K2, <- app_assoc. split; auto.
                rewrite K3 in D2, D3. split.
                { unfold fed. cbn [write_all]. destruct (write w f) as [w1 b]. cbn [fst snd] in *. subst b.
                  destruct g.
                  - unfold fed in D2. destruct (write_all write w1 dumps) as [w2 bs]. cbn [fst snd] in *.
                    destruct D2 as [-> D2]. split; auto. destruct (succeeded r'); [auto|].
                    destruct D2 as (l & -> & Hl). exists (true :: l). auto.
                  - destruct D2 as (-> & -> & ->). cbn. split; auto. exists []. auto. }
                { intros _. apply cadence_take; auto. rewrite K1 in D3. apply D3. discriminate. }
              * destruct Hd as (K1 & K2 & K3 & K4). subst g. exists dumps. rewrite D1, K2. split; auto.
                rewrite K3 in D2, D3. split; auto.
                intros _. apply cadence_skip; [rewrite Ed; discriminate|]. rewrite K1 in D3. apply D3. discriminate.
            + destruct Hd as (K1 & K2 & K3 & K4). subst g. exists dumps. rewrite D1, K2. split; auto.
              rewrite K3 in D2, D3. split; auto.
          - destruct Hd as (K1 & K2 & K3). subst g. exists dumps. rewrite D1, K2. split; auto.
            rewrite K1 in D2, D3. split; [exact D2|]. intros X. now destruct X. }
        destruct HD as (dumps' & HD1 & HD2 & HD3).
        exists dumps', checks'. split; [|auto 10]. unfold f, frame_of. econstructor; eauto. }
      destruct g.
      + intros H. specialize (IH _ _ H). destruct IH as (fr & d & c & I1 & I2 & I3 & I4 & I5 & I6 & I7 & I8 & I9 & I10).
        destruct (Comb r fr d c I1 I6 I7 I8 I9 I10) as (d' & c' & J1 & J2 & J3 & J4 & J5 & J6).
        exists (f :: fr), d', c'. split; auto. split; [cbn; lia|]. split; [intros _; exact Et|]. split.
        * cbn [removelast]. destruct fr as [|f2 fr]; [constructor|]. constructor; [|exact I4].
          apply I3. discriminate.
        * split; [|auto 10]. destruct r; auto. cbn [length]. destruct I5. split; [lia|auto].
      + intros H. injection H as <-. cbn [final succeeded] in *.
        destruct (Comb (Returned (-1) st1) [] [] []) as (d' & c' & J1 & J2 & J3 & J4 & J5 & J6); cbn [final succeeded map].
        * constructor.
        * now rewrite app_nil_r.
        * destruct (positive (rn_check_dt p)); cbn; auto.
        * now rewrite app_nil_r.
        * auto.
        * intros _. destruct (positive (rn_dump_dt p)); cbn; auto.
        * exists [f], d', c'. split; auto. split; [cbn; lia|]. split; [intros _; exact Et|].
          split; [constructor|]. split; [|auto 10]. split; auto. discriminate.
  Qed.

  Lemma run_spec fuel p s e w r : run N ps ef garbage count write fuel p s e w = Some r ->
    let st' := final r in
    exists frames dumps checks,
      sim p s e frames (rs_s st') (rs_e st') /\
      (frames <> [] -> before p (frame_of e)) /\ Forall (before p) (removelast frames) /\
      (match r with
       | Returned code _ => (code = 0%Z \/ code = (-1)%Z) /\
          (code = 0%Z -> nltb N (e_time (rs_e st')) (rn_max_time p) = false)
       | Unfinished _ => length frames = fuel /\ nltb N (e_time (rs_e st')) (rn_max_time p) = true
       end) /\
      rs_checks st' = map (@fr_time T) checks /\
      (if positive (rn_check_dt p)
       then cadence (@fr_time T) (dueP p (rn_check_dt p)) (e_time e) frames checks
       else checks = []) /\
      rs_dumps st' =
        (match w with
         | Some _ => if andb (positive (rn_dump_dt p)) (nleb N (e_time e) (nlit N 0))
                     then [frame_of e] else []
         | None => []
         end) ++ dumps /\
      fed write w (rs_dumps st') (rs_w st') (succeeded r) /\
      (w <> None ->
       if positive (rn_dump_dt p)
       then cadence (@fr_time T) (dueP p (rn_dump_dt p)) (e_time e) frames dumps
       else dumps = []).
  Proof.
    unfold run, run_start. intros H. cbn zeta.
    set (st0 := mkRunState s e w (e_time e) (e_time e) [] []) in H.
    assert (Plain : run_loop N ps ef garbage count write fuel p st0 = Some r ->
       match w with
         | Some _ => if andb (positive (rn_dump_dt p)) (nleb N (e_time e) (nlit N 0))
                     then [frame_of e] else []
         | None => []
         end = [] -> exists frames dumps checks,
      sim p s e frames (rs_s (final r)) (rs_e (final r)) /\
      (frames <> [] -> before p (frame_of e)) /\ Forall (before p) (removelast frames) /\
      (match r with
       | Returned code _ => (code = 0%Z \/ code = (-1)%Z) /\
          (code = 0%Z -> nltb N (e_time (rs_e (final r))) (rn_max_time p) = false)
       | Unfinished _ => length frames = fuel /\ nltb N (e_time (rs_e (final r))) (rn_max_time p) = true
       end) /\
      rs_checks (final r) = map (@fr_time T) checks /\
      (if positive (rn_check_dt p)
       then cadence (@fr_time T) (dueP p (rn_check_dt p)) (e_time e) frames checks
       else checks = []) /\
      rs_dumps (final r) = dumps /\
      fed write w (rs_dumps (final r)) (rs_w (final r)) (succeeded r) /\
      (w <> None ->
       if positive (rn_dump_dt p)
       then cadence (@fr_time T) (dueP p (rn_dump_dt p)) (e_time e) frames dumps
       else dumps = [])).
    { intros HL _. destruct (@run_loop_spec p fuel st0 r HL)
        as (fr & d & c & I1 & _ & I3 & I4 & I5 & I6 & I7 & I8 & I9 & I10).
      subst st0. cbn [rs_w rs_s rs_e rs_last_check rs_last_dump rs_checks rs_dumps app] in *.
      exists fr, d, c. split; [auto|]. split; [auto|]. split; [auto|]. split; [auto|]. split; [auto|]. split; [auto|].
      split; [auto|]. split; [now rewrite I8|auto]. }
    destruct w as [w|].
    2:{ destruct (Plain H eq_refl) as (fr & d & c & X). exists fr, d, c. exact X. }
    unfold positive in Plain |- *.
    destruct (andb (nltb N (nlit N 0) (rn_dump_dt p)) (nleb N (e_time e) (nlit N 0))) eqn:Ed.
    2:{ destruct (Plain H eq_refl) as (fr & d & c & X). exists fr, d, c. exact X. }
    clear Plain. unfold run_write in H. change (rs_e st0) with e in H.
    destruct (write w (frame_of e)) as [w1 g] eqn:Ew.
    subst st0. cbn [rs_w rs_s rs_e rs_last_check rs_last_dump rs_checks rs_dumps app] in H.
    apply andb_prop in Ed. destruct Ed as [Ed _]. rewrite Ed.
    destruct g.
    - apply run_loop_spec in H.
      destruct H as (fr & d & c & I1 & _ & I3 & I4 & I5 & I6 & I7 & I8 & I9 & I10).
      cbn [rs_w rs_s rs_e rs_last_check rs_last_dump rs_checks rs_dumps app] in *.
      exists fr, d, c. split; [auto|]. split; [auto|]. split; [auto|]. split; [auto|]. split; [auto|]. split; [auto|].
      split; [auto|]. split.
      + rewrite I8. unfold fed in I9 |- *. cbn [app write_all]. rewrite Ew.
        destruct (write_all write w1 d) as [w2 bs]. cbn [fst snd] in *. destruct I9 as [-> I9]. split; auto.
        destruct (succeeded r); [auto|]. destruct I9 as (l & -> & Hl). exists (true :: l). auto.
      + intros _. unfold positive in I10. rewrite Ed in I10. apply I10. discriminate.
    - injection H as <-. cbn [final rs_w rs_s rs_e rs_last_check rs_last_dump rs_checks rs_dumps app].
      exists [], [], []. split; [constructor|]. split; [congruence|]. split; [constructor|].
      split; [split; [auto|discriminate]|]. split; [auto|]. split; [destruct (nltb N _ (rn_check_dt p)); cbn; auto|].
      split; [auto|]. split; [|cbn; auto].
      cbn. rewrite Ew. cbn. split; auto. exists []. auto.
  Qed.

  (** simulations and their clock *)
  Lemma simulates_clock dt clamp box s e frames s' e' :
    simulates N ps ef garbage count clamp box dt s e frames s' e' ->
    map (@fr_time T) frames = (fix times n t := match n with O => [] | S n => nadd N t dt :: times n (nadd N t dt) end) (length frames) (e_time e) /\
    e_time e' = Nat.iter (length frames) (fun t => nadd N t dt) (e_time e) /\
    e_step e + length frames <= e_step e' /\
    (~ uses_bs s -> e_step e' = e_step e + length frames).
  Proof.
    induction 1 as [s e|s e s1 e1 frames s' e' H H1 IH]; cbn [length map].
    { split; [reflexivity|]. split; [reflexivity|]. split; intros; lia. }
    unfold plain_step in H. destruct (if clamp then _ else _) as [y|]; [|discriminate]. cbn [obind] in H.
    pose proof (clock_advise N ps ef garbage dt s (mkEng y (e_time e) (e_step e) (e_priv e) (e_nbuf e))) as K.
    rewrite H in K. cbn [ok fst snd e_time e_step] in K. destruct K as (K1 & K2 & K3 & K4).
    destruct IH as (I1 & I2 & I3 & I4). rewrite I1, K1. split; [reflexivity|]. split.
    - rewrite I2, K1. symmetry. apply (iter_shift (fun t => nadd N t dt)).
    - split; [lia|]. intros Hn. rewrite I4, K3 by auto. lia.
  Qed.
End Run.

Section Real.
  Context {E W : Type} (mind : R) (n : nat)
          (ef : E -> nat -> R -> list R -> list R -> option (E * list R))
          (garbage : nat -> list R)
          (write : W -> frame R -> W * bool).
  Notation ps := (6 * n)%nat.
  Notation N := (Rops mind).
  Notation V := (V ps).
  Notation w0 := (fun _ : nat => 0%R).
  Notation sinv := (solver_inv ps w0 w0 0 0 0).
  Notation sgood := (good ps w0 0 0).
  Hypothesis Hps : (0 < n)%nat.
  Hypothesis Hgarb : forall k, V (garbage k).
  Hypothesis Hef : forall q step t y f, V y -> V f ->
    exists q' f', ef q step t y f = Some (q', f') /\ V f'.

  Lemma advise_total dt s (e : @eng R E) : sgood s -> sinv s -> V (e_y e) ->
    exists r, advise N ps ef garbage dt s e = Some r /\ sgood (fst r) /\ sinv (fst r) /\ V (e_y (snd r)).
  Proof.
    intros G I HV. apply ok_exists. eapply ok_mono.
    - apply (@solver_Y E mind ps ef garbage False (fun _ => True) w0 w0 0%R 0%R) with (x := 0%R); auto; [lia| |].
      + intros q st t y f _ Hy Hf. destruct (Hef q st t Hy Hf) as (q' & f' & -> & Hv). apply ok_some. cbn [fst snd].
        split; auto. split; auto. rewrite !lin_w0. auto.
      + split; auto. split; auto. now rewrite !lin_w0.
    - intros r (A & B & C). rewrite Rmult_0_l, Rplus_0_r in *. split; auto. split; auto. apply C.
  Qed.

  Lemma run_loop_total p fuel : (rn_clamp p = true -> (0 <= rn_box p)%R) -> forall st,
    sgood (rs_s st) -> sinv (rs_s st) -> V (e_y (rs_e st)) ->
    exists r, run_loop N ps ef garbage n write fuel p st = Some r.
  Proof.
    intros Hb. induction fuel as [|fuel IH]; intros st G I HV; cbn [run_loop].
    - destruct (nltb N _ _); eauto.
    - destruct (nltb N _ _); [|eauto].
      assert (HC : exists y, (if rn_clamp p then let* y := engine_clamp N n (rn_box p) (e_y (rs_e st)) in Some (set_y (rs_e st) y)
              else Some (rs_e st)) = Some (set_y (rs_e st) y) /\ V y).
      { destruct (rn_clamp p).
        - destruct (@LemBufProp.clamp_R mind n (rn_box p) (e_y (rs_e st))) as (y & -> & L & _); auto.
          exists y. split; [reflexivity|]. unfold LemBufR.V in *. congruence.
        - exists (e_y (rs_e st)). split; auto. destruct (rs_e st); reflexivity. }
      destruct HC as (y & Ec & HV1).
      destruct (@advise_total (rn_dt p) (rs_s st) (set_y (rs_e st) y)) as ([s1 e1] & Ea & G1 & I1 & HV2); auto.
      cbn [fst snd] in *.
      assert (X : exists st1 g, run_iter N ps ef garbage n write p st = Some (st1, g) /\ rs_s st1 = s1 /\ rs_e st1 = e1).
      { unfold run_iter. rewrite Ec. cbn [obind]. rewrite Ea. cbn [obind].
        destruct (if andb _ _ then _ else _) as [lc ch].
        cbn [rs_w rs_s rs_e rs_last_check rs_last_dump rs_checks rs_dumps].
        destruct (rs_w st) as [w|]; [|eauto 10].
        destruct (andb (nltb N (nlit N 0) (rn_dump_dt p)) _); [|eauto 10].
        unfold run_write. cbn [rs_w rs_s rs_e rs_last_check rs_last_dump rs_checks rs_dumps].
        destruct (write w (frame_of e1)) as [w1 g]. eauto 10. }
      destruct X as (st1 & g & -> & <- & <-). cbn [obind]. destruct g; eauto.
  Qed.

  Lemma iter_plus dt k t : Nat.iter k (fun t => nadd N t dt) t = (t + INR k * dt)%R.
  Proof.
    induction k as [|k IH]; [cbn; ring|]. cbn [Nat.iter nat_rect]. fold (Nat.iter k (fun t => nadd N t dt) t).
    rewrite IH, S_INR. cbn. ring.
  Qed.
  Lemma sim_time dt clamp box s e frames s' e' :
    simulates N ps ef garbage n clamp box dt s e frames s' e' ->
    e_time e' = (e_time e + INR (length frames) * dt)%R.
  Proof.
    intros H. apply simulates_clock in H. destruct H as (_ & H & _). rewrite H. apply iter_plus.
  Qed.
  Lemma sim_app dt clamp box s e f1 f2 s' e' :
    simulates N ps ef garbage n clamp box dt s e (f1 ++ f2) s' e' ->
    exists s1 e1, simulates N ps ef garbage n clamp box dt s e f1 s1 e1 /\
                  simulates N ps ef garbage n clamp box dt s1 e1 f2 s' e'.
  Proof.
    revert s e. induction f1 as [|f f1 IH]; intros s e H; cbn [app] in H.
    - exists s, e. split; [constructor|auto].
    - inversion H as [|? ? s1 e1 ? ? ? Hs Hr]; subst. apply IH in Hr. destruct Hr as (s2 & e2 & A & B).
      exists s2, e2. split; auto. econstructor; eauto.
  Qed.

  Theorem run_reaches p s (e : @eng R E) w :
    (0 < rn_dt p)%R -> (rn_clamp p = true -> (0 <= rn_box p)%R) ->
    fresh s -> solver_ok s -> V (e_y e) ->
    exists fuel code st, run N ps ef garbage n write fuel p s e w = Some (Returned code st) /\
      (code = 0%Z \/ code = (-1)%Z) /\
      (code = 0%Z -> exists k,
         e_time (rs_e st) = (e_time e + INR k * rn_dt p)%R /\
         (rn_max_time p <= e_time (rs_e st))%R /\
         (k = O \/ e_time (rs_e st) < rn_max_time p + rn_dt p)%R /\
         ((rn_max_time p <= e_time e)%R -> k = O) /\
         (e_step e + k <= e_step (rs_e st))%nat /\
         (~ uses_bs s -> e_step (rs_e st) = (e_step e + k)%nat)).
  Proof.
    intros Hdt Hb Hf Hs HV.
    set (fuel := Z.to_nat (up ((rn_max_time p - e_time e) / rn_dt p))). exists fuel.
    assert (Ex : exists r, run N ps ef garbage n write fuel p s e w = Some r).
    { unfold run, run_start.
      assert (L : forall w lc ld ch du, exists r,
        run_loop N ps ef garbage n write fuel p (mkRunState s e w lc ld ch du) = Some r).
      { intros. apply run_loop_total; auto; cbn [rs_s].
        - apply solver_ok_good; auto.
        - apply fresh_inv; auto. }
      destruct w as [w|]; [|apply L].
      destruct (andb _ _); [|apply L].
      unfold run_write. cbn [rs_w rs_s rs_e rs_last_check rs_last_dump rs_checks rs_dumps].
      destruct (write w (frame_of e)) as [w1 g]. destruct g; [apply L|eauto]. }
    destruct Ex as [r Er]. pose proof (run_spec _ _ _ _ _ _ _ _ _ _ _ Er) as S.
    destruct S as (fr & d & c & S1 & S2 & S3 & S4 & _).
    pose proof (sim_time S1) as Tm. pose proof (simulates_clock S1) as (_ & _ & C1 & C2).
    destruct r as [code st|st]; cbn [final] in *.
    - exists code, st. split; auto. destruct S4 as [S4 S5]. split; auto.
      intros Hc. specialize (S5 Hc). exists (length fr). split; auto.
      cbn in S5. destruct (Rlt_dec (e_time (rs_e st)) (rn_max_time p)) as [|Hm]; [discriminate|].
      apply Rnot_lt_le in Hm. split; auto. split; [|split; [|auto]].
      + destruct fr as [|f fr] using rev_ind; [auto|right]. clear IHfr.
        rewrite removelast_last in S3.
        apply sim_app in S1. destruct S1 as (s1 & e1 & A & B). pose proof (sim_time A) as TA.
        rewrite app_length, Nat.add_comm, plus_INR in Tm. cbn [length INR] in Tm.
        assert (e_time e1 < rn_max_time p)%R; [|lra].
        destruct fr as [|f2 fr] using rev_ind.
        * inversion A; subst. assert (before N p (frame_of e1)) as X by (apply S2; destruct f; discriminate).
          unfold before in X. cbn in X. destruct (Rlt_dec (e_time e1) (rn_max_time p)); [auto|discriminate].
        * clear IHfr. apply sim_app in A. destruct A as (s2 & e2 & A1 & A2).
          inversion A2 as [|? ? s3 e3 ? ? ? Hs' Hr']; subst. inversion Hr'; subst.
          apply Forall_app in S3. destruct S3 as [_ S3]. inversion S3 as [|? ? X _]; subst. unfold before in X. cbn in X.
          destruct (Rlt_dec (e_time e1) (rn_max_time p)); [auto|discriminate].
      + intros Hm0. destruct fr as [|f fr]; auto. exfalso.
        assert (before N p (frame_of e)) as X by (apply S2; discriminate). unfold before in X. cbn in X.
        destruct (Rlt_dec (e_time e) (rn_max_time p)); [lra|discriminate].
    - exfalso. destruct S4 as [L H]. cbn in H.
      destruct (Rlt_dec (e_time (rs_e st)) (rn_max_time p)) as [Hm|]; [|discriminate].
      rewrite Tm, L in Hm. destruct (archimed ((rn_max_time p - e_time e) / rn_dt p)) as [Ha _].
      unfold fuel in Hm.
      destruct (Z_le_gt_dec 0 (up ((rn_max_time p - e_time e) / rn_dt p))) as [Hz|Hz].
      + rewrite INR_IZR_INZ, Z2Nat.id in Hm by auto.
        apply (Rmult_lt_compat_r (rn_dt p)) in Ha; auto. unfold Rdiv in Ha. rewrite Rmult_assoc, Rinv_l in Ha; lra.
      + replace (Z.to_nat _) with O in Hm by lia. cbn in Hm.
        assert (IZR (up ((rn_max_time p - e_time e) / rn_dt p)) < 0)%R by (apply IZR_lt; lia).
        assert (0 < (rn_max_time p - e_time e) / rn_dt p)%R by (apply Rdiv_lt_0_compat; lra). lra.
  Qed.
End Real.

Lemma cadence_unique A T (time : A -> T) (due : T -> T -> Prop) l : forall last p1 p2,
  cadence time due last l p1 -> cadence time due last l p2 -> p1 = p2.
Proof.
  induction l as [|x l IH]; intros last p1 p2 H1 H2.
  - destruct p1 as [|d p1]; [|destruct H1 as ([|? ?] & ? & X & _); discriminate].
    destruct p2 as [|d p2]; [auto|destruct H2 as ([|? ?] & ? & X & _); discriminate].
  - assert (D : forall p, cadence time due last (x :: l) p ->
      (due last (time x) /\ exists p', p = x :: p' /\ cadence time due (time x) l p') \/
      (~ due last (time x) /\ cadence time due last l p)).
    { intros [|d p] H; cbn in H.
      - right. inversion H; subst. auto.
      - destruct H as ([|b0 b] & a & X & Hb & Hd & C).
        + injection X as -> ->. left. eauto.
        + injection X as -> ->. inversion Hb; subst. right. split; auto. exists b, a. auto. }
    destruct (D _ H1) as [(A1 & q1 & -> & B1)|[A1 B1]]; destruct (D _ H2) as [(A2 & q2 & -> & B2)|[A2 B2]];
      try contradiction.
    + f_equal. eapply IH; eauto.
    + eapply IH; eauto.
Qed.

Local Open Scope R_scope.

Lemma every_cadence A (time : A -> R) dt k l : 0 < dt -> (0 < k)%nat -> forall i r last,
  (i mod k = r)%nat ->
  (forall j d, (j < length l)%nat -> time (nth j l d) = last + INR (r + j + 1) * dt) ->
  cadence time (tenth_due dt (INR k * dt)) last l
    (map snd (filter (fun x => Nat.eqb (fst x mod k) 0) (combine (seq (S i) (length l)) l))).
Proof.
  intros Hdt Hk. induction l as [|x l IH]; intros i r last Hr Ht.
  - cbn. constructor.
  - cbn [length seq combine filter fst].
    pose proof (Ht O x ltac:(cbn; lia)) as T0. cbn [nth] in T0.
    assert (Hrk : (r < k)%nat) by (subst r; apply Nat.mod_upper_bound; lia).
    pose proof (Nat.div_mod i k ltac:(lia)) as DM.
    destruct (Nat.eqb_spec (S i mod k) 0) as [Em|Em].
    + assert (r + 1 = k)%nat.
      { apply Nat.mod_divide in Em; [|lia]. destruct Em as [q Em].
        assert (k * (i / k) + r + 1 = q * k)%nat by lia.
        assert (q = i / k + 1)%nat by nia. nia. }
      cbn [map snd]. apply cadence_take.
      * unfold tenth_due. rewrite T0. replace (r + 0 + 1)%nat with k by lia. lra.
      * apply IH with (r := O); auto.
        intros j d Hj. pose proof (Ht (S j) d ltac:(cbn; lia)) as T1. cbn [nth] in T1. rewrite T1, T0.
        replace (r + S j + 1)%nat with (k + (0 + j + 1))%nat by lia. replace (r + 0 + 1)%nat with k by lia.
        rewrite (plus_INR k). ring.
    + assert (S r < k)%nat.
      { destruct (Nat.eq_dec (S r) k) as [X|X]; [|lia]. exfalso. apply Em.
        apply Nat.mod_divide; [lia|]. exists (i / k + 1)%nat. nia. }
      apply cadence_skip.
      * unfold tenth_due. rewrite T0. intros X.
        assert (INR (r + 0 + 1) + 1 <= INR k) by (rewrite <- S_INR; apply le_INR; lia).
        assert ((INR (r + 0 + 1) + 1) * dt <= INR k * dt) by (apply Rmult_le_compat_r; lra). lra.
      * apply IH with (r := S r).
        -- symmetry. apply (Nat.mod_unique _ _ (i / k)); lia.
        -- intros j d Hj. pose proof (Ht (S j) d ltac:(cbn; lia)) as T1. cbn [nth] in T1. rewrite T1.
           replace (r + S j + 1)%nat with (S r + j + 1)%nat by lia. ring.
Qed.

Lemma due_R mind p last i t : due (Rops mind) p last i t = true <-> tenth_due (rn_dt p) i last t.
Proof.
  unfold due, tenth_due. cbn. destruct (Rle_dec _ _) as [H|H]; split; intros X; auto; try discriminate; lra.
Qed.
Lemma cadence_ext A T (time : A -> T) (d1 d2 : T -> T -> Prop) : (forall a b, d1 a b <-> d2 a b) ->
  forall p last l, cadence time d1 last l p -> cadence time d2 last l p.
Proof.
  intros H. induction p as [|d p IH]; intros last l; cbn.
  - intros F. eapply Forall_impl; [|exact F]. intros a Ha X. apply Ha, H, X.
  - intros (b & a & -> & F & D & C). exists b, a. split; auto. split; [|split; [now apply H|auto]].
    eapply Forall_impl; [|exact F]. intros z Ha X. apply Ha, H, X.
Qed.
Lemma sim_times E mind ps (ef : E -> nat -> R -> list R -> list R -> option (E * list R)) garbage n clamp box dt
  s e frames s' e' : simulates (Rops mind) ps ef garbage n clamp box dt s e frames s' e' ->
  forall j d, (j < length frames)%nat -> fr_time (nth j frames d) = e_time e + INR (j + 1) * dt.
Proof.
  intros H. apply simulates_clock in H. destruct H as (H & _).
  revert H. generalize (e_time e). induction frames as [|f fr IH]; intros t H j d Hj; [cbn in Hj; lia|].
  cbn [length map] in H. injection H as H0 H1. destruct j as [|j].
  - cbn. rewrite H0. cbn. ring.
  - cbn [nth]. cbn in Hj. rewrite (IH _ H1) by lia. cbn [nadd Rops].
    replace (S j + 1)%nat with (S (j + 1)) by lia. rewrite S_INR. ring.
Qed.

(** an output interval of [k] steps: every [k]-th state is written *)
Lemma every_dump E mind ps (ef : E -> nat -> R -> list R -> list R -> option (E * list R)) garbage n (p : @run_params R)
  s e frames s' e' k dumps i : 0 < rn_dt p -> (0 < k)%nat -> i = INR k * rn_dt p ->
  simulates (Rops mind) ps ef garbage n (rn_clamp p) (rn_box p) (rn_dt p) s e frames s' e' ->
  cadence (@fr_time R) (fun last t => due (Rops mind) p last i t = true) (e_time e) frames dumps ->
  dumps = every k frames.
Proof.
  intros Hdt Hk -> HS HC. eapply cadence_unique.
  - eapply cadence_ext; [|exact HC]. intros a b. apply due_R.
  - apply every_cadence with (r := O); auto; [apply Nat.mod_0_l; lia|].
    intros j d Hj. rewrite (sim_times HS) by auto. reflexivity.
Qed.

Lemma cadence_spaced A (time : A -> R) dt i l : 0 < dt -> dt <= i -> forall last p,
  (forall j d, (j < length l)%nat -> time (nth j l d) = last + INR (j + 1) * dt) ->
  cadence time (tenth_due dt i) last l p ->
  spaced time (i - dt / 10) (i + 9 * dt / 10) last p.
Proof.
  intros Hdt Hi last p. revert last l. induction p as [|d p IH]; intros last l Ht H; cbn [spaced]; auto.
  destruct H as (b & a & -> & F & D & C). unfold tenth_due in D. split.
  - split; [lra|].
    assert (Td : time d = last + INR (length b + 1) * dt).
    { rewrite <- Ht with (d := d) by (rewrite app_length; cbn; lia). now rewrite nth_middle. }
    destruct b as [|b0 b] using rev_ind.
    + cbn in Td. lra.
    + clear IHb. rewrite app_length in Td. cbn [length] in Td.
      assert (Tb : time b0 = last + INR (length b + 1) * dt).
      { rewrite <- Ht with (d := d) by (rewrite !app_length; cbn; lia).
        rewrite <- app_assoc. cbn [app]. now rewrite nth_middle. }
      apply Forall_app in F. destruct F as [_ F]. inversion F as [|? ? X _]; subst. unfold tenth_due in X.
      rewrite !plus_INR in Td. rewrite plus_INR in Tb. cbn in Td, Tb. lra.
  - eapply IH; [|exact C]. intros j d0 Hj.
    assert (Td : time d = last + INR (length b + 1) * dt).
    { rewrite <- Ht with (d := d) by (rewrite app_length; cbn; lia). now rewrite nth_middle. }
    rewrite Td. replace (nth j a d0) with (nth (length b + 1 + j) (b ++ d :: a) d0).
    + rewrite Ht by (rewrite app_length; cbn; lia). rewrite !plus_INR. cbn. ring.
    + rewrite app_nth2 by lia. replace (length b + 1 + j - length b)%nat with (S j) by lia. reflexivity.
Qed.
