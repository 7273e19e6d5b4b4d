(** Counting the force evaluations of the solvers. *)
From Coq Require Import Bool List Arith Lia.
From Verif Require Import Num Arr ModelEngine ModelSolverBase ModelButcher ModelExtrap ModelSolver ModelCount SpecSolver SpecCost
  LemExtrap PropExtrap.
Import ListNotations.
Set Implicit Arguments.

Lemma for_count A (body : nat -> A -> option A) (P : A -> Prop) (m : A -> nat) lo hi :
  (forall i s s', P s -> body i s = Some s' -> P s' /\ m s + lo <= m s' <= m s + hi) ->
  forall n i s s', P s -> for_ n i body s = Some s' -> P s' /\ m s + n * lo <= m s' <= m s + n * hi.
Proof.
  intros H. induction n as [|n IH]; intros i s s' Hs E; cbn [for_] in E.
  - injection E as <-. split; auto. lia.
  - destruct (body i s) as [s1|] eqn:E1; [|discriminate]. destruct (H i s s1 Hs E1) as [H1 L1].
    destruct (IH _ _ _ H1 E) as [H2 L2]. split; auto. lia.
Qed.

Ltac ob H := match type of H with
  | obind ?x _ = Some _ => let E := fresh "E" in destruct x eqn:E; cbn [obind] in H; [|discriminate H]
  | (let (_, _) := ?p in _) = Some _ => let E := fresh "E" in destruct p eqn:E
  end.

Section Cost.
  Context {T E : Type} (U : NumOps T) (ps : nat) (ef0 : E -> nat -> T -> list T -> list T -> option (E * list T)) (garbage : nat -> list T).
  Notation ef := (metered ef0).
  Notation eng := (@eng T (E * nat)).
  Notation cc := (@get_compute_count T E).

  Lemma cc_f (e e' : eng) t y f f' : eng_fcompute ef e t y f = Some (e', f') -> cc e' = S (cc e).
  Proof.
    unfold eng_fcompute, metered. destruct (ef0 (fst (e_priv e)) (e_step e) t y f) as [[p g]|]; [|discriminate]. cbn [obind].
    intros H. injection H as <- <-. reflexivity.
  Qed.
  Lemma cc_new (e e' : eng) b : new_buffer garbage e = (b, e') -> cc e' = cc e.
  Proof. intros H. injection H as <- <-. reflexivity. Qed.
  Lemma cc_news k : forall (e e' : eng) b, new_buffers garbage k e = (b, e') -> cc e' = cc e.
  Proof.
    induction k as [|k IH]; intros e e' b H; cbn [new_buffers] in H; [now injection H as <- <-|].
    destruct (new_buffer garbage e) as [b1 e1] eqn:E1. destruct (new_buffers garbage k e1) as [l e2] eqn:E2. injection H as <- <-.
    rewrite (IH _ _ _ E2). eapply cc_new; eauto.
  Qed.
  Lemma cc_adv (e : eng) dt : cc (advise_time U e dt) = cc e. Proof. reflexivity. Qed.
  Lemma cc_y (e : eng) y : cc (set_y e y) = cc e. Proof. reflexivity. Qed.
  Lemma cc_t (e : eng) t : cc (set_time e t) = cc e. Proof. reflexivity. Qed.

  Ltac fin := repeat match goal with
    | H : eng_fcompute _ _ _ _ _ = Some (_, _) |- _ => apply cc_f in H
    | H : new_buffer _ _ = (_, _) |- _ => apply cc_new in H
    | H : new_buffers _ _ _ = (_, _) |- _ => apply cc_news in H
    end; rewrite ?cc_adv, ?cc_y, ?cc_t in *.
  Ltac pairs := repeat match goal with p : (_ * _)%type |- _ => destruct p end.

  Lemma c_euler dt s e s' e' : euler_advise U ps ef garbage dt s e = Some (s', e') -> cc e' = cc e + 1.
  Proof.
    unfold euler_advise. destruct s as [b|]; [|destruct (new_buffer garbage e) as [b e1] eqn:En]; cbv iota; intros H; repeat (ob H; pairs; cbv iota beta in H);
      injection H as <- <-; fin; lia.
  Qed.
  Lemma c_midpoint dt s e s' e' : midpoint_advise U ps ef garbage dt s e = Some (s', e') -> cc e' = cc e + 2.
  Proof.
    unfold midpoint_advise. destruct s as [b|]; intros H.
    - repeat (ob H; pairs; cbv iota beta in H). injection H as <- <-. fin. lia.
    - destruct (new_buffer garbage e) as [b1 e1] eqn:E1. destruct (new_buffer garbage e1) as [b2 e2] eqn:E2.
      destruct (new_buffer garbage e2) as [b3 e3] eqn:E3. cbv iota zeta beta in H.
      repeat (ob H; pairs; cbv iota beta in H). injection H as <- <-. fin. lia.
  Qed.

  (** the midpoint rule of Stetter: one evaluation more at the start and after a reset *)
  Definition st_due (s : option (@stetter T)) : nat := match s with Some m => if sm_init m then 0 else 1 | None => 1 end.
  Lemma c_stetter dt s e s' e' : stetter_advise U ps ef garbage dt s e = Some (s', e') ->
    cc e' = cc e + (st_due s + 2) /\ st_due s' = 0.
  Proof.
    unfold stetter_advise. cbv zeta. destruct s as [b|]; intros H.
    - cbn [st_due]. do 4 ob H. destruct (sm_init b) eqn:Ei; cbn [orb negb] in H.
      + ob H. pairs. cbv iota beta in H. injection E4 as <- <- <-. cbv iota in H.
        repeat (ob H; pairs; cbv iota beta in H). injection H as <- <-. injection E4 as <- <-. fin. split; [lia|reflexivity].
      + ob H. pairs. cbv iota beta in H. do 2 ob E4. injection E4 as <- <- <-. cbv iota in H.
        repeat (ob H; pairs; cbv iota beta in H). injection H as <- <-. fin. split; [lia|reflexivity].
    - cbn [st_due]. destruct (new_buffer garbage e) as [b1 e1] eqn:E1. destruct (new_buffer garbage e1) as [b2 e2] eqn:E2.
      destruct (new_buffers garbage 2 e2) as [b3 e3] eqn:E3. destruct (new_buffers garbage 2 e3) as [b4 e4] eqn:E4.
      cbn [sm_init sm_uv sm_fu orb negb] in H. do 5 (ob H; pairs; cbv iota beta in H). do 2 ob E8. injection E8 as <- <- <-. cbv iota in H.
      repeat (ob H; pairs; cbv iota beta in H). injection H as <- <-. fin. split; [lia|reflexivity].
  Qed.

  Lemma c_rk4 dt s e s' e' : rk4_advise U ps ef garbage dt s e = Some (s', e') -> cc e' = cc e + 4.
  Proof.
    unfold rk4_advise. cbv zeta. destruct s as [b|]; intros H.
    - repeat (ob H; pairs; cbv iota beta in H). injection H as <- <-. fin. lia.
    - destruct (new_buffers garbage 4 e) as [b1 e1] eqn:E1. destruct (new_buffer garbage e1) as [b2 e2] eqn:E2. cbv iota beta in H.
      repeat (ob H; pairs; cbv iota beta in H). injection H as <- <-. fin. lia.
  Qed.

  Lemma c_refine refine dt t f0 i st st' : trapeze_refine U ps ef refine dt t f0 i st = Some st' ->
    cc (fst (fst st')) = cc (fst (fst st)) + 1.
  Proof.
    destruct st as [[e p] f1]. unfold trapeze_refine. cbv zeta. intros H. ob H. pairs. cbv iota beta in H.
    destruct (Nat.eqb i refine); ob H; injection H as <-; fin; cbn [fst]; rewrite ?cc_y; lia.
  Qed.
  Lemma c_trapeze refine dt s e s' e' : trapeze_advise U ps ef garbage refine dt s e = Some (s', e') -> cc e' = cc e + (2 + refine).
  Proof.
    unfold trapeze_advise. cbv zeta.
    assert (A : forall (m : @trapeze T) (e1 : eng), cc e1 = cc e ->
      obind (rd (tz_f m) 0) (fun f0 => obind (rd (tz_f m) 1) (fun f1 =>
      obind (eng_fcompute ef e1 (e_time e) (e_y e1) f0) (fun '(e2, f2) => obind (fmadd U ps (tz_pred m) (e_y e2) f2 dt) (fun pred =>
      obind (for_ (S refine) 0 (trapeze_refine U ps ef refine dt (e_time e) f2) (e2, pred, f1)) (fun '(e3, pred, f3) =>
      Some (Some (mkTrapeze [f2; f3] pred), advise_time U e3 dt)))))) = Some (s', e') -> cc e' = cc e + (2 + refine)).
    { intros m e1 He H. do 4 (ob H; pairs; cbv iota beta in H). ob H. destruct p as [[e3 pr] f3]. cbv iota beta in H. injection H as <- <-.
      destruct (@for_count _ (trapeze_refine U ps ef refine dt (e_time e) l1) (fun _ => True) (fun st => cc (fst (fst st))) 1 1) with (3 := E4) as [_ X]; auto.
      { intros i q q' _ Hq. apply c_refine in Hq. split; [exact I|lia]. }
      cbn [fst] in X. fin. lia. }
    destruct s as [b|]; intros H.
    - now apply (A b e).
    - destruct (new_buffers garbage 2 e) as [b1 e1] eqn:E1. destruct (new_buffer garbage e1) as [b2 e2] eqn:E2. cbv iota beta in H.
      fin. apply (A _ e2) in H; auto. congruence.
  Qed.

  (** ** tableaux *)
  Section Rk.
    Variable p : @rk_params T.
    Notation steps := (bt_steps (rp_table p)).
    Lemma c_explicit t dt y i st st' : stage_explicit U ps ef p t dt y i st = Some st' -> cc (fst st') = cc (fst st) + 1.
    Proof.
      destruct st as [e b]. unfold stage_explicit. intros H. do 2 ob H. destruct (Nat.eqb i 0).
      - repeat (ob H; pairs; cbv iota beta in H). injection H as <-. fin. cbn [fst]. lia.
      - ob H. ob H. pairs. cbv iota beta in H. repeat (ob H; pairs; cbv iota beta in H). injection H as <-. fin. cbn [fst]. lia.
    Qed.
    Lemma c_first t dt y i st st' : stage_first U ps ef p t dt y i st = Some st' -> cc (fst st') = cc (fst st) + 1.
    Proof.
      destruct st as [e b]. unfold stage_first. intros H. repeat (ob H; pairs; cbv iota beta in H). injection H as <-. fin. cbn [fst]. lia.
    Qed.
    Lemma c_implicit t dt y i st st' : stage_implicit U ps ef p t dt y i st = Some st' -> cc (fst st') = cc (fst st) + 1.
    Proof.
      destruct st as [e b]. unfold stage_implicit. intros H. repeat (ob H; pairs; cbv iota beta in H). injection H as <-. fin. cbn [fst]. lia.
    Qed.
    Lemma c_stages (body : nat -> eng * @rk_bufs T -> option (eng * @rk_bufs T)) n st st' :
      (forall i st st', body i st = Some st' -> cc (fst st') = cc (fst st) + 1) -> for_ n 0 body st = Some st' -> cc (fst st') = cc (fst st) + n.
    Proof.
      intros H F. destruct (@for_count _ body (fun _ => True) (fun st => cc (fst st)) 1 1) with (3 := F) as [_ X]; auto; [|lia].
      intros i s s' _ X. apply H in X. split; [exact I|lia].
    Qed.
    Definition first_cost (nf : bool) : nat := if (bt_implicit (rp_table p) && nf)%bool then 1 + steps else 0.
    Lemma c_pass nf t dt y st st' :
      (if bt_implicit (rp_table p) then sub_step_implicit U ps ef p nf t dt y st else sub_step_explicit U ps ef p t dt y st) = Some st' ->
      cc (fst st') = cc (fst st) + (first_cost nf + rk_pass p).
    Proof.
      unfold first_cost, rk_pass. destruct (bt_implicit (rp_table p)) eqn:Ei; cbn [andb].
      - unfold sub_step_implicit. intros H. ob H. rename E0 into E1.
        assert (A : cc (fst p0) = cc (fst st) + (if nf then 1 + steps else 0)).
        { destruct nf; [|injection E1 as <-; lia]. destruct st as [e b]. ob E1. pairs. cbv iota beta in E1.
          apply c_stages in E1; [|intros ? ? ?; apply c_first]. fin. cbn [fst] in *. lia. }
        destruct (@for_count _ (fun _ => for_ steps 0 (stage_implicit U ps ef p t dt y)) (fun _ => True) (fun st => cc (fst st)) steps steps)
          with (3 := H) as [_ X]; auto; [|lia].
        intros i q q' _ Hq. apply c_stages in Hq; [|intros ? ? ?; apply c_implicit]. split; [exact I|lia].
      - unfold sub_step_explicit. intros H. apply c_stages in H; [|intros ? ? ?; apply c_explicit]. lia.
    Qed.
    Definition lc (st : @rk_loop T (E * nat)) : nat := cc (fst (fst (fst (fst st)))).
    Notation tower r := (if bt_embedded (rp_table p) then geometric (rp_subdivisions p) r else 1).
    Lemma tower_pos r : 1 <= tower r.
    Proof. destruct (bt_embedded (rp_table p)); [|lia]. destruct r; cbn; lia. Qed.
    Lemma c_loop (body : nat -> @rk_loop T (E * nat) -> option (@rk_loop T (E * nat))) lo hi n st st' :
      for_ n 0 body st = Some st' -> (forall i s s', body i s = Some s' -> lc s + lo <= lc s' <= lc s + hi) -> lc st + n * lo <= lc st' <= lc st + n * hi.
    Proof.
      intros F H. destruct (@for_count _ body (fun _ => True) lc lo hi) with (3 := F) as [_ X]; auto.
      intros i s s' _ X. split; [exact I|]. eauto.
    Qed.
    Lemma c_sub rem : forall level n nf dt st st', sub_step U ps ef p rem level n nf dt st = Some st' ->
      lc st + n * (first_cost nf + rk_pass p) <= lc st' <= lc st + n * (first_cost nf + rk_pass p * tower rem).
    Proof.
      induction rem as [|rem IH]; intros level n nf dt st st' H; cbn [sub_step] in H.
      - apply (@c_loop _ _ _ _ _ _ H).
        intros i [[[[e b] y] t] tr] s' X.
        pose proof (tower_pos 0) as TP.
        ob X. destruct p0 as [e1 b1]. cbv iota beta in X. apply c_pass in E0. ob X. pairs. cbv iota beta zeta in X. ob X. pairs. cbv iota beta in X.
        injection X as <-. unfold lc. cbn [fst] in *. nia.
      - apply (@c_loop _ _ _ _ _ _ H).
        intros i [[[[e b] y] t] tr] s' X.
        pose proof (tower_pos (S rem)) as TP.
        ob X. destruct p0 as [e1 b1]. cbv iota beta in X. apply c_pass in E0. ob X. pairs. cbv iota beta zeta in X.
        destruct (bt_embedded (rp_table p)) eqn:Ee; cbn [andb] in X.
        2:{ ob X. pairs. cbv iota beta in X. injection X as <-. unfold lc. cbn [fst] in *. nia. }
        destruct (nltb U (rp_min_step p) dt && nltb U (rp_threshold p) t0)%bool.
        2:{ ob X. pairs. cbv iota beta in X. injection X as <-. unfold lc. cbn [fst] in *. nia. }
        do 3 ob X. cbv iota beta zeta in X. ob X. match goal with q : rk_loop |- _ => destruct q as [[[[e2 b2] y2] t2] tr2] end. cbv iota beta in X. apply IH in E5.
        do 2 ob X. injection X as <-. unfold lc in *. cbn [fst] in *. cbn [geometric] in *.
        unfold first_cost in E5. rewrite andb_false_r in E5. nia.
    Qed.
    Lemma c_rk dt s e s' e' : rk_advise U ps ef garbage p dt s e = Some (s', e') ->
      s' <> None /\ let k := match s with None => 0 | Some _ => 1 end in
      cc e + (rk_start p k + rk_pass p) <= cc e' <= cc e + (rk_start p k + rk_pass p * tower (rp_max_recursion p)).
    Proof.
      unfold rk_advise, rk_step. cbv zeta. intros H. ob H. destruct p0 as [[b e1] tr]. cbv iota beta in H. injection H as <- <-.
      split; [discriminate|].
      ob E0. destruct p0 as [[b1 e2] nf]. cbv iota beta in E0.
      assert (A : cc e2 = cc e /\ nf = match s with None => true | Some _ => false end).
      { destruct s as [b2|]; [injection E1 as <- <- <-; auto|]. ob E1. destruct p0 as [b2 e3]. cbv iota beta in E1. injection E1 as <- <- <-.
        split; [|reflexivity]. unfold rk_alloc in E2.
        destruct (new_buffers garbage steps e) as [k1 f1] eqn:F1. destruct (new_buffer garbage f1) as [k2 f2] eqn:F2.
        destruct (new_buffer garbage f2) as [k3 f3] eqn:F3. destruct (new_buffers garbage (rp_max_recursion p) f3) as [k4 f4] eqn:F4.
        destruct (rp_correction p).
        - destruct (new_buffer garbage f4) as [k5 f5] eqn:F5. destruct (new_buffer garbage f5) as [k6 f6] eqn:F6. do 2 ob E2.
          injection E2 as <- <-. fin. congruence.
        - injection E2 as <- <-. fin. congruence. }
      destruct A as [A ->]. ob E0. match goal with q : rk_loop |- _ => destruct q as [[[[e3 b3] y3] t3] tr3] end. cbv iota beta in E0. injection E0 as <- <- <-.
      apply c_sub in E2. unfold lc in E2. cbn [fst] in E2. fin. unfold first_cost, rk_start in *.
      destruct s; destruct (bt_implicit (rp_table p)); cbn [andb] in E2; lia.
    Qed.
  End Rk.

  (** ** Bulirsch-Stoer *)
  Lemma c_substeps n : forall sdt s e s' e' i, for_ n i (fun _ st => stetter_advise U ps ef garbage sdt (fst st) (snd st)) (s, e) = Some (s', e') ->
    cc e' = cc e + match n with 0 => 0 | _ => st_due s + 2 * n end.
  Proof.
    induction n as [|n IH]; intros sdt s e s' e' i H; cbn [for_] in H.
    - injection H as <- <-. lia.
    - cbn [fst snd] in H. destruct (stetter_advise U ps ef garbage sdt s e) as [[s1 e1]|] eqn:E1; [|discriminate].
      apply c_stetter in E1. destruct E1 as [A B]. apply IH in H. destruct n; lia.
  Qed.
  Lemma due_reset s : st_due (stetter_reset s) = 1.
  Proof. destruct s; reflexivity. Qed.
  Lemma seq_pos j : 0 < bs_seq j.
  Proof.
    unfold bs_seq. destruct j as [|j]; [lia|].
    pose proof (Nat.pow_nonzero 2 (j / 2 + 2) ltac:(lia)). pose proof (Nat.pow_nonzero 2 (j / 2 + 1) ltac:(lia)). destruct (Nat.even j); lia.
  Qed.
  Lemma c_compute L level dt t0 b e b' e' : bs_compute U ps ef garbage (map bs_seq (seq 0 L)) level dt t0 b e = Some (b', e') -> level < L ->
    cc e' = cc e + (2 * bs_seq level + 1).
  Proof.
    unfold bs_compute. cbv zeta. intros H HL. do 2 ob H.
    assert (n = bs_seq level) as ->.
    { unfold rd in E1. rewrite nth_error_map in E1. rewrite (nth_error_nth' _ 0) in E1 by (now rewrite seq_length). rewrite seq_nth in E1 by auto.
      cbn in E1. congruence. }
    ob H. destruct p as [int e2]. cbv iota beta in H. ob H. injection H as <- <-. unfold bs_substeps in E2. apply c_substeps in E2.
    rewrite due_reset in E2. pose proof (seq_pos level). change (cc (set_time (set_y e l) t0)) with (cc e) in E2. destruct (bs_seq level); lia.
  Qed.
  Notation bc := (fun l => 2 * bs_seq l + 1).
  Lemma c_levels p dt t0 left : forall level b e b' e',
    bs_levels U ps ef garbage p (map bs_seq (seq 0 (bp_max_level p))) dt t0 left level b e = Some (b', e') -> level + left = bp_max_level p ->
    cc e + sum (map bc (seq level (Nat.min 3 (bp_max_level p) - level))) <= cc e' <= cc e + sum (map bc (seq level left)).
  Proof.
    induction left as [|left IH]; intros level b e b' e' H HL; cbn [bs_levels] in H.
    - injection H as <- <-. replace (Nat.min 3 (bp_max_level p) - level) with 0 by lia. cbn. lia.
    - ob H. destruct p0 as [b1 e1]. cbv iota beta in H. apply c_compute in E0; [|lia].
      destruct (Nat.ltb_spec level 2).
      + apply IH in H; [|lia]. replace (Nat.min 3 (bp_max_level p) - level) with (S (Nat.min 3 (bp_max_level p) - S level)) by lia.
        unfold sum in *. cbn [seq map fold_right] in *. lia.
      + assert (A : sum (map bc (seq level (Nat.min 3 (bp_max_level p) - level))) <= bc level).
        { destruct (Nat.min 3 (bp_max_level p) - level) as [|[|k]] eqn:Ek; [| |lia]; unfold sum; cbn [seq map fold_right]; lia. }
        ob H. destruct p0 as [md ext]. cbv iota beta zeta in H.
        match type of H with (if ?c then _ else _) = _ => destruct c end.
        * ob H. injection H as <- <-. unfold sum in *. cbn [seq map fold_right] in *. fin. lia.
        * apply IH in H; [|lia]. unfold sum in *. cbn [seq map fold_right] in *. lia.
  Qed.
  Lemma c_bs p dt s e s' e' : bs_advise U ps ef garbage p dt s e = Some (s', e') ->
    cc e + bs_cost (Nat.min 3 (bp_max_level p)) <= cc e' <= cc e + bs_cost (bp_max_level p).
  Proof.
    unfold bs_advise. rewrite init_steps_ok. cbn [obind]. intros H.
    assert (A : forall b (e1 : eng), cc e1 = cc e ->
      (let t0 := e_time e1 in obind (copy_buffer ps (bb_y0 b) (e_y e1)) (fun y0 =>
        let b := mkBsBufs y0 (bb_int b) (bb_ext b) in
        obind (bs_levels U ps ef garbage p (map bs_seq (seq 0 (bp_max_level p))) dt t0 (bp_max_level p) 0 b e1)
        (fun '(b, e2) => Some (Some b, advise_time U (set_time e2 t0) dt)))) = Some (s', e') ->
      cc e + bs_cost (Nat.min 3 (bp_max_level p)) <= cc e' <= cc e + bs_cost (bp_max_level p)).
    { clear H. intros b e1 He H. cbv zeta in H. ob H. ob H. destruct p0 as [b2 e2]. cbv iota beta in H. injection H as <- <-.
      apply c_levels in E1; [|lia]. rewrite Nat.sub_0_r in E1. fold (bs_cost (Nat.min 3 (bp_max_level p))) in E1. fold (bs_cost (bp_max_level p)) in E1.
      fin. lia. }
    destruct s as [b|]; [now apply (A b e)|].
    destruct (new_buffer garbage e) as [b1 e1] eqn:E1. destruct (new_buffers garbage _ e1) as [b2 e2] eqn:E2.
    destruct (new_buffers garbage _ e2) as [b3 e3] eqn:E3. destruct (new_buffer garbage e3) as [b4 e4] eqn:E4. cbv iota beta in H.
    apply (A _ e4) in H; [exact H|]. fin. congruence.
  Qed.

  (** ** every solver *)
  (** the solver after [k] steps *)
  Fixpoint aged (k : nat) (s : @solver T) : Prop :=
    match s with
    | SStetter b => match k with 0 => b = None | _ => st_due b = 0 end
    | SButcher _ b => match k with 0 => b = None | _ => b <> None end
    | SAdams p starter _ step => step = k /\ (k <= S (ap_rank p) -> aged k starter)
    | _ => True
    end.
  Lemma fresh_aged s : SpecSolver.fresh s -> aged 0 s.
  Proof. induction s; cbn; auto. intros (A & B & C). auto. Qed.
  Lemma c_advise dt s : forall k e s' e', aged k s -> advise U ps ef garbage dt s e = Some (s', e') ->
    aged (S k) s' /\ (forall j, least s' j = least s j /\ most s' j = most s j) /\ cc e + least s k <= cc e' <= cc e + most s k.
  Proof.
    induction s as [b|b|b|b|rf b|p b|p b|p st IH b step]; intros k e s' e' Ha H; cbn [advise] in H.
    - ob H. destruct p as [b' e1]. cbv iota beta in H. injection H as <- <-. apply c_euler in E0. cbn. split; [exact I|]. split; [auto|lia].
    - ob H. destruct p as [b' e1]. cbv iota beta in H. injection H as <- <-. apply c_midpoint in E0. cbn. split; [exact I|]. split; [auto|lia].
    - ob H. destruct p as [b' e1]. cbv iota beta in H. injection H as <- <-. apply c_stetter in E0. destruct E0 as [A B]. cbn.
      split; [exact B|]. split; [auto|]. cbn in Ha. destruct k; [subst b; cbn in A; lia|lia].
    - ob H. destruct p as [b' e1]. cbv iota beta in H. injection H as <- <-. apply c_rk4 in E0. cbn. split; [exact I|]. split; [auto|lia].
    - ob H. destruct p as [b' e1]. cbv iota beta in H. injection H as <- <-. apply c_trapeze in E0. cbn. split; [exact I|]. split; [auto|lia].
    - ob H. destruct p0 as [b' e1]. cbv iota beta in H. injection H as <- <-. apply c_rk in E0. destruct E0 as [A B]. cbn.
      split; [exact A|]. split; [auto|]. cbn in Ha. destruct k; [now subst b|]. destruct b; [exact B|congruence].
    - ob H. destruct p0 as [b' e1]. cbv iota beta in H. injection H as <- <-. apply c_bs in E0. cbn [aged least most]. auto.
    - destruct Ha as [-> Ha]. destruct (Nat.eqb (ap_rank p) 0); [discriminate|]. ob H. cbv zeta in H. ob H. destruct p0 as [b1 e1]. cbv iota beta in H.
      assert (A : cc e1 = cc e).
      { destruct b as [b|]; [now injection E1 as <- <-|]. unfold adams_alloc in E1.
        destruct (new_buffers garbage (ap_rank p) e) as [f f1] eqn:F1. destruct (ap_corr p).
        - destruct (new_buffer garbage f1) as [c f2] eqn:F2. ob E1. injection E1 as <- <-. fin. congruence.
        - injection E1 as <- <-. fin. congruence. }
      ob H. ob H. destruct p0 as [e2 fb]. cbv iota beta in H. fin. ob H. cbn [least most].
      destruct (Nat.ltb_spec (ap_rank p) k) as [L|L].
      + replace (Nat.leb k (ap_rank p)) with false by (symmetry; apply Nat.leb_gt; lia). ob H.
        destruct (ap_corr p).
        * ob H. pairs. cbv iota beta in H. injection H as <- <-. cbn [aged least most]. fin. split; [split; [auto|lia]|]. split; [auto|lia].
        * ob H. injection H as <- <-. cbn [aged least most]. fin. split; [split; [auto|lia]|]. split; [auto|lia].
      + replace (Nat.leb k (ap_rank p)) with true by (symmetry; apply Nat.leb_le; lia).
        ob H. destruct p0 as [st' e3]. cbv iota beta in H. injection H as <- <-.
        destruct (IH k e2 st' e3) as (A1 & A2 & A3); [apply Ha; lia|assumption|]. cbn [aged least most]. split; [auto|]. split; [|lia].
        intros j. destruct (A2 j) as [-> ->]. auto.
  Qed.
  Lemma c_all dts : forall s k e s' e', aged k s -> advise_all U ps ef garbage dts s e = Some (s', e') ->
    cc e + sum (map (least s) (seq k (length dts))) <= cc e' <= cc e + sum (map (most s) (seq k (length dts))).
  Proof.
    induction dts as [|dt dts IH]; intros s k e s' e' Ha H; cbn [advise_all] in H.
    - injection H as <- <-. cbn. lia.
    - ob H. destruct p as [s1 e1]. cbv iota beta in H. destruct (@c_advise _ _ _ _ _ _ Ha E0) as (A1 & A2 & A3).
      apply (IH _ (S k)) in H; auto.
      rewrite (map_ext (least s1) (least s)) in H by (intros j; apply (A2 j)). rewrite (map_ext (most s1) (most s)) in H by (intros j; apply (A2 j)).
      unfold sum in *. cbn [length seq map fold_right] in *. lia.
  Qed.
  Lemma c_aged_all dts : forall s k e s' e', aged k s -> advise_all U ps ef garbage dts s e = Some (s', e') ->
    aged (k + length dts) s' /\ (forall j, least s' j = least s j /\ most s' j = most s j).
  Proof.
    induction dts as [|dt dts IH]; intros s k e s' e' Ha H; cbn [advise_all length] in *.
    - injection H as <- <-. rewrite Nat.add_0_r. auto.
    - ob H. destruct p as [s1 e1]. cbv iota beta in H. destruct (@c_advise _ _ _ _ _ _ Ha E0) as (A1 & A2 & A3).
      destruct (IH _ (S k) _ _ _ A1 H) as [B1 B2]. rewrite <- Nat.add_succ_comm. split; auto.
      intros j. destruct (B2 j) as [-> ->]. auto.
  Qed.
  Lemma fixed_eq (s : @solver T) : fixed_cost s -> forall k, least s k = most s k.
  Proof.
    induction s as [b|b|b|b|rf b|p b|p b|p st IH b step]; cbn [fixed_cost least most]; intros H k; try reflexivity.
    - destruct H as [->| ->]; [lia|]. destruct (bt_embedded (rp_table p)); cbn; lia.
    - rewrite Nat.min_r by exact H. reflexivity.
    - rewrite (IH H). reflexivity.
  Qed.
End Cost.
