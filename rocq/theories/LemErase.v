(** A solver sees an engine only through the results of its calls: an engine that answers as
    another does, whenever the other answers, drives every solver alike, whatever private state the two keep. *)
From Coq Require Import Bool ZArith List Arith Lia.
From Verif Require Import Num Arr ModelEngine ModelSolverBase ModelButcher ModelExtrap ModelSolver.
Import ListNotations.
Set Implicit Arguments.

(** when the first program gives a result so does the second, and the two are related by [Q] *)
Definition sim {A C : Type} (o1 : option A) (o2 : option C) (Q : A -> C -> Prop) : Prop :=
  match o1, o2 with Some a, Some c => Q a c | None, _ => True | Some _, None => False end.
Lemma sim_bind A C A' C' (o1 : option A) (o2 : option C) (f1 : A -> option A') (f2 : C -> option C')
  (Q : A -> C -> Prop) (R : A' -> C' -> Prop) :
  sim o1 o2 Q -> (forall a c, Q a c -> sim (f1 a) (f2 c) R) -> sim (obind o1 f1) (obind o2 f2) R.
Proof. destruct o1, o2; cbn; auto; tauto. Qed.
Lemma sim_same A A' C' (o : option A) (f1 : A -> option A') (f2 : A -> option C') (R : A' -> C' -> Prop) :
  (forall a, sim (f1 a) (f2 a) R) -> sim (obind o f1) (obind o f2) R.
Proof. destruct o; cbn; auto. Qed.
Lemma sim_for S1 S2 (P : S1 -> S2 -> Prop) n : forall i (b1 : nat -> S1 -> option S1) (b2 : nat -> S2 -> option S2) s1 s2,
  P s1 s2 -> (forall k s1 s2, P s1 s2 -> sim (b1 k s1) (b2 k s2) P) -> sim (for_ n i b1 s1) (for_ n i b2 s2) P.
Proof.
  induction n as [|n IH]; intros i b1 b2 s1 s2 H0 HB; cbn; auto.
  pose proof (HB i s1 s2 H0) as H1. destruct (b1 i s1), (b2 i s2); cbn in H1; try contradiction; cbn; auto.
Qed.

Section Erase.
  Context {T E1 E2 : Type} (U : NumOps T) (ps : nat)
          (ef1 : E1 -> nat -> T -> list T -> list T -> option (E1 * list T))
          (ef2 : E2 -> nat -> T -> list T -> list T -> option (E2 * list T))
          (garbage : nat -> list T) (P : E1 -> E2 -> Prop).
  Hypothesis Hef : forall p q step t y f, P p q ->
    sim (ef1 p step t y f) (ef2 q step t y f) (fun a c => P (fst a) (fst c) /\ snd a = snd c).

  (** the same but for the private state *)
  Inductive era : @eng T E1 -> @eng T E2 -> Prop :=
  | Era y t st p q n : P p q -> era (mkEng y t st p n) (mkEng y t st q n).
  (** a result with an engine in it *)
  Definition Xe {A} (a : A * @eng T E1) (c : A * @eng T E2) : Prop := fst a = fst c /\ era (snd a) (snd c).
  Definition eX {A} (a : @eng T E1 * A) (c : @eng T E2 * A) : Prop := era (fst a) (fst c) /\ snd a = snd c.

  Lemma era_fc e1 e2 t y f : era e1 e2 -> sim (eng_fcompute ef1 e1 t y f) (eng_fcompute ef2 e2 t y f) eX.
  Proof.
    intros []. unfold eng_fcompute. cbn [e_priv e_step e_y e_time e_nbuf].
    eapply sim_bind; [apply Hef; eauto|]. intros a c [A B]. cbn. split; [now constructor|exact B].
  Qed.
  Lemma era_new e1 e2 : era e1 e2 -> Xe (new_buffer garbage e1) (new_buffer garbage e2).
  Proof. intros []. split; [reflexivity|]. now constructor. Qed.
  Lemma era_news k : forall e1 e2, era e1 e2 -> Xe (new_buffers garbage k e1) (new_buffers garbage k e2).
  Proof.
    induction k as [|k IH]; intros e1 e2 H; cbn [new_buffers]; [split; auto|].
    pose proof (era_new H) as [A B]. destruct (new_buffer garbage e1) as [b1 e1'], (new_buffer garbage e2) as [b2 e2'].
    cbn [fst snd] in *. destruct (IH _ _ B) as [C D].
    destruct (new_buffers garbage k e1') as [l1 f1], (new_buffers garbage k e2') as [l2 f2]. cbn [fst snd] in *.
    subst. split; auto.
  Qed.
  Lemma era_y e1 e2 : era e1 e2 -> e_y e1 = e_y e2. Proof. now intros []. Qed.
  Lemma era_t e1 e2 : era e1 e2 -> e_time e1 = e_time e2. Proof. now intros []. Qed.
  Lemma era_adv e1 e2 dt : era e1 e2 -> era (advise_time U e1 dt) (advise_time U e2 dt).
  Proof. intros []. now constructor. Qed.
  Lemma era_sety e1 e2 y : era e1 e2 -> era (set_y e1 y) (set_y e2 y).
  Proof. intros []. now constructor. Qed.
  Lemma era_sett e1 e2 t : era e1 e2 -> era (set_time e1 t) (set_time e2 t).
  Proof. intros []. now constructor. Qed.
  Hint Resolve era_adv era_sety era_sett : core.

  (** one step of the comparison *)
  Ltac era1 :=
    match goal with
    | |- sim (obind (eng_fcompute ef1 ?e1 ?t1 ?y1 ?f) _) (obind (eng_fcompute ef2 ?e2 ?t2 ?y2 ?f) _) _ =>
        match goal with H : era e1 e2 |- _ => rewrite ?(era_y H), ?(era_t H); eapply sim_bind; [apply (era_fc _ _ _ H)|] end;
        let H := fresh "H" in intros [? ?] [? ?] [H ?]; cbn [fst snd] in H |- *; cbn [fst snd] in *; subst
    | H : era ?e1 ?e2 |- sim (obind _ _) (obind _ _) _ => rewrite ?(era_y H), ?(era_t H); apply sim_same; intros ?;
        repeat match goal with x : (_ * _)%type |- _ => destruct x end
    | |- sim (obind (Some _) _) (obind (Some _) _) _ => cbn [obind]
    | |- sim (obind (if ?b then _ else _) _) (obind (if ?b then _ else _) _) _ => destruct b eqn:?
    | |- sim (if ?b then _ else _) (if ?b then _ else _) _ => destruct b eqn:?
    | |- context [new_buffer garbage ?e1] =>
        match goal with H : era e1 ?e2 |- _ =>
          let A := fresh "A" in let B := fresh "H" in pose proof (era_new H) as [A B];
          destruct (new_buffer garbage e1), (new_buffer garbage e2); cbn [fst snd] in A, B; subst end
    | |- context [new_buffers garbage ?n ?e1] =>
        match goal with H : era e1 ?e2 |- _ =>
          let A := fresh "A" in let B := fresh "H" in pose proof (era_news n H) as [A B];
          destruct (new_buffers garbage n e1), (new_buffers garbage n e2); cbn [fst snd] in A, B; subst end
    end.
  Ltac done := cbn; try (split; cbn; auto; fail).

  Ltac go H := rewrite ?(era_t H), ?(era_y H); repeat era1; cbn; try (split; cbn; auto; fail).

  Lemma era_euler dt s e1 e2 : era e1 e2 -> sim (euler_advise U ps ef1 garbage dt s e1) (euler_advise U ps ef2 garbage dt s e2) Xe.
  Proof. intros H. unfold euler_advise. destruct s; go H. Qed.
  Lemma era_midpoint dt s e1 e2 : era e1 e2 -> sim (midpoint_advise U ps ef1 garbage dt s e1) (midpoint_advise U ps ef2 garbage dt s e2) Xe.
  Proof. intros H. unfold midpoint_advise. destruct s; go H. Qed.
  Lemma era_rk4 dt s e1 e2 : era e1 e2 -> sim (rk4_advise U ps ef1 garbage dt s e1) (rk4_advise U ps ef2 garbage dt s e2) Xe.
  Proof. intros H. unfold rk4_advise. destruct s; go H. Qed.
  Lemma era_stetter dt s e1 e2 : era e1 e2 -> sim (stetter_advise U ps ef1 garbage dt s e1) (stetter_advise U ps ef2 garbage dt s e2) Xe.
  Proof.
    intros H. unfold stetter_advise.
    destruct s; go H.
  Qed.
  Lemma era_trapeze r dt s e1 e2 : era e1 e2 -> sim (trapeze_advise U ps ef1 garbage r dt s e1) (trapeze_advise U ps ef2 garbage r dt s e2) Xe.
  Proof.
    intros H. unfold trapeze_advise.
    assert (X : forall t f0 a c k, eX (fst a) (fst c) /\ snd a = snd c ->
      sim (trapeze_refine U ps ef1 r dt t f0 k a) (trapeze_refine U ps ef2 r dt t f0 k c) (fun a c => eX (fst a) (fst c) /\ snd a = snd c)).
    { intros t f0 [[a1 a2] a3] [[c1 c2] c3] k [[K1 K2] K3]. cbn [fst snd] in *. subst. unfold trapeze_refine.
      repeat era1; cbn; split; auto; split; cbn; auto. }
    destruct s; rewrite ?(era_t H), ?(era_y H); repeat era1;
      (eapply sim_bind with (Q := fun a c => eX (fst a) (fst c) /\ snd a = snd c);
        [apply sim_for; [split; [split|]; cbn [fst snd]; auto|intros; apply X; auto]|];
       intros [[? ?] ?] [[? ?] ?] [[? ?] ?]; cbn [fst snd] in *; subst; cbn; split; cbn; auto).
  Qed.

  (** tableaux *)
  Section Table.
    Variable p : @rk_params T.
    Lemma era_explicit t dt y i a c : eX a c -> sim (stage_explicit U ps ef1 p t dt y i a) (stage_explicit U ps ef2 p t dt y i c) eX.
    Proof. destruct a as [e1 b], c as [e2 b']. intros [H K]. cbn [fst snd] in *. subst b'. unfold stage_explicit. go H. Qed.
    Lemma era_first t dt y i a c : eX a c -> sim (stage_first U ps ef1 p t dt y i a) (stage_first U ps ef2 p t dt y i c) eX.
    Proof. destruct a as [e1 b], c as [e2 b']. intros [H K]. cbn [fst snd] in *. subst b'. unfold stage_first. go H. Qed.
    Lemma era_implicit t dt y i a c : eX a c -> sim (stage_implicit U ps ef1 p t dt y i a) (stage_implicit U ps ef2 p t dt y i c) eX.
    Proof. destruct a as [e1 b], c as [e2 b']. intros [H K]. cbn [fst snd] in *. subst b'. unfold stage_implicit. go H. Qed.
    Lemma era_sub_explicit t dt y a c : eX a c -> sim (sub_step_explicit U ps ef1 p t dt y a) (sub_step_explicit U ps ef2 p t dt y c) eX.
    Proof. intros H. apply sim_for; auto. intros. now apply era_explicit. Qed.
    Lemma era_sub_implicit nf t dt y a c : eX a c -> sim (sub_step_implicit U ps ef1 p nf t dt y a) (sub_step_implicit U ps ef2 p nf t dt y c) eX.
    Proof.
      intros H. unfold sub_step_implicit. eapply sim_bind.
      - destruct nf; [|exact H]. destruct a as [e1 b], c as [e2 b']. destruct H as [H K]. cbn [fst snd] in *. subst b'. era1.
        apply sim_for; [split; cbn; auto|]. intros. now apply era_first.
      - intros a' c' H'. apply sim_for; auto. intros k a2 c2 H2. apply sim_for; auto. intros. now apply era_implicit.
    Qed.
    Definition lp (a : rk_loop) (c : rk_loop) : Prop :=
      match a, c with (e1, b1, y1, t1, tr1), (e2, b2, y2, t2, tr2) => era e1 e2 /\ b1 = b2 /\ y1 = y2 /\ t1 = t2 /\ tr1 = tr2 end.
    Lemma era_sub rem : forall level n nf dt a c, lp a c ->
      sim (sub_step U ps ef1 p rem level n nf dt a) (sub_step U ps ef2 p rem level n nf dt c) lp.
    Proof.
      induction rem as [|rem IH]; intros level n nf dt a c H; cbn [sub_step]; (apply sim_for; [exact H|]); clear a c H;
        intros k [[[[e1 b1] y1] t1] tr1] [[[[e2 b2] y2] t2] tr2] (H & -> & -> & -> & ->);
        (eapply sim_bind with (Q := eX);
          [destruct (bt_implicit (rp_table p)); [apply era_sub_implicit|apply era_sub_explicit]; split; cbn; auto|]);
        clear e1 e2 b2 H; intros [e1 b] [e2 b'] [H K]; cbn [fst snd] in *; subst b'; era1.
      - era1. cbn. auto.
      - match goal with |- sim (if ?b then _ else _) _ _ => destruct b end; [|era1; cbn; auto].
        era1. era1. era1.
        eapply sim_bind; [apply IH; cbn; auto|]. clear e1 e2 H.
        intros [[[[e1 b1] ?] ?] ?] [[[[e2 b2] ?] ?] ?] (H & -> & -> & -> & ->). era1. era1. cbn. auto.
    Qed.
    Lemma era_rk dt s e1 e2 : era e1 e2 -> sim (rk_advise U ps ef1 garbage p dt s e1) (rk_advise U ps ef2 garbage p dt s e2) Xe.
    Proof.
      intros H. unfold rk_advise, rk_step. rewrite (era_t H).
      eapply sim_bind with (Q := fun a c => fst (fst a) = fst (fst c) /\ era (snd (fst a)) (snd (fst c)) /\ snd a = snd c).
      - eapply sim_bind with (Q := fun a c => fst (fst a) = fst (fst c) /\ era (snd (fst a)) (snd (fst c)) /\ snd a = snd c).
        + destruct s; [cbn; auto|]. eapply sim_bind with (Q := Xe).
          * unfold rk_alloc. repeat era1; cbn; split; auto.
          * intros [? ?] [? ?] [A B]. cbn in *. auto.
        + intros [[b1 f1] nf] [[b2 f2] nf'] (A & B & C). cbn [fst snd] in *. subst.
          rewrite (era_y B). eapply sim_bind; [apply era_sub; cbn; auto|].
          intros [[[[g1 ?] ?] ?] ?] [[[[g2 ?] ?] ?] ?] (D & -> & -> & -> & ->). cbn. auto.
      - intros [[? ?] ?] [[? ?] ?] (A & B & C). cbn [fst snd] in *. subst. cbn. split; cbn; auto.
    Qed.
  End Table.

  (** extrapolation *)
  Lemma era_bs_compute counts level dt t b e1 e2 : era e1 e2 ->
    sim (bs_compute U ps ef1 garbage counts level dt t b e1) (bs_compute U ps ef2 garbage counts level dt t b e2) Xe.
  Proof.
    intros H. unfold bs_compute. era1. era1. eapply sim_bind with (Q := Xe).
    - unfold bs_substeps. apply sim_for; [split; cbn; auto|]. intros k [s f1] [s' f2] [A B]. cbn [fst snd] in *. subst s'.
      now apply era_stetter.
    - clear e1 e2 H. intros [i e1] [i' e2] [A H]. cbn [fst snd] in *. subst. go H.
  Qed.
  Lemma era_bs_levels p counts dt t left : forall level b e1 e2, era e1 e2 ->
    sim (bs_levels U ps ef1 garbage p counts dt t left level b e1) (bs_levels U ps ef2 garbage p counts dt t left level b e2) Xe.
  Proof.
    induction left as [|left IH]; intros level b e1 e2 H; cbn [bs_levels]; [split; auto|].
    eapply sim_bind; [now apply era_bs_compute|]. clear e1 e2 H b. intros [b e1] [b' e2] [A H]. cbn [fst snd] in *. subst b'.
    destruct (Nat.ltb level 2); auto. era1.
    match goal with |- sim (if ?b then _ else _) _ _ => destruct b end; auto. era1. split; cbn; auto.
  Qed.
  Lemma era_bs p dt s e1 e2 : era e1 e2 -> sim (bs_advise U ps ef1 garbage p dt s e1) (bs_advise U ps ef2 garbage p dt s e2) Xe.
  Proof.
    intros H. unfold bs_advise. era1.
    destruct s as [s|]; repeat era1;
      (match goal with B : era ?e1 ?e2 |- context [bs_levels _ _ _ _ _ _ _ _ _ _ _ ?e1] => rewrite ?(era_t B) end);
      (eapply sim_bind; [apply era_bs_levels; eauto|]);
      (let A := fresh in let B := fresh in intros [? ?] [? ?] [A B]; cbn [fst snd] in A, B; subst; split; cbn; auto).
  Qed.

  Lemma era_advise dt s : forall e1 e2, era e1 e2 -> sim (advise U ps ef1 garbage dt s e1) (advise U ps ef2 garbage dt s e2) Xe.
  Proof.
    assert (W : forall A (o1 : option (A * @eng T E1)) (o2 : option (A * @eng T E2)) (k : A -> @solver T), sim o1 o2 Xe ->
      sim (let* (b, e) := o1 in Some (k b, e)) (let* (b, e) := o2 in Some (k b, e)) Xe).
    { intros A o1 o2 k X. eapply sim_bind; [exact X|]. intros [? ?] [? ?] [Q1 Q2]. cbn in *. subst. split; auto. }
    induction s as [b|b|b|b|rf b|p b|p b|p st IH b step]; intros e1 e2 H; cbn [advise].
    - apply W. now apply era_euler.
    - apply W. now apply era_midpoint.
    - apply W. now apply era_stetter.
    - apply W. now apply era_rk4.
    - apply W. now apply era_trapeze.
    - apply W. now apply era_rk.
    - apply W. now apply era_bs.
    - destruct (Nat.eqb (ap_rank p) 0); [exact I|]. era1. cbv zeta; rewrite ?(era_t H).
      eapply sim_bind with (Q := Xe).
      + destruct b; [split; auto|]. unfold adams_alloc. repeat era1; cbn; split; auto.
      + intros [b1 f1] [b2 f2] [A B]. cbn [fst snd] in *. subst. era1. era1. era1.
        destruct (Nat.ltb (ap_rank p) step).
        * era1. destruct (ap_corr p); era1; split; cbn; auto.
        * eapply sim_bind; [apply IH; eauto|]. intros [? ?] [? ?] [A' B']. cbn [fst snd] in *. subst. split; cbn; auto.
  Qed.
  Lemma era_all dts : forall s e1 e2, era e1 e2 -> sim (advise_all U ps ef1 garbage dts s e1) (advise_all U ps ef2 garbage dts s e2) Xe.
  Proof.
    induction dts as [|dt dts IH]; intros s e1 e2 H; cbn [advise_all]; [split; auto|].
    eapply sim_bind; [now apply era_advise|]. intros [s1 f1] [s2 f2] [A B]. cbn [fst snd] in *. subst. auto.
  Qed.
End Erase.
