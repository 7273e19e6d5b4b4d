(** A solver treats the state vector as a vector: runs from states related by a relation that the buffer
    operations respect stay related. *)
From Coq Require Import Bool ZArith List Arith Lia.
From Verif Require Import Num Arr ArrLemmas ModelEngine ModelSolverBase ModelButcher ModelExtrap ModelSolver SpecSym LemErase.
Import ListNotations.
Set Implicit Arguments.

(** nbody_solver_midpoint_stetter.cpp:35-71 after the allocation *)
Definition st_core {T E : Type} (N : NumOps T) (ps : nat) (ef : E -> nat -> T -> list T -> list T -> option (E * list T)) (dt t : T)
  (m : @stetter T) (e : @eng T E) (first_run : bool) : option (option (@stetter T) * @eng T E) :=
        let* u := rd (sm_uv m) 0 in let* v := rd (sm_uv m) 1 in let* fu0 := rd (sm_fu m) 0 in let* fu1 := rd (sm_fu m) 1 in
        let* (u, v, first_run) :=
          if orb (negb (sm_init m)) first_run then
            let* u := copy_buffer ps u (e_y e) in let* v := copy_buffer ps v (e_y e) in Some (u, v, true)
          else Some (u, v, first_run) in
        let* (e, fu0) := if (first_run : bool) then eng_fcompute ef e t u fu0 else Some (e, fu0) in
        let* tmp := fmadd N ps (sm_tmp m) v fu0 (ndiv N dt (nlit N 2)) in
        let* (e, du) := eng_fcompute ef e (nadd N t (ndiv N dt (nlit N 2))) tmp (sm_du m) in
        let* u := fmadd_inplace N ps u du dt in
        let* (e, fu1) := eng_fcompute ef e (nadd N t dt) u fu1 in
        let* v := fmaddn_inplace N ps v [fu0; fu1] [ndiv N dt (nlit N 2); ndiv N dt (nlit N 2)] 2 in
        let half := ndiv N (nlit N 1) (nlit N 2) in
        let* y := fmaddn N ps (e_y e) None [u; v] [half; half] 2 in
        Some (Some (mkStetter tmp du [fu1; fu0] [u; v] true), advise_time N (set_y e y) dt).

Section Sym.
  Context {T E1 E2 : Type} (N : NumOps T) (ps : nat)
          (ef1 : E1 -> nat -> T -> list T -> list T -> option (E1 * list T))
          (ef2 : E2 -> nat -> T -> list T -> list T -> option (E2 * list T))
          (g1 g2 : nat -> list T) (P : E1 -> E2 -> Prop) (W : list T -> list T -> Prop) (Tm : T -> T -> Prop).
  (** null pointers are related too *)
  Definition Wn (a b : list T) : Prop := W a b \/ (a = [] /\ b = []).
  Notation Ws := (Forall2 W).
  Hypothesis Hef : forall p q step t t' y y' f f', P p q -> W y y' -> W f f' ->
    Tm t t' -> sim (ef1 p step t y f) (ef2 q step t' y' f') (fun a b => P (fst a) (fst b) /\ W (snd a) (snd b)).
  Hypothesis Hg : forall k, W (g1 k) (g2 k).
  Hypothesis Hfmadd : forall a a' b b' x x' d, W a a' -> W b b' -> W x x' -> sim (fmadd N ps a b x d) (fmadd N ps a' b' x' d) W.
  Hypothesis Hfmi : forall a a' b b' d, W a a' -> W b b' -> sim (fmadd_inplace N ps a b d) (fmadd_inplace N ps a' b' d) W.
  Hypothesis Hcopy : forall a a' b b', W a a' -> W b b' -> sim (copy_buffer ps a b) (copy_buffer ps a' b') W.
  Hypothesis Hcopyn : forall a a' b b', Wn a a' -> Wn b b' -> sim (copy_buffer ps a b) (copy_buffer ps a' b') W.
  Hypothesis Hfill : forall a a', W a a' -> sim (fill_buffer a (nlit N 0)) (fill_buffer a' (nlit N 0)) W.
  Hypothesis Hcorr : forall a a' k k' b b' d n, W a a' -> Wn k k' -> Ws b b' ->
    sim (fmaddn_corr N ps a k b d n) (fmaddn_corr N ps a' k' b' d n) (fun r r' => W (fst r) (fst r') /\ Wn (snd r) (snd r')).
  Hypothesis Htm : forall t t' d, Tm t t' -> Tm (nadd N t d) (nadd N t' d).
  (** the largest component, needed where a step length or a level is chosen *)
  Definition iso : Prop := forall a a', W a a' -> sim (fmaxabs N ps a) (fmaxabs N ps a') eq.

  (** ** lists of buffers *)
  Lemma sy_rd l l' i : Ws l l' -> sim (rd l i) (rd l' i) W.
  Proof.
    intros H. revert i. induction H as [|a b l l' Hab H IH]; intros i; destruct i; unfold rd in *; cbn; auto. 
  Qed.
  Lemma upd_rel l l' x x' : Ws l l' -> W x x' -> forall i, Ws (upd l i x) (upd l' i x').
  Proof.
    intros H Hx. induction H as [|a b l l' Hab H IH]; intros i; destruct i; cbn [upd]; auto.
  Qed.
  Lemma sy_wr l l' i x x' : Ws l l' -> W x x' -> sim (wr l i x) (wr l' i x') Ws.
  Proof.
    intros H Hx. assert (L : length l = length l') by (induction H; cbn; congruence).
    rewrite !wr_upd, L. destruct (Nat.ltb i (length l')); [|exact I]. cbn. now apply upd_rel.
  Qed.
  Lemma Ws_len l l' : Ws l l' -> length l = length l'. Proof. intros H. induction H; cbn; congruence. Qed.

  Lemma sy_fmaddn_inplace a a' b b' d n : W a a' -> Ws b b' -> sim (fmaddn_inplace N ps a b d n) (fmaddn_inplace N ps a' b' d n) W.
  Proof.
    intros Ha Hb. unfold fmaddn_inplace. rewrite (Ws_len Hb). destruct (Nat.ltb (length b') n); [exact Ha|].
    apply sim_for; auto. intros k x x' Hx. apply sim_same. intros dk. destruct (neqb N dk (nlit N 0)); [exact Hx|].
    eapply sim_bind; [apply sy_rd; exact Hb|]. intros. now apply Hfmi.
  Qed.
  Lemma sy_fmaddn a a' b b' l l' d n : W a a' -> match b, b' with None, None => True | Some u, Some v => W u v | _, _ => False end ->
    Ws l l' -> sim (fmaddn N ps a b l d n) (fmaddn N ps a' b' l' d n) W.
  Proof.
    intros Ha Hb Hl. unfold fmaddn. rewrite (Ws_len Hl). destruct (Nat.ltb (length l') n); [exact Ha|].
    eapply sim_bind with (Q := fun s s' => W (fst s) (fst s') /\ snd s = snd s').
    { destruct b as [b|], b' as [b'|]; try contradiction; [cbn; auto|]. eapply sim_bind; [now apply Hfill|]. intros. cbn. auto. }
    intros s s' Hs. eapply sim_bind with (Q := fun s s' => W (fst s) (fst s') /\ snd s = snd s').
    { apply sim_for; auto. intros k [x i] [x' i'] [Hx K]. cbn [fst snd] in *. subst i'. apply sim_same. intros dk.
      destruct (neqb N dk (nlit N 0)); [cbn; auto|]. eapply sim_bind; [apply sy_rd; exact Hl|]. intros u u' Hu. destruct i.
      - eapply sim_bind; [apply Hfmadd; eauto|]. intros. cbn. auto.
      - destruct b as [b|], b' as [b'|]; try contradiction; [|exact I]. eapply sim_bind; [apply Hfmadd; eauto|]. intros. cbn. auto. }
    intros. cbn. tauto.
  Qed.

  (** ** the engine *)
  Definition era (e1 : @eng T E1) (e2 : @eng T E2) : Prop :=
    W (e_y e1) (e_y e2) /\ Tm (e_time e1) (e_time e2) /\ e_step e1 = e_step e2 /\ P (e_priv e1) (e_priv e2) /\ e_nbuf e1 = e_nbuf e2.
  Definition Xe {A C} (Q : A -> C -> Prop) (a : A * @eng T E1) (b : C * @eng T E2) : Prop := Q (fst a) (fst b) /\ era (snd a) (snd b).
  Definition eX {A C} (Q : A -> C -> Prop) (a : @eng T E1 * A) (b : @eng T E2 * C) : Prop := era (fst a) (fst b) /\ Q (snd a) (snd b).

  Lemma era_y e1 e2 : era e1 e2 -> W (e_y e1) (e_y e2). Proof. now intros (? & _). Qed.
  Lemma era_t e1 e2 : era e1 e2 -> Tm (e_time e1) (e_time e2). Proof. now intros (_ & ? & _). Qed.
  Lemma sy_fc e1 e2 t t' y y' f f' : era e1 e2 -> Tm t t' -> W y y' -> W f f' ->
    sim (eng_fcompute ef1 e1 t y f) (eng_fcompute ef2 e2 t' y' f') (eX W).
  Proof.
    intros (A & B & C & D & F) Ht Hy Hf. unfold eng_fcompute. rewrite <- C. eapply sim_bind; [apply Hef; eauto|].
    intros [p u] [q v] [Q1 Q2]. cbn in *. split; [|exact Q2]. cbn. unfold era. cbn. auto.
  Qed.
  Lemma sy_new e1 e2 : era e1 e2 -> Xe W (new_buffer g1 e1) (new_buffer g2 e2).
  Proof. intros (A & B & C & D & F). unfold new_buffer, Xe, era. cbn. rewrite F. auto 10. Qed.
  Lemma sy_news k : forall e1 e2, era e1 e2 -> Xe Ws (new_buffers g1 k e1) (new_buffers g2 k e2).
  Proof.
    induction k as [|k IH]; intros e1 e2 H; cbn [new_buffers]; [split; cbn; auto|].
    pose proof (sy_new H) as [A B]. destruct (new_buffer g1 e1) as [b1 e1'], (new_buffer g2 e2) as [b2 e2'].
    cbn [fst snd] in *. destruct (IH _ _ B) as [C D].
    destruct (new_buffers g1 k e1') as [l1 f1], (new_buffers g2 k e2') as [l2 f2]. cbn [fst snd] in *. split; cbn; auto.
  Qed.
  Lemma era_adv e1 e2 dt : era e1 e2 -> era (advise_time N e1 dt) (advise_time N e2 dt).
  Proof. intros (A & B & C & D & F). unfold era, advise_time. cbn. split; [|split; [|split; [|split]]]; auto. Qed.
  Lemma era_sety e1 e2 y y' : era e1 e2 -> W y y' -> era (set_y e1 y) (set_y e2 y').
  Proof. intros (A & B & C & D & F) Hy. unfold era. cbn. auto. Qed.
  Lemma era_sett e1 e2 t t' : era e1 e2 -> Tm t t' -> era (set_time e1 t) (set_time e2 t').
  Proof. intros (A & B & C & D & F) Ht. unfold era. cbn. auto. Qed.
  Hint Resolve era_adv era_sety era_sett era_y : core.

  Ltac tm := repeat apply Htm; eauto using era_t.
  Ltac sy1 :=
    match goal with
    | |- sim (obind (eng_fcompute _ _ _ _ _) _) _ _ =>
        eapply sim_bind; [apply sy_fc; [eassumption|tm|eauto|eauto]|]; intros [? ?] [? ?] [? ?]; cbn [fst snd] in *
    | |- sim (obind (rd ?l ?i) _) (obind (rd ?l ?i) _) _ => apply sim_same; intros ?
    | |- sim (obind (rd _ _) _) _ _ => eapply sim_bind; [apply sy_rd; eauto|]; intros ? ? ?
    | |- sim (obind (wr _ _ _) _) _ _ => eapply sim_bind; [apply sy_wr; eauto|]; intros ? ? ?
    | |- sim (obind (fmadd _ _ _ _ _ _) _) _ _ => eapply sim_bind; [apply Hfmadd; eauto|]; intros ? ? ?
    | |- sim (obind (fmadd_inplace _ _ _ _ _) _) _ _ => eapply sim_bind; [apply Hfmi; eauto|]; intros ? ? ?
    | |- sim (obind (copy_buffer _ _ _) _) _ _ => eapply sim_bind; [apply Hcopy; eauto|]; intros ? ? ?
    | |- sim (obind (fmaddn_inplace _ _ _ _ _ _) _) _ _ => eapply sim_bind; [apply sy_fmaddn_inplace; eauto|]; intros ? ? ?
    | |- sim (obind (fmaddn _ _ _ _ _ _ _) _) _ _ => eapply sim_bind; [apply sy_fmaddn; eauto|]; intros ? ? ?
    | |- sim (obind (fill_buffer _ _) _) _ _ => eapply sim_bind; [apply Hfill; eauto|]; intros ? ? ?
    | |- sim (obind (fmaddn_corr _ _ _ _ _ _ _) _) _ _ => eapply sim_bind; [apply Hcorr; eauto|]; intros [? ?] [? ?] [? ?]; cbn [fst snd] in *
    | |- sim (obind (Some _) _) (obind (Some _) _) _ => cbn [obind]
    | |- sim (obind (collect ?n ?i ?g) _) (obind (collect ?n ?i ?g) _) _ => apply sim_same; intros ?
    | |- sim (obind (row_coeff ?a ?b ?c ?d ?e) _) (obind (row_coeff ?a ?b ?c ?d ?e) _) _ => apply sim_same; intros ?
    | |- sim (obind (if ?b then _ else _) _) (obind (if ?b then _ else _) _) _ => destruct b eqn:?
    | |- sim (if ?b then _ else _) (if ?b then _ else _) _ => destruct b eqn:?
    | |- context [new_buffer g1 ?e1] =>
        match goal with H : era e1 ?e2 |- _ =>
          let A := fresh "A" in let B := fresh "H" in pose proof (sy_new H) as [A B];
          destruct (new_buffer g1 e1), (new_buffer g2 e2); cbn [fst snd] in A, B end
    | |- context [new_buffers g1 ?n ?e1] =>
        match goal with H : era e1 ?e2 |- _ =>
          let A := fresh "A" in let B := fresh "H" in pose proof (sy_news n H) as [A B];
          destruct (new_buffers g1 n e1), (new_buffers g2 n e2); cbn [fst snd] in A, B end
    end.
  Definition orel {A C} (Q : A -> C -> Prop) (a : option A) (b : option C) : Prop :=
    match a, b with None, None => True | Some x, Some y => Q x y | _, _ => False end.

  Lemma sy_euler dt s s' e1 e2 : orel W s s' -> era e1 e2 ->
    sim (euler_advise N ps ef1 g1 dt s e1) (euler_advise N ps ef2 g2 dt s' e2) (Xe (orel W)).
  Proof. intros Hs H. unfold euler_advise. destruct s, s'; try contradiction; cbn [orel] in Hs; repeat sy1; cbn; split; cbn; auto. Qed.
  Definition r_mid (s s' : @midpoint T) : Prop := W (mp_k1 s) (mp_k1 s') /\ W (mp_k2 s) (mp_k2 s') /\ W (mp_tmp s) (mp_tmp s').
  Lemma sy_midpoint dt s s' e1 e2 : orel r_mid s s' -> era e1 e2 ->
    sim (midpoint_advise N ps ef1 g1 dt s e1) (midpoint_advise N ps ef2 g2 dt s' e2) (Xe (orel r_mid)).
  Proof.
    intros Hs H. unfold midpoint_advise. destruct s as [[u0 u1 u2]|], s' as [[v0 v1 v2]|]; try contradiction; cbn [orel r_mid mp_k1 mp_k2 mp_tmp] in Hs;
      try destruct Hs as (Hs1 & Hs2 & Hs3); repeat sy1; cbn [mp_k1 mp_k2 mp_tmp]; repeat sy1; cbn; split; cbn; auto; unfold r_mid; cbn; auto.
  Qed.
  Definition r_rk4 (s s' : @rk4 T) : Prop := Ws (r4_k s) (r4_k s') /\ W (r4_tmp s) (r4_tmp s').
  Lemma sy_rk4 dt s s' e1 e2 : orel r_rk4 s s' -> era e1 e2 ->
    sim (rk4_advise N ps ef1 g1 dt s e1) (rk4_advise N ps ef2 g2 dt s' e2) (Xe (orel r_rk4)).
  Proof.
    intros Hs H. unfold rk4_advise.
    assert (HT := era_t H).
    destruct s as [[u0 u1]|], s' as [[v0 v1]|]; try contradiction; cbn [orel r_rk4 r4_k r4_tmp] in Hs;
      try destruct Hs as (Hs1 & Hs2); repeat sy1; cbn [r4_k r4_tmp]; repeat sy1; cbn; split; cbn; auto; unfold r_rk4; cbn; auto 12.
  Qed.
  Definition r_st (s s' : @stetter T) : Prop :=
    W (sm_tmp s) (sm_tmp s') /\ W (sm_du s) (sm_du s') /\ Ws (sm_fu s) (sm_fu s') /\ Ws (sm_uv s) (sm_uv s') /\ sm_init s = sm_init s'.
  Lemma sy_stetter dt s s' e1 e2 : orel r_st s s' -> era e1 e2 ->
    sim (stetter_advise N ps ef1 g1 dt s e1) (stetter_advise N ps ef2 g2 dt s' e2) (Xe (orel r_st)).
  Proof.
    intros Hs H. unfold stetter_advise.
    assert (HT := era_t H).
    assert (G : forall m m' f1 f2 fr, r_st m m' -> era f1 f2 ->
      sim (st_core N ps ef1 dt (e_time e1) m f1 fr) (st_core N ps ef2 dt (e_time e2) m' f2 fr) (Xe (orel r_st))).
    { clear s s' Hs. intros m m' f1 f2 fr (Q1 & Q2 & Q3 & Q4 & Q5) HE. unfold st_core. cbv zeta. rewrite <- Q5. sy1. sy1. sy1. sy1.
      eapply sim_bind with (Q := fun a b => W (fst (fst a)) (fst (fst b)) /\ W (snd (fst a)) (snd (fst b)) /\ snd a = snd b).
      - destruct (orb _ _); [|cbn; auto]. sy1. sy1. cbn. auto.
      - intros [[u v] r] [[u' v'] r'] (K1 & K2 & K3). cbn [fst snd] in *. subst r'.
        eapply sim_bind with (Q := eX W).
        + destruct r; [|split; auto]. apply sy_fc; auto.
        + intros [h1 w] [h2 w'] [L1 L2]. cbn [fst snd] in *. sy1. sy1. sy1. sy1. sy1. sy1.
          split; cbn; auto. unfold r_st. cbn. auto 15. }
    destruct s as [m|], s' as [m'|]; try contradiction.
    - exact (G m m' e1 e2 false Hs H).
    - sy1. sy1. sy1. sy1. refine (G (mkStetter _ _ _ _ false) (mkStetter _ _ _ _ false) _ _ true _ _); auto.
      unfold r_st. cbn. auto.
  Qed.
  Definition r_tz (s s' : @trapeze T) : Prop := Ws (tz_f s) (tz_f s') /\ W (tz_pred s) (tz_pred s').
  Lemma sy_trapeze r dt s s' e1 e2 : orel r_tz s s' -> era e1 e2 ->
    sim (trapeze_advise N ps ef1 g1 r dt s e1) (trapeze_advise N ps ef2 g2 r dt s' e2) (Xe (orel r_tz)).
  Proof.
    intros Hs H. unfold trapeze_advise.
    assert (HT := era_t H).
    assert (X : forall t t' f0 f0' a b k, Tm t t' -> W f0 f0' -> eX W (fst a) (fst b) /\ W (snd a) (snd b) ->
      sim (trapeze_refine N ps ef1 r dt t f0 k a) (trapeze_refine N ps ef2 r dt t' f0' k b) (fun a b => eX W (fst a) (fst b) /\ W (snd a) (snd b))).
    { intros t t' f0 f0' [[a1 a2] a3] [[c1 c2] c3] k Ht Hf [[K1 K2] K3]. cbn [fst snd] in *. unfold trapeze_refine.
      repeat sy1; cbn; split; auto; split; cbn; auto. }
    destruct s as [[u0 u1]|], s' as [[v0 v1]|]; try contradiction; cbn [orel r_tz tz_f tz_pred] in Hs;
      try destruct Hs as (Hs1 & Hs2); repeat sy1; cbn [tz_f tz_pred]; repeat sy1;
      (eapply sim_bind with (Q := fun a b => eX W (fst a) (fst b) /\ W (snd a) (snd b));
        [apply sim_for; [split; [split|]; cbn [fst snd]; auto|intros; apply X; auto]|];
       intros [[? ?] ?] [[? ?] ?] [[? ?] ?]; cbn [fst snd] in *; cbn; split; cbn; auto; unfold r_tz; cbn; auto).
  Qed.

  (** tableaux *)
  Section Table.
    Variable p : @rk_params T.
    Hypothesis Hiso : bt_embedded (rp_table p) = true -> iso.
    Definition r_rk (b b' : @rk_bufs T) : Prop :=
      Ws (rb_k b) (rb_k b') /\ W (rb_t b) (rb_t b') /\ W (rb_tmpk b) (rb_tmpk b') /\ Wn (rb_ycorr b) (rb_ycorr b') /\
      Wn (rb_tcorr b) (rb_tcorr b') /\ Ws (rb_stack b) (rb_stack b').
    Lemma mk_rk k k' t t' q q' y y' z z' s s' : Ws k k' -> W t t' -> W q q' -> Wn y y' -> Wn z z' -> Ws s s' ->
      r_rk (mkRkBufs k t q y z s) (mkRkBufs k' t' q' y' z' s').
    Proof. unfold r_rk. cbn. auto 10. Qed.
    Lemma W_Wn a b : W a b -> Wn a b. Proof. now left. Qed.
    Hint Resolve mk_rk W_Wn : core.
    Ltac op H := destruct H as (? & ? & ? & ? & ? & ?).
    Ltac b0 a b H := destruct a as [? a], b as [? b]; destruct H as [? H]; cbn [fst snd] in *; op H.

    Lemma sy_explicit t t' dt y y' i a b : Tm t t' -> W y y' -> eX r_rk a b ->
      sim (stage_explicit N ps ef1 p t dt y i a) (stage_explicit N ps ef2 p t' dt y' i b) (eX r_rk).
    Proof.
      intros Ht Hy H. b0 a b H. unfold stage_explicit. sy1. sy1. sy1.
      - sy1. sy1. split; cbn; auto.
      - sy1. eapply sim_bind with (Q := fun r r' => W (fst r) (fst r') /\ Wn (snd r) (snd r')).
        + destruct (rp_correction p).
          * eapply sim_bind; [apply Hcopyn; eauto|]. intros. sy1. apply Hcorr; auto.
          * sy1. cbn. auto.
        + intros [? ?] [? ?] [? ?]. cbn [fst snd] in *. repeat sy1. split; cbn; auto.
    Qed.
    Lemma sy_first t t' dt y y' i a b : Tm t t' -> W y y' -> eX r_rk a b ->
      sim (stage_first N ps ef1 p t dt y i a) (stage_first N ps ef2 p t' dt y' i b) (eX r_rk).
    Proof. intros Ht Hy H. b0 a b H. unfold stage_first. repeat sy1. split; cbn; auto. Qed.
    Lemma sy_implicit t t' dt y y' i a b : Tm t t' -> W y y' -> eX r_rk a b ->
      sim (stage_implicit N ps ef1 p t dt y i a) (stage_implicit N ps ef2 p t' dt y' i b) (eX r_rk).
    Proof.
      intros Ht Hy H. b0 a b H. unfold stage_implicit.
      match goal with K : Ws (rb_k _) (rb_k _) |- _ => pose proof (Ws_len K) as HL end. rewrite <- HL.
      repeat sy1. split; cbn; auto.
    Qed.
    Lemma sy_sub_explicit t t' dt y y' a b : Tm t t' -> W y y' -> eX r_rk a b ->
      sim (sub_step_explicit N ps ef1 p t dt y a) (sub_step_explicit N ps ef2 p t' dt y' b) (eX r_rk).
    Proof. intros Ht Hy H. apply sim_for; auto. intros. now apply sy_explicit. Qed.
    Lemma sy_sub_implicit nf t t' dt y y' a b : Tm t t' -> W y y' -> eX r_rk a b ->
      sim (sub_step_implicit N ps ef1 p nf t dt y a) (sub_step_implicit N ps ef2 p nf t' dt y' b) (eX r_rk).
    Proof.
      intros Ht Hy H. unfold sub_step_implicit. eapply sim_bind with (Q := eX r_rk).
      - destruct nf; [|exact H]. b0 a b H. sy1.
        apply sim_for; [split; cbn; auto|]. intros. now apply sy_first.
      - intros a' b' H'. apply sim_for; auto. intros k a2 c2 H2. apply sim_for; auto. intros. now apply sy_implicit.
    Qed.
    Lemma sy_estimate b b' : r_rk b b' -> sim (estimate N ps p b) (estimate N ps p b') (fun r r' => fst r = fst r' /\ r_rk (snd r) (snd r')).
    Proof.
      intros H. unfold estimate. destruct (bt_embedded (rp_table p)) eqn:EM; [|cbn; auto]. op H. sy1. sy1.
      eapply sim_bind; [apply (Hiso eq_refl); eassumption|]. intros ? ? ->. cbn. auto.
    Qed.
    Lemma sy_accept dt y y' b b' : W y y' -> r_rk b b' ->
      sim (accept N ps p dt y b) (accept N ps p dt y' b') (fun r r' => W (fst r) (fst r') /\ r_rk (snd r) (snd r')).
    Proof.
      intros Hy H. pose proof H as H0. op H. unfold accept.
      match goal with K : Ws (rb_k _) (rb_k _) |- _ => pose proof (Ws_len K) as HL end. rewrite <- HL.
      repeat sy1; cbn; auto.
    Qed.
    Definition lp (a : @rk_loop T E1) (b : @rk_loop T E2) : Prop :=
      match a, b with (e1, b1, y1, t1, _), (e2, b2, y2, t2, _) => era e1 e2 /\ r_rk b1 b2 /\ W y1 y2 /\ Tm t1 t2 end.
    Lemma sy_sub rem : forall level n nf dt a b, lp a b ->
      sim (sub_step N ps ef1 p rem level n nf dt a) (sub_step N ps ef2 p rem level n nf dt b) lp.
    Proof.
      induction rem as [|rem IH]; intros level n nf dt a b H; cbn [sub_step]; (apply sim_for; [exact H|]); clear a b H;
        intros k [[[[e1 b1] y1] t1] tr1] [[[[e2 b2] y2] t2] tr2] (H & Hb & Hy & Ht);
        (eapply sim_bind with (Q := eX r_rk);
          [destruct (bt_implicit (rp_table p)); [apply sy_sub_implicit|apply sy_sub_explicit]; auto; split; cbn; auto|]);
        clear e1 e2 b1 b2 H Hb; intros [e1 b1] [e2 b2] [H Hb]; cbn [fst snd] in *;
        (eapply sim_bind; [apply sy_estimate; exact Hb|]); clear b1 b2 Hb; intros [er b1] [er' b2] [K Hb]; cbn [fst snd] in *; subst er'.
      - eapply sim_bind; [apply sy_accept; eauto|]. intros [? ?] [? ?] [? ?]. cbn [fst snd] in *. cbn. split; auto; split; auto; split; auto; tm.
      - match goal with |- sim (if ?b then _ else _) _ _ => destruct b end.
        + pose proof Hb as Hb0. op Hb0. sy1. sy1. sy1. cbv zeta.
          eapply sim_bind; [apply IH; cbn; auto|]. clear e1 e2 H.
          intros [[[[e1 k1] ?] ?] ?] [[[[e2 k2] ?] ?] ?] (H & Hc & Hy' & Ht'). pose proof Hc as Hc0. op Hc0. sy1. sy1. cbn.
          split; auto; split; auto; split; auto; tm.
        + eapply sim_bind; [apply sy_accept; eauto|]. intros [? ?] [? ?] [? ?]. cbn [fst snd] in *. cbn. split; auto; split; auto; split; auto; tm.
    Qed.
    Lemma sy_rk dt s s' e1 e2 : orel r_rk s s' -> era e1 e2 ->
      sim (rk_advise N ps ef1 g1 p dt s e1) (rk_advise N ps ef2 g2 p dt s' e2) (Xe (orel r_rk)).
    Proof.
      intros Hs H. unfold rk_advise, rk_step. assert (HT := era_t H).
      eapply sim_bind with (Q := fun a b => r_rk (fst (fst a)) (fst (fst b)) /\ era (snd (fst a)) (snd (fst b))).
      - eapply sim_bind with (Q := fun a b => r_rk (fst (fst a)) (fst (fst b)) /\ era (snd (fst a)) (snd (fst b)) /\ snd a = snd b).
        + destruct s as [s|], s' as [s'|]; try contradiction; [cbn; auto|]. eapply sim_bind with (Q := Xe r_rk).
          * unfold rk_alloc. repeat sy1; cbn; split; cbn; auto. apply mk_rk; auto; right; auto.
          * intros [? ?] [? ?] [A B]. cbn in *. auto.
        + intros [[b1 f1] nf] [[b2 f2] nf'] (A & B & C). cbn [fst snd] in *. subst nf'.
          eapply sim_bind; [apply sy_sub; cbn; auto|].
          intros [[[[q1 ?] ?] ?] ?] [[[[q2 ?] ?] ?] ?] (D1 & D2 & D3 & D4). cbn. auto.
      - intros [[? ?] ?] [[? ?] ?] (A & B). cbn [fst snd] in *. cbn. split; cbn; auto.
    Qed.
  End Table.

  (** extrapolation *)
  Definition r_ne (s s' : @neville T) : Prop := Ws (ne_table s) (ne_table s') /\ Ws (ne_prev s) (ne_prev s') /\ W (ne_diff s) (ne_diff s').
  Definition r_bs (b b' : @bs_bufs T) : Prop := W (bb_y0 b) (bb_y0 b') /\ orel r_st (bb_int b) (bb_int b') /\ r_ne (bb_ext b) (bb_ext b').
  Lemma sy_nev_update counts s s' k y y' : r_ne s s' -> W y y' ->
    sim (neville_update N ps counts s k y) (neville_update N ps counts s' k y') r_ne.
  Proof.
    intros (A & B & C) Hy. unfold neville_update. sy1. sy1. sy1. eapply sim_bind with (Q := Ws).
    - apply sim_for; auto. intros j l l' Hl. unfold neville_column. sy1. sy1. cbv zeta. sy1. sy1. sy1. sy1. apply sy_wr; auto.
    - intros. cbn. unfold r_ne. cbn. auto.
  Qed.
  Lemma sy_reset s s' : orel r_st s s' -> orel r_st (stetter_reset s) (stetter_reset s').
  Proof. destruct s, s'; cbn; auto. unfold r_st. cbn. tauto. Qed.
  Lemma sy_bs_compute counts level dt t t' b b' e1 e2 : r_bs b b' -> Tm t t' -> era e1 e2 ->
    sim (bs_compute N ps ef1 g1 counts level dt t b e1) (bs_compute N ps ef2 g2 counts level dt t' b' e2) (Xe r_bs).
  Proof.
    intros (A & B & C) Ht H. unfold bs_compute. sy1. sy1. cbv zeta. eapply sim_bind with (Q := Xe (orel r_st)).
    - unfold bs_substeps. apply sim_for; [split; cbn; auto using sy_reset|]. intros k [s f1] [s' f2] [D F]. cbn [fst snd] in *.
      now apply sy_stetter.
    - clear e1 e2 H. intros [i e1] [i' e2] [D H]. cbn [fst snd] in *.
      eapply sim_bind; [apply sy_nev_update; eauto|]. intros. cbn. split; cbn; auto. unfold r_bs. cbn. auto.
  Qed.
  Lemma sy_bs_levels p counts dt t t' left : forall level b b' e1 e2, (3 <= level + left -> iso)%nat -> Tm t t' -> r_bs b b' -> era e1 e2 ->
    sim (bs_levels N ps ef1 g1 p counts dt t left level b e1) (bs_levels N ps ef2 g2 p counts dt t' left level b' e2) (Xe r_bs).
  Proof.
    induction left as [|left IH]; intros level b b' e1 e2 Hi Ht Hb H; cbn [bs_levels]; [split; auto|].
    eapply sim_bind; [apply sy_bs_compute; eauto|]. clear e1 e2 H b b' Hb. intros [b e1] [b' e2] [Hb H]. cbn [fst snd] in *.
    destruct (Nat.ltb_spec level 2) as [L|L].
    - apply IH; auto. intros X. apply Hi. lia.
    - assert (I0 : iso) by (apply Hi; lia).
      pose proof Hb as (B1 & B2 & B3 & B4 & B5).
      eapply sim_bind with (Q := fun r r' => fst r = fst r' /\ r_ne (snd r) (snd r')).
      + unfold neville_error. destruct level as [|level]; [cbn; unfold r_ne; auto|]. sy1. sy1. sy1.
        eapply sim_bind; [apply I0; eassumption|]. intros ? ? ->. cbn. unfold r_ne. cbn. auto.
      + intros [m x] [m' x'] [K Hx]. cbn [fst snd] in *. subst m'.
        assert (Hb' : r_bs (mkBsBufs (bb_y0 b) (bb_int b) x) (mkBsBufs (bb_y0 b') (bb_int b') x')) by (unfold r_bs; cbn; auto).
        match goal with |- sim (if ?b then _ else _) _ _ => destruct b end.
        * unfold neville_extrapolate. destruct Hx as (X1 & X2 & X3). eapply sim_bind with (Q := W).
          -- sy1. apply Hcopy; auto.
          -- intros. cbn. split; cbn; auto.
        * apply IH; auto.
  Qed.
  Lemma sy_bs p dt s s' e1 e2 : (3 <= bp_max_level p -> iso)%nat -> orel r_bs s s' -> era e1 e2 ->
    sim (bs_advise N ps ef1 g1 p dt s e1) (bs_advise N ps ef2 g2 p dt s' e2) (Xe (orel r_bs)).
  Proof.
    intros Hi Hs H. unfold bs_advise. apply sim_same. intros counts.
    assert (G : forall b b' e1 e2, r_bs b b' -> era e1 e2 -> sim
       (let t0 := e_time e1 in let* y0 := copy_buffer ps (bb_y0 b) (e_y e1) in let b := mkBsBufs y0 (bb_int b) (bb_ext b) in
        let* (b, e) := bs_levels N ps ef1 g1 p counts dt t0 (bp_max_level p) 0 b e1 in Some (Some b, advise_time N (set_time e t0) dt))
       (let t0 := e_time e2 in let* y0 := copy_buffer ps (bb_y0 b') (e_y e2) in let b := mkBsBufs y0 (bb_int b') (bb_ext b') in
        let* (b, e) := bs_levels N ps ef2 g2 p counts dt t0 (bp_max_level p) 0 b e2 in Some (Some b, advise_time N (set_time e t0) dt))
       (Xe (orel r_bs))).
    { clear s s' Hs e1 e2 H. intros b b' e1 e2 (A & B & C) H. cbv zeta. assert (HT := era_t H). sy1.
      eapply sim_bind; [apply sy_bs_levels; eauto; unfold r_bs; cbn; auto|].
      intros [? ?] [? ?] [Q1 Q2]. cbn [fst snd] in *. split; cbn; auto. }
    destruct s as [s|], s' as [s'|]; try contradiction; [now apply G|].
    sy1. sy1. sy1. sy1. apply G; auto. unfold r_bs, r_ne. cbn. auto.
  Qed.

  Definition r_ad (b b' : @adams_bufs T) : Prop := Ws (ab_f b) (ab_f b') /\ Wn (ab_corr b) (ab_corr b').
  (** the same solver with related buffers *)
  Fixpoint srel (s s' : @solver T) : Prop :=
    match s, s' with
    | SEuler b, SEuler b' => orel W b b'
    | SMidpoint b, SMidpoint b' => orel r_mid b b'
    | SStetter b, SStetter b' => orel r_st b b'
    | SRk4 b, SRk4 b' => orel r_rk4 b b'
    | STrapeze r b, STrapeze r' b' => r' = r /\ orel r_tz b b'
    | SButcher p b, SButcher p' b' => p' = p /\ orel r_rk b b'
    | SBs p b, SBs p' b' => p' = p /\ orel r_bs b b'
    | SAdams p st b k, SAdams p' st' b' k' => p' = p /\ k' = k /\ srel st st' /\ orel r_ad b b'
    | _, _ => False
    end.
  Lemma srel_adaptive s : forall s', srel s s' -> adaptive s' -> adaptive s.
  Proof.
    induction s as [b|b|b|b|rf b|p b|p b|p st IH b step]; intros [b'|b'|b'|b'|rf' b'|p' b'|p' b'|p' st' b' step'] H; cbn in *; try contradiction; auto.
    - now destruct H as [-> _].
    - now destruct H as [-> _].
    - destruct H as (_ & _ & H & _). eauto.
  Qed.
  Lemma sy_advise dt s : forall s' e1 e2, (adaptive s -> iso) -> srel s s' -> era e1 e2 ->
    sim (advise N ps ef1 g1 dt s e1) (advise N ps ef2 g2 dt s' e2) (Xe (fun a b => srel a b /\ (adaptive a -> adaptive s))).
  Proof.
    induction s as [b|b|b|b|rf b|p b|p b|p st IH b step]; intros [b'|b'|b'|b'|rf' b'|p' b'|p' b'|p' st' b' step'] e1 e2 Ha Hs H;
      cbn [srel] in Hs; try contradiction; cbn [advise adaptive] in *.
    - eapply sim_bind; [apply sy_euler; eauto|]. intros [? ?] [? ?] [? ?]. cbn in *. split; cbn; auto.
    - eapply sim_bind; [apply sy_midpoint; eauto|]. intros [? ?] [? ?] [? ?]. cbn in *. split; cbn; auto.
    - eapply sim_bind; [apply sy_stetter; eauto|]. intros [? ?] [? ?] [? ?]. cbn in *. split; cbn; auto.
    - eapply sim_bind; [apply sy_rk4; eauto|]. intros [? ?] [? ?] [? ?]. cbn in *. split; cbn; auto.
    - destruct Hs as [-> Hs]. eapply sim_bind; [apply sy_trapeze; eauto|]. intros [? ?] [? ?] [? ?]. cbn in *. split; cbn; auto.
    - destruct Hs as [-> Hs]. eapply sim_bind; [apply sy_rk; eauto|]. intros [? ?] [? ?] [? ?]. cbn in *. split; cbn; auto.
    - destruct Hs as [-> Hs]. eapply sim_bind; [apply sy_bs; eauto|]. intros [? ?] [? ?] [? ?]. cbn in *. split; cbn; auto.
    - destruct Hs as (-> & -> & Hst & Hb). destruct (Nat.eqb (ap_rank p) 0); [exact I|]. sy1. cbv zeta. assert (HT := era_t H).
      eapply sim_bind with (Q := Xe r_ad).
      + destruct b as [b|], b' as [b'|]; try contradiction; [split; auto|]. unfold adams_alloc.
        repeat sy1; cbn; split; cbn; auto; split; cbn; auto; [now left|now right].
      + intros [b1 f1] [b2 f2] [[B1 B2] B]. cbn [fst snd] in *. sy1. sy1. sy1.
        destruct (Nat.ltb (ap_rank p) step).
        * apply sim_same. intros co. destruct (ap_corr p); sy1; split; cbn; auto; (split; [|auto]); (split; [auto|]); (split; [auto|]); (split; [auto|]); split; cbn; auto.
        * eapply sim_bind; [apply IH; eauto|]. intros [? ?] [? ?] [[A1 A2] A3]. cbn [fst snd] in *. split; cbn; auto.
          split; [|auto]. split; auto. split; auto. split; auto. split; cbn; auto.
  Qed.
  Lemma sy_all dts : forall s s' e1 e2, (adaptive s -> iso) -> srel s s' -> era e1 e2 ->
    sim (advise_all N ps ef1 g1 dts s e1) (advise_all N ps ef2 g2 dts s' e2) (Xe srel).
  Proof.
    induction dts as [|dt dts IH]; intros s s' e1 e2 Ha Hs H; cbn [advise_all]; [split; auto|].
    eapply sim_bind; [apply sy_advise; eauto|]. intros [s1 f1] [s2 f2] [[A1 A2] B]. cbn [fst snd] in *. auto.
  Qed.
End Sym.
