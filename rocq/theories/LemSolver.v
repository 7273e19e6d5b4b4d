(** Linear invariants of the solvers over the reals.

    [w1], [w2] are linear functionals of the state.  The engine's derivative has [w2]-value 0, and
    [w1]-value [kap] whenever the state has [w2]-value [P].  Then every solver keeps the [w2]-value
    [P] and moves the [w1]-value by [kap] times the step length. *)
From Coq Require Import ZArith Reals List Arith Lia Lra.
From Verif Require Import Num Arr ArrLemmas SpecPhys SpecEngine RLemmas ModelVertex ModelForce ModelSum
  ModelEngine ModelSolverBase ModelButcher ModelExtrap ModelSolver LemOk LemBufR SpecSolver SpecExtrap
  LemExtrap.
Import ListNotations.
Set Implicit Arguments.
Local Open Scope R_scope.

Section Inv.
  Context {E : Type} (mind : R) (ps : nat)
          (ef : E -> nat -> R -> list R -> list R -> option (E * list R))
          (garbage : nat -> list R) (mf : Prop) (PInv : E -> Prop)
          (w1 w2 : nat -> R) (P kap : R).
  Notation N := (Rops mind).
  Notation V := (V ps).
  Notation lin := (lin ps).
  Notation eng := (@eng R E).
  Hypothesis Hps : (0 < ps)%nat.
  Hypothesis Hgarb : forall n, V (garbage n).
  Hypothesis Hef : forall p step t y f, PInv p -> V y -> V f ->
    ok mf (ef p step t y f) (fun r => PInv (fst r) /\ V (snd r) /\ lin w2 (snd r) = 0 /\
                                      (lin w2 y = P -> lin w1 (snd r) = kap)).

  (** states of [w1]-value [x]; derivatives *)
  Definition Yc (x : R) (y : list R) : Prop := V y /\ lin w2 y = P /\ lin w1 y = x.
  Definition Kc (f : list R) : Prop := V f /\ lin w2 f = 0 /\ lin w1 f = kap.
  Definition Ec (x : R) (e : eng) : Prop := PInv (e_priv e) /\ Yc x (e_y e).

  Lemma Yc_V x y : Yc x y -> V y. Proof. now intros (H & _). Qed.
  Lemma Kc_V f : Kc f -> V f. Proof. now intros (H & _). Qed.
  Hint Resolve Yc_V Kc_V : core.

  Lemma fc_any (e : eng) t y f : PInv (e_priv e) -> V y -> V f ->
    ok mf (eng_fcompute ef e t y f) (fun r => PInv (e_priv (fst r)) /\ e_y (fst r) = e_y e /\
      V (snd r) /\ lin w2 (snd r) = 0 /\ (lin w2 y = P -> lin w1 (snd r) = kap)).
  Proof.
    intros H Hy Hf. unfold eng_fcompute. eapply ok_bind; [apply Hef; auto|].
    intros [p f'] (A & B & C). apply ok_some. cbn. auto.
  Qed.
  Lemma fc_K (e : eng) x t x' y f : Ec x e -> Yc x' y -> V f ->
    ok mf (eng_fcompute ef e t y f) (fun r => Ec x (fst r) /\ Kc (snd r)).
  Proof.
    intros [H HY] (Hy & Hw & _) Hf. eapply ok_mono; [apply fc_any; auto|].
    intros [e' f'] (A & B & C & D & F). cbn [fst snd] in *. split.
    - split; auto. now rewrite B.
    - split; auto.
  Qed.

  Lemma fmadd_Y a b k d x : V a -> Yc x b -> Kc k ->
    ok mf (fmadd N ps a b k d) (Yc (x + kap * d)).
  Proof.
    intros Ha (Hb & B2 & B1) (Hk & K2 & K1). eapply ok_mono; [apply ok_fmadd; auto|].
    intros r (Vr & L). split; auto. rewrite !L, B1, B2, K1, K2. split; lra.
  Qed.
  Lemma fmadd_inplace_Y b k d x : Yc x b -> Kc k ->
    ok mf (fmadd_inplace N ps b k d) (Yc (x + kap * d)).
  Proof.
    intros (Hb & B2 & B1) (Hk & K2 & K1). eapply ok_mono; [apply ok_fmadd_inplace; auto|].
    intros r (Vr & L). split; auto. rewrite !L, B1, B2, K1, K2. split; lra.
  Qed.

  Lemma wsum_w2 m c bs : (forall k, (k < m)%nat -> lin w2 (nth k bs []) = 0) -> wsum ps m c bs w2 = 0.
  Proof. intros H. apply rsum_zero. intros k Hk. rewrite H by auto. lra. Qed.
  Lemma wsum_w1 m c bs : (forall k, (k < m)%nat -> lin w1 (nth k bs []) = kap) ->
    wsum ps m c bs w1 = kap * rsum m (fun k => nth k c 0).
  Proof.
    intros H. unfold wsum. rewrite <- rsum_scal. apply rsum_ext. intros k Hk. rewrite H by auto. lra.
  Qed.

  Lemma Forall_Kc_nth bs k : Forall Kc bs -> (k < length bs)%nat -> Kc (nth k bs []).
  Proof. intros H Hk. rewrite Forall_forall in H. apply H. now apply nth_In. Qed.
  Lemma Forall_Kc_V bs : Forall Kc bs -> Forall V bs.
  Proof. apply Forall_impl. auto. Qed.
  Hint Resolve Forall_Kc_V : core.

  Lemma fmaddn_inplace_Y b ks c m x : Yc x b -> Forall Kc ks -> (m <= length c)%nat -> (m <= length ks)%nat ->
    ok mf (fmaddn_inplace N ps b ks c m) (Yc (x + kap * rsum m (fun k => nth k c 0))).
  Proof.
    intros (Hb & B2 & B1) HK Hc Hm. eapply ok_mono; [apply ok_fmaddn_inplace; auto|].
    intros r (Vr & L). split; auto. rewrite !L, B1, B2, wsum_w2, wsum_w1.
    - split; lra.
    - intros k Hk. apply (@Forall_Kc_nth ks k HK). lia.
    - intros k Hk. apply (@Forall_Kc_nth ks k HK). lia.
  Qed.

  Lemma new_ok x (e : eng) : Ec x e -> V (fst (new_buffer garbage e)) /\ Ec x (snd (new_buffer garbage e)).
  Proof. intros H. split; [apply Hgarb|exact H]. Qed.
  Lemma news_ok x n : forall (e : eng), Ec x e ->
    length (fst (new_buffers garbage n e)) = n /\ Forall V (fst (new_buffers garbage n e)) /\
    Ec x (snd (new_buffers garbage n e)).
  Proof.
    induction n as [|n IH]; intros e H; cbn [new_buffers].
    - cbn. auto.
    - destruct (new_buffer garbage e) as [b e'] eqn:X.
      destruct (new_ok H) as [A B]. rewrite X in A, B. cbn [fst snd] in *.
      specialize (IH e' B). destruct (new_buffers garbage n e') as [l e2]. cbn [fst snd length] in *.
      destruct IH as (I1 & I2 & I3). split; [congruence|]. split; auto.
  Qed.

  Ltac prj := cbn [fst snd mp_k1 mp_k2 mp_tmp sm_tmp sm_du sm_fu sm_uv sm_init r4_k r4_tmp tz_f tz_pred
    rb_k rb_t rb_tmpk rb_ycorr rb_tcorr rb_stack bb_y0 bb_int bb_ext ab_f ab_corr].
  Ltac alloc :=
    repeat match goal with
    | H : Ec _ ?e |- context [new_buffer garbage ?e] =>
        let b := fresh "b" in let e' := fresh "eng" in
        let A := fresh "VB" in let B := fresh "EB" in
        pose proof (new_ok H) as (A & B);
        destruct (new_buffer garbage e) as [b e']; cbn [fst snd] in A, B
    | H : Ec _ ?e |- context [new_buffers garbage ?k ?e] =>
        let b := fresh "b" in let e' := fresh "eng" in
        let A := fresh "VB" in let B := fresh "EB" in let L := fresh "LB" in
        pose proof (@news_ok _ k e H) as (L & A & B);
        destruct (new_buffers garbage k e) as [b e']; cbn [fst snd] in L, A, B
    end.

  (** ** Euler *)
  Definition euler_inv (s : option (list R)) : Prop := forall b, s = Some b -> V b.
  Lemma euler_Y dt s (e : eng) x : euler_inv s -> Ec x e ->
    ok mf (euler_advise N ps ef garbage dt s e)
      (fun r => euler_inv (fst r) /\ Ec (x + kap * dt) (snd r)).
  Proof.
    intros HS HE. unfold euler_advise.
    assert (G : forall b (e : eng), V b -> Ec x e ->
      ok mf (let* (e, dy) := eng_fcompute ef e (e_time e) (e_y e) b in
             let* y := fmadd_inplace N ps (e_y e) dy dt in
             Some (Some dy, advise_time N (set_y e y) dt))
        (fun r => euler_inv (fst r) /\ Ec (x + kap * dt) (snd r))).
    { intros b e0 Hb H0. eapply ok_bind; [eapply fc_K; eauto; apply H0|]. intros [e1 k] [H1 HK].
      cbn [fst snd] in *. eapply ok_bind; [apply fmadd_inplace_Y; eauto; apply H1|].
      intros y Hy. apply ok_some. cbn [fst snd]. split.
      - intros b' X. injection X as <-. auto.
      - split; [apply H1|exact Hy]. }
    destruct s as [b|]; [apply G; auto|]. alloc. apply G; auto.
  Qed.

  (** ** midpoint *)
  Definition midpoint_inv (s : option (@midpoint R)) : Prop :=
    forall m, s = Some m -> V (mp_k1 m) /\ V (mp_k2 m) /\ V (mp_tmp m).
  Lemma midpoint_Y dt s (e : eng) x : midpoint_inv s -> Ec x e ->
    ok mf (midpoint_advise N ps ef garbage dt s e)
      (fun r => midpoint_inv (fst r) /\ Ec (x + kap * dt) (snd r)).
  Proof.
    intros HS HE. unfold midpoint_advise.
    assert (G : forall s (e : eng), V (mp_k1 s) -> V (mp_k2 s) -> V (mp_tmp s) -> Ec x e ->
      ok mf (let t := e_time e in
             let* (e, k1) := eng_fcompute ef e t (e_y e) (mp_k1 s) in
             let* tmp := fmadd N ps (mp_tmp s) (e_y e) k1 (ndiv N dt (nlit N 2)) in
             let* (e, k2) := eng_fcompute ef e (nadd N t (ndiv N dt (nlit N 2))) tmp (mp_k2 s) in
             let* y := fmadd_inplace N ps (e_y e) k2 dt in
             Some (Some (mkMidpoint k1 k2 tmp), advise_time N (set_y e y) dt))
        (fun r => midpoint_inv (fst r) /\ Ec (x + kap * dt) (snd r))).
    { intros m e0 V1 V2 V3 H0. cbv zeta.
      eapply ok_bind; [eapply fc_K; eauto; apply H0|]. intros [e1 k1] [H1 K1]. cbn [fst snd] in *.
      eapply ok_bind; [eapply fmadd_Y; eauto; apply H1|]. intros tmp Ht.
      eapply ok_bind; [eapply fc_K; eauto|]. intros [e2 k2] [H2 K2]. cbn [fst snd] in *.
      eapply ok_bind; [apply fmadd_inplace_Y; eauto; apply H2|].
      intros y Hy. apply ok_some. cbn [fst snd]. split.
      - intros b' X. injection X as <-. prj. split; [eauto|]. split; eauto.
      - split; [apply H2|exact Hy]. }
    destruct s as [b|]; [destruct (HS b eq_refl) as (A & B & C); apply G; auto|].
    alloc. apply G; auto.
  Qed.

  (** ** Stetter's midpoint *)
  Definition stetter_inv (x : R) (s : option (@stetter R)) : Prop :=
    forall m, s = Some m ->
      V (sm_tmp m) /\ V (sm_du m) /\
      (exists a b, sm_fu m = [a; b] /\ V a /\ V b /\ (sm_init m = true -> Kc a)) /\
      (exists a b, sm_uv m = [a; b] /\ V a /\ V b /\ (sm_init m = true -> Yc x a /\ Yc x b)).

  Lemma stetter_reset_inv x x' s : stetter_inv x s -> stetter_inv x' (stetter_reset s).
  Proof.
    intros H m Hm. destruct s as [m0|]; [|discriminate]. cbn in Hm. injection Hm as <-.
    destruct (H m0 eq_refl) as (A & B & (a & b & C1 & C2 & C3 & _) & (u & v & D1 & D2 & D3 & _)).
    prj. split; auto. split; auto. split.
    - exists a, b. repeat split; auto; discriminate.
    - exists u, v. repeat split; auto; discriminate.
  Qed.

  Lemma stetter_Y dt s (e : eng) x : stetter_inv x s -> Ec x e ->
    ok mf (stetter_advise N ps ef garbage dt s e)
      (fun r => stetter_inv (x + kap * dt) (fst r) /\ Ec (x + kap * dt) (snd r)).
  Proof.
    intros HS HE. unfold stetter_advise.
    assert (G : forall (s : stetter) (e : eng) (fr : bool) t0, stetter_inv x (Some s) -> Ec x e ->
      ok mf
       (let* u := rd (sm_uv s) 0 in
        let* v := rd (sm_uv s) 1 in
        let* fu0 := rd (sm_fu s) 0 in
        let* fu1 := rd (sm_fu s) 1 in
        let* (u, v, first_run) :=
          if orb (negb (sm_init s)) fr then
            let* u := copy_buffer ps u (e_y e) in
            let* v := copy_buffer ps v (e_y e) in
            Some (u, v, true)
          else Some (u, v, fr) in
        let* (e, fu0) := if (first_run : bool) then eng_fcompute ef e t0 u fu0 else Some (e, fu0) in
        let* tmp := fmadd N ps (sm_tmp s) v fu0 (ndiv N dt (nlit N 2)) in
        let* (e, du) := eng_fcompute ef e (nadd N t0 (ndiv N dt (nlit N 2))) tmp (sm_du s) in
        let* u := fmadd_inplace N ps u du dt in
        let* (e, fu1) := eng_fcompute ef e (nadd N t0 dt) u fu1 in
        let* v := fmaddn_inplace N ps v [fu0; fu1] [ndiv N dt (nlit N 2); ndiv N dt (nlit N 2)] 2 in
        let half := ndiv N (nlit N 1) (nlit N 2) in
        let* y := fmaddn N ps (e_y e) None [u; v] [half; half] 2 in
        Some (Some (mkStetter tmp du [fu1; fu0] [u; v] true), advise_time N (set_y e y) dt))
       (fun r => stetter_inv (x + kap * dt) (fst r) /\ Ec (x + kap * dt) (snd r))).
    { intros m e0 fr t0 Hm H0.
      destruct (Hm m eq_refl) as (A & B & (a & b & C1 & C2 & C3 & C4) & (u & v & D1 & D2 & D3 & D4)).
      rewrite C1, D1. cbn [rd nth_error obind].
      eapply ok_bind with (Q := fun r => Yc x (fst (fst r)) /\ Yc x (snd (fst r)) /\
                                         (snd r = false -> Kc a)).
      { destruct (sm_init m) eqn:EI; cbn [negb orb].
        - destruct fr.
          + eapply ok_bind; [apply (ok_copy mind); eauto; apply H0|]. intros u' ->.
            eapply ok_bind; [apply (ok_copy mind); eauto; apply H0|]. intros v' ->.
            apply ok_some. cbn. split; [apply H0|]. split; [apply H0|discriminate].
          + apply ok_some. cbn. destruct (D4 eq_refl). auto.
        - eapply ok_bind; [apply (ok_copy mind); eauto; apply H0|]. intros u' ->.
          eapply ok_bind; [apply (ok_copy mind); eauto; apply H0|]. intros v' ->.
          apply ok_some. cbn. split; [apply H0|]. split; [apply H0|discriminate]. }
      intros [[u1 v1] fr1] (U1 & V1 & F1). cbn [fst snd] in *.
      eapply ok_bind with (Q := fun r => Ec x (fst r) /\ Kc (snd r)).
      { destruct fr1; [eapply fc_K; eauto|]. apply ok_some. cbn. auto. }
      intros [e1 fu0] [E1 K0]. cbn [fst snd] in *.
      eapply ok_bind; [eapply fmadd_Y; eauto|]. intros tmp Ht.
      eapply ok_bind; [eapply fc_K; eauto|]. intros [e2 du] [E2 K2]. cbn [fst snd] in *.
      eapply ok_bind; [eapply fmadd_inplace_Y; eauto|]. intros u2 U2.
      eapply ok_bind; [eapply fc_K; eauto|]. intros [e3 fu1] [E3 K3]. cbn [fst snd] in *.
      eapply ok_bind; [eapply fmaddn_inplace_Y; eauto|]. intros v2 V2.
      assert (V2' : Yc (x + kap * dt) v2).
      { destruct V2 as (X1 & X2 & X3). split; auto. split; auto. rewrite X3. cbn [rsum nth ndiv nlit Rops].
        lra. }
      cbv zeta. eapply ok_bind.
      { apply ok_fmaddn_none with (cs := [u2; v2]); eauto. apply E3. }
      intros y (Vy & Ly).
      assert (HY : Yc (x + kap * dt) y).
      { destruct U2 as (X1 & X2 & X3), V2' as (Y1 & Y2 & Y3). split; auto.
        rewrite !Ly. unfold wsum. cbn [rsum nth ndiv nlit Rops]. rewrite X2, X3, Y2, Y3. split; lra. }
      apply ok_some. cbn [fst snd]. split.
      - intros m' X. injection X as <-. prj. split; [eauto|]. split; [eauto|]. split.
        + exists fu1, fu0. repeat split; eauto; apply K3.
        + exists u2, v2. split; auto. split; [eauto|]. split; [eauto|]. auto.
      - split; [apply E3|exact HY]. }
    destruct s as [m|]; [apply G; auto|].
    alloc. apply G; auto. intros m X. injection X as <-. prj.
    split; auto. split; auto.
    repeat match goal with
    | L : length ?l = 2%nat |- _ =>
        destruct l as [|? [|? [|]]]; cbn in L; try lia; clear L
    end.
    repeat match goal with F : Forall _ (_ :: _) |- _ => inversion F; clear F; subst end.
    split; eexists; eexists; (split; [reflexivity|]); repeat split; auto; discriminate.
  Qed.

  (** ** classic Runge-Kutta *)
  Definition rk4_inv (s : option (@rk4 R)) : Prop :=
    forall m, s = Some m -> length (r4_k m) = 4%nat /\ Forall V (r4_k m) /\ V (r4_tmp m).
  Lemma rk4_Y dt s (e : eng) x : rk4_inv s -> Ec x e ->
    ok mf (rk4_advise N ps ef garbage dt s e)
      (fun r => rk4_inv (fst r) /\ Ec (x + kap * dt) (snd r)).
  Proof.
    intros HS HE. unfold rk4_advise.
    assert (G : forall (s : rk4) (e : eng) t, rk4_inv (Some s) -> Ec x e ->
      ok mf
       (let* k0 := rd (r4_k s) 0 in
        let* k1 := rd (r4_k s) 1 in
        let* k2 := rd (r4_k s) 2 in
        let* k3 := rd (r4_k s) 3 in
        let* (e, k0) := eng_fcompute ef e t (e_y e) k0 in
        let* tmp := fmadd N ps (r4_tmp s) (e_y e) k0 (ndiv N dt (nlit N 2)) in
        let* (e, k1) := eng_fcompute ef e (nadd N t (ndiv N dt (nlit N 2))) tmp k1 in
        let* tmp := fmadd N ps tmp (e_y e) k1 (ndiv N dt (nlit N 2)) in
        let* (e, k2) := eng_fcompute ef e (nadd N t (ndiv N dt (nlit N 2))) tmp k2 in
        let* tmp := fmadd N ps tmp (e_y e) k2 dt in
        let* (e, k3) := eng_fcompute ef e (nadd N t dt) tmp k3 in
        let coeff := [ndiv N dt (nlit N 6); ndiv N dt (nlit N 3); ndiv N dt (nlit N 3);
                      ndiv N dt (nlit N 6)] in
        let* y := fmaddn_inplace N ps (e_y e) [k0; k1; k2; k3] coeff 4 in
        Some (Some (mkRk4 [k0; k1; k2; k3] tmp), advise_time N (set_y e y) dt))
        (fun r => rk4_inv (fst r) /\ Ec (x + kap * dt) (snd r))).
    { intros m e0 t Hm H0. destruct (Hm m eq_refl) as (L & F & Vt).
      destruct (r4_k m) as [|k0 [|k1 [|k2 [|k3 [|]]]]]; cbn in L; try lia. clear L.
      repeat match goal with F : Forall _ (_ :: _) |- _ => inversion F; clear F; subst end.
      cbn [rd nth_error obind].
      eapply ok_bind; [eapply fc_K; eauto; apply H0|]. intros [e1 q0] [E1 K0]. cbn [fst snd] in *.
      eapply ok_bind; [eapply fmadd_Y; eauto; apply E1|]. intros t1 T1.
      eapply ok_bind; [eapply fc_K; eauto|]. intros [e2 q1] [E2 K1]. cbn [fst snd] in *.
      eapply ok_bind; [eapply fmadd_Y; eauto; apply E2|]. intros t2 T2.
      eapply ok_bind; [eapply fc_K; eauto|]. intros [e3 q2] [E3 K2]. cbn [fst snd] in *.
      eapply ok_bind; [eapply fmadd_Y; eauto; apply E3|]. intros t3 T3.
      eapply ok_bind; [eapply fc_K; eauto|]. intros [e4 q3] [E4 K3]. cbn [fst snd] in *.
      cbv zeta. eapply ok_bind; [eapply fmaddn_inplace_Y; eauto; apply E4|]. intros y Hy.
      apply ok_some. cbn [fst snd]. split.
      - intros m' X. injection X as <-. prj. split; auto. split; eauto 10.
      - split; [apply E4|]. cbn [e_y advise_time set_y]. destruct Hy as (X1 & X2 & X3).
        split; auto. split; auto. rewrite X3. cbn [rsum nth ndiv nlit Rops]. lra. }
    destruct s as [m|]; [apply G; auto|].
    alloc. apply G; auto. intros m X. injection X as <-. prj. auto.
  Qed.

  (** ** trapeze *)
  Definition trapeze_inv (s : option (@trapeze R)) : Prop :=
    forall m, s = Some m -> length (tz_f m) = 2%nat /\ Forall V (tz_f m) /\ V (tz_pred m).
  Lemma trapeze_Y rf dt s (e : eng) x : trapeze_inv s -> Ec x e ->
    ok mf (trapeze_advise N ps ef garbage rf dt s e)
      (fun r => trapeze_inv (fst r) /\ Ec (x + kap * dt) (snd r)).
  Proof.
    intros HS HE. unfold trapeze_advise.
    assert (G : forall (s : trapeze) (e : eng) t, trapeze_inv (Some s) -> Ec x e ->
      ok mf
       (let* f0 := rd (tz_f s) 0 in
        let* f1 := rd (tz_f s) 1 in
        let* (e, f0) := eng_fcompute ef e t (e_y e) f0 in
        let* pred := fmadd N ps (tz_pred s) (e_y e) f0 dt in
        let* (e, pred, f1) := for_ (S rf) 0 (trapeze_refine N ps ef rf dt t f0) (e, pred, f1) in
        Some (Some (mkTrapeze [f0; f1] pred), advise_time N e dt))
        (fun r => trapeze_inv (fst r) /\ Ec (x + kap * dt) (snd r))).
    { intros m e0 t Hm H0. destruct (Hm m eq_refl) as (L & F & Vt).
      destruct (tz_f m) as [|f0 [|f1 [|]]]; cbn in L; try lia. clear L.
      repeat match goal with F : Forall _ (_ :: _) |- _ => inversion F; clear F; subst end.
      cbn [rd nth_error obind].
      eapply ok_bind; [eapply fc_K; eauto; apply H0|]. intros [e1 g0] [E1 K0]. cbn [fst snd] in *.
      eapply ok_bind; [eapply fmadd_Y; eauto; apply E1|]. intros p1 T1.
      eapply ok_bind.
      { apply (@ok_for0 _ mf (fun k (st : eng * list R * list R) =>
            let '(e, pred, f) := st in
            (if Nat.ltb rf k then Ec (x + kap * dt) e else Ec x e) /\ Yc (x + kap * dt) pred /\ V f)).
        - cbn. auto.
        - intros k [[e2 p2] g1] Hk (A & B & C). unfold trapeze_refine.
          destruct (Nat.ltb_spec rf k); [lia|].
          eapply ok_bind; [eapply fc_K; eauto|]. intros [e3 g2] [E3 K3]. cbn [fst snd] in *.
          destruct (Nat.eqb_spec k rf).
          + eapply ok_bind; [eapply fmaddn_inplace_Y with (ks := [g0; g2]); eauto; apply E3|].
            intros y Hy. apply ok_some. destruct (Nat.ltb_spec rf (S k)); [|lia].
            split; [|eauto]. split; [apply E3|]. destruct Hy as (X1 & X2 & X3). split; auto. split; auto.
            cbn [e_y set_y]. rewrite X3. cbn [rsum nth ndiv nlit Rops]. lra.
          + eapply ok_bind; [apply ok_fmaddn_some with (cs := [g0; g2]); eauto; apply E3|].
            intros pr (P1 & P2 & P3). apply ok_some. destruct (Nat.ltb_spec rf (S k)); [lia|].
            split; auto. split; [|eauto].
            destruct (some_weight_dec 2 [ndiv N dt (nlit N 2); ndiv N dt (nlit N 2)]) as [HW|HW].
            * specialize (P2 HW). split; auto. rewrite !P2, wsum_w2, wsum_w1.
              -- cbn [rsum nth ndiv nlit Rops]. destruct E3 as (_ & Q1 & Q2 & Q3). rewrite Q2, Q3.
                 split; lra.
              -- intros [|[|i]] Hi; try lia; cbn; [apply K0|apply K3].
              -- intros [|[|i]] Hi; try lia; cbn; [apply K0|apply K3].
            * rewrite P3; auto. intros (i & Hi & X). apply X. apply HW. auto. }
      intros [[e2 p2] g1] (A & B & C). apply ok_some. cbn [fst snd].
      destruct (Nat.ltb_spec rf (S rf)); [|lia]. split.
      - intros m' X. injection X as <-. prj. split; auto. split; eauto.
      - exact A. }
    destruct s as [m|]; [apply G; auto|].
    alloc. apply G; auto. intros m X. injection X as <-. prj. auto.
  Qed.

  (** ** Runge-Kutta methods given by a table *)
  Section Butcher.
    Variable p : @rk_params R.
    Let bt := rp_table p.
    Let steps := bt_steps bt.
    Hypothesis Hwf : table_wf bt.
    Hypothesis Hbeta : kap * rsum steps (fun i => nth i (bt_b2 bt) 0) = kap.
    Hypothesis Hsub : kap = 0 \/ (1 <= rp_subdivisions p)%nat.
    Hypothesis Hrows : (forall y, V y -> lin w2 y = P) \/
      (bt_implicit bt = false /\ rp_correction p = true) \/
      forall i, (i < steps)%nat -> bt_implicit bt = true \/ (0 < i)%nat ->
        exists j, (j < if bt_implicit bt then steps else i)%nat /\ nth j (nth i (bt_a bt) []) 0 <> 0.

    Definition Dc (f : list R) : Prop := V f /\ lin w2 f = 0.
    Lemma Dc_V f : Dc f -> V f. Proof. now intros []. Qed.
    Lemma Kc_Dc f : Kc f -> Dc f. Proof. intros (A & B & _). now split. Qed.
    Hint Resolve Dc_V Kc_Dc : core.

    Definition bufs_ok (b : @rk_bufs R) : Prop :=
      length (rb_k b) = steps /\ Forall V (rb_k b) /\ V (rb_t b) /\ V (rb_tmpk b) /\
      (rp_correction p = true -> V (rb_ycorr b) /\ zeros (rb_ycorr b) /\ V (rb_tcorr b)) /\
      length (rb_stack b) = rp_max_recursion p /\ Forall V (rb_stack b).
    (** the first [i] derivatives are up to date *)
    Definition ks (dt : R) (i : nat) (b : @rk_bufs R) : Prop :=
      forall j, (j < i)%nat -> Dc (nth j (rb_k b) []) /\ (dt <> 0 -> Kc (nth j (rb_k b) [])).
    (** the derivatives kept for the next step of an implicit method *)
    Definition kept (b : @rk_bufs R) : Prop :=
      bt_implicit bt = true ->
      forall j, (j < steps)%nat -> Dc (nth j (rb_k b) []) /\ (rp_refine p = O -> Kc (nth j (rb_k b) [])).
    Definition PI (e : eng) : Prop := PInv (e_priv e).

    Lemma row_ok dt i cnt : (i < steps)%nat ->
      (cnt <= if bt_implicit bt then steps else i)%nat ->
      ok mf (row_coeff N p dt i cnt)
        (fun r => r = map (fun j => dt * nth j (nth i (bt_a bt) []) 0) (seq 0 cnt)).
    Proof.
      intros Hi Hc. destruct Hwf as (W1 & W2 & _). unfold row_coeff. fold bt.
      rewrite (rd_nth (bt_a bt) []) by (fold steps in W1; lia). cbn [obind].
      apply ok_collect. intros k Hk.
      rewrite (rd_nth _ 0); [reflexivity|].
      specialize (W2 i (nth i (bt_a bt) []) Hi).
      rewrite (nth_error_nth' (bt_a bt) []) in W2 by (fold steps in W1; lia). specialize (W2 eq_refl).
      fold steps in W2. destruct (bt_implicit bt); lia.
    Qed.

    Lemma nth_map_seq (h : nat -> R) n j : (j < n)%nat -> nth j (map h (seq 0 n)) 0 = h j.
    Proof. intros H. apply nth_error_nth. now apply nth_map. Qed.

    Lemma bufs_upd b i ki mt tmpk tcorr : bufs_ok b -> (i < steps)%nat -> V ki -> V mt -> V tmpk ->
      (rp_correction p = true -> V tcorr) ->
      bufs_ok (mkRkBufs (upd (rb_k b) i ki) mt tmpk (rb_ycorr b) tcorr (rb_stack b)).
    Proof.
      intros (A & B & C & D & F & G & H) Hi Hk Hm Ht Hc. unfold bufs_ok. prj. rewrite upd_length.
      split; auto. split; [now apply Forall_upd|]. split; auto. split; auto. split; auto.
      intros X. destruct (F X) as (F1 & F2 & F3). auto.
    Qed.

    (** a stage evaluated at [mt] when the coefficients may all vanish *)
    Lemma stage_state dt y x i m cs (b0 mt : list R) :
      Yc x y -> V b0 -> (i < steps)%nat -> (bt_implicit bt = true \/ (0 < i)%nat) ->
      ~ (bt_implicit bt = false /\ rp_correction p = true) ->
      m = (if bt_implicit bt then steps else i) -> (m <= length cs)%nat ->
      (forall j, (j < m)%nat -> lin w2 (nth j cs []) = 0) ->
      let coeff := map (fun j => dt * nth j (nth i (bt_a bt) []) 0) (seq 0 m) in
      (some_weight m coeff -> forall w, lin w mt = lin w y + wsum ps m coeff cs w) ->
      (~ some_weight m coeff -> mt = b0) ->
      dt <> 0 \/ some_weight m coeff -> lin w2 mt = P.
    Proof.
      intros (Vy & Y2 & Y1) Vb Hi Hi0 Hnc -> Hl HD coeff S1 S2 Hd.
      set (m := if bt_implicit bt then steps else i) in *.
      destruct (some_weight_dec m coeff) as [HW|HW].
      - rewrite S1 by auto. rewrite wsum_w2 by auto. lra.
      - assert (NW : ~ some_weight m coeff) by (intros (k & Hk & X); apply X; auto).
        destruct Hd as [Hd|]; [|tauto]. rewrite S2 by auto.
        destruct Hrows as [H|[H|H]]; auto; [tauto|].
        destruct (H i Hi Hi0) as (j & Hj & X). exfalso. fold m in Hj.
        specialize (HW j Hj). unfold coeff in HW. rewrite nth_map_seq in HW by auto.
        apply X. nra.
    Qed.

    Lemma stage_explicit_Y t dt y x i e b :
      bt_implicit bt = false -> (i < steps)%nat -> Yc x y -> PI e -> bufs_ok b -> ks dt i b ->
      ok mf (stage_explicit N ps ef p t dt y i (e, b))
        (fun r => PI (fst r) /\ bufs_ok (snd r) /\ ks dt (S i) (snd r)).
    Proof.
      intros Himp Hi Hy He Hb Hk. pose proof stage_state as SS.
      pose proof Hb as (A & B & C & D & F & G & H).
      pose proof Hwf as (_ & _ & _ & W4 & _). fold steps in W4.
      unfold stage_explicit. fold bt. rewrite (rd_nth (bt_c bt) 0) by lia.
      rewrite (rd_nth (rb_k b) []) by lia. cbn [obind].
      assert (Vi : V (nth i (rb_k b) [])) by (apply Forall_V_nth; auto; lia).
      assert (KS : forall ki (b' : rk_bufs), rb_k b' = upd (rb_k b) i ki -> Dc ki -> (dt <> 0 -> Kc ki) ->
                   ks dt (S i) b').
      { intros ki b' E1 D1 K1 j Hj. rewrite E1, nth_upd by lia.
        destruct (Nat.eqb_spec j i); auto. apply Hk. lia. }
      destruct (Nat.eqb_spec i 0) as [->|Hi0].
      - eapply ok_bind; [apply fc_any; eauto|]. intros [e1 k1] (P1 & _ & Vk & L2 & L1). cbn [fst snd] in *.
        eapply ok_bind; [apply ok_wr; lia|]. intros k' ->. apply ok_some. prj. split; auto. split.
        + apply bufs_upd; auto. intros X. now apply F.
        + eapply KS; [reflexivity|split; auto|]. intros _. split; auto. split; auto. apply L1. apply Hy.
      - eapply ok_bind; [apply row_ok; auto; rewrite Himp; lia|]. intros coeff Hcoeff. cbn beta in Hcoeff.
        assert (HD : forall j, (j < i)%nat -> lin w2 (nth j (rb_k b) []) = 0).
        { intros j Hj. destruct (Hk j Hj) as [[_ Z] _]. exact Z. }
        assert (Lc : length coeff = i) by (subst coeff; now rewrite map_length, seq_length).
        eapply ok_bind with (Q := fun r => V (fst r) /\ (rp_correction p = true -> V (snd r)) /\
                                          (dt <> 0 -> lin w2 (fst r) = P)).
        { destruct (rp_correction p) eqn:EC.
          - destruct (F eq_refl) as (F1 & F2 & F3).
            eapply ok_bind; [apply (ok_copy mind); auto|]. intros tc ->.
            eapply ok_bind; [apply (ok_copy mind); eauto|]. intros mt ->.
            eapply ok_mono; [apply ok_fmaddn_corr; eauto; lia|].
            intros [mt tc] (X1 & X2 & X3 & X4). cbn [fst snd] in *. split; auto. split; auto.
            intros _. rewrite X4, wsum_w2 by auto. destruct Hy as (_ & -> & _). lra.
          - eapply ok_bind; [apply ok_fmaddn_some; eauto; lia|]. intros mt (X1 & X2 & X3).
            apply ok_some. cbn [fst snd]. split; auto. split; [discriminate|]. intros Hdt.
            subst coeff.
            eapply (SS dt y x i i (rb_k b) (rb_t b) mt); eauto.
            + right. lia.
            + intros [_ X]. congruence.
            + now rewrite Himp.
            + lia. }
        intros [mt tc] (X1 & X2 & X3). cbn [fst snd] in *.
        eapply ok_bind; [apply fc_any; eauto|]. intros [e1 k1] (P1 & _ & Vk & L2 & L1). cbn [fst snd] in *.
        eapply ok_bind; [apply ok_wr; lia|]. intros k' ->. apply ok_some. prj. split; auto. split.
        + apply bufs_upd; auto.
        + eapply KS; [reflexivity|split; auto|]. intros Hdt. split; auto.
    Qed.

    Lemma stage_first_Y t dt y x i e b :
      (i < steps)%nat -> Yc x y -> PI e -> bufs_ok b -> Kc (rb_tmpk b) ->
      (forall j, (j < i)%nat -> Kc (nth j (rb_k b) [])) ->
      ok mf (stage_first N ps ef p t dt y i (e, b))
        (fun r => PI (fst r) /\ bufs_ok (snd r) /\ Kc (rb_tmpk (snd r)) /\
                  forall j, (j < S i)%nat -> Kc (nth j (rb_k (snd r)) [])).
    Proof.
      intros Hi Hy He Hb Ht Hk.
      pose proof Hb as (A & B & C & D & F & G & H).
      pose proof Hwf as (_ & _ & _ & W4 & _). fold steps in W4.
      unfold stage_first. fold bt. rewrite (rd_nth (bt_c bt) 0) by lia.
      rewrite (rd_nth (rb_k b) []) by lia. cbn [obind].
      assert (Vi : V (nth i (rb_k b) [])) by (apply Forall_V_nth; auto; lia).
      eapply ok_bind; [eapply fmadd_Y; eauto|]. intros mt Hm.
      eapply ok_bind; [apply fc_any; eauto|]. intros [e1 k1] (P1 & _ & Vk & L2 & L1). cbn [fst snd] in *.
      eapply ok_bind; [apply ok_wr; lia|]. intros k' ->. apply ok_some. prj. split; auto. split; [|split; auto].
      - apply bufs_upd; eauto. intros X. now apply F.
      - intros j Hj. rewrite nth_upd by lia. destruct (Nat.eqb_spec j i).
        + split; auto. split; auto. apply L1. apply Hm.
        + apply Hk. lia.
    Qed.

    Lemma stage_implicit_Y t dt y x i e b :
      bt_implicit bt = true -> (i < steps)%nat -> Yc x y -> PI e -> bufs_ok b ->
      (forall j, (j < steps)%nat -> Dc (nth j (rb_k b) [])) -> ks dt i b ->
      ok mf (stage_implicit N ps ef p t dt y i (e, b))
        (fun r => PI (fst r) /\ bufs_ok (snd r) /\
                  (forall j, (j < steps)%nat -> Dc (nth j (rb_k (snd r)) [])) /\ ks dt (S i) (snd r)).
    Proof.
      intros Himp Hi Hy He Hb HDc Hk.
      pose proof Hb as (A & B & C & D & F & G & H).
      pose proof Hwf as (_ & _ & _ & W4 & _). fold steps in W4.
      unfold stage_implicit. fold bt. rewrite (rd_nth (bt_c bt) 0) by lia.
      rewrite (rd_nth (rb_k b) []) by lia. cbn [obind].
      assert (Vi : V (nth i (rb_k b) [])) by (apply Forall_V_nth; auto; lia).
      fold steps.
      eapply ok_bind; [apply row_ok; auto; rewrite Himp; lia|]. intros coeff Hcoeff. cbn beta in Hcoeff.
      assert (Lc : length coeff = steps) by (subst coeff; now rewrite map_length, seq_length).
      eapply ok_bind; [apply ok_fmaddn_some; eauto; lia|]. intros mt (X1 & X2 & X3).
      assert (X4 : dt <> 0 -> lin w2 mt = P).
      { intros Hdt. subst coeff. rewrite A in X2, X3.
        eapply (@stage_state dt y x i steps (rb_k b) (rb_t b) mt); eauto.
        - intros [X _]. congruence.
        - now rewrite Himp.
        - lia.
        - intros j Hj. now apply HDc. }
      eapply ok_bind; [apply fc_any; eauto|]. intros [e1 k1] (P1 & _ & Vk & L2 & L1). cbn [fst snd] in *.
      eapply ok_bind; [apply ok_wr; lia|]. intros k' ->. apply ok_some. prj. split; auto.
      split; [|split].
      - apply bufs_upd; eauto. intros X. now apply F.
      - intros j Hj. rewrite nth_upd by lia. destruct (Nat.eqb_spec j i); auto. split; auto.
      - intros j Hj. prj. rewrite nth_upd by lia. destruct (Nat.eqb_spec j i).
        + split; [split; auto|]. intros Hdt. split; auto.
        + apply Hk. lia.
    Qed.

    (** all the stages of one substep *)
    Lemma stages_Y nf t dt y x e b : Yc x y -> PI e -> bufs_ok b -> (nf = false -> kept b) ->
      ok mf (if bt_implicit bt then sub_step_implicit N ps ef p nf t dt y (e, b)
             else sub_step_explicit N ps ef p t dt y (e, b))
        (fun r => PI (fst r) /\ bufs_ok (snd r) /\ ks dt steps (snd r) /\ kept (snd r)).
    Proof.
      intros Hy He Hb HK.
      assert (Himp : bt_implicit bt = true \/ bt_implicit bt = false) by (destruct (bt_implicit bt); auto).
      destruct Himp as [Himp|Himp]; rewrite Himp.
      - unfold sub_step_implicit. fold bt. fold steps.
        eapply ok_bind with (Q := fun r => PI (fst r) /\ bufs_ok (snd r) /\ kept (snd r)).
        { destruct nf.
          - pose proof Hb as (A & B & C & D & F & G & H).
            eapply ok_bind; [apply fc_any; eauto|]. intros [e1 k1] (P1 & _ & Vk & L2 & L1). cbn [fst snd] in *.
            eapply ok_mono.
            { apply (@ok_for0 _ mf (fun i st => PI (fst st) /\ bufs_ok (snd st) /\ Kc (rb_tmpk (snd st)) /\
                forall j, (j < i)%nat -> Kc (nth j (rb_k (snd st)) []))).
              - cbn [fst snd]. split; auto. split; [|split].
                + unfold bufs_ok. prj. repeat (split; auto).
                + prj. split; auto. split; auto. apply L1. apply Hy.
                + intros. lia.
              - intros i [e2 b2] Hi (Q1 & Q2 & Q3 & Q4). cbn [fst snd] in *.
                eapply stage_first_Y; eauto. }
            cbn beta. intros [e2 b2] (Q1 & Q2 & Q3 & Q4). cbn [fst snd] in *. split; auto. split; auto.
            intros _ j Hj. split; auto.
          - apply ok_some. cbn [fst snd]. auto. }
        intros st0 (Q1 & Q2 & Q3).
        eapply ok_mono.
        { apply (@ok_for0 _ mf (fun r st => PI (fst st) /\ bufs_ok (snd st) /\
             (forall j, (j < steps)%nat -> Dc (nth j (rb_k (snd st)) [])) /\
             (r <> O -> ks dt steps (snd st)) /\ (r = O -> kept (snd st)))).
          - split; auto. split; auto. split; [|split; [congruence|auto]].
            intros j Hj. now apply Q3.
          - intros r st Hr (R1 & R2 & R3 & R4 & R5).
            eapply ok_mono.
            { apply (@ok_for0 _ mf (fun i st => PI (fst st) /\ bufs_ok (snd st) /\
                 (forall j, (j < steps)%nat -> Dc (nth j (rb_k (snd st)) [])) /\ ks dt i (snd st))).
              - split; auto. split; auto. split; auto. intros j Hj. lia.
              - intros i [e3 b3] Hi (S1 & S2 & S3 & S4). cbn [fst snd] in *.
                eapply stage_implicit_Y; eauto. }
            cbn beta. intros st' (S1 & S2 & S3 & S4). split; auto. split; auto. split; auto. split; auto. congruence. }
        cbn beta. intros [e4 b4] (R1 & R2 & R3 & R4 & R5). cbn [fst snd] in *.
        split; auto. split; auto. destruct (Nat.eq_dec (rp_refine p) 0) as [Z|Z].
        + specialize (R5 Z). split; auto. intros j Hj. destruct (R5 Himp j Hj). split; auto.
        + specialize (R4 Z). split; auto. intros _ j Hj. split; [apply R3; auto|congruence].
      - unfold sub_step_explicit. fold bt. fold steps. eapply ok_mono.
        { apply (@ok_for0 _ mf (fun i st => PI (fst st) /\ bufs_ok (snd st) /\ ks dt i (snd st))).
          - cbn [fst snd]. split; auto. split; auto. intros j Hj. lia.
          - intros i [e3 b3] Hi (S1 & S2 & S3). cbn [fst snd] in *. eapply stage_explicit_Y; eauto. }
        cbn beta. intros [e4 b4] (R1 & R2 & R3). split; auto. split; auto. split; auto.
        intros X. congruence.
    Qed.

    Lemma estimate_Y dt b : bufs_ok b -> ks dt steps b -> kept b ->
      ok mf (estimate N ps p b) (fun r => bufs_ok (snd r) /\ ks dt steps (snd r) /\ kept (snd r)).
    Proof.
      intros Hb HK1 HK2. pose proof Hb as (A & B & C & D & F & G & H).
      pose proof Hwf as (_ & _ & W3 & _ & W5). fold steps in W3, W5.
      unfold estimate. fold bt. fold steps. destruct (bt_embedded bt).
      - specialize (W5 eq_refl).
        eapply ok_bind.
        { apply ok_collect with (h := fun n => nth n (bt_b2 bt) 0 - nth n (bt_b1 bt) 0).
          intros k Hk. rewrite !(rd_nth _ 0) by lia. reflexivity. }
        intros coeff Hc. cbn beta in Hc. eapply ok_bind.
        { apply ok_fmaddn_none; eauto; subst coeff; rewrite ?map_length, ?seq_length; lia. }
        intros mt (Vm & _). eapply ok_bind; [apply ok_fmaxabs; auto|]. intros er _. apply ok_some. prj.
        split; auto. unfold bufs_ok. prj. repeat (split; auto).
      - apply ok_some. auto.
    Qed.

    Lemma accept_Y dt x y b : Yc x y -> bufs_ok b -> ks dt steps b -> kept b ->
      ok mf (accept N ps p dt y b) (fun r => Yc (x + kap * dt) (fst r) /\ bufs_ok (snd r) /\ kept (snd r)).
    Proof.
      intros Hy Hb HK1 HK2. pose proof Hb as (A & B & C & D & F & G & H).
      pose proof Hwf as (_ & _ & W3 & _ & _). fold steps in W3.
      unfold accept. fold bt. fold steps. eapply ok_bind.
      { apply ok_collect with (h := fun n => nth n (bt_b2 bt) 0 * dt).
        intros k Hk. rewrite !(rd_nth _ 0) by lia. reflexivity. }
      intros coeff Hc. cbn beta in Hc. rewrite A.
      assert (Lc : length coeff = steps) by (subst coeff; now rewrite map_length, seq_length).
      assert (FIN : forall y', V y' -> (forall w, lin w y' = lin w y + wsum ps steps coeff (rb_k b) w) ->
                    Yc (x + kap * dt) y').
      { intros y' Vy' L. destruct Hy as (Vy & Y2 & Y1). split; auto. rewrite !L, Y2, Y1. split.
        - rewrite wsum_w2; [lra|]. intros k Hk. destruct (HK1 k Hk) as [[_ Z] _]. exact Z.
        - f_equal. destruct (Req_EM_T dt 0) as [Hdt|Hdt].
          + rewrite wsum_zero; [subst dt; lra|]. intros k Hk. subst coeff.
            rewrite nth_map_seq by auto. subst dt. lra.
          + rewrite wsum_w1.
            * rewrite (rsum_ext _ _ (fun n => nth n (bt_b2 bt) 0 * dt)).
              -- rewrite rsum_scal_r, <- Rmult_assoc, Hbeta. reflexivity.
              -- intros n Hn. subst coeff. now rewrite nth_map_seq.
            * intros k Hk. destruct (HK1 k Hk) as [_ Z]. apply (Z Hdt). }
      destruct (rp_correction p) eqn:EC.
      - destruct (F eq_refl) as (F1 & F2 & F3).
        eapply ok_bind; [apply ok_fmaddn_corr; eauto; lia|]. intros [y' yc] (X1 & X2 & X3 & X4).
        cbn [fst snd] in *. apply ok_some. prj. split; auto. split; auto.
        unfold bufs_ok. prj. repeat (split; auto).
      - eapply ok_bind; [apply ok_fmaddn_inplace; eauto; lia|]. intros y' (X1 & X4).
        apply ok_some. prj. auto.
    Qed.

    Lemma kept_stack b stack : kept b -> kept (mkRkBufs (rb_k b) (rb_t b) (rb_tmpk b) (rb_ycorr b) (rb_tcorr b) stack).
    Proof. auto. Qed.

    Definition loop_inv (nf : bool) (x : R) (st : @rk_loop R E) : Prop :=
      let '(e, b, y, t, tr) := st in PI e /\ bufs_ok b /\ (nf = false -> kept b) /\ Yc x y.

    Lemma sub_step_Y rem : forall level substeps nf dt x st, (level + rem <= rp_max_recursion p)%nat ->
      loop_inv nf x st ->
      ok mf (sub_step N ps ef p rem level substeps nf dt st)
        (fun r => loop_inv nf (x + kap * (INR substeps * dt)) r /\
                  (substeps <> O -> loop_inv false (x + kap * (INR substeps * dt)) r)).
    Proof.
      induction rem as [|rem IH]; intros level substeps nf dt x st Hlev H0.
      - cbn [sub_step].
        eapply ok_mono.
        { apply (@ok_for0 _ mf (fun c st => loop_inv nf (x + kap * (INR c * dt)) st /\
             (c <> O -> loop_inv false (x + kap * (INR c * dt)) st))).
          - split; [|congruence]. cbn [INR]. replace (x + kap * (0 * dt)) with x by lra. auto.
          - intros c [[[[e b] y] t] tr] Hc ((A1 & A2 & A3 & A4) & _).
            eapply ok_bind; [eapply stages_Y; eauto|]. intros [e1 b1] (B1 & B2 & B3 & B4). cbn [fst snd] in *.
            eapply ok_bind; [apply estimate_Y; eauto|]. intros [er b2] (C1 & C2 & C3). cbn [fst snd] in *.
            eapply ok_bind; [eapply accept_Y; eauto|]. intros [y' b3] (D1 & D2 & D3). cbn [fst snd] in *.
            apply ok_some. rewrite S_INR.
            replace (x + kap * ((INR c + 1) * dt)) with (x + kap * (INR c * dt) + kap * dt) by lra.
            split; [|intros _]; repeat (split; auto). }
        cbn beta. auto.
      - cbn [sub_step].
        eapply ok_mono.
        { apply (@ok_for0 _ mf (fun c st => loop_inv nf (x + kap * (INR c * dt)) st /\
             (c <> O -> loop_inv false (x + kap * (INR c * dt)) st))).
          - split; [|congruence]. cbn [INR]. replace (x + kap * (0 * dt)) with x by lra. auto.
          - intros c [[[[e b] y] t] tr] Hc ((A1 & A2 & A3 & A4) & _).
            eapply ok_bind; [eapply stages_Y; eauto|]. intros [e1 b1] (B1 & B2 & B3 & B4). cbn [fst snd] in *.
            eapply ok_bind; [apply estimate_Y; eauto|]. intros [er b2] (C1 & C2 & C3). cbn [fst snd] in *.
            rewrite S_INR.
            replace (x + kap * ((INR c + 1) * dt)) with (x + kap * (INR c * dt) + kap * dt) by lra.
            destruct (_ && _ && _)%bool.
            + pose proof C1 as (Q1 & Q2 & Q3 & Q4 & Q5 & Q6 & Q7).
              rewrite (rd_nth (rb_stack b2) []) by lia. cbn [obind].
              eapply ok_bind; [apply (ok_copy mind); eauto; apply Forall_V_nth; auto; lia|]. intros cy ->.
              eapply ok_bind; [apply ok_wr; lia|]. intros st2 Est. cbn beta in Est.
              eapply ok_bind.
              { apply (IH (S level) (rp_subdivisions p) false _ (x + kap * (INR c * dt))); [lia|].
                unfold loop_inv. split; auto. split; [|split; auto].
                unfold bufs_ok. prj. subst st2. rewrite upd_length.
                repeat (split; auto). apply Forall_upd; eauto. }
              intros [[[[e3 b3] y3] t3] tr3] ((D1 & D2 & D3 & D4) & _).
              pose proof D2 as (U1 & U2 & U3 & U4 & U5 & U6 & U7).
              eapply ok_bind; [apply ok_wr; lia|]. intros st3 Est3. cbn beta in Est3.
              eapply ok_bind; [apply (ok_copy mind); eauto|]. intros y4 ->. apply ok_some.
              assert (FY : Yc (x + kap * (INR c * dt) + kap * dt) y3).
              { destruct D4 as (Z1 & Z2 & Z3). split; auto. split; auto. rewrite Z3. f_equal.
                rewrite nnat_R. cbn [ndiv Rops]. destruct Hsub as [->|Hs]; [lra|]. field.
                apply not_0_INR. lia. }
              assert (FB : bufs_ok (mkRkBufs (rb_k b3) (rb_t b3) (rb_tmpk b3) (rb_ycorr b3) (rb_tcorr b3) st3)).
              { unfold bufs_ok. prj. subst st3. rewrite upd_length.
                repeat (split; auto). apply Forall_upd; eauto. }
              split; [|intros _]; unfold loop_inv; (split; [auto|]); (split; [auto|]); (split; [|auto]);
                intros _; apply kept_stack; auto.
            + eapply ok_bind; [eapply accept_Y; eauto|]. intros [y' b3] (D1 & D2 & D3). cbn [fst snd] in *.
              apply ok_some. split; [|intros _]; repeat (split; auto). }
        cbn beta. auto.
    Qed.

    Definition rk_inv (s : option (@rk_bufs R)) : Prop :=
      forall b, s = Some b -> bufs_ok b /\ kept b.

    Lemma rk_alloc_Y x (e : eng) : Ec x e ->
      ok mf (rk_alloc N garbage p e) (fun r => bufs_ok (fst r) /\ Ec x (snd r)).
    Proof.
      intros HE. unfold rk_alloc. fold bt. fold steps. alloc.
      destruct (rp_correction p) eqn:EC.
      - alloc. eapply ok_bind; [apply (ok_fill mind ps)|]. intros yc (L1 & _ & Z1).
        eapply ok_bind; [apply (ok_fill mind ps)|]. intros tc (L2 & _ & Z2). apply ok_some. cbn [fst snd].
        split; auto. unfold bufs_ok. prj. unfold LemBufR.V in *.
        repeat (split; auto); try congruence.
      - apply ok_some. cbn [fst snd]. split; auto. unfold bufs_ok. prj.
        repeat (split; auto); congruence.
    Qed.

    Lemma rk_Y dt s (e : eng) x : rk_inv s -> Ec x e ->
      ok mf (rk_advise N ps ef garbage p dt s e)
        (fun r => rk_inv (fst r) /\ Ec (x + kap * dt) (snd r)).
    Proof.
      intros HS HE. unfold rk_advise, rk_step.
      eapply ok_bind with (Q := fun r => rk_inv (Some (fst (fst r))) /\ Ec (x + kap * dt) (snd (fst r))).
      2: { intros [[b e'] tr] [A B]. apply ok_some. auto. }
      eapply ok_bind with (Q := fun r => bufs_ok (fst (fst r)) /\ Ec x (snd (fst r)) /\
                                         (snd r = false -> kept (fst (fst r)))).
      { destruct s as [b|].
        - apply ok_some. cbn [fst snd]. destruct (HS b eq_refl). auto.
        - eapply ok_bind; [apply rk_alloc_Y; eauto|]. intros [b e'] (A & B). apply ok_some.
          cbn [fst snd] in *. split; auto. split; auto. discriminate. }
      intros [[b e1] nf] (A & B & C). cbn [fst snd] in *.
      eapply ok_bind.
      { eapply sub_step_Y with (x := x); [|unfold loop_inv; split; [apply B|]; split; [auto|]; split; [auto|apply B]]. lia. }
      intros [[[[e2 b2] y2] t2] tr2] (_ & D). specialize (D ltac:(discriminate)).
      destruct D as (D1 & D2 & D3 & D4). apply ok_some. cbn [fst snd]. split.
      - intros b' X. injection X as <-. auto.
      - split; [exact D1|]. cbn [e_y advise_time set_y]. cbn [INR] in D4.
        now replace (x + kap * dt) with (x + kap * (1 * dt)) by lra.
    Qed.
  End Butcher.

  (** ** Bulirsch-Stoer *)
  Section BS.
    Variable p : @bs_params R.
    Let L := bp_max_level p.
    Let counts := map bs_seq (seq 0 L).

    Lemma counts_len : length counts = L.
    Proof. unfold counts. now rewrite map_length, seq_length. Qed.
    Lemma counts_good : good_counts (ext_counts 2 counts).
    Proof. apply ext_counts_good; [lia|]. apply bs_counts_good. Qed.

    Definition bs_inv (s : option (@bs_bufs R)) : Prop :=
      forall b, s = Some b -> V (bb_y0 b) /\ (exists x, stetter_inv x (bb_int b)) /\
                              neville_bufs ps L (bb_ext b).

    Lemma bs_substeps_Y cnt sdt st x : stetter_inv x (fst st) -> Ec x (snd st) ->
      ok mf (bs_substeps N ps ef garbage cnt sdt st)
        (fun r => stetter_inv (x + kap * (INR cnt * sdt)) (fst r) /\
                  Ec (x + kap * (INR cnt * sdt)) (snd r)).
    Proof.
      intros H1 H2. unfold bs_substeps.
      apply (@ok_for0 _ mf (fun c st => stetter_inv (x + kap * (INR c * sdt)) (fst st) /\
                  Ec (x + kap * (INR c * sdt)) (snd st))).
      - cbn [INR]. replace (x + kap * (0 * sdt)) with x by lra. auto.
      - intros c [s e] Hc (A & B). cbn [fst snd] in *. eapply ok_mono; [apply stetter_Y; eauto|].
        intros [s' e'] (C & D). rewrite S_INR.
        replace (x + kap * ((INR c + 1) * sdt)) with (x + kap * (INR c * sdt) + kap * sdt) by lra. auto.
    Qed.

    (** the table after [level] levels whose results all have the values [P], [X] *)
    Definition rows (X : R) (level : nat) (t : list (list R)) : Prop :=
      exists ys, (forall i, (i < level)%nat -> Yc X (ys i)) /\
                 (level <> O -> neville_row ps (ext_counts 2 counts) ys (level - 1) t).

    Lemma rows_cell X level j t : rows X (S level) t -> (level < L)%nat -> (j <= level)%nat ->
      V (nth j t []) -> Yc X (nth j t []).
    Proof.
      intros (ys & H1 & H2) Hl Hj HV. specialize (H2 ltac:(lia)). replace (S level - 1)%nat with level in H2 by lia.
      destruct (node_good counts_good) as [G1 G2]. rewrite ext_counts_length, counts_len in G1, G2.
      split; auto. rewrite !H2 by auto. split.
      - rewrite (tri_ext _ _ (fun _ => P)); [|intros i Hi; apply H1; lia].
        apply tri_const with (m := L); auto; lia.
      - rewrite (tri_ext _ _ (fun _ => X)); [|intros i Hi; apply H1; lia].
        apply tri_const with (m := L); auto; lia.
    Qed.

    Lemma bs_compute_Y level dt t0 b (e : eng) x :
      (level < L)%nat -> PInv (e_priv e) -> V (e_y e) -> Yc x (bb_y0 b) -> bs_inv (Some b) ->
      rows (x + kap * dt) level (ne_table (bb_ext b)) ->
      ok mf (bs_compute N ps ef garbage counts level dt t0 b e)
        (fun r => bb_y0 (fst r) = bb_y0 b /\ bs_inv (Some (fst r)) /\ Ec (x + kap * dt) (snd r) /\
                  rows (x + kap * dt) (S level) (ne_table (bb_ext (fst r)))).
    Proof.
      intros Hl HP HV Hy HI (ys & R1 & R2). destruct (HI b eq_refl) as (I1 & (x0 & I2) & I3).
      unfold bs_compute. eapply ok_bind; [apply (ok_copy mind); auto|]. intros y ->. cbv zeta.
      unfold counts at 1. rewrite rd_map by auto. cbn [obind].
      eapply ok_bind.
      { apply bs_substeps_Y with (x := x); cbn [fst snd].
        - eapply stetter_reset_inv; eauto.
        - split; auto. }
      intros [int e1] (A & B). cbn [fst snd] in *.
      replace (x + kap * (INR (bs_seq level) * ndiv N dt (nnat N (bs_seq level)))) with (x + kap * dt) in *.
      2: { rewrite nnat_R. cbn [ndiv Rops]. f_equal. f_equal. field. apply not_0_INR.
           pose proof (bs_seq_even level). lia. }
      eapply ok_bind.
      { apply (@neville_update_ok mind ps mf (ext_counts 2 counts) L (bb_ext b) level (e_y e1)
           (fun i => if Nat.eqb i level then e_y e1 else ys i)); auto.
        - rewrite ext_counts_length, counts_len. auto.
        - apply B.
        - now rewrite Nat.eqb_refl.
        - intros Hn j w Hj. rewrite (R2 Hn j w Hj). apply tri_ext. intros i Hi.
          destruct (Nat.eqb_spec i level); auto. lia. }
      intros ext (C1 & C2 & C3). apply ok_some. prj. split; auto. split; [|split; auto].
      - intros b' X. injection X as <-. prj. split; auto. split; eauto.
      - eexists. split; [|intros _; replace (S level - 1)%nat with level by lia; exact C2].
        intros i Hi. cbn beta. destruct (Nat.eqb_spec i level); [apply B|]. apply R1. lia.
    Qed.

    Lemma bs_levels_Y dt t0 x left : forall level b (e : eng), (level + left = L)%nat ->
      PInv (e_priv e) -> V (e_y e) -> (level <> O -> Yc (x + kap * dt) (e_y e)) ->
      Yc x (bb_y0 b) -> bs_inv (Some b) ->
      rows (x + kap * dt) level (ne_table (bb_ext b)) ->
      ok mf (bs_levels N ps ef garbage p counts dt t0 left level b e)
        (fun r => bs_inv (Some (fst r)) /\ PInv (e_priv (snd r)) /\
                  (L <> O -> Yc (x + kap * dt) (e_y (snd r))) /\ (L = O -> e_y (snd r) = e_y e)).
    Proof.
      induction left as [|left IH]; intros level b e Hl HP HV HY Hy0 HI HR; cbn [bs_levels].
      - apply ok_some. prj. split; auto. split; auto. split; auto. intros. apply HY. lia.
      - eapply ok_bind; [eapply bs_compute_Y with (x := x); eauto; lia|].
        intros [b1 e1] (A1 & A2 & A3 & A4). cbn [fst snd] in *.
        assert (K : forall b0, bb_y0 b0 = bb_y0 b -> bs_inv (Some b0) ->
                  rows (x + kap * dt) (S level) (ne_table (bb_ext b0)) ->
          ok mf (bs_levels N ps ef garbage p counts dt t0 left (S level) b0 e1)
            (fun r => bs_inv (Some (fst r)) /\ PInv (e_priv (snd r)) /\
                  (L <> O -> Yc (x + kap * dt) (e_y (snd r))) /\ (L = O -> e_y (snd r) = e_y e))).
        { intros b0 E0 I0 R0. eapply ok_mono.
          - apply IH; auto; try lia; try apply A3; try (intros _; apply A3). now rewrite E0.
          - cbn beta. intros r (B1 & B2 & B3 & B4). split; auto. split; auto. split; auto. intros. lia. }
        destruct (Nat.ltb_spec level 2) as [H2|H2]; [now apply K|].
        destruct (A2 b1 eq_refl) as (I1 & I2 & I3).
        eapply ok_bind; [apply neville_error_ok; eauto; lia|].
        intros [md ext] (B1 & B2 & B3 & _). cbn [fst snd] in *.
        assert (IE : bs_inv (Some (mkBsBufs (bb_y0 b1) (bb_int b1) ext))).
        { intros b' X. injection X as <-. prj. auto. }
        assert (RE : rows (x + kap * dt) (S level) (ne_table ext)) by now rewrite B2.
        match goal with |- context [if ?c then _ else _] => destruct c end; [|apply K; auto].
        eapply ok_bind; [eapply (neville_extrapolate_ok mind); eauto; [lia|apply A3]|].
        intros y Ey. cbn beta in Ey. apply ok_some. prj. split; auto. split; [apply A3|].
        split; [|intros; lia]. intros _. cbn [e_y set_y]. rewrite Ey.
        apply rows_cell with (level := level); auto; try lia.
        destruct B1 as (L1 & L2 & F1 & _). apply Forall_V_nth; auto. lia.
    Qed.

    Lemma bs_Y dt s (e : eng) x : kap = 0 \/ (1 <= L)%nat -> bs_inv s -> Ec x e ->
      ok mf (bs_advise N ps ef garbage p dt s e)
        (fun r => bs_inv (fst r) /\ Ec (x + kap * dt) (snd r)).
    Proof.
      intros HL HS HE. unfold bs_advise. rewrite init_steps_ok. cbn [obind]. fold L. fold counts.
      assert (G : forall b (e : eng), bs_inv (Some b) -> Ec x e ->
        ok mf
         (let t0 := e_time e in
          let* y0 := copy_buffer ps (bb_y0 b) (e_y e) in
          let b0 := mkBsBufs y0 (bb_int b) (bb_ext b) in
          let* (b1, e0) := bs_levels N ps ef garbage p counts dt t0 L 0 b0 e in
          Some (Some b1, advise_time N (set_time e0 t0) dt))
         (fun r => bs_inv (fst r) /\ Ec (x + kap * dt) (snd r))).
      { intros b e0 HI H0. destruct (HI b eq_refl) as (I1 & I2 & I3). cbv zeta.
        eapply ok_bind; [apply (ok_copy mind); eauto; apply H0|]. intros y0 ->.
        eapply ok_bind.
        { eapply bs_levels_Y with (x := x); auto; try lia; try apply H0.
          - intros b' X. injection X as <-. prj. split; [apply H0|]. auto.
          - exists (fun _ => []). split; [lia|congruence]. }
        intros [b1 e1] (A & B & C & D). cbn [fst snd] in *. apply ok_some. prj. split; auto.
        split; auto. cbn [e_y advise_time set_time].
        destruct (Nat.eq_dec L 0) as [Z|Z]; auto. rewrite D by auto.
        destruct HL as [K0|]; [|lia]. rewrite K0, Rmult_0_l, Rplus_0_r. apply H0. }
      destruct s as [b|]; [apply G; auto|]. rewrite counts_len.
      alloc. apply G; auto. intros b' X. injection X as <-. prj. split; auto. split.
      - exists 0. intros m X. discriminate.
      - unfold neville_bufs. cbn [ne_table ne_prev ne_diff]. unfold LemBufR.V in *. auto.
    Qed.
  End BS.

  (** ** Adams-Bashforth and the solver objects *)
  Fixpoint solver_inv (x : R) (s : @solver R) : Prop :=
    match s with
    | SEuler b => euler_inv b
    | SMidpoint b => midpoint_inv b
    | SStetter b => stetter_inv x b
    | SRk4 b => rk4_inv b
    | STrapeze _ b => trapeze_inv b
    | SButcher p b => rk_inv p b
    | SBs p b => bs_inv p b
    | SAdams p st b step =>
        ((step <= ap_rank p)%nat -> solver_inv x st) /\
        match b with
        | None => step = O
        | Some b => length (ab_f b) = ap_rank p /\ Forall V (ab_f b) /\
            (forall j, (j < ap_rank p)%nat -> (j < step)%nat -> Kc (nth j (ab_f b) [])) /\
            (ap_corr p = true -> V (ab_corr b) /\ zeros (ab_corr b))
        end
    end.

  (** the conditions on the parameters *)
  Fixpoint good (s : @solver R) : Prop :=
    match s with
    | SButcher p _ =>
        let bt := rp_table p in
        table_wf bt /\ kap * rsum (bt_steps bt) (fun i => nth i (bt_b2 bt) 0) = kap /\
        (kap = 0 \/ (1 <= rp_subdivisions p)%nat) /\
        ((forall y, V y -> lin w2 y = P) \/
         (bt_implicit bt = false /\ rp_correction p = true) \/
         forall i, (i < bt_steps bt)%nat -> bt_implicit bt = true \/ (0 < i)%nat ->
           exists j, (j < if bt_implicit bt then bt_steps bt else i)%nat /\
                     nth j (nth i (bt_a bt) []) 0 <> 0)
    | SBs p _ => kap = 0 \/ (1 <= bp_max_level p)%nat
    | SAdams p st _ _ => (1 <= ap_rank p <= 5)%nat /\ good st
    | _ => True
    end.

  Lemma adams_coeff_sum rank a fnum dt : rd (adams_rows N) rank = Some a -> (1 <= rank <= 5)%nat ->
    (fnum < rank)%nat ->
    ok mf (adams_coeff N a rank fnum dt)
      (fun c => length c = rank /\ rsum rank (fun k => nth k c 0) = dt).
  Proof.
    intros Ha Hr Hf.
    destruct rank as [|[|[|[|[|[|rank]]]]]]; try lia;
      cbn [rd nth_error adams_rows] in Ha; injection Ha as <-;
      (destruct fnum as [|[|[|[|[|fnum]]]]]; try lia);
      (apply ok_some; split; [reflexivity|]);
      cbn [rsum nth nmul nlit ndiv Rops q]; unfold q; cbn [nlit ndiv Rops]; field.
  Qed.

  Lemma solver_Y dt s : forall (e : eng) x, good s -> solver_inv x s -> Ec x e ->
    ok mf (advise N ps ef garbage dt s e)
      (fun r => good (fst r) /\ solver_inv (x + kap * dt) (fst r) /\ Ec (x + kap * dt) (snd r)).
  Proof.
    induction s as [b|b|b|b|rf b|p b|p b|p st IH b step]; intros e x HG HI HE; cbn [advise solver_inv] in *.
    - eapply ok_bind; [apply euler_Y; eauto|]. intros [b' e'] [A B]. now apply ok_some.
    - eapply ok_bind; [apply midpoint_Y; eauto|]. intros [b' e'] [A B]. now apply ok_some.
    - eapply ok_bind; [apply stetter_Y; eauto|]. intros [b' e'] [A B]. now apply ok_some.
    - eapply ok_bind; [apply rk4_Y; eauto|]. intros [b' e'] [A B]. now apply ok_some.
    - eapply ok_bind; [apply trapeze_Y; eauto|]. intros [b' e'] [A B]. now apply ok_some.
    - destruct HG as (G1 & G2 & G3 & G4).
      eapply ok_bind; [apply rk_Y; eauto|]. intros [b' e'] [A B]. apply ok_some.
      cbn [fst snd good solver_inv]. auto.
    - eapply ok_bind; [apply bs_Y; eauto|]. intros [b' e'] [A B]. apply ok_some.
      cbn [fst snd good solver_inv] in *. auto.
    - destruct HG as [Hr HG]. destruct HI as [HI HB]. cbv zeta.
      destruct (Nat.eqb_spec (ap_rank p) 0); [lia|].
      destruct (rd_some (adams_rows N) (i := ap_rank p)) as (a & Ha); [cbn; lia|].
      rewrite Ha. cbn [obind].
      assert (Hf : (step mod ap_rank p < ap_rank p)%nat) by (apply Nat.mod_upper_bound; lia).
      eapply ok_bind with (Q := fun r => Ec x (snd r) /\
        length (ab_f (fst r)) = ap_rank p /\ Forall V (ab_f (fst r)) /\
        (forall j, (j < ap_rank p)%nat -> (j < step)%nat -> Kc (nth j (ab_f (fst r)) [])) /\
        (ap_corr p = true -> V (ab_corr (fst r)) /\ zeros (ab_corr (fst r)))).
      { destruct b as [b|].
        - apply ok_some. cbn [fst snd]. auto.
        - subst step. unfold adams_alloc. alloc. destruct (ap_corr p).
          + alloc. eapply ok_bind; [apply (ok_fill mind ps)|]. intros c (L1 & _ & Z1). apply ok_some. prj.
            split; auto. split; auto. split; auto. split; [intros; lia|]. intros _. split; auto.
            unfold LemBufR.V in *. congruence.
          + apply ok_some. prj. split; auto. split; auto. split; auto. split; [intros; lia|discriminate]. }
      intros [b1 e1] (A1 & A2 & A3 & A4 & A5). cbn [fst snd] in *.
      rewrite (rd_nth (ab_f b1) []) by lia. cbn [obind].
      eapply ok_bind.
      { eapply fc_K; eauto; [apply A1|]. apply Forall_V_nth; auto. lia. }
      intros [e2 fb] [E2 K2]. cbn [fst snd] in *.
      eapply ok_bind; [apply ok_wr; lia|]. intros f Ef. cbn beta in Ef.
      assert (F1 : length f = ap_rank p) by (subst f; now rewrite upd_length).
      assert (F2 : Forall V f) by (subst f; apply Forall_upd; auto).
      assert (F3 : forall j, (j < ap_rank p)%nat -> (j < S step)%nat -> Kc (nth j f [])).
      { intros j Hj Hs. subst f. rewrite nth_upd by lia.
        destruct (Nat.eqb_spec j (step mod ap_rank p)); auto. apply A4; auto.
        destruct (Nat.eq_dec j step); [|lia]. subst j. rewrite Nat.mod_small in n0 by auto. lia. }
      destruct (Nat.ltb_spec (ap_rank p) step) as [Hlt|Hge].
      + eapply ok_bind; [eapply adams_coeff_sum; eauto|]. intros c (C1 & C2).
        assert (FK : Forall Kc f).
        { apply Forall_forall. intros q Hq. destruct (In_nth _ _ [] Hq) as (j & Hj & <-). apply F3; lia. }
        destruct (ap_corr p) eqn:EC.
        * destruct (A5 eq_refl) as [V5 Z5].
          eapply ok_bind; [apply ok_fmaddn_corr; eauto; try lia; apply E2|].
          intros [y cr] (Y1 & Y2 & Y3 & Y4). cbn [fst snd] in *. apply ok_some. cbn [fst snd good solver_inv].
          prj. split; auto. split.
          -- split; [lia|]. split; auto.
          -- split; [apply E2|]. cbn [e_y advise_time set_y]. split; auto.
             destruct E2 as (_ & _ & Q2 & Q3). rewrite !Y4, Q2, Q3, wsum_w2, wsum_w1, C2.
             ++ split; lra.
             ++ intros j Hj. apply F3; lia.
             ++ intros j Hj. apply F3; lia.
        * eapply ok_bind; [eapply fmaddn_inplace_Y with (ks := f); eauto; try lia; apply E2|].
          intros y Hy. apply ok_some. cbn [fst snd good solver_inv]. prj. split; auto. split.
          -- split; [lia|]. split; auto. split; auto. split; auto. congruence.
          -- split; [apply E2|]. cbn [e_y advise_time set_y]. rewrite C2 in Hy. exact Hy.
      + eapply ok_bind; [apply IH; eauto|]. intros [st' e3] (B1 & B2 & B3). cbn [fst snd] in *.
        apply ok_some. cbn [fst snd good solver_inv]. prj. split; auto. split; auto.
  Qed.

  Lemma fresh_inv x s : fresh s -> solver_inv x s.
  Proof.
    induction s; cbn; intros H; subst; try (intros m X; discriminate).
    destruct H as (A & -> & ->). auto.
  Qed.

  Definition dsum (dts : list R) : R := fold_right Rplus 0 dts.

  Lemma advise_all_Y dts : forall s (e : eng) x, good s -> solver_inv x s -> Ec x e ->
    ok mf (advise_all N ps ef garbage dts s e)
      (fun r => Ec (x + kap * dsum dts) (snd r)).
  Proof.
    induction dts as [|dt r IH]; intros s e x HG HI HE; cbn [advise_all dsum fold_right].
    - apply ok_some. cbn [snd]. now rewrite Rmult_0_r, Rplus_0_r.
    - eapply ok_bind; [apply solver_Y; eauto|]. intros [s' e'] (A & B & C). cbn [fst snd] in *.
      eapply ok_mono; [apply IH; eauto|]. cbn beta. intros q Hq.
      fold (dsum r). now replace (x + kap * (dt + dsum r)) with (x + kap * dt + kap * dsum r) by lra.
  Qed.
End Inv.
