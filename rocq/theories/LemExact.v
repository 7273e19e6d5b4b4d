(** Exact results of the fixed-step solvers over the reals, for an engine whose right-hand side is a
    function. *)
From Coq Require Import ZArith Reals List Arith Lia Lra.
From Verif Require Import Num Arr ArrLemmas SpecPhys SpecEngine RLemmas ModelVertex ModelForce ModelSum
  ModelEngine ModelSolverBase ModelButcher ModelExtrap ModelSolver LemOk LemBufR SpecSolver SpecExtrap
  LemExtrap LemSolver LemRk LemSolverTime.
Import ListNotations.
Set Implicit Arguments.
Local Open Scope R_scope.

Section Exact.
  Context {E : Type} (mind : R) (ps : nat)
          (ef : E -> nat -> R -> list R -> list R -> option (E * list R))
          (garbage : nat -> list R) (F : R -> list R -> list R).
  Notation N := (Rops mind).
  Notation V := (V ps).
  Notation lin := (lin ps).
  Notation eng := (@eng R E).
  Notation lincomb := (lincomb ps).
  Notation shift := (shift ps).
  Hypothesis Hps : (0 < ps)%nat.
  Hypothesis Hgarb : forall n, V (garbage n).
  Hypothesis HF : forall t y, V y -> V (F t y).
  Hypothesis Hef : forall q step t y f, V y -> V f -> ef q step t y f = Some (q, F t y).
  Let mf := False.

  Definition Ex (t : R) (y : list R) (e : eng) : Prop := e_time e = t /\ e_y e = y /\ V y.

  Lemma new_x t y (e : eng) : Ex t y e -> V (fst (new_buffer garbage e)) /\ Ex t y (snd (new_buffer garbage e)).
  Proof. intros H. split; [apply Hgarb|exact H]. Qed.
  Lemma news_x t y n : forall (e : eng), Ex t y e ->
    length (fst (new_buffers garbage n e)) = n /\ Forall V (fst (new_buffers garbage n e)) /\
    Ex t y (snd (new_buffers garbage n e)).
  Proof.
    induction n as [|n IH]; intros e H; cbn [new_buffers].
    - cbn. auto.
    - destruct (new_buffer garbage e) as [b e'] eqn:X.
      destruct (new_x H) as [A B]. rewrite X in A, B. cbn [fst snd] in *.
      specialize (IH e' B). destruct (new_buffers garbage n e') as [l e2]. cbn [fst snd length] in *.
      destruct IH as (I1 & I2 & I3). split; [congruence|]. split; auto.
  Qed.
  Ltac alloc :=
    repeat match goal with
    | H : Ex _ _ ?e |- context [new_buffer garbage ?e] =>
        let b := fresh "b" in let e' := fresh "eng" in
        let A := fresh "VB" in let B := fresh "EB" in
        pose proof (new_x H) as (A & B);
        destruct (new_buffer garbage e) as [b e']; cbn [fst snd] in A, B
    | H : Ex _ _ ?e |- context [new_buffers garbage ?k ?e] =>
        let b := fresh "b" in let e' := fresh "eng" in
        let A := fresh "VB" in let B := fresh "EB" in let L := fresh "LB" in
        pose proof (@news_x _ _ k e H) as (L & A & B);
        destruct (new_buffers garbage k e) as [b e']; cbn [fst snd] in L, A, B
    end.
  Ltac prj := cbn [fst snd mp_k1 mp_k2 mp_tmp sm_tmp sm_du sm_fu sm_uv sm_init r4_k r4_tmp tz_f tz_pred].

  Lemma fc_E t0 y0 (e : eng) t y f : Ex t0 y0 e -> V y -> V f ->
    ok mf (eng_fcompute ef e t y f) (fun r => Ex t0 y0 (fst r) /\ snd r = F t y).
  Proof.
    intros H Hy Hf. eapply ok_mono; [apply (@fc_F E ps ef F); auto|]. intros [e1 k] [-> ->]. auto.
  Qed.
  Lemma shift_V y h k : V (shift y h k). Proof. apply lincomb_V. Qed.
  Lemma shift_eq y y' h k : V y' -> (forall w, lin w y' = lin w y + lin w k * h) -> y' = shift y h k.
  Proof. intros H1 H2. apply lincomb_eq; auto. intros w. rewrite H2. cbn [rsum nth]. lra. Qed.
  Hint Resolve shift_V lincomb_V : core.
  Lemma fmadd_E a b k d : V a -> V b -> V k -> ok mf (fmadd N ps a b k d) (fun r => r = shift b d k).
  Proof.
    intros Ha Hb Hk. eapply ok_mono; [apply ok_fmadd; auto|]. intros r (Vr & L). now apply shift_eq.
  Qed.
  Lemma fmadd_inplace_E b k d : V b -> V k -> ok mf (fmadd_inplace N ps b k d) (fun r => r = shift b d k).
  Proof.
    intros Hb Hk. eapply ok_mono; [apply ok_fmadd_inplace; auto|]. intros r (Vr & L). now apply shift_eq.
  Qed.

  Lemma euler_x dt s (e : eng) t y : euler_inv ps s -> Ex t y e ->
    ok mf (euler_advise N ps ef garbage dt s e)
      (fun r => euler_inv ps (fst r) /\ Ex (t + dt) (euler_value ps F t dt y) (snd r)).
  Proof.
    intros HS HE. unfold euler_advise.
    assert (G : forall b (e : eng), V b -> Ex t y e ->
      ok mf (let* (e, dy) := eng_fcompute ef e (e_time e) (e_y e) b in
             let* y := fmadd_inplace N ps (e_y e) dy dt in
             Some (Some dy, advise_time N (set_y e y) dt))
        (fun r => euler_inv ps (fst r) /\ Ex (t + dt) (euler_value ps F t dt y) (snd r))).
    { intros b e0 Hb H0. pose proof H0 as (T0 & Y0 & V0). rewrite T0, Y0.
      eapply ok_bind; [eapply fc_E; eauto|]. intros [e1 k] [(T1 & Y1 & V1) HK]. cbn [fst snd] in *.
      subst k. rewrite Y1.
      eapply ok_bind; [apply fmadd_inplace_E; auto|]. intros y' ->. apply ok_some. prj. split.
      - intros b' X. injection X as <-. auto.
      - split; [|split; [reflexivity|apply lincomb_V]]. cbn. now rewrite T1. }
    destruct s as [b|]; [apply G; auto|]. alloc. apply G; auto.
  Qed.

  Lemma midpoint_x dt s (e : eng) t y : midpoint_inv ps s -> Ex t y e ->
    ok mf (midpoint_advise N ps ef garbage dt s e)
      (fun r => midpoint_inv ps (fst r) /\ Ex (t + dt) (midpoint_value ps F t dt y) (snd r)).
  Proof.
    intros HS HE. unfold midpoint_advise.
    assert (G : forall s (e : eng), V (mp_k1 s) -> V (mp_k2 s) -> V (mp_tmp s) -> Ex t y e ->
      ok mf (let t := e_time e in
             let* (e, k1) := eng_fcompute ef e t (e_y e) (mp_k1 s) in
             let* tmp := fmadd N ps (mp_tmp s) (e_y e) k1 (ndiv N dt (nlit N 2)) in
             let* (e, k2) := eng_fcompute ef e (nadd N t (ndiv N dt (nlit N 2))) tmp (mp_k2 s) in
             let* y := fmadd_inplace N ps (e_y e) k2 dt in
             Some (Some (mkMidpoint k1 k2 tmp), advise_time N (set_y e y) dt))
        (fun r => midpoint_inv ps (fst r) /\ Ex (t + dt) (midpoint_value ps F t dt y) (snd r))).
    { intros m e0 V1 V2 V3 H0. cbv zeta. pose proof H0 as (T0 & Y0 & V0). rewrite T0, Y0.
      eapply ok_bind; [eapply fc_E; eauto|]. intros [e1 k1] [H1 K1]. cbn [fst snd] in *. subst k1.
      pose proof H1 as (T1 & Y1 & _). rewrite Y1.
      eapply ok_bind; [apply fmadd_E; auto|]. intros tmp ->.
      eapply ok_bind; [eapply fc_E; eauto|]. intros [e2 k2] [H2 K2]. cbn [fst snd] in *. subst k2.
      pose proof H2 as (T2 & Y2 & _). rewrite Y2.
      eapply ok_bind; [apply fmadd_inplace_E; auto|]. intros y' ->. apply ok_some. prj. split.
      - intros b' X. injection X as <-. prj. auto.
      - split; [|split; [reflexivity|apply lincomb_V]]. cbn. now rewrite T2. }
    destruct s as [b|]; [destruct (HS b eq_refl) as (A & B & C); apply G; auto|].
    alloc. apply G; auto.
  Qed.

  Lemma rk4_x dt s (e : eng) t y : rk4_inv ps s -> Ex t y e ->
    ok mf (rk4_advise N ps ef garbage dt s e)
      (fun r => rk4_inv ps (fst r) /\ Ex (t + dt) (rk4_value ps F t dt y) (snd r)).
  Proof.
    intros HS HE. unfold rk4_advise.
    assert (G : forall (s : rk4) (e : eng), rk4_inv ps (Some s) -> Ex t y e ->
      ok mf
       (let* k0 := rd (r4_k s) 0 in
        let* k1 := rd (r4_k s) 1 in
        let* k2 := rd (r4_k s) 2 in
        let* k3 := rd (r4_k s) 3 in
        let* (e, k0) := eng_fcompute ef e t (e_y e) k0 in
        let* tmp := fmadd N ps (r4_tmp s) (e_y e) k0 (ndiv N dt (nlit N 2)) in
        let* (e, k1) := eng_fcompute ef e (nadd N t (ndiv N dt (nlit N 2))) tmp k1 in
        let* tmp := fmadd N ps tmp (e_y e) k1 (ndiv N dt (nlit N 2)) in
        let* (e, k2) := eng_fcompute ef e (nadd N t (ndiv N dt (nlit N 2))) tmp k2 in
        let* tmp := fmadd N ps tmp (e_y e) k2 dt in
        let* (e, k3) := eng_fcompute ef e (nadd N t dt) tmp k3 in
        let coeff := [ndiv N dt (nlit N 6); ndiv N dt (nlit N 3); ndiv N dt (nlit N 3);
                      ndiv N dt (nlit N 6)] in
        let* y := fmaddn_inplace N ps (e_y e) [k0; k1; k2; k3] coeff 4 in
        Some (Some (mkRk4 [k0; k1; k2; k3] tmp), advise_time N (set_y e y) dt))
        (fun r => rk4_inv ps (fst r) /\ Ex (t + dt) (rk4_value ps F t dt y) (snd r))).
    { intros m e0 Hm H0. destruct (Hm m eq_refl) as (L & Fk & Vt).
      destruct (r4_k m) as [|k0 [|k1 [|k2 [|k3 [|]]]]]; cbn in L; try lia. clear L.
      repeat match goal with Q : Forall _ (_ :: _) |- _ => apply Forall_cons_iff in Q; let q := fresh "VQ" in destruct Q as [q Q] end.
      cbn [rd nth_error obind]. pose proof H0 as (T0 & Y0 & V0). rewrite Y0.
      eapply ok_bind; [eapply fc_E; eauto|]. intros [e1 q0] [H1 K0]. cbn [fst snd] in *. subst q0.
      pose proof H1 as (T1 & Y1 & _). rewrite Y1.
      eapply ok_bind; [apply fmadd_E; auto|]. intros t1 ->.
      eapply ok_bind; [eapply fc_E; eauto|]. intros [e2 q1] [H2 K1]. cbn [fst snd] in *. subst q1.
      pose proof H2 as (T2 & Y2 & _). rewrite Y2.
      eapply ok_bind; [apply fmadd_E; auto|]. intros t2 ->.
      eapply ok_bind; [eapply fc_E; eauto|]. intros [e3 q2] [H3 K2]. cbn [fst snd] in *. subst q2.
      pose proof H3 as (T3 & Y3 & _). rewrite Y3.
      eapply ok_bind; [apply fmadd_E; auto|]. intros t3 ->.
      eapply ok_bind; [eapply fc_E; eauto|]. intros [e4 q3] [H4 K3]. cbn [fst snd] in *. subst q3.
      pose proof H4 as (T4 & Y4 & _). rewrite Y4. cbv zeta.
      assert (FK : Forall V [F t y; F (t + dt / 2) (shift y (dt / 2) (F t y));
         F (t + dt / 2) (shift y (dt / 2) (F (t + dt / 2) (shift y (dt / 2) (F t y))));
         F (t + dt) (shift y dt (F (t + dt / 2) (shift y (dt / 2) (F (t + dt / 2) (shift y (dt / 2) (F t y))))))])
        by (repeat constructor; auto).
      eapply ok_bind; [apply ok_fmaddn_inplace; auto|]. intros y' (Vy & Ly).
      apply ok_some. prj. split.
      - intros m' X. injection X as <-. prj. auto.
      - split; [cbn; now rewrite T4|]. split; [|apply lincomb_V]. cbn [e_y advise_time set_y].
        apply lincomb_eq; auto. intros w. rewrite Ly. unfold wsum. cbn [rsum nth ndiv nlit Rops nadd]. lra. }
    pose proof HE as (T0 & _). rewrite T0.
    destruct s as [m|]; [apply G; auto|].
    alloc. apply G; auto. intros m X. injection X as <-. prj. auto.
  Qed.

  Lemma trapeze_x rf dt s (e : eng) t y : trapeze_inv ps s -> Ex t y e ->
    ok mf (trapeze_advise N ps ef garbage rf dt s e)
      (fun r => trapeze_inv ps (fst r) /\ Ex (t + dt) (trapeze_value ps F rf t dt y) (snd r)).
  Proof.
    intros HS HE. unfold trapeze_advise.
    assert (G : forall (s : trapeze) (e : eng), trapeze_inv ps (Some s) -> Ex t y e ->
      ok mf
       (let* f0 := rd (tz_f s) 0 in
        let* f1 := rd (tz_f s) 1 in
        let* (e, f0) := eng_fcompute ef e t (e_y e) f0 in
        let* pred := fmadd N ps (tz_pred s) (e_y e) f0 dt in
        let* (e, pred, f1) := for_ (S rf) 0 (trapeze_refine N ps ef rf dt t f0) (e, pred, f1) in
        Some (Some (mkTrapeze [f0; f1] pred), advise_time N e dt))
        (fun r => trapeze_inv ps (fst r) /\ Ex (t + dt) (trapeze_value ps F rf t dt y) (snd r))).
    { intros m e0 Hm H0. destruct (Hm m eq_refl) as (L & Fk & Vt).
      destruct (tz_f m) as [|f0 [|f1 [|]]]; cbn in L; try lia. clear L.
      repeat match goal with Q : Forall _ (_ :: _) |- _ => apply Forall_cons_iff in Q; let q := fresh "VQ" in destruct Q as [q Q] end.
      cbn [rd nth_error obind]. pose proof H0 as (T0 & Y0 & V0). rewrite Y0.
      eapply ok_bind; [eapply fc_E; eauto|]. intros [e1 g0] [H1 K0]. cbn [fst snd] in *. subst g0.
      pose proof H1 as (T1 & Y1 & _). rewrite Y1.
      eapply ok_bind; [apply fmadd_E; auto|]. intros p1 ->.
      assert (TV : forall r, V (trapeze_value ps F r t dt y)) by (intros [|r]; apply lincomb_V).
      eapply ok_bind.
      { apply (@ok_for0 _ mf (fun k (st : eng * list R * list R) =>
            let '(e, pred, f) := st in V f /\ V pred /\
            (if Nat.ltb rf k then Ex t (trapeze_value ps F rf t dt y) e else Ex t y e) /\
            (if Nat.ltb rf k then True else pred = match k with O => shift y dt (F t y)
                                         | S k' => trapeze_value ps F k' t dt y end))).
        - cbn. auto.
        - intros k [[e2 p2] g1] Hk (A & B & C & D). unfold trapeze_refine.
          destruct (Nat.ltb_spec rf k); [lia|].
          eapply ok_bind; [eapply fc_E; eauto|]. intros [e3 g2] [E3 K3]. cbn [fst snd] in *.
          pose proof E3 as (T3 & Y3 & _).
          assert (Vg : V g2) by (subst g2; auto).
          destruct (Nat.eqb_spec k rf).
          + eapply ok_bind; [apply ok_fmaddn_inplace with (bs := [F t y; g2]); auto; now rewrite Y3|].
            intros y' (Vy & Ly). apply ok_some. destruct (Nat.ltb_spec rf (S k)); [|lia].
            split; auto. split; auto. split; auto. split; [cbn; auto|]. cbn [e_y set_y]. split; auto.
            transitivity (lincomb y (dt / 2) 2 (fun _ => 1) [F t y; g2]).
            * apply lincomb_eq; auto. intros w. rewrite Ly, Y3. unfold wsum. cbn [rsum nth ndiv nlit Rops]. lra.
            * subst g2 p2 k. destruct rf; reflexivity.
          + eapply ok_bind; [apply ok_fmaddn_some with (cs := [F t y; g2]); auto; now rewrite Y3|].
            intros pr (P1 & P2 & P3). apply ok_some. destruct (Nat.ltb_spec rf (S k)); [lia|].
            split; auto. split; auto. split; auto.
            transitivity (lincomb y (dt / 2) 2 (fun _ => 1) [F t y; g2]).
            * destruct (Req_EM_T dt 0) as [Z|Z].
              -- rewrite P3.
                 ++ subst p2. apply lincomb_eq; auto. intros w. rewrite Z.
                    destruct k as [|[|k]]; cbn [trapeze_value]; unfold SpecSolver.shift; rewrite lincomb_lin; lra.
                 ++ intros (i & Hi & X). apply X. destruct i as [|[|i]]; cbn; subst dt; try lra. lia.
              -- assert (HW : some_weight 2 [ndiv N dt (nlit N 2); ndiv N dt (nlit N 2)]).
                 { exists O. split; [lia|]. cbn. lra. }
                 apply lincomb_eq; auto. intros w. rewrite P2, Y3 by auto. unfold wsum.
                 cbn [rsum nth ndiv nlit Rops]. lra.
            * subst g2 p2. destruct k; reflexivity. }
      intros [[e2 p2] g1] (A & B & C & _). apply ok_some. prj.
      destruct (Nat.ltb_spec rf (S rf)); [|lia]. split.
      - intros m' X. injection X as <-. prj. auto.
      - destruct C as (T2 & Y2 & V2). split; auto. cbn. now rewrite T2. }
    pose proof HE as (T0 & _). rewrite T0.
    destruct s as [m|]; [apply G; auto|].
    alloc. apply G; auto. intros m X. injection X as <-. prj. auto.
  Qed.

  (** Stetter: (u, v) as in [stetter_value] *)
  Definition stx (t : R) (uv : list R * list R) (s : option (@stetter R)) : Prop :=
    V (fst uv) /\ V (snd uv) /\
    forall m, s = Some m -> V (sm_tmp m) /\ V (sm_du m) /\
      (exists a b, sm_fu m = [a; b] /\ V a /\ V b /\ (sm_init m = true -> a = F t (fst uv))) /\
      (exists a b, sm_uv m = [a; b] /\ V a /\ V b /\ (sm_init m = true -> a = fst uv /\ b = snd uv)).
  Definition running (s : option (@stetter R)) : Prop := exists m, s = Some m /\ sm_init m = true.

  Lemma stx_reset t uv t' uv' s : stx t uv s -> V (fst uv') -> V (snd uv') -> stx t' uv' (stetter_reset s).
  Proof.
    intros (_ & _ & H) A B. split; auto. split; auto. intros m X. destruct s as [q|]; [|discriminate].
    injection X as <-. destruct (H q eq_refl) as (C1 & C2 & (a & b & D1 & D2 & D3 & _) & (u & v & E1 & E2 & E3 & _)).
    cbn. split; auto. split; auto. split.
    - exists a, b. repeat split; auto. discriminate.
    - exists u, v. repeat split; auto; discriminate.
  Qed.
  Lemma reset_not_running s : ~ running (stetter_reset s).
  Proof. intros (m & X & I). destruct s; cbn in X; [|discriminate]. injection X as <-. discriminate. Qed.

  Lemma stetter_value_V t h uv : V (fst (stetter_value ps F t h uv)) /\ V (snd (stetter_value ps F t h uv)).
  Proof. destruct uv as [u v]. cbn. split; apply lincomb_V. Qed.

  Lemma stetter_x dt s (e : eng) t y uv : stx t uv s -> (~ running s -> uv = (y, y)) -> Ex t y e ->
    ok mf (stetter_advise N ps ef garbage dt s e)
      (fun r => running (fst r) /\ stx (t + dt) (stetter_value ps F t dt uv) (fst r) /\
        Ex (t + dt) (lincomb (repeat 0 ps) (1 / 2) 2 (fun _ => 1)
             [fst (stetter_value ps F t dt uv); snd (stetter_value ps F t dt uv)]) (snd r)).
  Proof.
    intros (Vu & Vv & HS) HN HE. unfold stetter_advise.
    assert (G : forall (s : stetter) (e : eng) (fr : bool), Ex t y e ->
      V (sm_tmp s) -> V (sm_du s) ->
      (exists a b, sm_fu s = [a; b] /\ V a /\ V b /\ (sm_init s = true -> a = F t (fst uv))) ->
      (exists a b, sm_uv s = [a; b] /\ V a /\ V b /\ (sm_init s = true -> a = fst uv /\ b = snd uv)) ->
      (sm_init s = false -> uv = (y, y)) -> (fr = true -> sm_init s = false) ->
      ok mf
       (let* u := rd (sm_uv s) 0 in
        let* v := rd (sm_uv s) 1 in
        let* fu0 := rd (sm_fu s) 0 in
        let* fu1 := rd (sm_fu s) 1 in
        let* (u, v, first_run) :=
          if orb (negb (sm_init s)) fr then
            let* u := copy_buffer ps u (e_y e) in
            let* v := copy_buffer ps v (e_y e) in
            Some (u, v, true)
          else Some (u, v, fr) in
        let* (e, fu0) := if (first_run : bool) then eng_fcompute ef e t u fu0 else Some (e, fu0) in
        let* tmp := fmadd N ps (sm_tmp s) v fu0 (ndiv N dt (nlit N 2)) in
        let* (e, du) := eng_fcompute ef e (nadd N t (ndiv N dt (nlit N 2))) tmp (sm_du s) in
        let* u := fmadd_inplace N ps u du dt in
        let* (e, fu1) := eng_fcompute ef e (nadd N t dt) u fu1 in
        let* v := fmaddn_inplace N ps v [fu0; fu1] [ndiv N dt (nlit N 2); ndiv N dt (nlit N 2)] 2 in
        let half := ndiv N (nlit N 1) (nlit N 2) in
        let* y := fmaddn N ps (e_y e) None [u; v] [half; half] 2 in
        Some (Some (mkStetter tmp du [fu1; fu0] [u; v] true), advise_time N (set_y e y) dt))
       (fun r => running (fst r) /\ stx (t + dt) (stetter_value ps F t dt uv) (fst r) /\
        Ex (t + dt) (lincomb (repeat 0 ps) (1 / 2) 2 (fun _ => 1)
             [fst (stetter_value ps F t dt uv); snd (stetter_value ps F t dt uv)]) (snd r))).
    { intros m e0 fr H0 A B (a & b & C1 & C2 & C3 & C4) (u & v & D1 & D2 & D3 & D4) HI HFr.
      pose proof H0 as (T0 & Y0 & V0).
      rewrite C1, D1. cbn [rd nth_error obind].
      eapply ok_bind with (Q := fun r => r = (fst uv, snd uv, negb (sm_init m))).
      { destruct (sm_init m) eqn:EI; cbn [negb orb].
        - destruct fr; [discriminate (HFr eq_refl)|].
          apply ok_some. destruct (D4 eq_refl) as [-> ->]. reflexivity.
        - rewrite Y0, (HI eq_refl).
          eapply ok_bind; [apply (ok_copy mind); eauto|]. intros u' ->.
          eapply ok_bind; [apply (ok_copy mind); eauto|]. intros v' ->.
          apply ok_some. reflexivity. }
      intros [[u1 v1] fr1] Q. injection Q as -> -> ->.
      eapply ok_bind with (Q := fun r => Ex t y (fst r) /\ snd r = F t (fst uv)).
      { destruct (sm_init m) eqn:EI; cbn [negb].
        - apply ok_some. cbn [fst snd]. auto.
        - eapply fc_E; eauto. }
      intros [e1 fu0] [H1 K0]. cbn [fst snd] in *. subst fu0.
      eapply ok_bind; [apply fmadd_E; auto|]. intros tmp ->.
      eapply ok_bind; [eapply fc_E; eauto|]. intros [e2 du] [H2 K2]. cbn [fst snd] in *. subst du.
      eapply ok_bind; [apply fmadd_inplace_E; auto|]. intros u2 Eu.
      assert (Vu2 : V u2) by (cbn beta in Eu; subst u2; auto).
      eapply ok_bind; [eapply fc_E; eauto|]. intros [e3 fu1] [H3 K3]. cbn [fst snd] in *.
      assert (V1 : V fu1) by (subst fu1; auto).
      eapply ok_bind; [apply ok_fmaddn_inplace with (bs := [F t (fst uv); fu1]); auto|]. intros v2 (Vv2 & Lv).
      assert (SV : stetter_value ps F t dt uv = (u2, v2)).
      { destruct uv as [u0 v0]. cbn [stetter_value fst snd] in *. cbn beta in Eu.
        change (nadd N t (ndiv N dt (nlit N 2))) with (t + dt / 2) in Eu.
        change (ndiv N dt (nlit N 2)) with (dt / 2) in Eu. rewrite <- Eu. f_equal.
        symmetry. apply lincomb_eq; auto. intros w. rewrite Lv. subst fu1. unfold wsum.
        cbn [rsum nth ndiv nlit nadd Rops]. lra. }
      cbv zeta. pose proof H3 as (T3 & Y3 & _). rewrite Y3. eapply ok_bind.
      { apply ok_fmaddn_none with (cs := [u2; v2]); auto. }
      intros y' (Vy & Ly). apply ok_some. rewrite SV. prj. split; [eexists; split; reflexivity|]. split.
      - split; auto. split; auto. intros m' X. injection X as <-. prj.
        split; auto. split; auto. split.
        + eexists; eexists; split; [reflexivity|]. subst fu1. repeat split; auto.
        + eexists; eexists; split; [reflexivity|]. repeat split; auto.
      - split; [cbn; now rewrite T3|]. split; [|apply lincomb_V]. cbn [e_y advise_time set_y].
        apply lincomb_eq; auto. intros w. rewrite Ly. unfold wsum. cbn [rsum nth ndiv nlit Rops].
        assert (Z0 : lin w (repeat 0 ps) = 0).
        { apply lin_zeros. intros i. destruct (Nat.lt_ge_cases i ps).
          - apply nth_error_nth. now rewrite nth_error_repeat.
          - apply nth_overflow. now rewrite repeat_length. }
        rewrite Z0. lra. }
    pose proof HE as (T0 & _). rewrite T0.
    destruct s as [m|].
    - destruct (HS m eq_refl) as (A & B & C & D). apply G; auto; try congruence.
      intros X. apply HN. intros (q & Y & Z). injection Y as <-. congruence.
    - assert (uv = (y, y)) by (apply HN; intros (q & Y & _); discriminate).
      alloc. apply G; auto; prj; try discriminate.
      + destruct b1 as [|? [|? [|]]]; cbn in LB; try lia.
        repeat match goal with Q : Forall _ (_ :: _) |- _ => apply Forall_cons_iff in Q; let q := fresh "VQ" in destruct Q as [q Q] end.
        eexists; eexists; (split; [reflexivity|]). repeat split; auto; discriminate.
      + destruct b2 as [|? [|? [|]]]; cbn in LB0; try lia.
        repeat match goal with Q : Forall _ (_ :: _) |- _ => apply Forall_cons_iff in Q; let q := fresh "VQ" in destruct Q as [q Q] end.
        eexists; eexists; (split; [reflexivity|]). repeat split; auto; discriminate.
  Qed.

  (** histories *)
  Definition half_sum (uv : list R * list R) : list R :=
    lincomb (repeat 0 ps) (1 / 2) 2 (fun _ => 1) [fst uv; snd uv].
  Lemma lin_repeat0 w : lin w (repeat 0 ps) = 0.
  Proof.
    apply lin_zeros. intros i. destruct (Nat.lt_ge_cases i ps).
    - apply nth_error_nth. now rewrite nth_error_repeat.
    - apply nth_overflow. now rewrite repeat_length.
  Qed.
  Lemma half_sum_same y : V y -> half_sum (y, y) = y.
  Proof.
    intros H. symmetry. apply lincomb_eq; auto. intros w. rewrite lin_repeat0. cbn [rsum nth fst snd]. lra.
  Qed.

  Lemma one_step_all (phi : R -> R -> list R -> list R) (good : @solver R -> Prop) :
    (forall dt s (e : eng) t y, good s -> Ex t y e ->
      ok mf (advise N ps ef garbage dt s e) (fun r => good (fst r) /\ Ex (t + dt) (phi t dt y) (snd r))) ->
    forall dts s (e : eng) t y, good s -> Ex t y e ->
      ok mf (advise_all N ps ef garbage dts s e) (fun r => e_y (snd r) = run_steps phi t y dts).
  Proof.
    intros Hst. induction dts as [|dt r IH]; intros s0 e0 t y Hg He; cbn [advise_all run_steps].
    - apply ok_some. apply He.
    - eapply ok_bind; [apply Hst; eauto|]. intros [s1 e1] [A B]. apply IH; auto.
  Qed.

  Lemma stetter_all dts : forall b (e : eng) t uv, stx t uv b -> (~ running b -> fst uv = snd uv) ->
    Ex t (half_sum uv) e ->
    ok mf (advise_all N ps ef garbage dts (SStetter b) e)
      (fun r => e_y (snd r) = half_sum (run_steps (stetter_value ps F) t uv dts)).
  Proof.
    induction dts as [|dt dts IH]; intros b e t uv HS HN HE; cbn [advise_all run_steps].
    - apply ok_some. apply HE.
    - eapply ok_bind with (Q := fun r => exists b, fst r = SStetter b /\ running b /\
        stx (t + dt) (stetter_value ps F t dt uv) b /\ Ex (t + dt) (half_sum (stetter_value ps F t dt uv)) (snd r)).
      { cbn [advise]. eapply ok_bind; [eapply stetter_x; eauto|].
        - intros Eb. specialize (HN Eb). destruct uv as [u v]. cbn [fst snd] in HN. subst v.
          rewrite half_sum_same; auto. apply HS.
        - intros [b' e1] (Q1 & Q2 & Q3). apply ok_some. exists b'. auto. }
      intros [s1 e1] (b' & Q0 & Q1 & Q2 & Q3). cbn [fst snd] in Q0, Q3. subst s1. apply IH; auto. intros X. contradiction.
  Qed.

  Lemma fixed_x s (e : eng) dts y' : fresh s -> V (e_y e) ->
    fixed_value ps F s (e_time e) (e_y e) dts = Some y' ->
    ok mf (advise_all N ps ef garbage dts s e) (fun r => e_y (snd r) = y').
  Proof.
    intros HFr HV HX.
    assert (HE : Ex (e_time e) (e_y e) e) by (split; auto).
    destruct s; cbn [fresh fixed_value] in *; try discriminate; subst.
    - injection HX as <-.
      apply (@one_step_all (euler_value ps F) (fun s => match s with SEuler b => euler_inv ps b | _ => False end)); auto.
      + intros dt s0 e0 t y Hg He. destruct s0; try contradiction. cbn [advise].
        eapply ok_bind; [apply euler_x; eauto|]. intros [b e1] [A B]. apply ok_some. auto.
      + intros b X. discriminate.
    - injection HX as <-.
      apply (@one_step_all (midpoint_value ps F) (fun s => match s with SMidpoint b => midpoint_inv ps b | _ => False end)); auto.
      + intros dt s0 e0 t y Hg He. destruct s0; try contradiction. cbn [advise].
        eapply ok_bind; [apply midpoint_x; eauto|]. intros [b e1] [A B]. apply ok_some. auto.
      + intros b X. discriminate.
    - destruct (run_steps _ _ _ _) as [u v] eqn:EU in HX. injection HX as <-.
      eapply ok_mono.
      + apply stetter_all with (t := e_time e) (uv := (e_y e, e_y e)).
        * split; auto. split; auto. intros m X. discriminate.
        * auto.
        * rewrite half_sum_same; auto.
      + intros r ->. rewrite EU. reflexivity.
    - injection HX as <-.
      apply (@one_step_all (rk4_value ps F) (fun s => match s with SRk4 b => rk4_inv ps b | _ => False end)); auto.
      + intros dt s0 e0 t y Hg He. destruct s0; try contradiction. cbn [advise].
        eapply ok_bind; [apply rk4_x; eauto|]. intros [b e1] [A B]. apply ok_some. auto.
      + intros b X. discriminate.
    - injection HX as <-.
      apply (@one_step_all (trapeze_value ps F refine) (fun s => match s with STrapeze r b => r = refine /\ trapeze_inv ps b | _ => False end)); auto.
      + intros dt s0 e0 t y Hg He. destruct s0; try contradiction. destruct Hg as [-> Hg]. cbn [advise].
        eapply ok_bind; [apply trapeze_x; eauto|]. intros [b e1] [A B]. apply ok_some. cbn [fst snd] in *. auto.
      + split; auto. intros b X. discriminate.
  Qed.

  (** ** Adams-Bashforth *)
  Notation w0 := (fun _ : nat => 0).
  Notation sinv := (solver_inv ps w0 w0 0 0 0).
  Notation sgood := (good ps w0 0 0).
  Lemma lin_w0 y : lin w0 y = 0.
  Proof. unfold LemBufR.lin. apply rsum_zero. intros. lra. Qed.

  Lemma starter_x dt s (e : eng) : sgood s -> sinv s -> V (e_y e) ->
    ok mf (advise N ps ef garbage dt s e) (fun r => sgood (fst r) /\ sinv (fst r) /\ V (e_y (snd r))).
  Proof.
    intros G I HV. eapply ok_mono.
    - apply (@solver_Y E mind ps ef garbage mf (fun _ => True) w0 w0 0 0) with (x := 0); auto.
      + intros q st t y f _ Hy Hf. rewrite Hef by auto. apply ok_some. cbn [fst snd].
        split; auto. split; auto. rewrite !lin_w0. auto.
      + split; auto. split; auto. now rewrite !lin_w0.
    - intros r (A & B & C). rewrite Rmult_0_l, Rplus_0_r in *. split; auto. split; auto. apply C.
  Qed.
  Lemma solver_ok_good s : solver_ok s -> sgood s.
  Proof.
    induction s; cbn [good solver_ok]; auto.
    - intros H. split; auto. split; [lra|]. split; auto. left. intros. apply lin_w0.
    - intros [H1 H2]. auto.
  Qed.

  Lemma adams_coeff_x rank a fnum dt (f : list (list R)) (fn : nat -> list R) :
    rd (adams_rows N) rank = Some a -> (1 <= rank <= 5)%nat -> (fnum < rank)%nat ->
    (forall n, (n < rank)%nat -> nth ((rank + fnum - n) mod rank) f [] = fn n) ->
    ok mf (adams_coeff N a rank fnum dt)
      (fun c => length c = rank /\ forall w, wsum ps rank c f w =
         dt * rsum rank (fun k => nth k (ab_coeff rank) 0 * lin w (fn k))).
  Proof.
    intros Ha Hr Hf HN.
    destruct rank as [|[|[|[|[|[|rank]]]]]]; try lia;
      cbn [rd nth_error adams_rows] in Ha; injection Ha as <-;
      (destruct fnum as [|[|[|[|[|fnum]]]]]; try lia);
      (apply ok_some; split; [reflexivity|]); intros w; unfold wsum;
      cbn [rsum nth nmul nlit ndiv Rops q ab_coeff]; unfold q; cbn [nlit ndiv Rops];
      try rewrite <- (HN 0%nat ltac:(lia)); try rewrite <- (HN 1%nat ltac:(lia));
      try rewrite <- (HN 2%nat ltac:(lia)); try rewrite <- (HN 3%nat ltac:(lia));
      try rewrite <- (HN 4%nat ltac:(lia)); cbn [Nat.add Nat.sub Nat.modulo Nat.divmod snd]; field.
  Qed.

  Notation Fh := (fun (h : list (R * list R)) (k : nat) => F (fst (nth k h (0, []))) (snd (nth k h (0, [])))).

  (** [h]: the times and states before each of the steps taken *)
  Definition adams_x (p : adams_params) (h : list (R * list R)) (s : @solver R) : Prop :=
    match s with
    | SAdams p' st b step =>
        p' = p /\ step = length h /\ (1 <= ap_rank p <= 5)%nat /\
        ((step <= ap_rank p)%nat -> sgood st /\ sinv st) /\
        match b with
        | None => step = O
        | Some b => length (ab_f b) = ap_rank p /\ Forall V (ab_f b) /\
            (forall i, (i < step <= i + ap_rank p)%nat -> nth (i mod ap_rank p) (ab_f b) [] = Fh h i) /\
            (ap_corr p = true -> V (ab_corr b) /\ zeros (ab_corr b))
        end
    | _ => False
    end.

  Lemma adams_step_x p h dt s (e : eng) : adams_x p h s -> V (e_y e) ->
    ok mf (advise N ps ef garbage dt s e)
      (fun r => let h' := h ++ [(e_time e, e_y e)] in
        adams_x p h' (fst r) /\ V (e_y (snd r)) /\
        ((ap_rank p < length h)%nat ->
          e_y (snd r) = lincomb (e_y e) dt (ap_rank p) (fun k => nth k (ab_coeff (ap_rank p)) 0)
            (map (fun k => Fh h' (length h - k)%nat) (seq 0 (ap_rank p))))).
  Proof.
    intros HA HV. destruct s as [| | | | | | |p' st b step]; try contradiction.
    destruct HA as (-> & Es & Hr & HI & HB). cbn [advise]. cbv zeta.
    set (h' := h ++ [(e_time e, e_y e)]).
    destruct (Nat.eqb_spec (ap_rank p) 0); [lia|].
    destruct (rd_some (adams_rows N) (i := ap_rank p)) as (a & Ha); [cbn; lia|].
    rewrite Ha. cbn [obind].
    assert (Hf : (step mod ap_rank p < ap_rank p)%nat) by (apply Nat.mod_upper_bound; lia).
    assert (HE : Ex (e_time e) (e_y e) e) by (split; auto).
    set (t := e_time e) in *. set (y := e_y e) in *.
    eapply ok_bind with (Q := fun r => Ex t y (snd r) /\
      length (ab_f (fst r)) = ap_rank p /\ Forall V (ab_f (fst r)) /\
      (forall i, (i < step <= i + ap_rank p)%nat -> nth (i mod ap_rank p) (ab_f (fst r)) [] = Fh h i) /\
      (ap_corr p = true -> V (ab_corr (fst r)) /\ zeros (ab_corr (fst r)))).
    { destruct b as [b|].
      - apply ok_some. cbn [fst snd]. auto.
      - rewrite HB. unfold adams_alloc. alloc. destruct (ap_corr p).
        + alloc. eapply ok_bind; [apply (ok_fill mind ps)|]. intros c (L1 & _ & Z1). apply ok_some. cbn [fst snd ab_f ab_corr].
          split; auto. split; auto. split; auto. split; [intros; lia|]. intros _. split; auto.
          unfold LemBufR.V in *. congruence.
        + apply ok_some. cbn [fst snd ab_f ab_corr]. split; auto. split; auto. split; auto. split; [intros; lia|discriminate]. }
    intros [b1 e1] (A1 & A2 & A3 & A4 & A5). cbn [fst snd] in *.
    rewrite (rd_nth (ab_f b1) []) by lia. cbn [obind].
    pose proof A1 as (T1 & Y1 & V1). rewrite Y1.
    eapply ok_bind.
    { eapply fc_E; eauto. apply Forall_V_nth; auto. lia. }
    intros [e2 fb] [E2 K2]. cbn [fst snd] in *.
    pose proof E2 as (T2 & Y2 & V2).
    assert (Vfb : V fb) by (subst fb; auto).
    eapply ok_bind; [apply ok_wr; lia|]. intros f Ef. cbn beta in Ef.
    assert (F1 : length f = ap_rank p) by (subst f; now rewrite upd_length).
    assert (F2 : Forall V f) by (subst f; apply Forall_upd; auto).
    assert (F3 : forall i, (i < S step <= i + ap_rank p)%nat -> nth (i mod ap_rank p) f [] = Fh h' i).
    { intros i Hi. subst f. assert (Hm : (i mod ap_rank p < ap_rank p)%nat) by (apply Nat.mod_upper_bound; lia).
      rewrite nth_upd by lia.
      unfold h'. destruct (Nat.eq_dec i step) as [->|Hne].
      - rewrite Nat.eqb_refl. rewrite app_nth2 by lia. rewrite Es, Nat.sub_diag. cbn [nth fst snd]. exact K2.
      - rewrite app_nth1 by lia. destruct (Nat.eqb_spec (i mod ap_rank p) (step mod ap_rank p)) as [Q|Q].
        + exfalso. pose proof (Nat.div_mod i (ap_rank p) ltac:(lia)) as D1.
          pose proof (Nat.div_mod step (ap_rank p) ltac:(lia)) as D2. rewrite Q in D1.
          assert (i / ap_rank p <> step / ap_rank p)%nat by (intros Z; rewrite Z in D1; lia).
          nia.
        + apply A4. lia. }
    assert (Lh : length h' = S step) by (unfold h'; rewrite app_length; cbn; lia).
    destruct (Nat.ltb_spec (ap_rank p) step) as [Hlt|Hge].
    - eapply ok_bind.
      { eapply adams_coeff_x with (f := f) (fn := fun k => Fh h' (length h - k)%nat); eauto.
        intros k Hk. rewrite <- F3 by lia. f_equal. rewrite <- Es.
        pose proof (Nat.div_mod step (ap_rank p) ltac:(lia)) as D.
        destruct (Nat.le_gt_cases k (step mod ap_rank p)) as [L|L].
        - replace (ap_rank p + step mod ap_rank p - k)%nat with (step mod ap_rank p - k + 1 * ap_rank p)%nat by lia.
          rewrite Nat.mod_add by lia.
          replace (step - k)%nat with (step mod ap_rank p - k + (step / ap_rank p) * ap_rank p)%nat by lia.
          now rewrite Nat.mod_add by lia.
        - assert (1 <= step / ap_rank p)%nat by nia.
          replace (step - k)%nat with (ap_rank p + step mod ap_rank p - k + (step / ap_rank p - 1) * ap_rank p)%nat by nia.
          now rewrite Nat.mod_add by lia. }
      intros c (C1 & C2).
      assert (CL : forall y', V y' -> (forall w, lin w y' = lin w y + wsum ps (ap_rank p) c f w) ->
        y' = lincomb y dt (ap_rank p) (fun k => nth k (ab_coeff (ap_rank p)) 0)
            (map (fun k => Fh h' (length h - k)%nat) (seq 0 (ap_rank p)))).
      { intros y' Vy Ly. apply lincomb_eq; auto. intros w. rewrite Ly, C2. f_equal. f_equal.
        apply rsum_ext. intros k Hk. rewrite (nth_indep _ [] (Fh h' (length h - 0)%nat)) by (rewrite map_length, seq_length; lia).
        rewrite (map_nth (fun k => Fh h' (length h - k)%nat)). now rewrite seq_nth by lia. }
      rewrite Y2. destruct (ap_corr p) eqn:EC.
      + destruct (A5 eq_refl) as [V5 Z5].
        eapply ok_bind; [apply ok_fmaddn_corr; eauto; lia|].
        intros [y' cr] (Q1 & Q2 & Q3 & Q4). cbn [fst snd] in *. apply ok_some. cbn [fst snd e_y advise_time set_y].
        split; [|split; auto]. cbn [adams_x ab_f ab_corr]. split; auto. split; auto. split; auto. split; [lia|].
        rewrite EC. auto.
      + eapply ok_bind; [apply ok_fmaddn_inplace with (bs := f); eauto; lia|].
        intros y' (Q1 & Q4). cbn [fst snd] in *. apply ok_some. cbn [fst snd e_y advise_time set_y].
        split; [|split; auto]. cbn [adams_x ab_f ab_corr]. split; auto. split; auto. split; auto. split; [lia|].
        rewrite EC. split; [auto|]. split; [auto|]. split; [auto|]. intros; discriminate.
    - destruct (HI Hge) as [G1 G2].
      eapply ok_bind; [apply starter_x; eauto; now rewrite Y2|]. intros [st' e3] (B1 & B2 & B3). cbn [fst snd] in *.
      apply ok_some. cbn [fst snd]. split; [|split; [auto|lia]].
      cbn [adams_x ab_f ab_corr].
      split; [auto|]. split; [auto|]. split; [auto|]. split; [auto|]. auto.
  Qed.

  Lemma adams_all_x p dts : forall h s (e : eng), adams_x p h s -> V (e_y e) ->
    ok mf (trajectory N ps ef garbage dts s e)
      (fun tr => length tr = S (length dts) /\
        nth 0 tr (0, []) = (e_time e, e_y e) /\
        forall m, (length h <= m < length h + length dts)%nat -> (ap_rank p < m)%nat ->
          snd (nth (S m) (h ++ tr) (0, [])) =
          lincomb (snd (nth m (h ++ tr) (0, []))) (nth (m - length h) dts 0) (ap_rank p)
            (fun k => nth k (ab_coeff (ap_rank p)) 0)
            (map (fun k => Fh (h ++ tr) (m - k)%nat) (seq 0 (ap_rank p)))).
  Proof.
    induction dts as [|dt dts IH]; intros h s e HA HV; cbn [trajectory].
    - apply ok_some. cbn [length nth]. split; auto. split; auto. intros. lia.
    - pose proof (@adams_step_x p h dt s e HA HV) as HS.
      destruct (advise N ps ef garbage dt s e) as [[s' e']|]; [|contradiction].
      cbn [ok fst snd] in HS. cbv zeta in HS. destruct HS as (HA' & HV' & HY).
      specialize (IH _ _ _ HA' HV').
      destruct (trajectory N ps ef garbage dts s' e') as [l|]; [|contradiction].
      cbn [ok] in IH |- *. destruct IH as (L & H0 & HM). cbn [length nth].
      split; [lia|]. split; auto. intros m Hm Hr.
      rewrite app_length in HM. cbn [length] in HM.
      change ((e_time e, e_y e) :: l) with ([(e_time e, e_y e)] ++ l). rewrite app_assoc.
      destruct (Nat.eq_dec m (length h)) as [->|Hne].
      + rewrite (@app_nth2 _ (h ++ _) l) by (rewrite app_length; cbn; lia).
        rewrite app_length. cbn [length]. replace (S (length h) - (length h + 1))%nat with 0%nat by lia.
        rewrite H0. cbn [snd]. rewrite HY by auto. rewrite Nat.sub_diag.
        rewrite (@app_nth1 _ (h ++ _) l (0, []) (length h)) by (rewrite app_length; cbn; lia).
        rewrite (@app_nth2 _ h _ (0, []) (length h)) by lia. rewrite Nat.sub_diag. cbn [nth snd].
        f_equal. apply map_ext_in. intros k Hk. apply in_seq in Hk.
        now rewrite (@app_nth1 _ (h ++ _) l (0, []) (length h - k)%nat) by (rewrite app_length; cbn; lia).
      + replace (m - length h)%nat with (S (m - (length h + 1))) by lia. cbn [nth]. apply HM; lia.
  Qed.

  Lemma adams_fresh_x p st (e : eng) dts : fresh st -> solver_ok (SAdams p st None 0) -> V (e_y e) ->
    ok mf (trajectory N ps ef garbage dts (SAdams p st None 0) e)
      (fun tr => length tr = S (length dts) /\
        nth 0 tr (0, []) = (e_time e, e_y e) /\
        forall m, (ap_rank p < m < length dts)%nat ->
          snd (nth (S m) tr (0, [])) =
          lincomb (snd (nth m tr (0, []))) (nth m dts 0) (ap_rank p)
            (fun k => nth k (ab_coeff (ap_rank p)) 0)
            (map (fun k => Fh tr (m - k)%nat) (seq 0 (ap_rank p)))).
  Proof.
    intros HFr [Hr Hst] HV. eapply ok_mono.
    - apply (@adams_all_x p dts [] (SAdams p st None 0) e); auto.
      cbn [adams_x length]. split; auto. split; auto. split; auto. split; auto. intros _. split.
      + now apply solver_ok_good.
      + now apply fresh_inv.
    - cbn [length app Nat.add]. intros tr (A & B & C). split; auto. split; auto. intros m Hm.
      specialize (C m). rewrite Nat.sub_0_r in C. apply C; lia.
  Qed.

  (** ** Tableaux without error estimate *)
  Lemma rk_trace_plain p dt s (e : eng) r : bt_embedded (rp_table p) = false ->
    rk_step N ps ef garbage p dt s e = Some r -> snd r = [mkAcc (e_time e) dt 0 0].
  Proof.
    intros HB H.
    enough (X : ok True (rk_step N ps ef garbage p dt s e) (fun r => snd r = [mkAcc (e_time e) dt 0 0]))
      by (rewrite H in X; exact X).
    clear H. unfold rk_step. cbv zeta. apply ok_bind_any. intros [[b e1] nf] _.
    eapply ok_bind with (Q := fun r : @rk_loop R E => snd r = [mkAcc (e_time e) dt 0 0]).
    - destruct (rp_max_recursion p); cbn [sub_step];
        (eapply ok_mono; [apply (@ok_for0 _ True (fun k (st : @rk_loop R E) =>
           (k = O -> snd st = [] /\ snd (fst st) = e_time e) /\
           (k = 1%nat -> snd st = [mkAcc (e_time e) dt 0 0])))|intros st [_ H]; auto]);
        try (split; [auto|discriminate]);
        (intros k [[[[e2 b2] y2] t2] tr2] Hk [H _]; destruct k; [|lia]; cbn [fst snd] in H;
         destruct (H eq_refl) as [-> ->];
         apply ok_bind_any; intros [e3 b3] _; unfold estimate; rewrite HB; cbn [obind andb];
         apply ok_bind_any; intros [y b4] _; apply ok_some; cbn [fst snd app];
         split; [discriminate|reflexivity]).
    - intros [[[[e3 b3] y3] t3] tr3] H3. apply ok_some. exact H3.
  Qed.

  Lemma butcher_all p dts : table_wf (rp_table p) -> bt_implicit (rp_table p) = false ->
    (rp_correction p = true \/ forall i, (0 < i < bt_steps (rp_table p))%nat ->
       exists j, (j < i)%nat /\ nth j (nth i (bt_a (rp_table p)) []) 0 <> 0) ->
    (1 <= rp_subdivisions p)%nat -> bt_embedded (rp_table p) = false ->
    Forall (fun h => h <> 0) dts ->
    forall s (e : eng), V (e_y e) -> (forall b, s = Some b -> bufs_ok ps p b) ->
    ok mf (advise_all N ps ef garbage dts (SButcher p s) e)
      (fun r => e_y (snd r) = run_steps (rk_value ps F (rp_table p)) (e_time e) (e_y e) dts).
  Proof.
    intros H1 H2 H3 H4 H5. induction dts as [|h dts IH]; intros Hd s e HV HS; cbn [advise_all run_steps].
    - apply ok_some. reflexivity.
    - apply Forall_cons_iff in Hd. destruct Hd as [Hh Hd].
      eapply ok_bind with (Q := fun r => exists b, fst r = SButcher p (Some b) /\ bufs_ok ps p b /\
        e_time (snd r) = e_time e + h /\ e_y (snd r) = rk_value ps F (rp_table p) (e_time e) h (e_y e)).
      { cbn [advise]. pose proof (@rk_step_x E mind ps ef garbage F Hps Hgarb HF Hef p H1 H2 H3 H4 h s e Hh HV HS) as X.
        unfold rk_advise. pose proof (@rk_trace_plain p h s e) as Y.
        pose proof (@advise_time_step R E N ps ef garbage h (SButcher p s) e) as Z. cbn [advise] in Z. unfold rk_advise in Z.
        destruct (rk_step N ps ef garbage p h s e) as [[[b e'] tr]|]; [|contradiction].
        specialize (Y _ H5 eq_refl). cbn [snd] in Y. subst tr. cbn [obind] in *.
        destruct (Z _ eq_refl) as (Z1 & _). cbn [snd] in Z1.
        apply ok_some. exists b. cbn [fst snd ok] in *. destruct X as [X1 X2]. split; auto. split; auto. split; auto.
        cbn [rk_replay ac_t ac_dt] in X2. apply X2. }
      intros [s' e'] (b & Q1 & Q2 & Q3 & Q4). cbn [fst snd] in *. subst s'. rewrite <- Q3, <- Q4.
      apply IH; auto.
      + rewrite Q4. apply lincomb_V.
      + intros b' X. injection X as <-. auto.
  Qed.

  Lemma lincomb_same y h m c ks h' m' c' ks' : V y ->
    (forall w, h * rsum m (fun j => c j * lin w (nth j ks [])) =
               h' * rsum m' (fun j => c' j * lin w (nth j ks' []))) ->
    lincomb y h m c ks = lincomb y h' m' c' ks'.
  Proof. intros Hy H. apply lincomb_eq; auto. intros w. now rewrite lincomb_lin, H. Qed.

  Lemma rk4_value_table t h y : V y -> rk_value ps F (tab_rk4 N) t h y = rk4_value ps F t h y.
  Proof.
    intros Hy. unfold rk_value. cbn [bt_steps bt_b2 tab_rk4 rk_stages app bt_c bt_a nth].
    rewrite lincomb_0 by auto. cbn [nlit Rops]. replace (t + 0 * h) with t by lra.
    set (k1 := F t y). unfold rk4_value, SpecSolver.shift. fold k1. cbv zeta.
    unfold q. cbn [nlit ndiv Rops].
    replace (t + 1 / 2 * h) with (t + h / 2) by lra. replace (t + 1 * h) with (t + h) by lra.
    match goal with |- context [SpecSolver.lincomb ps y h 1 ?c [k1]] =>
      rewrite (@lincomb_same y h 1 c [k1] (h / 2) 1 (fun _ => 1) [k1]) by (auto; intros w; cbn [rsum nth]; lra) end.
    set (k2 := F (t + h / 2) _).
    match goal with |- context [SpecSolver.lincomb ps y h 2 ?c [k1; k2]] =>
      rewrite (@lincomb_same y h 2 c [k1; k2] (h / 2) 1 (fun _ => 1) [k2]) by (auto; intros w; cbn [rsum nth]; lra) end.
    set (k3 := F (t + h / 2) (lincomb y (h / 2) 1 (fun _ => 1) [k2])).
    match goal with |- context [SpecSolver.lincomb ps y h 3 ?c [k1; k2; k3]] =>
      rewrite (@lincomb_same y h 3 c [k1; k2; k3] h 1 (fun _ => 1) [k3]) by (auto; intros w; cbn [rsum nth]; lra) end.
    apply lincomb_same; auto. intros w. cbn [rsum nth]. lra.
  Qed.

  Lemma run_steps_ext (phi psi : R -> R -> list R -> list R) dts :
    (forall t h y, V y -> phi t h y = psi t h y /\ V (phi t h y)) ->
    forall t y, V y -> run_steps phi t y dts = run_steps psi t y dts.
  Proof.
    intros H. induction dts as [|h dts IH]; intros t y Hy; cbn [run_steps]; auto.
    destruct (H t h y Hy) as [A B]. rewrite <- A. auto.
  Qed.
End Exact.

(** the starter phase of Adams-Bashforth, any arithmetic *)
Lemma adams_starter_phase : forall (T E : Type) (N : NumOps T) ps
    (ef : E -> nat -> T -> list T -> list T -> option (E * list T)) garbage dt p st b step e r,
  (step <= ap_rank p)%nat ->
  advise N ps ef garbage dt (SAdams p st b step) e = Some r ->
  exists e0 st' b', advise N ps ef garbage dt st e0 = Some (st', snd r) /\
    fst r = SAdams p st' b' (S step) /\
    e_time e0 = e_time e /\ e_y e0 = e_y e /\ e_step e0 = e_step e.
Proof.
  intros T E N ps ef garbage dt p st b step e r Hs H.
  enough (X : ok True (advise N ps ef garbage dt (SAdams p st b step) e) (fun r =>
    exists e0 st' b', advise N ps ef garbage dt st e0 = Some (st', snd r) /\
    fst r = SAdams p st' b' (S step) /\
    e_time e0 = e_time e /\ e_y e0 = e_y e /\ e_step e0 = e_step e)) by (rewrite H in X; exact X).
  clear H. cbn [advise]. cbv zeta. destruct (Nat.eqb (ap_rank p) 0); [exact I|].
  apply ok_bind_any. intros a _.
  assert (NB : forall n (e : @eng T E), e_time (snd (new_buffers garbage n e)) = e_time e /\
     e_y (snd (new_buffers garbage n e)) = e_y e /\ e_step (snd (new_buffers garbage n e)) = e_step e).
  { induction n as [|n IH]; intros e0; cbn [new_buffers]; auto.
    unfold new_buffer. specialize (IH (mkEng (e_y e0) (e_time e0) (e_step e0) (e_priv e0) (S (e_nbuf e0)))).
    destruct (new_buffers garbage n _) as [l e2]. cbn in *. auto. }
  eapply ok_bind with (Q := fun r => e_time (snd r) = e_time e /\ e_y (snd r) = e_y e /\ e_step (snd r) = e_step e).
  { destruct b as [b|]; [apply ok_some; auto|]. unfold adams_alloc.
    specialize (NB (ap_rank p) e). destruct (new_buffers garbage (ap_rank p) e) as [f e1]. cbn [snd] in NB.
    destruct (ap_corr p).
    - unfold new_buffer. apply ok_bind_any. intros c _. apply ok_some. exact NB.
    - apply ok_some. exact NB. }
  intros [b1 e1] (A1 & A2 & A3). cbn [snd] in *.
  apply ok_bind_any. intros fb _.
  eapply ok_bind with (Q := fun r => e_time (fst r) = e_time e /\ e_y (fst r) = e_y e /\ e_step (fst r) = e_step e).
  { unfold eng_fcompute. apply ok_bind_any. intros [q f] _. apply ok_some. cbn. auto. }
  intros [e2 fb2] (B1 & B2 & B3). cbn [fst] in *.
  apply ok_bind_any. intros f _.
  destruct (Nat.ltb_spec (ap_rank p) step); [lia|].
  destruct (advise N ps ef garbage dt st e2) as [[st' e3]|] eqn:EA; [|exact I].
  cbn [obind ok]. exists e2, st'. eexists. cbn [fst snd]. split; [exact EA|]. split; [reflexivity|]. auto.
Qed.
