(** Two copies of a solver at work: what a step computes from the engine's state alone.

    The calculus runs two programs side by side; the solvers of one step give the same state from
    the same state, whatever their buffers hold. *)
From Coq Require Import Bool ZArith List Arith Lia.
From Verif Require Import Num Arr ArrLemmas ModelVertex ModelForce ModelSum ModelEngine ModelSolverBase ModelButcher
  ModelExtrap ModelSolver LemEngine LemBuffers LemOk SpecSolver SpecExtrap LemExtrap LemSafe SpecResume.
Import ListNotations.
Set Implicit Arguments.

(** both programs give results, related by [Q] *)
Definition twin {A C : Type} (o1 : option A) (o2 : option C) (Q : A -> C -> Prop) : Prop :=
  match o1, o2 with Some a, Some c => Q a c | _, _ => False end.

Lemma twin_some A C (a : A) (c : C) (Q : A -> C -> Prop) : Q a c -> twin (Some a) (Some c) Q.
Proof. auto. Qed.
Lemma twin_mono A C (o1 : option A) (o2 : option C) (Q Q' : A -> C -> Prop) :
  twin o1 o2 Q -> (forall a c, Q a c -> Q' a c) -> twin o1 o2 Q'.
Proof. destruct o1, o2; cbn; auto. Qed.
Lemma twin_bind A C A' C' (o1 : option A) (o2 : option C) (f1 : A -> option A') (f2 : C -> option C')
  (Q : A -> C -> Prop) (R : A' -> C' -> Prop) :
  twin o1 o2 Q -> (forall a c, Q a c -> twin (f1 a) (f2 c) R) -> twin (obind o1 f1) (obind o2 f2) R.
Proof. destruct o1, o2; cbn; auto; tauto. Qed.
(** one and the same program *)
Lemma twin_same A (o : option A) (Q : A -> Prop) : ok False o Q -> twin o o (fun a c => a = c /\ Q a).
Proof. destruct o; cbn; auto. Qed.
Lemma twin_for S1 S2 (P : nat -> S1 -> S2 -> Prop) n i (b1 : nat -> S1 -> option S1) (b2 : nat -> S2 -> option S2) :
  forall s1 s2, P i s1 s2 ->
  (forall k s1 s2, i <= k < i + n -> P k s1 s2 -> twin (b1 k s1) (b2 k s2) (P (S k))) ->
  twin (for_ n i b1 s1) (for_ n i b2 s2) (P (i + n)).
Proof.
  revert i. induction n as [|n IH]; intros i s1 s2 H0 HB; cbn.
  - now rewrite Nat.add_0_r.
  - pose proof (HB i s1 s2 ltac:(lia) H0) as H1. destruct (b1 i s1), (b2 i s2); cbn in H1; try contradiction.
    replace (i + S n) with (S i + n) by lia. apply IH; auto.
    intros k x y Hk Hx. apply HB; auto. lia.
Qed.
Lemma twin_for0 S1 S2 (P : nat -> S1 -> S2 -> Prop) n (b1 : nat -> S1 -> option S1) (b2 : nat -> S2 -> option S2) s1 s2 :
  P 0 s1 s2 -> (forall k s1 s2, k < n -> P k s1 s2 -> twin (b1 k s1) (b2 k s2) (P (S k))) ->
  twin (for_ n 0 b1 s1) (for_ n 0 b2 s2) (P n).
Proof. intros H0 HB. change n with (0 + n) at 3. apply twin_for; auto. intros k x y Hk. apply HB. lia. Qed.

Section Twin.
  Context {T E : Type} (U : NumOps T) (ps : nat)
          (ef : E -> nat -> T -> list T -> list T -> option (E * list T))
          (garbage garbage' : nat -> list T) (F : nat -> T -> list T -> list T).
  Notation B := (B ps).
  Notation eng := (@eng T E).
  Hypothesis Hps : 0 < ps.
  Hypothesis Hgarb : forall n, B (garbage n).
  Hypothesis Hgarb' : forall n, B (garbage' n).
  Hypothesis Hef : forall q step t y f, B y -> B f -> exists q', ef q step t y f = Some (q', F step t y).
  Hypothesis HF : forall n t y, B y -> B (F n t y).

  Lemma rd_any A (l : list A) i : i < length l -> ok False (rd l i) (fun a => nth_error l i = Some a).
  Proof.
    intros Hi. apply ok_rd. destruct (nth_error l i) eqn:X; eauto. apply nth_error_None in X. lia.
  Qed.

  (** ** the primitives *)
  Definition same (a c : list T) : Prop := a = c /\ B a.
  Lemma twin_fmadd a1 a2 b c d : B a1 -> B a2 -> B b -> B c ->
    twin (fmadd U ps a1 b c d) (fmadd U ps a2 b c d) same.
  Proof.
    unfold LemSafe.B. intros H1 H2 Hb Hc.
    destruct (@fmadd_cells T U ps a1 b c d) as (x & -> & L1 & C1); try lia.
    destruct (@fmadd_cells T U ps a2 b c d) as (z & -> & L2 & C2); try lia.
    cbn. split; [|unfold LemSafe.B; lia]. apply nth_error_ext; [lia|]. intros i Hi. rewrite C1, C2.
    now replace (i <? ps) with true by (symmetry; apply Nat.ltb_lt; lia).
  Qed.
  Lemma twin_copy a1 a2 b : B a1 -> B a2 -> B b -> twin (copy_buffer ps a1 b) (copy_buffer ps a2 b) same.
  Proof.
    unfold LemSafe.B. intros H1 H2 Hb.
    destruct (@copy_cells T U ps a1 b) as (x & -> & L1 & C1); try lia.
    destruct (@copy_cells T U ps a2 b) as (z & -> & L2 & C2); try lia.
    cbn. split; [|unfold LemSafe.B; lia]. apply nth_error_ext; [lia|]. intros i Hi. rewrite C1, C2.
    now replace (i <? ps) with true by (symmetry; apply Nat.ltb_lt; lia).
  Qed.
  Lemma twin_fmaddn_null a1 a2 bs c n : B a1 -> B a2 -> Forall B bs -> n <= length c -> n <= length bs ->
    twin (fmaddn U ps a1 None bs c n) (fmaddn U ps a2 None bs c n) same.
  Proof.
    intros H1 H2 Hb Hc Hn. assert (G : ok False (fmaddn U ps a1 None bs c n) B) by (apply s_fmaddn; auto).
    assert (X : fmaddn U ps a1 None bs c n = fmaddn U ps a2 None bs c n).
    { unfold fmaddn. destruct (Nat.ltb_spec (length bs) n); [lia|]. rewrite !fill_repeat.
      unfold LemSafe.B in H1, H2. now rewrite H1, H2. }
    rewrite <- X. now apply twin_same.
  Qed.
  Lemma twin_fmaddn_base a1 a2 b cs d n : B a1 -> B a2 -> B b -> Forall B cs -> n <= length d -> n <= length cs ->
    any_weight U d n = true ->
    twin (fmaddn U ps a1 (Some b) cs d n) (fmaddn U ps a2 (Some b) cs d n) same.
  Proof.
    intros H1 H2 Hb Hcs Hd Hn Hw. unfold LemSafe.B in *.
    assert (V : forall k, k < n -> ps <= length (nth k cs [])).
    { intros k Hk. rewrite Forall_forall in Hcs. rewrite (Hcs (nth k cs [])); auto. apply nth_In. lia. }
    destruct (@fmaddn_base_cells T U ps a1 b cs d n) as (x & -> & C1); try lia; auto.
    destruct (@fmaddn_base_cells T U ps a2 b cs d n) as (z & -> & C2); try lia; auto.
    rewrite Hw in C1, C2. destruct C1 as [L1 C1], C2 as [L2 C2].
    cbn. split; [|unfold LemSafe.B; lia]. apply nth_error_ext; [lia|]. intros i Hi. rewrite C1, C2.
    now replace (i <? ps) with true by (symmetry; apply Nat.ltb_lt; lia).
  Qed.

  (** ** the engine: everything but the private state and the count of allocations *)
  Definition EQ (e1 e2 : eng) : Prop :=
    e_y e1 = e_y e2 /\ e_time e1 = e_time e2 /\ e_step e1 = e_step e2 /\ B (e_y e1).
  Lemma EQ_B1 e1 e2 : EQ e1 e2 -> B (e_y e1). Proof. intros H; apply H. Qed.
  Lemma EQ_B2 e1 e2 : EQ e1 e2 -> B (e_y e2). Proof. intros (A & _ & _ & C). congruence. Qed.
  Lemma EQ_adv e1 e2 y dt : EQ e1 e2 -> B y -> EQ (advise_time U (set_y e1 y) dt) (advise_time U (set_y e2 y) dt).
  Proof. intros (A & C & D & K) Hy. unfold EQ. cbn. split; [|split; [|split]]; auto; congruence. Qed.
  Lemma EQ_adv' e1 e2 dt : EQ e1 e2 -> EQ (advise_time U e1 dt) (advise_time U e2 dt).
  Proof. intros (A & C & D & K). unfold EQ. cbn. split; [|split; [|split]]; auto; congruence. Qed.
  Lemma EQ_sety e1 e2 y : EQ e1 e2 -> B y -> EQ (set_y e1 y) (set_y e2 y).
  Proof. intros (A & C & D & K) Hy. unfold EQ. cbn. split; [|split; [|split]]; auto. Qed.
  Lemma EQ_sett e1 e2 t : EQ e1 e2 -> EQ (set_time e1 t) (set_time e2 t).
  Proof. intros (A & C & D & K). unfold EQ. cbn. split; [|split; [|split]]; auto. Qed.
  Hint Resolve EQ_B1 EQ_B2 EQ_adv EQ_adv' EQ_sety EQ_sett : core.
  Lemma twin_fc e1 e2 t y f1 f2 : EQ e1 e2 -> B y -> B f1 -> B f2 ->
    twin (eng_fcompute ef e1 t y f1) (eng_fcompute ef e2 t y f2)
      (fun r1 r2 => EQ (fst r1) (fst r2) /\ same (snd r1) (snd r2)).
  Proof.
    intros (A & C & D & K) Hy H1 H2. unfold eng_fcompute.
    destruct (@Hef (e_priv e1) (e_step e1) t y f1 Hy H1) as (q1 & ->).
    destruct (@Hef (e_priv e2) (e_step e2) t y f2 Hy H2) as (q2 & ->).
    cbn. split; [|split; [congruence|auto]]. unfold EQ. cbn. auto.
  Qed.
  (** allocation *)
  Lemma new_one g (Hg : forall n, B (g n)) (e : eng) : B (fst (new_buffer g e)) /\
    e_y (snd (new_buffer g e)) = e_y e /\ e_time (snd (new_buffer g e)) = e_time e /\
    e_step (snd (new_buffer g e)) = e_step e.
  Proof. cbn. auto. Qed.
  Lemma new_many g (Hg : forall n, B (g n)) n : forall (e : eng), (length (fst (new_buffers g n e)) = n /\ Forall B (fst (new_buffers g n e))) /\
    e_y (snd (new_buffers g n e)) = e_y e /\ e_time (snd (new_buffers g n e)) = e_time e /\
    e_step (snd (new_buffers g n e)) = e_step e.
  Proof.
    induction n as [|n IH]; intros e; cbn [new_buffers]; [cbn; auto|].
    destruct (new_buffer g e) as [b e'] eqn:X. destruct (@new_one g Hg e) as (A & Y & T1 & S1). rewrite X in *.
    cbn [fst snd] in *. specialize (IH e'). destruct (new_buffers g n e') as [l e2].
    cbn [fst snd length] in *. destruct IH as ((I1 & I2) & I3 & I4 & I5).
    split; [split; auto|]. split; [|split]; congruence.
  Qed.
  Lemma EQ_l e1 e2 e1' : EQ e1 e2 -> e_y e1' = e_y e1 -> e_time e1' = e_time e1 -> e_step e1' = e_step e1 -> EQ e1' e2.
  Proof. intros (A & C & D & K) X Y Z. unfold EQ. rewrite X, Y, Z. auto. Qed.
  Lemma EQ_r e1 e2 e2' : EQ e1 e2 -> e_y e2' = e_y e2 -> e_time e2' = e_time e2 -> e_step e2' = e_step e2 -> EQ e1 e2'.
  Proof. intros (A & C & D & K) X Y Z. unfold EQ. rewrite X, Y, Z. auto. Qed.

  Ltac prj := cbn [fst snd mp_k1 mp_k2 mp_tmp sm_tmp sm_du sm_fu sm_uv sm_init r4_k r4_tmp tz_f tz_pred
    rb_k rb_t rb_tmpk rb_ycorr rb_tcorr rb_stack bb_y0 bb_int bb_ext ne_table ne_prev ne_diff ab_f ab_corr] in *.
  (** allocations on either side, one at a time *)
  Ltac step_eq X Y Z :=
    match goal with
    | H : EQ ?e ?e2 |- _ => match type of X with e_y ?e' = e_y e => pose proof (@EQ_l _ _ _ H X Y Z); clear H end
    | H : EQ ?e1 ?e |- _ => match type of X with e_y ?e' = e_y e => pose proof (@EQ_r _ _ _ H X Y Z); clear H end
    end.
  Ltac alloc :=
    repeat match goal with
    | |- context [new_buffer garbage ?e] =>
        let b := fresh "b" in let e' := fresh "eng" in
        let A := fresh "VB" in let X := fresh "HX" in let Y := fresh "HY" in let Z := fresh "HZ" in
        destruct (@new_one garbage Hgarb e) as (A & X & Y & Z);
        destruct (new_buffer garbage e) as [b e']; cbn [fst snd] in A, X, Y, Z; step_eq X Y Z; clear X Y Z
    | |- context [new_buffers garbage ?n ?e] =>
        let b := fresh "b" in let e' := fresh "eng" in
        let A := fresh "VB" in let L := fresh "LB" in let X := fresh "HX" in let Y := fresh "HY" in let Z := fresh "HZ" in
        destruct (@new_many garbage Hgarb n e) as ((L & A) & X & Y & Z);
        destruct (new_buffers garbage n e) as [b e']; cbn [fst snd] in L, A, X, Y, Z; step_eq X Y Z; clear X Y Z
    | |- context [new_buffer garbage' ?e] =>
        let b := fresh "b" in let e' := fresh "eng" in
        let A := fresh "VB" in let X := fresh "HX" in let Y := fresh "HY" in let Z := fresh "HZ" in
        destruct (@new_one garbage' Hgarb' e) as (A & X & Y & Z);
        destruct (new_buffer garbage' e) as [b e']; cbn [fst snd] in A, X, Y, Z; step_eq X Y Z; clear X Y Z
    | |- context [new_buffers garbage' ?n ?e] =>
        let b := fresh "b" in let e' := fresh "eng" in
        let A := fresh "VB" in let L := fresh "LB" in let X := fresh "HX" in let Y := fresh "HY" in let Z := fresh "HZ" in
        destruct (@new_many garbage' Hgarb' n e) as ((L & A) & X & Y & Z);
        destruct (new_buffers garbage' n e) as [b e']; cbn [fst snd] in L, A, X, Y, Z; step_eq X Y Z; clear X Y Z
    end.
  Ltac fa := repeat constructor; auto.
  Ltac eqs := match goal with H : EQ ?e1 ?e2 |- _ =>
      let A := fresh "EY" in let C := fresh "ET" in
      pose proof (proj1 H) as A; pose proof (proj1 (proj2 H)) as C; rewrite <- ?A, <- ?C; clear A C end.
  Ltac same1 := let x := fresh "x" in let y := fresh "y" in let A := fresh "VX" in
      intros x y [<- A]; prj.
  Ltac st :=
    cbv beta iota;
    repeat (progress eqs);
    match goal with
    | |- twin (obind (eng_fcompute ef _ _ _ _) _) _ _ =>
        eapply twin_bind; [apply twin_fc; eauto|]; let e := fresh "e" in let e' := fresh "e" in
        let k := fresh "k" in let k' := fresh "k" in
        let A := fresh "QE" in let C := fresh "VK" in intros [e k] [e' k'] [A [C ?]]; prj; subst k'
    | |- twin (obind (fmadd _ _ _ _ _ _) _) _ _ => eapply twin_bind; [apply twin_fmadd; eauto|]; same1
    | |- twin (obind (copy_buffer _ _ _) _) _ _ => eapply twin_bind; [apply twin_copy; eauto|]; same1
    | |- twin (obind (fmadd_inplace _ _ _ _ _) _) _ _ =>
        eapply twin_bind; [apply twin_same; apply s_fmadd_inplace; eauto|]; same1
    | |- twin (obind (fmaddn_inplace _ _ _ _ _ _) _) _ _ =>
        eapply twin_bind; [apply twin_same; apply s_fmaddn_inplace; first [exact Hps|solve [eauto]|solve [fa]|cbn; lia]|]; same1
    | |- twin (obind (fmaddn _ _ _ None _ _ _) _) _ _ =>
        eapply twin_bind; [apply twin_fmaddn_null; [solve [eauto]|solve [eauto]|solve [fa]|cbn; lia|cbn; lia]|]; same1
    end.

  Lemma euler_twin dt s1 s2 e1 e2 : i_euler ps s1 -> i_euler ps s2 -> EQ e1 e2 ->
    twin (euler_advise U ps ef garbage dt s1 e1) (euler_advise U ps ef garbage' dt s2 e2)
      (fun r1 r2 => i_euler ps (fst r1) /\ i_euler ps (fst r2) /\ EQ (snd r1) (snd r2)).
  Proof.
    intros H1 H2 HE. unfold euler_advise.
    destruct s1 as [b1|]; [pose proof (H1 _ eq_refl)|]; (destruct s2 as [b2|]; [pose proof (H2 _ eq_refl)|]); alloc;
      (st; st; apply twin_some; prj; split; [|split]; auto; intros z X; injection X as <-; auto).
  Qed.

  Lemma midpoint_twin dt s1 s2 e1 e2 : i_midpoint ps s1 -> i_midpoint ps s2 -> EQ e1 e2 ->
    twin (midpoint_advise U ps ef garbage dt s1 e1) (midpoint_advise U ps ef garbage' dt s2 e2)
      (fun r1 r2 => i_midpoint ps (fst r1) /\ i_midpoint ps (fst r2) /\ EQ (snd r1) (snd r2)).
  Proof.
    intros H1 H2 HE. unfold midpoint_advise.
    destruct s1 as [b1|]; [destruct (H1 _ eq_refl) as (? & ? & ?)|];
      (destruct s2 as [b2|]; [destruct (H2 _ eq_refl) as (? & ? & ?)|]); alloc; cbv zeta; prj;
      (do 4 st; apply twin_some; prj; split; [|split]; auto; intros z X; injection X as <-; auto).
  Qed.

  Lemma two_inv (l : list (list T)) : two_bufs ps l -> exists a b, l = [a; b] /\ B a /\ B b.
  Proof.
    intros [L V]. destruct l as [|a [|b [|]]]; try discriminate L. inversion V as [|? ? V1 V2]. inversion V2. eauto.
  Qed.
  Ltac two H := let a := fresh "a" in let b := fresh "b" in let E := fresh "E2" in
    let A := fresh "A2" in let C := fresh "C2" in
    destruct (two_inv H) as (a & b & E & A & C); rewrite ?E in *; clear H.
  Ltac rds := unfold rd; cbn [nth_error obind].

  Lemma rk4_twin dt s1 s2 e1 e2 : i_rk4 ps s1 -> i_rk4 ps s2 -> EQ e1 e2 ->
    twin (rk4_advise U ps ef garbage dt s1 e1) (rk4_advise U ps ef garbage' dt s2 e2)
      (fun r1 r2 => i_rk4 ps (fst r1) /\ i_rk4 ps (fst r2) /\ EQ (snd r1) (snd r2)).
  Proof.
    intros H1 H2 HE. unfold rk4_advise.
    assert (G : forall (m1 m2 : rk4) e1 e2 t, length (r4_k m1) = 4 -> Forall B (r4_k m1) -> B (r4_tmp m1) ->
      length (r4_k m2) = 4 -> Forall B (r4_k m2) -> B (r4_tmp m2) -> EQ e1 e2 ->
      let f := fun (s : rk4) (e : eng) =>
          let* k0 := rd (r4_k s) 0 in
          let* k1 := rd (r4_k s) 1 in
          let* k2 := rd (r4_k s) 2 in
          let* k3 := rd (r4_k s) 3 in
          let* (e, k0) := eng_fcompute ef e t (e_y e) k0 in
          let* tmp := fmadd U ps (r4_tmp s) (e_y e) k0 (ndiv U dt (nlit U 2)) in
          let* (e, k1) := eng_fcompute ef e (nadd U t (ndiv U dt (nlit U 2))) tmp k1 in
          let* tmp := fmadd U ps tmp (e_y e) k1 (ndiv U dt (nlit U 2)) in
          let* (e, k2) := eng_fcompute ef e (nadd U t (ndiv U dt (nlit U 2))) tmp k2 in
          let* tmp := fmadd U ps tmp (e_y e) k2 dt in
          let* (e, k3) := eng_fcompute ef e (nadd U t dt) tmp k3 in
          let coeff := [ndiv U dt (nlit U 6); ndiv U dt (nlit U 3); ndiv U dt (nlit U 3);
                        ndiv U dt (nlit U 6)] in
          let* y := fmaddn_inplace U ps (e_y e) [k0; k1; k2; k3] coeff 4 in
          Some (Some (mkRk4 [k0; k1; k2; k3] tmp), advise_time U (set_y e y) dt) in
      twin (f m1 e1) (f m2 e2)
        (fun r1 r2 => i_rk4 ps (fst r1) /\ i_rk4 ps (fst r2) /\ EQ (snd r1) (snd r2))).
    { clear H1 H2 HE s1 s2 e1 e2. intros m1 m2 e1 e2 t L1 V1 T1 L2 V2 T2 HE f. unfold f. clear f.
      destruct (r4_k m1) as [|a0 [|a1 [|a2 [|a3 [|]]]]]; try discriminate L1.
      destruct (r4_k m2) as [|b0 [|b1 [|b2 [|b3 [|]]]]]; try discriminate L2.
      repeat match goal with H : Forall _ (_ :: _) |- _ => inversion_clear H end.
      rds. do 7 st. cbv zeta. st. apply twin_some. prj. split; [|split]; auto;
        (intros z X; injection X as <-; prj; split; [reflexivity|]; split; fa). }
    assert (ET : e_time e1 = e_time e2) by apply HE. rewrite <- ET. clear ET.
    destruct s1 as [b1|]; [destruct (H1 _ eq_refl) as (? & ? & ?)|];
      (destruct s2 as [b2|]; [destruct (H2 _ eq_refl) as (? & ? & ?)|]); alloc; apply G; auto.
  Qed.

  Lemma refine_twin refine dt t f0 k e1 e2 pred f1 f2 : EQ e1 e2 -> B f0 -> B pred -> B f1 -> B f2 ->
    twin (trapeze_refine U ps ef refine dt t f0 k (e1, pred, f1))
         (trapeze_refine U ps ef refine dt t f0 k (e2, pred, f2))
      (fun r1 r2 => EQ (fst (fst r1)) (fst (fst r2)) /\ same (snd (fst r1)) (snd (fst r2)) /\ same (snd r1) (snd r2)).
  Proof.
    intros HE V0 Vp V1 V2. unfold trapeze_refine. cbv zeta. st. destruct (Nat.eqb _ _).
    - st. apply twin_some. prj. split; auto. split; split; auto.
    - eqs. eapply twin_bind; [apply twin_same; apply s_fmaddn; first [exact Hps|solve [eauto]|solve [fa]|cbn; lia]|]. same1.
      apply twin_some. prj. split; auto. split; split; auto.
  Qed.
  Lemma trapeze_twin refine dt s1 s2 e1 e2 : i_trapeze ps s1 -> i_trapeze ps s2 -> EQ e1 e2 ->
    twin (trapeze_advise U ps ef garbage refine dt s1 e1) (trapeze_advise U ps ef garbage' refine dt s2 e2)
      (fun r1 r2 => i_trapeze ps (fst r1) /\ i_trapeze ps (fst r2) /\ EQ (snd r1) (snd r2)).
  Proof.
    intros H1 H2 HE. unfold trapeze_advise.
    assert (G : forall (m1 m2 : trapeze) e1 e2 t, two_bufs ps (tz_f m1) -> B (tz_pred m1) ->
      two_bufs ps (tz_f m2) -> B (tz_pred m2) -> EQ e1 e2 ->
      let f := fun (s : trapeze) (e : eng) =>
          let* f0 := rd (tz_f s) 0 in
          let* f1 := rd (tz_f s) 1 in
          let* (e, f0) := eng_fcompute ef e t (e_y e) f0 in
          let* pred := fmadd U ps (tz_pred s) (e_y e) f0 dt in
          let* (e, pred, f1) := for_ (S refine) 0 (trapeze_refine U ps ef refine dt t f0) (e, pred, f1) in
          Some (Some (mkTrapeze [f0; f1] pred), advise_time U e dt) in
      twin (f m1 e1) (f m2 e2)
        (fun r1 r2 => i_trapeze ps (fst r1) /\ i_trapeze ps (fst r2) /\ EQ (snd r1) (snd r2))).
    { intros m1 m2 x1 x2 t W1 P1 W2 P2 QE f. unfold f. clear f. two W1. two W2. rds. st. st.
      set (R := fun r1 r2 : eng * list T * list T => EQ (fst (fst r1)) (fst (fst r2)) /\
        same (snd (fst r1)) (snd (fst r2)) /\ B (snd r1) /\ B (snd r2)).
      eapply twin_bind with (Q := R).
      { apply (@twin_for0 _ _ (fun _ => R)).
        - unfold R. prj. split; auto. split; auto. split; auto.
        - intros j [[r1 p1] g1] [[r2 p2] g2] Hj (Q1 & [QQ Q2] & Q3 & Q4). prj. subst p2.
          eapply twin_mono; [apply refine_twin; eauto|]. intros [[y1 z1] h1] [[y2 z2] h2] (S1 & S2 & [SS S3]).
          prj. subst h2. unfold R. prj. auto. }
      intros [[r1 p1] g1] [[r2 p2] g2] (Q1 & [QQ Q2] & Q3 & Q4). prj. subst p2. apply twin_some. prj.
      split; [|split]; auto; (intros z X; injection X as <-; prj; split; auto; apply two_intro; auto). }
    assert (ET : e_time e1 = e_time e2) by apply HE. rewrite <- ET. clear ET.
    destruct s1 as [b1|]; [destruct (H1 _ eq_refl) as (? & ?)|];
      (destruct s2 as [b2|]; [destruct (H2 _ eq_refl) as (? & ?)|]); alloc; apply G; prj; auto; split; auto.
  Qed.

  (** ** the integrator of Bulirsch-Stoer: equal once it has been restarted *)
  Definition restart (s : option (@stetter T)) : Prop := forall m, s = Some m -> sm_init m = false.
  Definition alike (s1 s2 : option (@stetter T)) : Prop :=
    restart s1 /\ restart s2 \/
    exists m1 m2, s1 = Some m1 /\ s2 = Some m2 /\ sm_init m1 = true /\ sm_init m2 = true /\
      sm_uv m1 = sm_uv m2 /\ nth_error (sm_fu m1) 0 = nth_error (sm_fu m2) 0.
  Definition stetter_core (dt t : T) (s : @stetter T) (e : eng) (first_run : bool) :=
    let* u := rd (sm_uv s) 0 in
    let* v := rd (sm_uv s) 1 in
    let* fu0 := rd (sm_fu s) 0 in
    let* fu1 := rd (sm_fu s) 1 in
    let* (u, v, first_run) :=
      if orb (negb (sm_init s)) first_run then
        let* u := copy_buffer ps u (e_y e) in
        let* v := copy_buffer ps v (e_y e) in
        Some (u, v, true)
      else Some (u, v, first_run) in
    let* (e, fu0) := if (first_run : bool) then eng_fcompute ef e t u fu0 else Some (e, fu0) in
    let* tmp := fmadd U ps (sm_tmp s) v fu0 (ndiv U dt (nlit U 2)) in
    let* (e, du) := eng_fcompute ef e (nadd U t (ndiv U dt (nlit U 2))) tmp (sm_du s) in
    let* u := fmadd_inplace U ps u du dt in
    let* (e, fu1) := eng_fcompute ef e (nadd U t dt) u fu1 in
    let* v := fmaddn_inplace U ps v [fu0; fu1] [ndiv U dt (nlit U 2); ndiv U dt (nlit U 2)] 2 in
    let half := ndiv U (nlit U 1) (nlit U 2) in
    let* y := fmaddn U ps (e_y e) None [u; v] [half; half] 2 in
    Some (Some (mkStetter tmp du [fu1; fu0] [u; v] true), advise_time U (set_y e y) dt).
  Definition st_res (r1 r2 : option (@stetter T) * eng) : Prop :=
    i_stetter ps (fst r1) /\ i_stetter ps (fst r2) /\ alike (fst r1) (fst r2) /\ EQ (snd r1) (snd r2).
  Lemma core_twin dt t m1 m2 e1 e2 fr1 fr2 :
    i_stetter ps (Some m1) -> i_stetter ps (Some m2) -> EQ e1 e2 ->
    (orb (negb (sm_init m1)) fr1 = true /\ orb (negb (sm_init m2)) fr2 = true \/
     (sm_init m1 = true /\ fr1 = false /\ sm_init m2 = true /\ fr2 = false /\ sm_uv m1 = sm_uv m2 /\
      nth_error (sm_fu m1) 0 = nth_error (sm_fu m2) 0)) ->
    twin (stetter_core dt t m1 e1 fr1) (stetter_core dt t m2 e2 fr2) st_res.
  Proof.
    intros I1 I2 HE HC. destruct (I1 _ eq_refl) as (A1 & A2 & A3 & A4).
    destruct (I2 _ eq_refl) as (D1 & D2 & D3 & D4). unfold stetter_core.
    destruct (two_inv A3) as (fa0 & fa1 & X1 & ? & ?). destruct (two_inv A4) as (ua & va & X2 & ? & ?).
    destruct (two_inv D3) as (fb0 & fb1 & X3 & ? & ?). destruct (two_inv D4) as (ub & vb & X4 & ? & ?).
    rewrite X1, X2, X3, X4 in *. rds.
    assert (G : forall e1 e2 u v fu0, EQ e1 e2 -> B u -> B v -> B fu0 ->
      let g := fun (s : @stetter T) (e : eng) fu1 =>
        let* tmp := fmadd U ps (sm_tmp s) v fu0 (ndiv U dt (nlit U 2)) in
        let* (e, du) := eng_fcompute ef e (nadd U t (ndiv U dt (nlit U 2))) tmp (sm_du s) in
        let* u := fmadd_inplace U ps u du dt in
        let* (e, fu1) := eng_fcompute ef e (nadd U t dt) u fu1 in
        let* v := fmaddn_inplace U ps v [fu0; fu1] [ndiv U dt (nlit U 2); ndiv U dt (nlit U 2)] 2 in
        let half := ndiv U (nlit U 1) (nlit U 2) in
        let* y := fmaddn U ps (e_y e) None [u; v] [half; half] 2 in
        Some (Some (mkStetter tmp du [fu1; fu0] [u; v] true), advise_time U (set_y e y) dt) in
      twin (g m1 e1 fa1) (g m2 e2 fb1) st_res).
    { intros x1 x2 u v fu0 QE Vu Vv Vf g. unfold g. clear g HC HE. do 5 st. cbv zeta. st. apply twin_some.
      unfold st_res. prj.
      assert (IS : forall a b, B a -> B b -> i_stetter ps (Some (mkStetter a b [k0; fu0] [x0; x3] true))).
      { intros a b Ha Hb z X. injection X as <-. prj. split; auto. split; auto. split; apply two_intro; auto. }
      split; [apply IS; auto|]. split; [apply IS; auto|]. split; auto.
      right. eexists _, _. split; [reflexivity|]. split; [reflexivity|]. prj. auto. }
    destruct HC as [[-> ->]|(-> & -> & -> & -> & Y1 & Y2)]; cbn [negb orb].
    - eapply twin_bind with (Q := fun r1 r2 => r1 = r2 /\ B (fst (fst r1)) /\ B (snd (fst r1)) /\ snd r1 = true).
      { st. st. apply twin_some. prj. auto. }
      intros [[u v] fr] [[u' v'] fr'] (X & Vu & Vv & Vf). prj. injection X as <- <- <-. subst fr. st. apply G; auto.
    - injection Y1 as <- <-. injection Y2 as <-. apply G; auto.
  Qed.
  Lemma stetter_twin dt s1 s2 e1 e2 : i_stetter ps s1 -> i_stetter ps s2 -> alike s1 s2 -> EQ e1 e2 ->
    twin (stetter_advise U ps ef garbage dt s1 e1) (stetter_advise U ps ef garbage' dt s2 e2) st_res.
  Proof.
    intros H1 H2 HA HE. unfold stetter_advise. cbv zeta.
    assert (ET : e_time e1 = e_time e2) by apply HE. rewrite <- ET. clear ET.
    assert (IS : forall (a b : list T) (f u : list (list T)), B a -> B b -> length f = 2 -> Forall B f -> length u = 2 -> Forall B u ->
      i_stetter ps (Some (mkStetter a b f u false))).
    { intros a b f u ? ? ? ? ? ? z X. injection X as <-. prj. split; auto. split; auto. split; split; auto. }
    destruct s1 as [b1|]; (destruct s2 as [b2|]); alloc.
    - apply core_twin; auto. destruct HA as [[R1 R2]|(m1 & m2 & X1 & X2 & HA)].
      + rewrite (R1 _ eq_refl), (R2 _ eq_refl). auto.
      + injection X1 as <-. injection X2 as <-. right. tauto.
    - apply core_twin; auto. destruct HA as [[R1 R2]|(m1 & m2 & X1 & X2 & HA)]; [|discriminate].
      rewrite (R1 _ eq_refl). auto.
    - apply core_twin; auto. destruct HA as [[R1 R2]|(m1 & m2 & X1 & X2 & HA)]; [|discriminate].
      rewrite (R2 _ eq_refl). auto.
    - apply core_twin; auto.
  Qed.

  (** ** Bulirsch-Stoer *)
  Section BS.
    Variable p : @bs_params T.
    Notation L := (bp_max_level p).
    Notation cn := (map bs_seq (seq 0 L)).
    (** the first [c] entries of the two tables agree *)
    Definition NR (c : nat) (n1 n2 : @neville T) : Prop :=
      neville_bufs ps L n1 /\ neville_bufs ps L n2 /\
      forall j, j < c -> nth_error (ne_table n1) j = nth_error (ne_table n2) j.
    Lemma nth_ok (l : list (list T)) j : Forall B l -> j < length l -> exists x, nth_error l j = Some x /\ B x.
    Proof.
      intros V Hj. destruct (nth_error l j) as [x|] eqn:X; [|apply nth_error_None in X; lia].
      exists x. split; auto. rewrite Forall_forall in V. apply V. eapply nth_error_In; eauto.
    Qed.
    Lemma column_twin k prev1 prev2 j t1 t2 : j < k -> k < L ->
      Forall B t1 -> length t1 = L -> Forall B t2 -> length t2 = L ->
      Forall B prev1 -> length prev1 = L -> nth_error prev1 j = nth_error prev2 j ->
      (forall i, i < S j -> nth_error t1 i = nth_error t2 i) ->
      twin (neville_column U ps (ext_counts 2 cn) k prev1 j t1) (neville_column U ps (ext_counts 2 cn) k prev2 j t2)
        (fun r1 r2 => (Forall B r1 /\ length r1 = L /\ Forall B r2 /\ length r2 = L) /\
           forall i, i < S (S j) -> nth_error r1 i = nth_error r2 i).
    Proof.
      intros Hj Hk V1 L1 V2 L2 V3 L3 Hp Ht. unfold neville_column.
      eapply twin_bind; [apply twin_same; apply rd_any; rewrite ext_counts_length, cn_len; lia|]. intros q1 ? [<- _].
      eapply twin_bind; [apply twin_same; apply rd_any; rewrite ext_counts_length, cn_len; lia|]. intros q2 ? [<- _].
      cbv zeta. unfold rd. rewrite <- (Ht j), <- Hp by lia.
      destruct (@nth_ok t1 j) as (x & -> & Vx); auto; [lia|].
      destruct (@nth_ok prev1 j) as (z & -> & Vz); auto; [lia|]. cbn [obind].
      destruct (@nth_ok t1 (j + 1)) as (d1 & -> & Vd1); auto; [lia|].
      destruct (@nth_ok t2 (j + 1)) as (d2 & -> & Vd2); auto; [lia|]. cbn [obind].
      st. rewrite !wr_ok by lia. apply twin_some. split.
      - split; [now apply Forall_upd|]. split; [now rewrite upd_length|]. split; [now apply Forall_upd|].
        now rewrite upd_length.
      - intros i Hi. destruct (Nat.eq_dec i (j + 1)) as [->|Ne].
        + now rewrite !upd_nth_same by lia.
        + rewrite !upd_nth_other by lia. apply Ht. lia.
    Qed.
    Lemma update_twin n1 n2 k y : NR k n1 n2 -> k < L -> B y ->
      twin (neville_update U ps (ext_counts 2 cn) n1 k y) (neville_update U ps (ext_counts 2 cn) n2 k y) (NR (S k)).
    Proof.
      intros ((A1 & A2 & A3 & A4 & A5) & (D1 & D2 & D3 & D4 & D5) & HN) Hk Hy. unfold neville_update.
      change (Forall B (ne_table n1)) in A3. change (Forall B (ne_prev n1)) in A4.
      change (Forall B (ne_table n2)) in D3. change (Forall B (ne_prev n2)) in D4.
      unfold rd.
      destruct (@nth_ok (ne_prev n1) 0) as (x & -> & Vx); auto; [lia|].
      destruct (@nth_ok (ne_prev n2) 0) as (z & -> & Vz); auto; [lia|]. cbn [obind]. st.
      rewrite !wr_ok by lia. cbn [obind].
      set (R := fun (c : nat) (t1 t2 : list (list T)) => (Forall B t1 /\ length t1 = L /\ Forall B t2 /\ length t2 = L) /\
           forall i, i < S c -> nth_error t1 i = nth_error t2 i).
      eapply twin_bind with (Q := R k).
      { apply (@twin_for0 _ _ R).
        - split.
          { rewrite !upd_length. split; [now apply Forall_upd|]. split; auto. split; [now apply Forall_upd|auto]. }
          intros i Hi.
          replace i with 0 by lia. now rewrite !upd_nth_same by lia.
        - intros j t1 t2 Hj ((Q1 & Q2 & Q3 & Q4) & Q5). apply column_twin; auto. }
      intros t1 t2 ((Q1 & Q2 & Q3 & Q4) & Q5). apply twin_some. split; [|split; [|exact Q5]];
        (split; [|split; [|split; [|split]]]; prj; auto).
    Qed.
    Lemma error_twin n1 n2 k : NR (S k) n1 n2 -> k < L ->
      twin (neville_error U ps n1 k) (neville_error U ps n2 k) (fun r1 r2 => fst r1 = fst r2 /\ NR (S k) (snd r1) (snd r2)).
    Proof.
      intros HR Hk. pose proof HR as ((A1 & A2 & A3 & A4 & A5) & (D1 & D2 & D3 & D4 & D5) & HN). unfold neville_error.
      change (Forall B (ne_table n1)) in A3. change (B (ne_diff n1)) in A5. change (B (ne_diff n2)) in D5.
      destruct k as [|k]; [apply twin_some; auto|]. unfold rd. rewrite <- (HN (S k)), <- (HN k) by lia.
      destruct (@nth_ok (ne_table n1) (S k)) as (x & X & Vx); auto; [lia|].
      destruct (@nth_ok (ne_table n1) k) as (z & Z & Vz); auto; [lia|]. rewrite X, Z. cbn [obind]. st.
      eapply twin_bind; [apply twin_same; now apply s_fmaxabs|]. intros m ? [<- _]. apply twin_some. prj.
      split; auto. split; [|split; [|exact HN]]; (split; [|split; [|split; [|split]]]; prj; auto).
    Qed.
    Definition BR (c : nat) (b1 b2 : @bs_bufs T) : Prop :=
      same (bb_y0 b1) (bb_y0 b2) /\ i_stetter ps (bb_int b1) /\ i_stetter ps (bb_int b2) /\ NR c (bb_ext b1) (bb_ext b2).
    Lemma restarted s : restart (stetter_reset s).
    Proof. intros m X. destruct s; [|discriminate]. injection X as <-. reflexivity. Qed.
    Lemma compute_twin level dt t0 b1 b2 e1 e2 : level < L -> BR level b1 b2 -> EQ e1 e2 ->
      twin (bs_compute U ps ef garbage cn level dt t0 b1 e1) (bs_compute U ps ef garbage' cn level dt t0 b2 e2)
        (fun r1 r2 => BR (S level) (fst r1) (fst r2) /\ EQ (snd r1) (snd r2)).
    Proof.
      intros Hl ([HY VY] & I1 & I2 & HN) HE. unfold bs_compute. rewrite <- HY. st. cbv zeta.
      eapply twin_bind; [apply twin_same; apply rd_any; rewrite cn_len; lia|]. intros n ? [<- _].
      eapply twin_bind with (Q := st_res).
      { unfold bs_substeps. apply (@twin_for0 _ _ (fun _ => st_res)).
        - unfold st_res. prj. split; [now apply stetter_reset_s|]. split; [now apply stetter_reset_s|]. split; auto.
          left. split; apply restarted.
        - intros j [s1 x1] [s2 x2] _ (Q1 & Q2 & Q3 & Q4). prj. now apply stetter_twin. }
      intros [s1 x1] [s2 x2] (Q1 & Q2 & Q3 & Q4). prj. eqs.
      eapply twin_bind; [apply update_twin; eauto|]. intros n1 n2 HN'. apply twin_some. prj. split; auto.
      split; [split; auto|]. prj. auto.
    Qed.
    Lemma levels_twin dt t0 left : forall level b1 b2 e1 e2, level + left = L -> BR level b1 b2 -> EQ e1 e2 ->
      twin (bs_levels U ps ef garbage p cn dt t0 left level b1 e1) (bs_levels U ps ef garbage' p cn dt t0 left level b2 e2)
        (fun r1 r2 => BR 0 (fst r1) (fst r2) /\ EQ (snd r1) (snd r2)).
    Proof.
      assert (W : forall c b1 b2, BR c b1 b2 -> BR 0 b1 b2).
      { intros c b1 b2 (A & I1 & I2 & N1 & N2 & _). split; auto. split; auto. split; auto. split; auto. split; auto.
        intros j Hj. lia. }
      induction left as [|left IH]; intros level b1 b2 e1 e2 Hl HB HE; cbn [bs_levels];
        [apply twin_some; prj; split; auto; eapply W; eauto|].
      eapply twin_bind; [apply compute_twin; eauto; lia|]. intros [c1 x1] [c2 x2] [HB1 HE1]. prj.
      destruct (Nat.ltb level 2); [apply IH; auto; lia|]. destruct HB1 as (A1 & A2 & A3 & A4).
      eapply twin_bind; [apply error_twin; eauto; lia|]. intros [md n1] [md' n2] [Hm Hx]. prj. subst md'. cbv zeta.
      match goal with |- context [if ?c then _ else _] => destruct c end.
      - eapply twin_bind with (Q := same).
        { destruct Hx as (N1 & N2 & HN). unfold neville_extrapolate, rd. rewrite <- HN by lia. eqs.
          destruct (@nth_ok (ne_table n1) level) as (x & -> & Vx); [apply N1|destruct N1 as (-> & _); lia|].
          cbn [obind]. apply twin_copy; eauto. }
        same1. apply twin_some. prj. split; auto. apply (W (S level)). split; auto.
      - apply IH; auto; [lia|]. split; auto.
    Qed.
    Lemma bs_twin dt s1 s2 e1 e2 : i_bs ps p s1 -> i_bs ps p s2 -> EQ e1 e2 ->
      twin (bs_advise U ps ef garbage p dt s1 e1) (bs_advise U ps ef garbage' p dt s2 e2)
        (fun r1 r2 => i_bs ps p (fst r1) /\ i_bs ps p (fst r2) /\ EQ (snd r1) (snd r2)).
    Proof.
      intros H1 H2 HE. unfold bs_advise. rewrite init_steps_ok. cbn [obind].
      assert (G : forall b1 b2 e1 e2, i_bsb ps p b1 -> i_bsb ps p b2 -> EQ e1 e2 ->
        let g := fun gb b (e : eng) =>
            let t0 := e_time e in
            let* y0 := copy_buffer ps (bb_y0 b) (e_y e) in
            let b0 := mkBsBufs y0 (bb_int b) (bb_ext b) in
            let* (b1, e0) := bs_levels U ps ef gb p cn dt t0 L 0 b0 e in
            Some (Some b1, advise_time U (set_time e0 t0) dt) in
        twin (g garbage b1 e1) (g garbage' b2 e2)
           (fun r1 r2 => i_bs ps p (fst r1) /\ i_bs ps p (fst r2) /\ EQ (snd r1) (snd r2))).
      { clear H1 H2 HE s1 s2 e1 e2. intros b1 b2 e1 e2 (A1 & A2 & A3) (D1 & D2 & D3) HE g. unfold g. clear g. cbv zeta.
        st. eapply twin_bind.
        { apply levels_twin; auto. split; [split; auto|]. prj. split; auto. split; auto. split; auto. split; auto.
          intros j Hj. lia. }
        intros [c1 x1] [c2 x2] [([Q1 Q2] & Q3 & Q4 & Q5 & Q6 & _) QE]. prj. apply twin_some. prj.
        split; [|split]; auto; (intros z X; injection X as <-; split; [congruence|auto]). }
      assert (IB : forall (y : list T) (t q : list (list T)) (d : list T), B y -> length t = L -> length q = L -> Forall B t -> Forall B q -> B d ->
        i_bsb ps p (mkBsBufs y None (mkNeville t q d))).
      { intros y t q d ? ? ? ? ? ?. split; auto. split; [intros m X; discriminate|].
        split; [|split; [|split; [|split]]]; prj; auto. }
      destruct s1 as [c1|]; (destruct s2 as [c2|]); rewrite ?cn_len; alloc; apply G; auto.
    Qed.
  End BS.

  (** ** explicit tableaus without correction *)
  Section Butcher.
    Variable p : @rk_params T.
    Let bt := rp_table p.
    Hypothesis W : table_wf bt.
    Hypothesis HI : bt_implicit bt = false.
    Hypothesis HC : rp_correction p = false.
    Lemma collect_nth (g : nat -> option T) n : forall i l, collect n i g = Some l ->
      forall k, k < n -> nth_error l k = g (i + k).
    Proof.
      induction n as [|n IH]; intros i l H k Hk; cbn [collect] in H; [lia|].
      destruct (g i) as [x|] eqn:Gi; [|discriminate]. cbn [obind] in H.
      destruct (collect n (S i) g) as [l'|] eqn:Gl; [|discriminate]. injection H as <-.
      destruct k as [|k]; cbn [nth_error]; [now rewrite Nat.add_0_r|].
      rewrite (IH _ _ Gl k) by lia. f_equal. lia.
    Qed.
    Lemma nth_firstn A (l : list A) : forall n j, j < n -> nth_error (firstn n l) j = nth_error l j.
    Proof.
      induction l as [|x l IH]; intros [|n] [|j] H; cbn; try lia; auto. apply IH. lia.
    Qed.
    Lemma row_weight dt i co : live U bt dt -> 0 < i < bt_steps bt -> row_coeff U p dt i i = Some co ->
      any_weight U co i = true.
    Proof.
      intros HL Hi Hr. destruct (HL i Hi) as (row & j & a & R1 & Hj & R2 & Hz).
      unfold row_coeff, rd in Hr. fold bt in Hr. rewrite R1 in Hr. cbn [obind] in Hr.
      pose proof (@collect_nth _ _ _ _ Hr j Hj) as X. cbn [Nat.add] in X. rewrite R2 in X. cbn [obind] in X.
      unfold any_weight. apply existsb_exists. exists (nmul U dt a). split.
      - apply nth_error_In with (n := j). rewrite nth_firstn; auto.
      - now rewrite Hz.
    Qed.

    Definition KR (c : nat) (b1 b2 : @rk_bufs T) : Prop :=
      i_rkb ps p b1 /\ i_rkb ps p b2 /\ forall j, j < c -> nth_error (rb_k b1) j = nth_error (rb_k b2) j.
    Lemma firstn_eq A (l1 : list A) : forall l2 c, c <= length l1 -> c <= length l2 ->
      (forall j, j < c -> nth_error l1 j = nth_error l2 j) -> firstn c l1 = firstn c l2.
    Proof.
      induction l1 as [|x l1 IH]; intros [|y l2] [|c] H1 H2 H; cbn in *; try lia; auto.
      pose proof (H 0 ltac:(lia)) as X. injection X as <-. f_equal. apply IH; try lia.
      intros j Hj. apply (H (S j)). lia.
    Qed.
    (** only the first [n] buffers matter *)
    Lemma twin_fmaddn_stage a1 a2 b cs1 cs2 d n : B a1 -> B a2 -> B b -> Forall B cs1 -> Forall B cs2 ->
      n <= length d -> n <= length cs1 -> n <= length cs2 ->
      (forall j, j < n -> nth_error cs1 j = nth_error cs2 j) -> any_weight U d n = true ->
      twin (fmaddn U ps a1 (Some b) cs1 d n) (fmaddn U ps a2 (Some b) cs2 d n) same.
    Proof.
      intros H1 H2 Hb Hc1 Hc2 Hd Hn1 Hn2 HE Hw. unfold LemSafe.B in *.
      assert (V : forall (cs : list (list T)), Forall (fun l => length l = ps) cs -> n <= length cs ->
        forall k, k < n -> ps <= length (nth k cs [])).
      { intros cs Hcs Hn k Hk. rewrite Forall_forall in Hcs. rewrite (Hcs (nth k cs [])); auto. apply nth_In. lia. }
      destruct (@fmaddn_base_cells T U ps a1 b cs1 d n) as (x & -> & C1); try lia; [apply V; auto|].
      destruct (@fmaddn_base_cells T U ps a2 b cs2 d n) as (z & -> & C2); try lia; [apply V; auto|].
      rewrite Hw in C1, C2. destruct C1 as [L1 C1], C2 as [L2 C2].
      cbn. split; [|unfold LemSafe.B; lia]. apply nth_error_ext; [lia|]. intros i Hi. rewrite C1, C2.
      replace (i <? ps) with true by (symmetry; apply Nat.ltb_lt; lia). do 2 f_equal.
      unfold terms. rewrite !combine_firstn. f_equal. now apply firstn_eq.
    Qed.
    Lemma stage_twin t dt y i e1 e2 b1 b2 : live U bt dt -> i < bt_steps bt -> B y -> EQ e1 e2 -> KR i b1 b2 ->
      twin (stage_explicit U ps ef p t dt y i (e1, b1)) (stage_explicit U ps ef p t dt y i (e2, b2))
        (fun r1 r2 => EQ (fst r1) (fst r2) /\ KR (S i) (snd r1) (snd r2)).
    Proof.
      intros HL Hi Hy HE (I1 & I2 & HK). pose proof I1 as (A1 & A2 & A3 & A4 & A5 & A6 & _).
      pose proof I2 as (D1 & D2 & D3 & D4 & D5 & D6 & _). fold bt in A1, D1.
      assert (Fin : forall k mt1 mt2, B k -> B mt1 -> B mt2 -> KR (S i)
        (mkRkBufs (upd (rb_k b1) i k) mt1 (rb_tmpk b1) (rb_ycorr b1) (rb_tcorr b1) (rb_stack b1))
        (mkRkBufs (upd (rb_k b2) i k) mt2 (rb_tmpk b2) (rb_ycorr b2) (rb_tcorr b2) (rb_stack b2))).
      { intros k mt1 mt2 Vk V1 V2. split; [|split].
        - unfold i_rkb. prj. rewrite upd_length. split; auto. split; [now apply Forall_upd|].
          split; auto. split; auto. split; auto. split; auto. congruence.
        - unfold i_rkb. prj. rewrite upd_length. split; auto. split; [now apply Forall_upd|].
          split; auto. split; auto. split; auto. split; auto. congruence.
        - prj. intros j Hj. destruct (Nat.eq_dec j i) as [->|Ne].
          + now rewrite !upd_nth_same by lia.
          + rewrite !upd_nth_other by lia. apply HK. lia. }
      unfold stage_explicit. fold bt.
      eapply twin_bind; [apply twin_same; apply rd_any; pose proof (proj2 (proj2 (proj2 W))); lia|]. intros ci ? [<- _].
      unfold rd.
      destruct (@nth_ok (rb_k b1) i) as (x & -> & Vx); auto; [lia|].
      destruct (@nth_ok (rb_k b2) i) as (z & -> & Vz); auto; [lia|]. cbn [obind].
      destruct (Nat.eqb_spec i 0) as [Z|Z].
      - st. rewrite !wr_ok by lia. cbn [obind]. apply twin_some. prj. auto.
      - assert (R : ok False (row_coeff U p dt i i) (fun l => length l = i)).
        { apply row_s with (ps := ps); auto. unfold bt in HI. rewrite HI. lia. }
        destruct (row_coeff U p dt i i) as [co|] eqn:Er; [|destruct R]. cbn [ok] in R. cbn [obind].
        rewrite HC. eapply twin_bind with (Q := fun r1 r2 => same (fst r1) (fst r2) /\
          snd r1 = rb_tcorr b1 /\ snd r2 = rb_tcorr b2).
        { eapply twin_bind; [apply twin_fmaddn_stage; auto; try lia|].
          - apply (@row_weight dt); auto. lia.
          - same1. apply twin_some. prj. split; auto. split; auto. }
        intros [mt1 tc1] [mt2 tc2] ([Q1 Q2] & Q3 & Q4). prj. subst mt2 tc1 tc2. st.
        rewrite !wr_ok by lia. cbn [obind]. apply twin_some. prj. auto.
    Qed.
    Lemma stages_twin t dt y e1 e2 b1 b2 : live U bt dt -> B y -> EQ e1 e2 -> i_rkb ps p b1 -> i_rkb ps p b2 ->
      twin (sub_step_explicit U ps ef p t dt y (e1, b1)) (sub_step_explicit U ps ef p t dt y (e2, b2))
        (fun r1 r2 => EQ (fst r1) (fst r2) /\ i_rkb ps p (snd r1) /\ i_rkb ps p (snd r2) /\ rb_k (snd r1) = rb_k (snd r2)).
    Proof.
      intros HL Hy HE I1 I2. unfold sub_step_explicit. fold bt.
      eapply twin_mono.
      - apply (@twin_for0 _ _ (fun c r1 r2 => EQ (fst r1) (fst r2) /\ KR c (snd r1) (snd r2))).
        + prj. split; auto. split; auto. split; auto. intros j Hj. lia.
        + intros i [x1 c1] [x2 c2] Hi [Q1 Q2]. prj. now apply stage_twin.
      - intros [x1 c1] [x2 c2] [Q1 (J1 & J2 & J3)]. prj. split; auto. split; auto. split; auto.
        apply nth_error_ext; [destruct J1 as (-> & _); destruct J2 as (-> & _); reflexivity|].
        intros i Hi. apply J3. destruct J1 as (X & _). fold bt in X. lia.
    Qed.
    Lemma estimate_twin b1 b2 : i_rkb ps p b1 -> i_rkb ps p b2 -> rb_k b1 = rb_k b2 ->
      twin (estimate U ps p b1) (estimate U ps p b2)
        (fun r1 r2 => fst r1 = fst r2 /\ i_rkb ps p (snd r1) /\ i_rkb ps p (snd r2) /\ rb_k (snd r1) = rb_k (snd r2)).
    Proof.
      intros I1 I2 HK. pose proof I1 as (A1 & A2 & A3 & A4 & A5 & A6 & _).
      pose proof I2 as (D1 & D2 & D3 & D4 & D5 & D6 & _). fold bt in A1, D1.
      pose proof W as (W1 & W2 & W3 & W4 & W5).
      unfold estimate. fold bt. destruct (bt_embedded bt) eqn:HM; [|apply twin_some; auto]. specialize (W5 eq_refl).
      eapply twin_bind; [apply twin_same; apply s_collect with (ps := ps); [exact Hps|]; intros k Hk|].
      { eapply ok_bind; [apply rd_any; lia|]. intros ? _. eapply ok_bind; [apply rd_any; lia|]. intros ? _. now apply ok_some. }
      intros co ? [<- Hco]. rewrite <- HK in *. st.
      eapply twin_bind; [apply twin_same; now apply s_fmaxabs|]. intros m ? [<- _]. apply twin_some. prj.
      split; auto. unfold i_rkb. prj. rewrite <- ?HK. fold bt. rewrite HC.
      split; [|split]; auto; (split; [|split; [|split; [|split; [|split; [|split]]]]]; auto; congruence).
    Qed.
    Lemma accept_twin dt y b1 b2 : B y -> i_rkb ps p b1 -> i_rkb ps p b2 -> rb_k b1 = rb_k b2 ->
      twin (accept U ps p dt y b1) (accept U ps p dt y b2)
        (fun r1 r2 => same (fst r1) (fst r2) /\ i_rkb ps p (snd r1) /\ i_rkb ps p (snd r2)).
    Proof.
      intros Hy I1 I2 HK. pose proof I1 as (A1 & A2 & A3 & A4 & A5 & A6 & _). fold bt in A1.
      pose proof W as (W1 & W2 & W3 & W4 & W5).
      unfold accept. fold bt. eapply twin_bind; [apply twin_same; apply s_collect with (ps := ps); [exact Hps|]; intros k Hk|].
      { eapply ok_bind; [apply rd_any; lia|]. intros ? _. now apply ok_some. }
      intros co ? [<- Hco]. rewrite HC, <- HK.
      eapply twin_bind; [apply twin_same; apply s_fmaddn_inplace; auto; lia|]. same1. apply twin_some. prj.
      split; auto. split; auto.
    Qed.

    Definition LR (s1 s2 : @rk_loop T E) : Prop :=
      let '(e1, b1, y1, t1, tr1) := s1 in let '(e2, b2, y2, t2, tr2) := s2 in
      EQ e1 e2 /\ i_rkb ps p b1 /\ i_rkb ps p b2 /\ same y1 y2 /\ t1 = t2 /\ tr1 = tr2.
    Lemma sub_step_twin rem : forall level substeps nf1 nf2 dt s1 s2, level + rem = rp_max_recursion p ->
      (forall k, k <= rem -> live U bt (subdivided U (rp_subdivisions p) k dt)) -> LR s1 s2 ->
      twin (sub_step U ps ef p rem level substeps nf1 dt s1) (sub_step U ps ef p rem level substeps nf2 dt s2) LR.
    Proof.
      induction rem as [|rem IH]; intros level substeps nf1 nf2 dt s1 s2 Hl HL HR; cbn [sub_step];
        (apply (@twin_for0 _ _ (fun _ => LR)); [exact HR|]; clear s1 s2 HR;
         intros j [[[[e1 b1] y1] t1] tr1] [[[[e2 b2] y2] t2] tr2] Hj (HE & I1 & I2 & [HY VY] & HT & HTR);
         subst y2 t2 tr2; fold bt; rewrite HI;
         eapply twin_bind; [apply stages_twin; auto; apply (HL 0); lia|];
         intros [x1 c1] [x2 c2] (Q1 & Q2 & Q3 & Q4); prj;
         eapply twin_bind; [apply estimate_twin; eauto|]; intros [er d1] [er' d2] (R1 & R2 & R3 & R4); prj; subst er').
      - eapply twin_bind; [apply accept_twin; eauto|]. intros [y' d1'] [y'' d2'] ([S1 S2] & S3 & S4). prj. subst y''.
        apply twin_some. cbn [LR]. split; auto. split; auto. split; auto. split; [split; auto|]. auto.
      - destruct (andb _ _).
        + pose proof R2 as (K1 & K2 & K3 & K4 & K5 & K6 & K7). pose proof R3 as (J1 & J2 & J3 & J4 & J5 & J6 & J7).
          unfold rd. destruct (@nth_ok (rb_stack d1) level) as (cy1 & -> & V1); auto; [lia|].
          destruct (@nth_ok (rb_stack d2) level) as (cy2 & -> & V2); auto; [lia|]. cbn [obind]. st.
          rewrite !wr_ok by lia. cbn [obind]. cbv zeta.
          eapply twin_bind.
          { apply (IH (S level) (rp_subdivisions p) false false); [lia| |].
            - intros k Hk. apply (HL (S k)). lia.
            - cbn [LR]. unfold i_rkb. prj. rewrite !upd_length.
              split; auto. split; [|split; [|split; [split; auto|auto]]];
              (split; [|split; [|split; [|split; [|split; [|split]]]]]; auto; now apply Forall_upd). }
          intros [[[[g1 h1] z1] w1] tr1'] [[[[g2 h2] z2] w2] tr2'] (S1 & S2 & S3 & [S4 S5] & S6 & S7). subst z2 tr2'.
          pose proof S2 as (P1 & P2 & P3 & P4 & P5 & P6 & P7). pose proof S3 as (M1 & M2 & M3 & M4 & M5 & M6 & M7).
          rewrite !wr_ok by lia. cbn [obind]. st. apply twin_some. cbn [LR]. unfold i_rkb. prj. rewrite !upd_length.
          split; auto. split; [|split; [|split; [split; auto|auto]]];
              (split; [|split; [|split; [|split; [|split; [|split]]]]]; auto; now apply Forall_upd).
        + eapply twin_bind; [apply accept_twin; eauto|]. intros [y' d1'] [y'' d2'] ([S1 S2] & S3 & S4). prj. subst y''.
          apply twin_some. cbn [LR]. split; auto. split; auto. split; auto. split; [split; auto|]. auto.
    Qed.
    Lemma rk_twin dt s1 s2 e1 e2 : (forall k, k <= rp_max_recursion p -> live U bt (subdivided U (rp_subdivisions p) k dt)) ->
      i_rk ps p s1 -> i_rk ps p s2 -> EQ e1 e2 ->
      twin (rk_advise U ps ef garbage p dt s1 e1) (rk_advise U ps ef garbage' p dt s2 e2)
        (fun r1 r2 => i_rk ps p (fst r1) /\ i_rk ps p (fst r2) /\ EQ (snd r1) (snd r2)).
    Proof.
      intros HL H1 H2 HE. unfold rk_advise, rk_step. cbv zeta.
      assert (ET : e_time e1 = e_time e2) by apply HE. rewrite <- ET. clear ET.
      set (t := e_time e1). clearbody t.
      eapply twin_bind with (Q := fun r1 r2 => i_rkb ps p (fst (fst r1)) /\ i_rkb ps p (fst (fst r2)) /\ EQ (snd (fst r1)) (snd (fst r2))).
      2: { intros [[b1 x1] ?] [[b2 x2] ?] (A & C & D). prj. apply twin_some. prj.
           split; [|split]; auto; (intros z X; injection X as <-; auto). }
      assert (G : forall b1 b2 e1 e2 nf1 nf2, i_rkb ps p b1 -> i_rkb ps p b2 -> EQ e1 e2 ->
        let g := fun b (e : eng) nf =>
          let* (e, b, y, _, tr) := sub_step U ps ef p (rp_max_recursion p) 0 1 nf dt (e, b, e_y e, t, []) in
          Some (b, advise_time U (set_y e y) dt, tr) in
        twin (g b1 e1 nf1) (g b2 e2 nf2)
          (fun r1 r2 => i_rkb ps p (fst (fst r1)) /\ i_rkb ps p (fst (fst r2)) /\ EQ (snd (fst r1)) (snd (fst r2)))).
      { clear H1 H2 HE s1 s2 e1 e2. intros b1 b2 e1 e2 nf1 nf2 I1 I2 HE g. unfold g. clear g. eqs.
        eapply twin_bind.
        { apply sub_step_twin; auto. cbn [LR]. split; auto. split; auto. split; auto. split; [split; eauto|auto]. }
        intros [[[[g1 h1] z1] w1] tr1'] [[[[g2 h2] z2] w2] tr2'] (S1 & S2 & S3 & [S4 S5] & S6 & S7). subst z2.
        apply twin_some. prj. auto. }
      assert (AL : forall g (Hg : forall n, B (g n)) (e : eng), exists b e', rk_alloc U g p e = Some (b, e') /\ i_rkb ps p b /\
        e_y e' = e_y e /\ e_time e' = e_time e /\ e_step e' = e_step e).
      { intros g Hg e. unfold rk_alloc. rewrite HC.
        destruct (@new_many g Hg (bt_steps (rp_table p)) e) as ((L1 & V1) & X1 & Y1 & Z1).
        destruct (new_buffers g (bt_steps (rp_table p)) e) as [k x1]. prj.
        destruct (@new_one g Hg x1) as (V2 & X2 & Y2 & Z2). destruct (new_buffer g x1) as [mt x2]. prj.
        destruct (@new_one g Hg x2) as (V3 & X3 & Y3 & Z3). destruct (new_buffer g x2) as [tk x3]. prj.
        destruct (@new_many g Hg (rp_max_recursion p) x3) as ((L4 & V4) & X4 & Y4 & Z4).
        destruct (new_buffers g (rp_max_recursion p) x3) as [stk x4]. prj.
        eexists _, _. split; [reflexivity|]. split; [|split; [|split]; congruence].
        unfold i_rkb. prj. rewrite HC.
        split; [|split; [|split; [|split; [|split; [|split]]]]]; auto; congruence. }
      destruct s1 as [b1|]; (destruct s2 as [b2|]).
      - cbn [obind]. apply G; auto.
      - destruct (AL garbage' Hgarb' e2) as (b & e' & -> & Vb & X & Y & Z). cbn [obind]. apply G; auto. eapply EQ_r; eauto.
      - destruct (AL garbage Hgarb e1) as (b & e' & -> & Vb & X & Y & Z). cbn [obind]. apply G; auto. eapply EQ_l; eauto.
      - destruct (AL garbage Hgarb e1) as (b & e' & -> & Vb & X & Y & Z). destruct (AL garbage' Hgarb' e2) as (b' & e2' & -> & Vb' & X' & Y' & Z').
        cbn [obind]. apply G; auto. eapply EQ_l; eauto. eapply EQ_r; eauto.
    Qed.
  End Butcher.

  (** ** any such solver *)
  Lemma advise_twin dt s1 s2 e1 e2 : memoryless U dt s1 -> same_kind s1 s2 -> solver_ok s1 ->
    i_solver ps s1 -> i_solver ps s2 -> EQ e1 e2 ->
    twin (advise U ps ef garbage dt s1 e1) (advise U ps ef garbage' dt s2 e2)
      (fun r1 r2 => same_kind (fst r1) (fst r2) /\ memoryless U dt (fst r1) /\ solver_ok (fst r1) /\
         i_solver ps (fst r1) /\ i_solver ps (fst r2) /\ EQ (snd r1) (snd r2)).
  Proof.
    intros HM HK HO I1 I2 HE.
    destruct s1 as [b|b|b|b|r b|p b|p b|p st b stp], s2 as [b'|b'|b'|b'|r' b'|p' b'|p' b'|p' st' b' stp']; try contradiction;
      cbn [same_kind] in HK; try subst; cbn [advise i_solver solver_ok memoryless] in *.
    - eapply twin_bind; [apply euler_twin; eauto|]. intros [c x] [c' x'] (Q1 & Q2 & Q3). apply twin_some. cbn. auto 8.
    - eapply twin_bind; [apply midpoint_twin; eauto|]. intros [c x] [c' x'] (Q1 & Q2 & Q3). apply twin_some. cbn. auto 8.
    - eapply twin_bind; [apply rk4_twin; eauto|]. intros [c x] [c' x'] (Q1 & Q2 & Q3). apply twin_some. cbn. auto 8.
    - eapply twin_bind; [apply trapeze_twin; eauto|]. intros [c x] [c' x'] (Q1 & Q2 & Q3). apply twin_some. cbn. auto 8.
    - destruct HM as (M1 & M2 & M3).
      eapply twin_bind; [apply rk_twin; eauto|]. intros [c x] [c' x'] (Q1 & Q2 & Q3). apply twin_some. cbn. auto 10.
    - eapply twin_bind; [apply bs_twin; eauto|]. intros [c x] [c' x'] (Q1 & Q2 & Q3). apply twin_some. cbn. auto 8.
  Qed.
  (** ** every solver: what a run leaves in the buffers for the next step is the same, whatever the memory held *)
  Section ButcherAll.
    Variable p : @rk_params T.
    Let bt := rp_table p.
    Hypothesis W : table_wf bt.

    Lemma corr_first a c cs1 cs2 d n : n <= length cs1 -> n <= length cs2 -> (forall j, j < n -> nth_error cs1 j = nth_error cs2 j) ->
      fmaddn_corr U ps a c cs1 d n = fmaddn_corr U ps a c cs2 d n.
    Proof.
      intros H1 H2 H. unfold fmaddn_corr. destruct (Nat.ltb_spec (length cs1) n); [lia|]. destruct (Nat.ltb_spec (length cs2) n); [lia|].
      apply for_ext. intros i [x z] Hi. unfold fmaddn_corr_body.
      assert (X : forall st, fmaddn_corr_cell U cs1 d n i st = fmaddn_corr_cell U cs2 d n i st).
      { intros st. unfold fmaddn_corr_cell. apply for_ext. intros k s Hk. unfold rd. now rewrite H by lia. }
      destruct (rd x i); cbn [obind]; auto. destruct (rd z i); cbn [obind]; auto. now rewrite X.
    Qed.

    Definition RB (b1 b2 : @rk_bufs T) : Prop := i_rkb ps p b1 /\ i_rkb ps p b2 /\ (rp_correction p = true -> rb_ycorr b1 = rb_ycorr b2).
    Definition KE (c : nat) (b1 b2 : @rk_bufs T) : Prop := forall j, j < c -> nth_error (rb_k b1) j = nth_error (rb_k b2) j.
    Definition KK (b1 b2 : @rk_bufs T) : Prop := rb_k b1 = rb_k b2 /\ (0 < bt_steps bt -> rb_t b1 = rb_t b2).
    Lemma KE_all b1 b2 : RB b1 b2 -> KE (bt_steps bt) b1 b2 -> rb_k b1 = rb_k b2.
    Proof.
      intros ((A1 & _) & (D1 & _) & _) H. fold bt in A1, D1. apply nth_error_ext; [congruence|]. intros i Hi. apply H. lia.
    Qed.
    (** a stage writes one derivative *)
    Lemma put_stage i k t1 t2 c1 c2 m1 m2 b1 b2 : RB b1 b2 -> KE i b1 b2 -> i < bt_steps bt -> B k -> B t1 -> B t2 -> B m1 -> B m2 ->
      (rp_correction p = true -> B c1 /\ B c2) ->
      let r1 := mkRkBufs (upd (rb_k b1) i k) t1 m1 (rb_ycorr b1) c1 (rb_stack b1) in
      let r2 := mkRkBufs (upd (rb_k b2) i k) t2 m2 (rb_ycorr b2) c2 (rb_stack b2) in
      RB r1 r2 /\ KE (S i) r1 r2.
    Proof.
      intros (I1 & I2 & HY) HK Hi Vk V1 V2 M1 M2 HC r1 r2. pose proof I1 as (A1 & A2 & A3 & A4 & A5 & A6 & A7).
      pose proof I2 as (D1 & D2 & D3 & D4 & D5 & D6 & D7). fold bt in A1, D1. subst r1 r2. split.
      - unfold RB, i_rkb. prj. rewrite !upd_length.
        split; [|split; [|exact HY]];
          (split; [auto|]; split; [now apply Forall_upd|]; split; [auto|]; split; [auto|]; split; [auto|]; split; [auto|]; intros X;
           split; [now apply A7 || now apply D7|now apply HC]).
      - intros j Hj. prj. destruct (Nat.eq_dec j i) as [->|Ne].
        + rewrite !upd_nth_same by lia. reflexivity.
        + rewrite !upd_nth_other by lia. apply HK. lia.
    Qed.

    Lemma u_explicit t dt y i e1 e2 b1 b2 : bt_implicit bt = false -> (rp_correction p = false -> live U bt dt) -> i < bt_steps bt -> B y ->
      EQ e1 e2 -> RB b1 b2 -> KE i b1 b2 ->
      twin (stage_explicit U ps ef p t dt y i (e1, b1)) (stage_explicit U ps ef p t dt y i (e2, b2))
        (fun r1 r2 => EQ (fst r1) (fst r2) /\ RB (snd r1) (snd r2) /\ KE (S i) (snd r1) (snd r2)).
    Proof.
      intros HI HL Hi Hy HE HB HK. pose proof HB as (I1 & I2 & HY). pose proof I1 as (A1 & A2 & A3 & A4 & A5 & A6 & A7).
      pose proof I2 as (D1 & D2 & D3 & D4 & D5 & D6 & D7). fold bt in A1, D1.
      unfold stage_explicit. fold bt.
      eapply twin_bind; [apply twin_same; apply rd_any; pose proof (proj2 (proj2 (proj2 W))); lia|]. intros ci ? [<- _].
      unfold rd.
      destruct (@nth_ok (rb_k b1) i) as (x & -> & Vx); auto; [lia|].
      destruct (@nth_ok (rb_k b2) i) as (z & -> & Vz); auto; [lia|]. cbn [obind].
      destruct (Nat.eqb_spec i 0) as [Z|Z].
      - st. rewrite !wr_ok by lia. cbn [obind]. apply twin_some. prj. split; auto. apply put_stage; auto.
        intros X. split; [now apply A7|now apply D7].
      - assert (R : ok False (row_coeff U p dt i i) (fun l => length l = i)).
        { apply row_s with (ps := ps); auto. fold bt. rewrite HI. lia. }
        destruct (row_coeff U p dt i i) as [co|] eqn:Er; [|destruct R]. cbn [ok] in R. cbn [obind].
        eapply twin_bind with (Q := fun r1 r2 => same (fst r1) (fst r2) /\ (rp_correction p = true -> B (snd r1) /\ B (snd r2))).
        { destruct (rp_correction p) eqn:HC.
          - destruct (A7 eq_refl) as [A8 A9], (D7 eq_refl) as [D8 D9]. rewrite <- (HY eq_refl) in *. st. st.
            rewrite (@corr_first x1 x0 (rb_k b2) (rb_k b1) co i); [|lia|lia|intros j Hj; symmetry; now apply HK].
            eapply twin_mono; [apply twin_same; apply s_fmaddn_corr; auto; lia|]. intros [a c] ? [<- [Q1 Q2]]. prj. split; [split; auto|auto].
          - eapply twin_bind; [apply twin_fmaddn_stage; auto; try lia|].
            + apply (@row_weight p dt); auto. split; [lia|exact Hi].
            + same1. apply twin_some. prj. split; [split; auto|discriminate]. }
        intros [mt1 tc1] [mt2 tc2] ([Q1 Q2] & Q3). prj. subst mt2. st.
        rewrite !wr_ok by lia. cbn [obind]. apply twin_some. prj. split; auto. apply put_stage; auto.
    Qed.
    Lemma u_first t dt y i e1 e2 b1 b2 : i < bt_steps bt -> B y -> EQ e1 e2 -> RB b1 b2 -> KE i b1 b2 -> rb_tmpk b1 = rb_tmpk b2 ->
      twin (stage_first U ps ef p t dt y i (e1, b1)) (stage_first U ps ef p t dt y i (e2, b2))
        (fun r1 r2 => EQ (fst r1) (fst r2) /\ RB (snd r1) (snd r2) /\ KE (S i) (snd r1) (snd r2) /\
           rb_tmpk (snd r1) = rb_tmpk (snd r2) /\ rb_t (snd r1) = rb_t (snd r2)).
    Proof.
      intros Hi Hy HE HB HK HT. pose proof HB as (I1 & I2 & HY). pose proof I1 as (A1 & A2 & A3 & A4 & A5 & A6 & A7).
      pose proof I2 as (D1 & D2 & D3 & D4 & D5 & D6 & D7). fold bt in A1, D1.
      unfold stage_first. fold bt.
      eapply twin_bind; [apply twin_same; apply rd_any; pose proof (proj2 (proj2 (proj2 W))); lia|]. intros ci ? [<- _].
      unfold rd.
      destruct (@nth_ok (rb_k b1) i) as (x & -> & Vx); auto; [lia|].
      destruct (@nth_ok (rb_k b2) i) as (z & -> & Vz); auto; [lia|]. cbn [obind]. rewrite <- HT. st. st.
      rewrite !wr_ok by lia. cbn [obind]. apply twin_some. prj. split; auto. match goal with |- ?A /\ ?B /\ ?C /\ ?D => enough (A /\ B) by tauto end.
      apply put_stage; auto. intros X. split; [now apply A7|now apply D7].
    Qed.
    Lemma u_implicit t dt y i e1 e2 b1 b2 : bt_implicit bt = true -> i < bt_steps bt -> B y -> EQ e1 e2 -> RB b1 b2 -> KK b1 b2 ->
      twin (stage_implicit U ps ef p t dt y i (e1, b1)) (stage_implicit U ps ef p t dt y i (e2, b2))
        (fun r1 r2 => EQ (fst r1) (fst r2) /\ RB (snd r1) (snd r2) /\ KK (snd r1) (snd r2)).
    Proof.
      intros HI Hi Hy HE HB [HK HT]. pose proof HB as (I1 & I2 & HY). pose proof I1 as (A1 & A2 & A3 & A4 & A5 & A6 & A7).
      pose proof I2 as (D1 & D2 & D3 & D4 & D5 & D6 & D7). fold bt in A1, D1.
      unfold stage_implicit. fold bt. rewrite <- HK, <- (HT ltac:(lia)).
      eapply twin_bind; [apply twin_same; apply rd_any; pose proof (proj2 (proj2 (proj2 W))); lia|]. intros ci ? [<- _].
      eapply twin_bind; [apply twin_same; apply rd_any; lia|]. intros ki ? [<- Ek].
      assert (Vk : B ki) by (rewrite Forall_forall in A2; apply A2; eapply nth_error_In; eauto).
      eapply twin_bind; [apply twin_same; apply row_s with (ps := ps); auto; fold bt; rewrite HI; lia|]. intros co ? [<- Hco].
      eapply twin_bind; [apply twin_same; apply s_fmaddn; auto; lia|]. same1. st.
      rewrite !wr_ok by lia. cbn [obind]. apply twin_some. prj. split; auto.
      assert (HE0 : KE i b1 b2) by (intros j Hj; now rewrite HK).
      split; [|split; [reflexivity|auto]].
      pose proof (@put_stage i k x x (rb_tcorr b1) (rb_tcorr b2) (rb_tmpk b1) (rb_tmpk b2) b1 b2 HB HE0 Hi) as X. rewrite <- HK in X.
      apply X; auto. intros Y. split; [now apply A7|now apply D7].
    Qed.
    (** the stages of one substep *)
    Lemma u_stages nf t dt y e1 e2 b1 b2 : (bt_implicit bt = false -> rp_correction p = false -> live U bt dt) -> B y -> EQ e1 e2 -> RB b1 b2 ->
      (bt_implicit bt = true -> nf = false -> KK b1 b2) ->
      twin (if bt_implicit bt then sub_step_implicit U ps ef p nf t dt y (e1, b1) else sub_step_explicit U ps ef p t dt y (e1, b1))
        (if bt_implicit bt then sub_step_implicit U ps ef p nf t dt y (e2, b2) else sub_step_explicit U ps ef p t dt y (e2, b2))
        (fun r1 r2 => EQ (fst r1) (fst r2) /\ RB (snd r1) (snd r2) /\ rb_k (snd r1) = rb_k (snd r2) /\ (bt_implicit bt = true -> KK (snd r1) (snd r2))).
    Proof.
      intros HL Hy HE HB HN. destruct (bt_implicit bt) eqn:HI.
      - unfold sub_step_implicit.
        eapply twin_bind with (Q := fun r1 r2 => EQ (fst r1) (fst r2) /\ RB (snd r1) (snd r2) /\ KK (snd r1) (snd r2)).
        + destruct nf; [|apply twin_some; prj; split; auto].
          pose proof HB as (I1 & I2 & HY). pose proof I1 as (A1 & A2 & A3 & A4 & A5 & A6 & A7).
          pose proof I2 as (D1 & D2 & D3 & D4 & D5 & D6 & D7). st. fold bt.
          eapply twin_mono.
          * apply (@twin_for0 _ _ (fun c r1 r2 => EQ (fst r1) (fst r2) /\ RB (snd r1) (snd r2) /\ KE c (snd r1) (snd r2) /\
              rb_tmpk (snd r1) = rb_tmpk (snd r2) /\ (0 < c -> rb_t (snd r1) = rb_t (snd r2)))).
            -- prj. split; auto. split; [|split; [intros j Hj; lia|split; [reflexivity|lia]]].
               unfold RB, i_rkb. prj. auto 12.
            -- intros i [x1 c1] [x2 c2] Hi (Q1 & Q2 & Q3 & Q4 & _). prj. eapply twin_mono; [apply u_first; auto|].
               intros [? ?] [? ?] (P1 & P2 & P3 & P4 & P5). prj. auto 10.
          * intros [x1 c1] [x2 c2] (Q1 & Q2 & Q3 & Q4 & Q5). prj. split; auto. split; auto. split; auto. now apply KE_all.
        + intros [x1 c1] [x2 c2] (Q1 & Q2 & Q3). prj.
          eapply twin_mono with (Q := fun r1 r2 => EQ (fst r1) (fst r2) /\ RB (snd r1) (snd r2) /\ KK (snd r1) (snd r2)).
          * apply (@twin_for0 _ _ (fun _ r1 r2 => EQ (fst r1) (fst r2) /\ RB (snd r1) (snd r2) /\ KK (snd r1) (snd r2))); [prj; auto|].
            intros m z1 z2 Hm Hz. apply (@twin_for0 _ _ (fun _ r1 r2 => EQ (fst r1) (fst r2) /\ RB (snd r1) (snd r2) /\ KK (snd r1) (snd r2))); auto.
            intros i [g1 h1] [g2 h2] Hi (P1 & P2 & P3). prj. now apply u_implicit.
          * intros [? ?] [? ?] (P1 & P2 & P3). prj. split; auto. split; auto. split; auto. apply P3.
      - unfold sub_step_explicit. fold bt. eapply twin_mono.
        + apply (@twin_for0 _ _ (fun c r1 r2 => EQ (fst r1) (fst r2) /\ RB (snd r1) (snd r2) /\ KE c (snd r1) (snd r2))).
          * prj. split; auto. split; auto. intros j Hj. lia.
          * intros i [x1 c1] [x2 c2] Hi (Q1 & Q2 & Q3). prj. apply u_explicit; auto.
        + intros [x1 c1] [x2 c2] (Q1 & Q2 & Q3). prj. split; auto. split; auto. split; [now apply KE_all|discriminate].
    Qed.
    Lemma u_estimate b1 b2 : RB b1 b2 -> rb_k b1 = rb_k b2 ->
      twin (estimate U ps p b1) (estimate U ps p b2)
        (fun r1 r2 => fst r1 = fst r2 /\ RB (snd r1) (snd r2) /\ rb_k (snd r1) = rb_k (snd r2) /\ (KK b1 b2 -> KK (snd r1) (snd r2))).
    Proof.
      intros HB HK. pose proof HB as (I1 & I2 & HY). pose proof I1 as (A1 & A2 & A3 & A4 & A5 & A6 & A7).
      pose proof I2 as (D1 & D2 & D3 & D4 & D5 & D6 & D7). fold bt in A1, D1.
      pose proof W as (W1 & W2 & W3 & W4 & W5).
      unfold estimate. fold bt. destruct (bt_embedded bt) eqn:HM; [|apply twin_some; prj; auto]. specialize (W5 eq_refl).
      eapply twin_bind; [apply twin_same; apply s_collect with (ps := ps); [exact Hps|]; intros k Hk|].
      { eapply ok_bind; [apply rd_any; lia|]. intros ? _. eapply ok_bind; [apply rd_any; lia|]. intros ? _. now apply ok_some. }
      intros co ? [<- Hco]. rewrite <- HK in *. st.
      eapply twin_bind; [apply twin_same; now apply s_fmaxabs|]. intros m ? [<- _]. apply twin_some. prj.
      split; auto. split; [|split; [congruence|intros _; split; auto]].
      unfold RB, i_rkb. prj. rewrite <- ?HK. fold bt.
      split; [|split; [|exact HY]]; (split; [|split; [|split; [|split; [|split; [|split]]]]]; auto).
    Qed.
    Lemma u_accept dt y b1 b2 : B y -> RB b1 b2 -> rb_k b1 = rb_k b2 ->
      twin (accept U ps p dt y b1) (accept U ps p dt y b2)
        (fun r1 r2 => same (fst r1) (fst r2) /\ RB (snd r1) (snd r2) /\ (KK b1 b2 -> KK (snd r1) (snd r2))).
    Proof.
      intros Hy HB HK. pose proof HB as (I1 & I2 & HY). pose proof I1 as (A1 & A2 & A3 & A4 & A5 & A6 & A7).
      pose proof I2 as (D1 & D2 & D3 & D4 & D5 & D6 & D7). fold bt in A1, D1.
      pose proof W as (W1 & W2 & W3 & W4 & W5).
      unfold accept. fold bt. eapply twin_bind; [apply twin_same; apply s_collect with (ps := ps); [exact Hps|]; intros k Hk|].
      { eapply ok_bind; [apply rd_any; lia|]. intros ? _. now apply ok_some. }
      intros co ? [<- Hco]. rewrite <- HK. destruct (rp_correction p) eqn:HC.
      - destruct (A7 eq_refl) as [A8 A9], (D7 eq_refl) as [D8 D9]. rewrite <- (HY eq_refl) in *.
        eapply twin_bind; [apply twin_same; apply s_fmaddn_corr; auto; lia|]. intros [a c] ? [<- [Q1 Q2]]. prj. apply twin_some. prj.
        split; [split; auto|]. split; [|intros [_ X]; split; auto].
        unfold RB, i_rkb. prj. fold bt. rewrite ?HC. rewrite <- HK in *.
        split; [|split; [|auto]]; (split; [|split; [|split; [|split; [|split; [|split]]]]]; auto).
      - eapply twin_bind; [apply twin_same; apply s_fmaddn_inplace; auto; lia|]. same1. apply twin_some. prj.
        split; [split; auto|]. auto.
    Qed.

    Definition UL (nf : bool) (s1 s2 : @rk_loop T E) : Prop :=
      let '(e1, b1, y1, t1, tr1) := s1 in let '(e2, b2, y2, t2, tr2) := s2 in
      EQ e1 e2 /\ RB b1 b2 /\ same y1 y2 /\ t1 = t2 /\ tr1 = tr2 /\ (bt_implicit bt = true -> nf = false -> KK b1 b2).
    Lemma RB_stack b1 b2 l1 l2 : RB b1 b2 -> length l1 = rp_max_recursion p -> length l2 = rp_max_recursion p -> Forall B l1 -> Forall B l2 ->
      RB (mkRkBufs (rb_k b1) (rb_t b1) (rb_tmpk b1) (rb_ycorr b1) (rb_tcorr b1) l1)
         (mkRkBufs (rb_k b2) (rb_t b2) (rb_tmpk b2) (rb_ycorr b2) (rb_tcorr b2) l2).
    Proof.
      intros (I1 & I2 & HY) L1 L2 F1 F2. pose proof I1 as (A1 & A2 & A3 & A4 & A5 & A6 & A7).
      pose proof I2 as (D1 & D2 & D3 & D4 & D5 & D6 & D7). unfold RB, i_rkb. prj. auto 20.
    Qed.
    Lemma u_sub_step rem : forall level substeps nf dt s1 s2, level + rem = rp_max_recursion p ->
      (bt_implicit bt = false -> rp_correction p = false -> 0 < substeps -> forall k, k <= rem -> (0 < k -> 0 < rp_subdivisions p) ->
        live U bt (subdivided U (rp_subdivisions p) k dt)) -> UL nf s1 s2 ->
      twin (sub_step U ps ef p rem level substeps nf dt s1) (sub_step U ps ef p rem level substeps nf dt s2)
        (UL (match substeps with O => nf | S _ => false end)).
    Proof.
      induction rem as [|rem IH]; intros level substeps nf dt s1 s2 Hl HL HR; cbn [sub_step];
        (apply (@twin_for0 _ _ (fun k => UL (match k with O => nf | S _ => false end))); [exact HR|]; clear s1 s2 HR;
         intros j [[[[e1 b1] y1] t1] tr1] [[[[e2 b2] y2] t2] tr2] Hj (HE & HB & [HY VY] & HT & HTR & HN);
         subst y2 t2 tr2; fold bt;
         eapply twin_bind; [apply u_stages; auto; [intros X Y; apply (HL X Y ltac:(lia) 0); lia|intros X Y; apply HN; auto; destruct j; auto]|];
         intros [x1 c1] [x2 c2] (Q1 & Q2 & Q3 & Q4); prj;
         eapply twin_bind; [apply u_estimate; eauto|]; intros [er d1] [er' d2] (R1 & R2 & R3 & R4); prj; subst er').
      - eapply twin_bind; [apply u_accept; eauto|]. intros [y' d1'] [y'' d2'] ([S1 S2] & S3 & S4). prj. subst y''.
        apply twin_some. cbn [UL]. split; auto. split; auto. split; [split; auto|]. split; auto.
      - destruct (andb _ _).
        + pose proof R2 as (I1 & I2 & _). pose proof I1 as (K1 & K2 & K3 & K4 & K5 & K6 & K7). pose proof I2 as (J1 & J2 & J3 & J4 & J5 & J6 & J7).
          unfold rd. destruct (@nth_ok (rb_stack d1) level) as (cy1 & -> & V1); auto; [lia|].
          destruct (@nth_ok (rb_stack d2) level) as (cy2 & -> & V2); auto; [lia|]. cbn [obind]. st.
          rewrite !wr_ok by lia. cbn [obind]. cbv zeta.
          eapply twin_bind.
          { apply (IH (S level) (rp_subdivisions p) false); [lia| |].
            - intros X Y Z k Hk _. apply (HL X Y ltac:(lia) (S k)); lia.
            - cbn [UL]. split; auto. split; [apply RB_stack; auto; try (rewrite upd_length; auto); now apply Forall_upd|].
              split; [split; auto|]. split; [reflexivity|]. split; [reflexivity|]. intros X _. destruct (R4 (Q4 X)) as [Z1 Z2]. split; prj; auto. }
          intros [[[[g1 h1] z1] w1] tr1'] [[[[g2 h2] z2] w2] tr2'] (S1 & S2 & [S4 S5] & S6 & S7 & S8). subst z2 tr2'.
          pose proof S2 as (M1 & M2 & _). pose proof M1 as (P1 & P2 & P3 & P4 & P5 & P6 & P7). pose proof M2 as (N1 & N2 & N3 & N4 & N5 & N6 & N7).
          rewrite !wr_ok by lia. cbn [obind]. st. apply twin_some. cbn [UL]. split; auto.
          split; [apply RB_stack; auto; try (rewrite upd_length; auto); now apply Forall_upd|].
          split; [split; auto|]. split; [reflexivity|]. split; [reflexivity|]. intros X _.
          destruct (S8 X) as [Z1 Z2]; [now destruct (rp_subdivisions p)|]. split; prj; auto.
        + eapply twin_bind; [apply u_accept; eauto|]. intros [y' d1'] [y'' d2'] ([S1 S2] & S3 & S4). prj. subst y''.
          apply twin_some. cbn [UL]. split; auto. split; auto. split; [split; auto|]. split; auto.
    Qed.
    Definition rk_alike (s1 s2 : option (@rk_bufs T)) : Prop :=
      match s1, s2 with
      | None, None => True
      | Some b1, Some b2 => RB b1 b2 /\ (bt_implicit bt = true -> KK b1 b2)
      | _, _ => False
      end.
    Lemma u_alloc e1 e2 : EQ e1 e2 -> twin (rk_alloc U garbage p e1) (rk_alloc U garbage' p e2) (fun r1 r2 => RB (fst r1) (fst r2) /\ EQ (snd r1) (snd r2)).
    Proof.
      intros HE. unfold rk_alloc. destruct (rp_correction p) eqn:HC; alloc.
      - rewrite !fill_repeat. cbn [obind]. apply twin_some. prj. split; auto. unfold RB, i_rkb. prj. rewrite HC.
        unfold LemSafe.B in *. rewrite !repeat_length.
        repeat match goal with H : length ?a = ps |- context [length ?a] => rewrite H end.
        split; [|split]; [|  |auto]; (split; [|split; [|split; [|split; [|split; [|split]]]]]; auto).
      - apply twin_some. prj. split; auto. unfold RB, i_rkb. prj. rewrite HC.
        split; [|split]; [|  |discriminate]; (split; [|split; [|split; [|split; [|split; [|split]]]]]; auto; discriminate).
    Qed.
    Lemma u_rk dt s1 s2 e1 e2 : (bt_implicit bt = false -> rp_correction p = false ->
        forall k, k <= rp_max_recursion p -> (0 < k -> 0 < rp_subdivisions p) ->
        live U bt (subdivided U (rp_subdivisions p) k dt)) ->
      rk_alike s1 s2 -> EQ e1 e2 ->
      twin (rk_advise U ps ef garbage p dt s1 e1) (rk_advise U ps ef garbage' p dt s2 e2)
        (fun r1 r2 => rk_alike (fst r1) (fst r2) /\ EQ (snd r1) (snd r2)).
    Proof.
      intros HL HA HE. unfold rk_advise, rk_step. cbv zeta.
      assert (ET : e_time e1 = e_time e2) by apply HE. rewrite <- ET. clear ET.
      set (t := e_time e1). clearbody t.
      eapply twin_bind with (Q := fun r1 r2 => RB (fst (fst r1)) (fst (fst r2)) /\ (bt_implicit bt = true -> KK (fst (fst r1)) (fst (fst r2))) /\
        EQ (snd (fst r1)) (snd (fst r2))).
      2: { intros [[b1 x1] ?] [[b2 x2] ?] (A & C & D). prj. apply twin_some. prj. split; auto. cbn. auto. }
      eapply twin_bind with (Q := fun r1 r2 => RB (fst (fst r1)) (fst (fst r2)) /\ EQ (snd (fst r1)) (snd (fst r2)) /\ snd r1 = snd r2 /\
        (bt_implicit bt = true -> snd r1 = false -> KK (fst (fst r1)) (fst (fst r2)))).
      { destruct s1 as [b1|], s2 as [b2|]; try contradiction.
        - destruct HA as [A1 A2]. apply twin_some. prj. auto.
        - eapply twin_bind; [apply u_alloc; eauto|]. intros [? ?] [? ?] [? ?]. prj. apply twin_some. prj. split; auto. split; auto. split; auto. discriminate. }
      clear e1 e2 HE HA s1 s2. intros [[b1 e1] nf] [[b2 e2] nf'] (HB & HE & HN & HK). prj. subst nf'. eqs.
      eapply twin_bind.
      { apply u_sub_step; auto. cbn [UL]. split; auto. split; auto. split; [split; eauto|auto]. }
      intros [[[[g1 h1] z1] w1] tr1'] [[[[g2 h2] z2] w2] tr2'] (S1 & S2 & [S4 S5] & S6 & S7 & S8). subst z2.
      apply twin_some. prj. split; auto.
    Qed.
  End ButcherAll.

  Definition ad_alike (p : adams_params) (step : nat) (s1 s2 : option (@adams_bufs T)) : Prop :=
    match s1, s2 with
    | None, None => step = 0
    | Some b1, Some b2 => length (ab_f b1) = ap_rank p /\ length (ab_f b2) = ap_rank p /\ Forall B (ab_f b1) /\ Forall B (ab_f b2) /\
        (ap_corr p = true -> same (ab_corr b1) (ab_corr b2)) /\
        forall j, j < step -> j < ap_rank p -> nth_error (ab_f b1) j = nth_error (ab_f b2) j
    | _, _ => False
    end.
  (** the same solver with buffers that agree on all that will be read before it is written *)
  Fixpoint grel (s1 s2 : @solver T) : Prop :=
    match s1, s2 with
    | SEuler b1, SEuler b2 => i_euler ps b1 /\ i_euler ps b2
    | SMidpoint b1, SMidpoint b2 => i_midpoint ps b1 /\ i_midpoint ps b2
    | SStetter b1, SStetter b2 => i_stetter ps b1 /\ i_stetter ps b2 /\ alike b1 b2
    | SRk4 b1, SRk4 b2 => i_rk4 ps b1 /\ i_rk4 ps b2
    | STrapeze r b1, STrapeze r' b2 => r' = r /\ i_trapeze ps b1 /\ i_trapeze ps b2
    | SButcher p b1, SButcher p' b2 => p' = p /\ rk_alike p b1 b2
    | SBs p b1, SBs p' b2 => p' = p /\ i_bs ps p b1 /\ i_bs ps p b2
    | SAdams p st1 b1 k, SAdams p' st2 b2 k' => p' = p /\ k' = k /\ grel st1 st2 /\ ad_alike p k b1 b2
    | _, _ => False
    end.
  Lemma grel_fresh s : fresh s -> grel s s.
  Proof.
    induction s as [b|b|b|b|r b|p b|p b|p st IH b step]; cbn [fresh grel]; try (intros ->).
    - split; intros z X; discriminate.
    - split; intros z X; discriminate.
    - split; [|split; [|left; split]]; intros z X; discriminate.
    - split; intros z X; discriminate.
    - split; auto. split; intros z X; discriminate.
    - split; auto. exact I.
    - split; auto. split; intros z X; discriminate.
    - intros (A & -> & ->). split; auto. split; auto. split; auto. reflexivity.
  Qed.
  Lemma grel_advise dt s1 : forall s2 e1 e2, solver_ok s1 -> set_stages U dt s1 -> grel s1 s2 -> EQ e1 e2 ->
    twin (advise U ps ef garbage dt s1 e1) (advise U ps ef garbage' dt s2 e2)
      (fun r1 r2 => solver_ok (fst r1) /\ (forall d, set_stages U d s1 -> set_stages U d (fst r1)) /\ grel (fst r1) (fst r2) /\ EQ (snd r1) (snd r2)).
  Proof.
    induction s1 as [b|b|b|b|r b|p b|p b|p st IH b step]; intros [b'|b'|b'|b'|r' b'|p' b'|p' b'|p' st' b' step'] e1 e2 HO HS HG HE;
      cbn [grel] in HG; try contradiction; cbn [advise solver_ok set_stages] in *.
    - destruct HG. eapply twin_bind; [apply euler_twin; eauto|]. intros [c x] [c' x'] (Q1 & Q2 & Q3). apply twin_some. cbn. auto 8.
    - destruct HG. eapply twin_bind; [apply midpoint_twin; eauto|]. intros [c x] [c' x'] (Q1 & Q2 & Q3). apply twin_some. cbn. auto 8.
    - destruct HG as (? & ? & ?). eapply twin_bind; [apply stetter_twin; eauto|]. intros [c x] [c' x'] (Q1 & Q2 & Q3 & Q4). apply twin_some. cbn in *. auto 8.
    - destruct HG. eapply twin_bind; [apply rk4_twin; eauto|]. intros [c x] [c' x'] (Q1 & Q2 & Q3). apply twin_some. cbn. auto 8.
    - destruct HG as (-> & ? & ?). eapply twin_bind; [apply trapeze_twin; eauto|]. intros [c x] [c' x'] (Q1 & Q2 & Q3). apply twin_some. cbn. auto 8.
    - destruct HG as (-> & ?). eapply twin_bind; [apply u_rk; eauto|]. intros [c x] [c' x'] (Q1 & Q2). apply twin_some. cbn. auto 8.
    - destruct HG as (-> & ? & ?). eapply twin_bind; [apply bs_twin; eauto|]. intros [c x] [c' x'] (Q1 & Q2 & Q3). apply twin_some. cbn. auto 8.
    - destruct HG as (-> & -> & HG & HB). destruct HO as [HR HO].
      destruct (Nat.eqb_spec (ap_rank p) 0); [lia|].
      eapply twin_bind; [apply twin_same; apply rd_any; cbn [adams_rows length]; lia|]. intros a ? [<- Ea]. apply adams_rows_row in Ea.
      cbv zeta. assert (ET : e_time e1 = e_time e2) by apply HE. rewrite <- ET. clear ET.
      set (t := e_time e1). clearbody t.
      eapply twin_bind with (Q := fun r1 r2 => ad_alike p step (Some (fst r1)) (Some (fst r2)) /\ EQ (snd r1) (snd r2)).
      { destruct b as [b|], b' as [b'|]; try contradiction; [apply twin_some; auto|]. cbn in HB. subst step. unfold adams_alloc.
        destruct (ap_corr p) eqn:HC; alloc.
        - rewrite !fill_repeat. cbn [obind]. apply twin_some. prj. split; auto. unfold ad_alike. prj. rewrite HC.
          unfold LemSafe.B in *.
          repeat match goal with H : length ?a = ps |- context [length ?a] => rewrite H end.
          split; auto. split; auto. split; auto. split; auto. split; [|intros; lia]. intros _. split; auto. unfold LemSafe.B. now rewrite repeat_length.
        - apply twin_some. prj. split; auto. unfold ad_alike. prj. rewrite HC. split; auto. split; auto. split; auto. split; auto. split; [discriminate|intros; lia]. }
      clear e1 e2 HE. intros [b1 e1] [b2 e2] [(L1 & L2 & F1 & F2 & HC & HK) HE]. prj.
      pose proof (Nat.mod_upper_bound step (ap_rank p) ltac:(lia)) as Hm. unfold rd.
      destruct (@nth_ok (ab_f b1) (step mod ap_rank p)) as (x & -> & Vx); auto; [lia|].
      destruct (@nth_ok (ab_f b2) (step mod ap_rank p)) as (z & -> & Vz); auto; [lia|]. cbn [obind]. st.
      rewrite !wr_ok by lia. cbn [obind].
      set (f1 := upd (ab_f b1) _ k). set (f2 := upd (ab_f b2) _ k).
      assert (G1 : length f1 = ap_rank p) by (unfold f1; now rewrite upd_length).
      assert (G2 : length f2 = ap_rank p) by (unfold f2; now rewrite upd_length).
      assert (V1 : Forall B f1) by now apply Forall_upd. assert (V2 : Forall B f2) by now apply Forall_upd.
      assert (GK : forall j, j < S step -> j < ap_rank p -> nth_error f1 j = nth_error f2 j).
      { intros j Hj Hr. unfold f1, f2. destruct (Nat.eq_dec j (step mod ap_rank p)) as [->|Ne].
        - rewrite !upd_nth_same by lia. reflexivity.
        - rewrite !upd_nth_other by lia. apply HK; auto. destruct (Nat.lt_ge_cases step (ap_rank p)) as [L|L]; [|lia].
          rewrite Nat.mod_small in Ne by auto. lia. }
      destruct (Nat.ltb_spec (ap_rank p) step) as [Ls|Ls].
      + assert (EF : f1 = f2) by (apply nth_error_ext; [congruence|]; intros j Hj; apply GK; lia).
        rewrite <- EF in *. eapply twin_bind; [apply twin_same; apply adams_coeff_s with (ps := ps); auto; lia|]. intros co ? [<- Hco].
        destruct (ap_corr p) eqn:EC.
        * destruct (HC eq_refl) as [C1 C2]. rewrite <- C1. assert (EY : e_y e = e_y e0) by apply QE. rewrite <- EY.
          eapply twin_bind; [apply twin_same; apply s_fmaddn_corr; eauto; lia|]. intros [y' c'] ? [<- [Q3 Q4]]. prj. apply twin_some. prj.
          cbn [solver_ok set_stages grel]. split; auto. split; auto. split; [|auto]. split; auto. split; auto. split; auto.
          cbn. rewrite EC. split; [auto|]. split; [auto|]. split; [auto|]. split; [auto|]. split; [intros _; split; auto|auto].
        * assert (EY : e_y e = e_y e0) by apply QE. rewrite <- EY.
          eapply twin_bind; [apply twin_same; apply s_fmaddn_inplace; eauto; lia|]. intros y' ? [<- Q3]. prj. apply twin_some. prj.
          cbn [solver_ok set_stages grel]. split; auto. split; auto. split; [|auto]. split; auto. split; auto. split; auto.
          cbn. rewrite EC. split; [auto|]. split; [auto|]. split; [auto|]. split; [auto|]. split; [discriminate|auto].
      + eapply twin_bind; [apply IH; eauto|]. intros [q1 h1] [q2 h2] (Q1 & Q2 & Q3 & Q4). prj. apply twin_some. prj.
        cbn [solver_ok set_stages grel]. split; auto. split; auto. split; [|auto]. split; auto. split; auto. split; auto. cbn. auto 10.
  Qed.
  Lemma grel_all dts : forall s1 s2 e1 e2, solver_ok s1 -> Forall (fun dt => set_stages U dt s1) dts -> grel s1 s2 -> EQ e1 e2 ->
    twin (advise_all U ps ef garbage dts s1 e1) (advise_all U ps ef garbage' dts s2 e2) (fun r1 r2 => EQ (snd r1) (snd r2)).
  Proof.
    induction dts as [|dt dts IH]; intros s1 s2 e1 e2 HO HS HG HE; cbn [advise_all]; [apply twin_some; auto|].
    inversion HS as [|? ? S1 S2]; subst. eapply twin_bind; [apply grel_advise; eauto|].
    intros [q1 h1] [q2 h2] (Q1 & Q2 & Q3 & Q4). prj. apply IH; auto. eapply Forall_impl; [|exact S2]. auto.
  Qed.
End Twin.
