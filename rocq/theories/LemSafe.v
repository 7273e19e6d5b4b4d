(** The solvers stay inside their buffers in every arithmetic. *)
From Coq Require Import ZArith List Arith Lia.
From Verif Require Import Num Arr ArrLemmas ModelVertex ModelForce ModelSum ModelEngine ModelSolverBase ModelButcher
  ModelExtrap ModelSolver LemEngine LemBuffers LemOk SpecSolver SpecExtrap LemExtrap.
Import ListNotations.
Set Implicit Arguments.

Section Safe.
  Context {T E : Type} (U : NumOps T) (ps : nat)
          (ef : E -> nat -> T -> list T -> list T -> option (E * list T))
          (garbage : nat -> list T) (Ready : nat -> E -> Prop) (PInv : E -> Prop).
  Definition B (l : list T) : Prop := length l = ps.
  Notation eng := (@eng T E).
  Hypothesis Hps : 0 < ps.
  Hypothesis Hgarb : forall n, B (garbage n).
  (** [Ready step q]: a first evaluation is allowed; [PInv q]: there has been one *)
  Hypothesis Hef : forall q step t y f, PInv q \/ Ready step q -> B y -> B f ->
    exists q' f', ef q step t y f = Some (q', f') /\ PInv q' /\ B f'.
  Notation sk := (ok False).

  (** ** the primitives *)
  Lemma for_len n (body : nat -> list T -> option (list T)) a : B a -> n <= ps ->
    (forall k a, k < n -> B a -> sk (body k a) B) -> sk (for_ n 0 body a) B.
  Proof. intros Ha Hn H. apply (@ok_for0 _ False (fun _ => B)); auto. Qed.
  Lemma s_wr (a : list T) i v : B a -> i < ps -> sk (wr a i v) B.
  Proof. intros Ha Hi. unfold B in *. rewrite wr_ok by lia. apply ok_some. now rewrite upd_length. Qed.
  Lemma s_rd (a : list T) i : B a -> i < ps -> sk (rd a i) (fun _ => True).
  Proof.
    intros Ha Hi. unfold B in *. apply ok_rd.
    destruct (nth_error a i) eqn:X; eauto. apply nth_error_None in X. lia.
  Qed.
  Lemma s_rdb (l : list (list T)) i : Forall B l -> i < length l -> sk (rd l i) B.
  Proof.
    intros Hl Hi. apply ok_rd. destruct (nth_error l i) eqn:X.
    - eexists. split; eauto. rewrite Forall_forall in Hl. apply Hl. eapply nth_error_In; eauto.
    - apply nth_error_None in X. lia.
  Qed.
  Lemma s_rd_any A (l : list A) i : i < length l -> sk (rd l i) (fun a => nth_error l i = Some a).
  Proof.
    intros Hi. apply ok_rd. destruct (nth_error l i) eqn:X; eauto. apply nth_error_None in X. lia.
  Qed.
  Lemma s_wrb (l : list (list T)) i v : Forall B l -> B v -> i < length l ->
    sk (wr l i v) (fun l' => Forall B l' /\ length l' = length l).
  Proof.
    intros Hl Hv Hi. rewrite wr_ok by auto. apply ok_some. split; [now apply Forall_upd|]. apply upd_length.
  Qed.
  Lemma s_copy a b : B a -> B b -> sk (copy_buffer ps a b) B.
  Proof.
    intros Ha Hb. apply for_len; auto. intros k x Hk Hx. unfold copy_body.
    eapply ok_bind; [apply s_rd; auto|]. intros v _. apply s_wr; auto.
  Qed.
  Lemma s_fill a v : B a -> sk (fill_buffer a v) B.
  Proof. intros Ha. rewrite fill_repeat. apply ok_some. unfold B in *. now rewrite repeat_length. Qed.
  Lemma s_fmadd_inplace a b c : B a -> B b -> sk (fmadd_inplace U ps a b c) B.
  Proof.
    intros Ha Hb. apply for_len; auto. intros k x Hk Hx. unfold fmadd_inplace_body.
    eapply ok_bind; [apply s_rd; auto|]. intros v _. eapply ok_bind; [apply s_rd; auto|]. intros w _.
    apply s_wr; auto.
  Qed.
  Lemma s_fmadd a b c d : B a -> B b -> B c -> sk (fmadd U ps a b c d) B.
  Proof.
    intros Ha Hb Hc. apply for_len; auto. intros k x Hk Hx. unfold fmadd_body.
    eapply ok_bind; [apply s_rd; auto|]. intros v _. eapply ok_bind; [apply s_rd; auto|]. intros w _.
    apply s_wr; auto.
  Qed.
  Lemma s_fmaddn_inplace a bs c n : B a -> Forall B bs -> n <= length c ->
    sk (fmaddn_inplace U ps a bs c n) B.
  Proof.
    intros Ha Hb Hc. unfold fmaddn_inplace. destruct (Nat.ltb_spec (length bs) n); [now apply ok_some|].
    apply (@ok_for0 _ False (fun _ => B)); auto. intros k x Hk Hx.
    eapply ok_bind; [apply s_rd_any; lia|]. intros v _. destruct (neqb U v _); [now apply ok_some|].
    eapply ok_bind; [apply s_rdb; auto; lia|]. intros w Hw. now apply s_fmadd_inplace.
  Qed.
  Lemma s_fmaddn a b bs c n : B a -> match b with Some b => B b | None => True end ->
    Forall B bs -> n <= length c -> sk (fmaddn U ps a b bs c n) B.
  Proof.
    intros Ha Hb Hbs Hc. unfold fmaddn. destruct (Nat.ltb_spec (length bs) n); [now apply ok_some|].
    eapply ok_bind with (Q := fun st => B (fst st) /\ (b = None -> snd st = true)).
    { destruct b as [b|]; [apply ok_some; split; [auto|discriminate]|].
      eapply ok_bind; [now apply s_fill|]. intros x Hx. apply ok_some. auto. }
    intros st0 H0. eapply ok_bind with (Q := fun st => B (fst st) /\ (b = None -> snd st = true)).
    2: { intros st [A _]. apply ok_some. exact A. }
    apply (@ok_for0 _ False (fun _ st => B (fst st) /\ (b = None -> snd st = true))); auto.
    intros k [x i] Hk [Hx Hi]. cbn [fst snd] in *.
    eapply ok_bind; [apply s_rd_any; lia|]. intros v _. destruct (neqb U v _); [apply ok_some; auto|].
    eapply ok_bind; [apply s_rdb; auto; lia|]. intros w Hw. destruct i.
    - eapply ok_bind; [now apply s_fmadd|]. intros z Hz. apply ok_some. auto.
    - destruct b as [b|]; [|discriminate (Hi eq_refl)].
      eapply ok_bind; [now apply s_fmadd|]. intros z Hz. apply ok_some. auto.
  Qed.
  Lemma s_fmaddn_corr a r bs c n : B a -> B r -> Forall B bs -> n <= length c ->
    sk (fmaddn_corr U ps a r bs c n) (fun p => B (fst p) /\ B (snd p)).
  Proof.
    intros Ha Hr Hbs Hc. unfold fmaddn_corr. destruct (Nat.ltb_spec (length bs) n); [now apply ok_some|].
    apply (@ok_for0 _ False (fun _ p => B (fst p) /\ B (snd p))); auto.
    intros k [x z] Hk [Hx Hz]. cbn [fst snd] in *. unfold fmaddn_corr_body.
    eapply ok_bind; [apply s_rd; auto|]. intros v _. eapply ok_bind; [apply s_rd; auto|]. intros w _.
    eapply ok_bind with (Q := fun _ => True).
    { unfold fmaddn_corr_cell. apply (@ok_for0 _ False (fun _ _ => True)); auto.
      intros j st Hj _. eapply ok_bind; [apply s_rd_any; lia|]. intros cj _.
      destruct (neqb U cj _); [now apply ok_some|].
      eapply ok_bind; [apply s_rdb; auto; lia|]. intros bj Hbj.
      eapply ok_bind; [apply s_rd; auto|]. intros bv _. now apply ok_some. }
    intros p _. eapply ok_bind; [apply s_wr; eauto|]. intros x' Hx'.
    eapply ok_bind; [apply s_wr; eauto|]. intros z' Hz'. apply ok_some. auto.
  Qed.
  Lemma s_fmaxabs a : B a -> sk (fmaxabs U ps a) (fun _ => True).
  Proof.
    intros Ha. unfold fmaxabs. eapply ok_bind; [apply s_rd; auto|]. intros v _.
    apply (@ok_for0 _ False (fun _ _ => True)); auto. intros k x Hk _. unfold fmaxabs_body.
    eapply ok_bind; [apply s_rd; auto|]. intros w _. now apply ok_some.
  Qed.
  Lemma s_collect (g : nat -> option T) n : forall i, (forall k, i <= k < i + n -> sk (g k) (fun _ => True)) ->
    sk (collect n i g) (fun l => length l = n).
  Proof.
    induction n as [|n IH]; intros i H; cbn [collect]; [now apply ok_some|].
    eapply ok_bind; [apply H; lia|]. intros x _. eapply ok_bind; [apply IH; intros; apply H; lia|].
    intros l Hl. apply ok_some. cbn. now rewrite Hl.
  Qed.

  (** ** the engine *)
  Definition EI (e : eng) : Prop := B (e_y e) /\ (PInv (e_priv e) \/ Ready (e_step e) (e_priv e)).
  Definition EV (e : eng) : Prop := B (e_y e) /\ PInv (e_priv e).
  Lemma EV_EI (e : eng) : EV e -> EI e.
  Proof. intros [A C]. split; auto. Qed.
  Hint Resolve EV_EI : core.
  Lemma s_fc (e : eng) t y f : EI e -> B y -> B f ->
    sk (eng_fcompute ef e t y f) (fun r => EV (fst r) /\ B (snd r)).
  Proof.
    intros [H1 H2] Hy Hf. unfold eng_fcompute.
    destruct (@Hef (e_priv e) (e_step e) t y f H2 Hy Hf) as (q' & f' & -> & A & C).
    apply ok_some. cbn. split; auto. split; auto.
  Qed.
  Lemma s_new (e : eng) : EI e -> B (fst (new_buffer garbage e)) /\ EI (snd (new_buffer garbage e)) /\
    (EV e -> EV (snd (new_buffer garbage e))).
  Proof. intros H. split; [apply Hgarb|]. split; [exact H|]. intros [A C]. split; auto. Qed.
  Lemma s_news n : forall (e : eng), EI e -> length (fst (new_buffers garbage n e)) = n /\
    Forall B (fst (new_buffers garbage n e)) /\ EI (snd (new_buffers garbage n e)) /\
    (EV e -> EV (snd (new_buffers garbage n e))).
  Proof.
    induction n as [|n IH]; intros e H; cbn [new_buffers]; [cbn; auto|].
    destruct (new_buffer garbage e) as [b e'] eqn:X. destruct (s_new H) as (A & C & D). rewrite X in A, C, D.
    cbn [fst snd] in *. specialize (IH e' C). destruct (new_buffers garbage n e') as [l e2].
    cbn [fst snd length] in *. destruct IH as (I1 & I2 & I3 & I4). split; [congruence|]. split; auto.
  Qed.
  Lemma s_adv (e : eng) y dt : EV e -> B y -> EV (advise_time U (set_y e y) dt).
  Proof. intros [H1 H2] Hy. split; auto. Qed.
  Lemma s_adv' (e : eng) dt : EV e -> EV (advise_time U e dt).
  Proof. intros [H1 H2]. split; auto. Qed.
  Lemma s_sety (e : eng) y : EV e -> B y -> EV (set_y e y).
  Proof. intros [H1 H2] Hy. split; auto. Qed.
  Lemma EV_y (e : eng) : EV e -> B (e_y e).
  Proof. intros H. apply H. Qed.
  Lemma EI_y (e : eng) : EI e -> B (e_y e).
  Proof. intros H. apply H. Qed.
  Hint Resolve s_adv s_adv' EI_y EV_y : core.

  Ltac alloc :=
    repeat match goal with
    | H : EI ?e |- context [new_buffer garbage ?e] =>
        let b := fresh "b" in let e' := fresh "eng" in
        let A := fresh "VB" in let C := fresh "EB" in let D := fresh "DB" in
        pose proof (s_new H) as (A & C & D);
        destruct (new_buffer garbage e) as [b e']; cbn [fst snd] in A, C, D
    | H : EI ?e |- context [new_buffers garbage ?k ?e] =>
        let b := fresh "b" in let e' := fresh "eng" in
        let A := fresh "VB" in let C := fresh "EB" in let L := fresh "LB" in let D := fresh "DB" in
        pose proof (@s_news k e H) as (L & A & C & D);
        destruct (new_buffers garbage k e) as [b e']; cbn [fst snd] in L, A, C, D
    end.
  Ltac prj := cbn [fst snd mp_k1 mp_k2 mp_tmp sm_tmp sm_du sm_fu sm_uv sm_init r4_k r4_tmp tz_f tz_pred
    rb_k rb_t rb_tmpk rb_ycorr rb_tcorr rb_stack bb_y0 bb_int bb_ext ne_table ne_prev ne_diff ab_f ab_corr] in *.
  Ltac fa := repeat constructor; auto.
  (** one statement of straight-line code *)
  Ltac st :=
    match goal with
    | |- sk (obind (eng_fcompute ef _ _ _ _) _) _ =>
        eapply ok_bind; [apply s_fc; auto|]; let e := fresh "e" in let k := fresh "k" in
        let A := fresh "EI" in let C := fresh "VK" in intros [e k] [A C]; prj
    | |- sk (obind (rd _ _) _) _ =>
        eapply ok_bind; [first [apply s_rdb; [solve [auto]|lia]|apply s_rd; [solve [auto]|lia]|apply s_rd_any; lia]|];
        let x := fresh "x" in let A := fresh "VX" in intros x A; cbn beta in A; prj
    | |- sk (obind (wr _ _ _) _) _ =>
        eapply ok_bind; [first [apply s_wr; [solve [auto]|lia]|apply s_wrb; [solve [auto]|solve [auto]|lia]]|];
        let x := fresh "x" in let A := fresh "VX" in intros x A; cbn beta in A; prj
    | |- sk (obind (fmadd _ _ _ _ _ _) _) _ =>
        eapply ok_bind; [apply s_fmadd; auto|]; let x := fresh "x" in let A := fresh "VX" in intros x A; prj
    | |- sk (obind (fmadd_inplace _ _ _ _ _) _) _ =>
        eapply ok_bind; [apply s_fmadd_inplace; auto|]; let x := fresh "x" in let A := fresh "VX" in intros x A; prj
    | |- sk (obind (fmaddn_inplace _ _ _ _ _ _) _) _ =>
        eapply ok_bind; [apply s_fmaddn_inplace; [solve [auto]|solve [fa]|cbn; lia]|];
        let x := fresh "x" in let A := fresh "VX" in intros x A; prj
    | |- sk (obind (fmaddn _ _ _ _ _ _ _) _) _ =>
        eapply ok_bind; [apply s_fmaddn; [solve [auto]|solve [auto]|solve [fa]|cbn; lia]|];
        let x := fresh "x" in let A := fresh "VX" in intros x A; prj
    | |- sk (obind (copy_buffer _ _ _) _) _ =>
        eapply ok_bind; [apply s_copy; auto|]; let x := fresh "x" in let A := fresh "VX" in intros x A; prj
    | |- sk (obind (fill_buffer _ _) _) _ =>
        eapply ok_bind; [apply s_fill; auto|]; let x := fresh "x" in let A := fresh "VX" in intros x A; prj
    end.

  (** ** the hand-written solvers *)
  Definition i_euler (s : option (list T)) : Prop := forall b, s = Some b -> B b.
  Lemma euler_s dt s (e : eng) : i_euler s -> EI e ->
    sk (euler_advise U ps ef garbage dt s e) (fun r => i_euler (fst r) /\ EV (snd r)).
  Proof.
    intros HS HE. unfold euler_advise.
    assert (G : forall b (e : eng), B b -> EI e ->
      sk (let* (e, dy) := eng_fcompute ef e (e_time e) (e_y e) b in
          let* y := fmadd_inplace U ps (e_y e) dy dt in
          Some (Some dy, advise_time U (set_y e y) dt)) (fun r => i_euler (fst r) /\ EV (snd r))).
    { intros b e0 Hb H0. st. st. apply ok_some. prj. split; auto. intros z X. injection X as <-. auto. }
    destruct s as [b|]; [apply G; auto|]. alloc. apply G; auto.
  Qed.

  Definition i_midpoint (s : option (@midpoint T)) : Prop :=
    forall m, s = Some m -> B (mp_k1 m) /\ B (mp_k2 m) /\ B (mp_tmp m).
  Lemma midpoint_s dt s (e : eng) : i_midpoint s -> EI e ->
    sk (midpoint_advise U ps ef garbage dt s e) (fun r => i_midpoint (fst r) /\ EV (snd r)).
  Proof.
    intros HS HE. unfold midpoint_advise.
    assert (G : forall (s : midpoint) (e : eng), B (mp_k1 s) -> B (mp_k2 s) -> B (mp_tmp s) -> EI e ->
      sk (let t := e_time e in
          let* (e, k1) := eng_fcompute ef e t (e_y e) (mp_k1 s) in
          let* tmp := fmadd U ps (mp_tmp s) (e_y e) k1 (ndiv U dt (nlit U 2)) in
          let* (e, k2) := eng_fcompute ef e (nadd U t (ndiv U dt (nlit U 2))) tmp (mp_k2 s) in
          let* y := fmadd_inplace U ps (e_y e) k2 dt in
          Some (Some (mkMidpoint k1 k2 tmp), advise_time U (set_y e y) dt))
         (fun r => i_midpoint (fst r) /\ EV (snd r))).
    { intros m e0 A1 A2 A3 H0. cbv zeta. do 4 st. apply ok_some. prj. split; auto.
      intros z X. injection X as <-. auto. }
    destruct s as [m|]; [destruct (HS m eq_refl) as (A1 & A2 & A3); apply G; auto|]. alloc. apply G; auto.
  Qed.

  Definition two_bufs (l : list (list T)) : Prop := length l = 2 /\ Forall B l.
  Lemma two_intro a b : B a -> B b -> two_bufs [a; b].
  Proof. intros. split; auto. Qed.
  Definition i_stetter (s : option (@stetter T)) : Prop :=
    forall m, s = Some m -> B (sm_tmp m) /\ B (sm_du m) /\ two_bufs (sm_fu m) /\ two_bufs (sm_uv m).
  Lemma stetter_reset_s s : i_stetter s -> i_stetter (stetter_reset s).
  Proof.
    intros H m X. destruct s as [q|]; [|discriminate]. injection X as <-. exact (H q eq_refl).
  Qed.
  Lemma stetter_s dt s (e : eng) : i_stetter s -> EI e ->
    sk (stetter_advise U ps ef garbage dt s e) (fun r => i_stetter (fst r) /\ EV (snd r)).
  Proof.
    intros HS HE. unfold stetter_advise.
    assert (G : forall (s : stetter) (e : eng) (first_run : bool) t,
      B (sm_tmp s) -> B (sm_du s) -> two_bufs (sm_fu s) -> two_bufs (sm_uv s) -> EI e ->
      sk (let* u := rd (sm_uv s) 0 in
          let* v := rd (sm_uv s) 1 in
          let* fu0 := rd (sm_fu s) 0 in
          let* fu1 := rd (sm_fu s) 1 in
          let* (u, v, first_run) :=
            if orb (negb (sm_init s)) first_run then
              let* u := copy_buffer ps u (e_y e) in
              let* v := copy_buffer ps v (e_y e) in
              Some (u, v, true)
            else Some (u, v, first_run) in
          let* (e, fu0) := if (first_run : bool) then eng_fcompute ef e t u fu0 else Some (e, fu0) in
          let* tmp := fmadd U ps (sm_tmp s) v fu0 (ndiv U dt (nlit U 2)) in
          let* (e, du) := eng_fcompute ef e (nadd U t (ndiv U dt (nlit U 2))) tmp (sm_du s) in
          let* u := fmadd_inplace U ps u du dt in
          let* (e, fu1) := eng_fcompute ef e (nadd U t dt) u fu1 in
          let* v := fmaddn_inplace U ps v [fu0; fu1] [ndiv U dt (nlit U 2); ndiv U dt (nlit U 2)] 2 in
          let half := ndiv U (nlit U 1) (nlit U 2) in
          let* y := fmaddn U ps (e_y e) None [u; v] [half; half] 2 in
          Some (Some (mkStetter tmp du [fu1; fu0] [u; v] true), advise_time U (set_y e y) dt))
         (fun r => i_stetter (fst r) /\ EV (snd r))).
    { intros m e0 fr t A1 A2 [A3 A4] [A5 A6] H0. st. st. st. st.
      eapply ok_bind with (Q := fun r => B (fst (fst r)) /\ B (snd (fst r))).
      { destruct (orb _ _); [do 2 st|]; apply ok_some; prj; auto. }
      intros [[u v] fr'] [Vu Vv]. prj.
      eapply ok_bind with (Q := fun r => EI (fst r) /\ B (snd r)).
      { destruct fr'; [|apply ok_some; auto].
        eapply ok_mono; [apply s_fc; auto|]. intros r [Q1 Q2]. auto. }
      intros [e1 f0] [E1 V1]. prj. do 5 st. cbv zeta. st. apply ok_some. prj. split; auto.
      intros z X. injection X as <-. prj. split; auto. split; auto. split; apply two_intro; auto. }
    destruct s as [m|]; [destruct (HS m eq_refl) as (A1 & A2 & A3 & A4); apply G; auto|].
    alloc. apply G; auto; split; auto.
  Qed.

  Definition i_rk4 (s : option (@rk4 T)) : Prop :=
    forall m, s = Some m -> length (r4_k m) = 4 /\ Forall B (r4_k m) /\ B (r4_tmp m).
  Lemma rk4_s dt s (e : eng) : i_rk4 s -> EI e ->
    sk (rk4_advise U ps ef garbage dt s e) (fun r => i_rk4 (fst r) /\ EV (snd r)).
  Proof.
    intros HS HE. unfold rk4_advise.
    assert (G : forall (s : rk4) (e : eng) t, length (r4_k s) = 4 -> Forall B (r4_k s) -> B (r4_tmp s) -> EI e ->
      sk (let* k0 := rd (r4_k s) 0 in
          let* k1 := rd (r4_k s) 1 in
          let* k2 := rd (r4_k s) 2 in
          let* k3 := rd (r4_k s) 3 in
          let* (e, k0) := eng_fcompute ef e t (e_y e) k0 in
          let* tmp := fmadd U ps (r4_tmp s) (e_y e) k0 (ndiv U dt (nlit U 2)) in
          let* (e, k1) := eng_fcompute ef e (nadd U t (ndiv U dt (nlit U 2))) tmp k1 in
          let* tmp := fmadd U ps tmp (e_y e) k1 (ndiv U dt (nlit U 2)) in
          let* (e, k2) := eng_fcompute ef e (nadd U t (ndiv U dt (nlit U 2))) tmp k2 in
          let* tmp := fmadd U ps tmp (e_y e) k2 dt in
          let* (e, k3) := eng_fcompute ef e (nadd U t dt) tmp k3 in
          let coeff := [ndiv U dt (nlit U 6); ndiv U dt (nlit U 3); ndiv U dt (nlit U 3);
                        ndiv U dt (nlit U 6)] in
          let* y := fmaddn_inplace U ps (e_y e) [k0; k1; k2; k3] coeff 4 in
          Some (Some (mkRk4 [k0; k1; k2; k3] tmp), advise_time U (set_y e y) dt))
         (fun r => i_rk4 (fst r) /\ EV (snd r))).
    { intros m e0 t A1 A2 A3 H0. do 11 st. cbv zeta. st. apply ok_some. prj. split; auto.
      intros z X. injection X as <-. prj. split; auto. split; auto. }
    destruct s as [m|]; [destruct (HS m eq_refl) as (A1 & A2 & A3); apply G; auto|]. alloc. apply G; auto.
  Qed.

  Definition i_trapeze (s : option (@trapeze T)) : Prop :=
    forall m, s = Some m -> two_bufs (tz_f m) /\ B (tz_pred m).
  Lemma trapeze_s refine dt s (e : eng) : i_trapeze s -> EI e ->
    sk (trapeze_advise U ps ef garbage refine dt s e) (fun r => i_trapeze (fst r) /\ EV (snd r)).
  Proof.
    intros HS HE. unfold trapeze_advise.
    assert (G : forall (s : trapeze) (e : eng) t, two_bufs (tz_f s) -> B (tz_pred s) -> EI e ->
      sk (let* f0 := rd (tz_f s) 0 in
          let* f1 := rd (tz_f s) 1 in
          let* (e, f0) := eng_fcompute ef e t (e_y e) f0 in
          let* pred := fmadd U ps (tz_pred s) (e_y e) f0 dt in
          let* (e, pred, f1) := for_ (S refine) 0 (trapeze_refine U ps ef refine dt t f0) (e, pred, f1) in
          Some (Some (mkTrapeze [f0; f1] pred), advise_time U e dt))
         (fun r => i_trapeze (fst r) /\ EV (snd r))).
    { intros m e0 t [A1 A2] A3 H0. do 4 st.
      eapply ok_bind with (Q := fun r => EV (fst (fst r)) /\ B (snd (fst r)) /\ B (snd r)).
      { apply ok_for_const; [prj; auto|]. intros j [[ea pa] fb] (C1 & C2 & C3). prj.
        unfold trapeze_refine. st. destruct (Nat.eqb _ _).
        - st. apply ok_some. prj. split; auto. now apply s_sety.
        - st. apply ok_some. prj. auto. }
      intros [[ea pa] fb] (C1 & C2 & C3). prj. apply ok_some. prj. split; auto.
      intros z X. injection X as <-. prj. split; auto. apply two_intro; auto. }
    destruct s as [m|]; [destruct (HS m eq_refl) as (A1 & A2); apply G; auto|].
    alloc. apply G; auto; split; auto.
  Qed.

  (** ** the tableau solver *)
  Section Butcher.
    Variable p : @rk_params T.
    Hypothesis W : table_wf (rp_table p).
    Let bt := rp_table p.
    Definition i_rkb (b : @rk_bufs T) : Prop :=
      length (rb_k b) = bt_steps bt /\ Forall B (rb_k b) /\ B (rb_t b) /\ B (rb_tmpk b) /\
      length (rb_stack b) = rp_max_recursion p /\ Forall B (rb_stack b) /\
      (rp_correction p = true -> B (rb_ycorr b) /\ B (rb_tcorr b)).
    Lemma W_rows : bt_steps bt <= length (bt_a bt). Proof. apply W. Qed.
    Lemma W_row i row : i < bt_steps bt -> nth_error (bt_a bt) i = Some row ->
      (if bt_implicit bt then bt_steps bt else i) <= length row.
    Proof. apply W. Qed.
    Lemma W_b2 : bt_steps bt <= length (bt_b2 bt). Proof. apply W. Qed.
    Lemma W_c : bt_steps bt <= length (bt_c bt). Proof. apply W. Qed.
    Lemma W_b1 : bt_embedded bt = true -> bt_steps bt <= length (bt_b1 bt). Proof. apply W. Qed.
    Ltac facts := pose proof W_rows; pose proof W_b2; pose proof W_c.

    Lemma row_s dt i cnt : i < bt_steps bt -> cnt <= (if bt_implicit bt then bt_steps bt else i) ->
      sk (row_coeff U p dt i cnt) (fun l => length l = cnt).
    Proof.
      intros Hi Hc. facts. unfold row_coeff. fold bt.
      eapply ok_bind; [apply s_rd_any; lia|]. intros row Er. pose proof (W_row Hi Er).
      apply s_collect. intros k Hk. eapply ok_bind; [apply s_rd_any; lia|]. intros a _. now apply ok_some.
    Qed.

    Definition i_st0 (st : eng * @rk_bufs T) : Prop := EI (fst st) /\ i_rkb (snd st).
    Definition i_st (st : eng * @rk_bufs T) : Prop := EV (fst st) /\ i_rkb (snd st).
    Lemma i_st_0 st : i_st st -> i_st0 st.
    Proof. intros [A C]. split; auto. Qed.
    Hint Resolve i_st_0 : core.
    (** the next pass through the stages evaluates *)
    Definition starts (nf : bool) : Prop := 0 < bt_steps bt /\ (bt_implicit bt = true -> nf = true).
    Lemma explicit_s t dt y i st : bt_implicit bt = false -> i < bt_steps bt -> B y -> i_st0 st ->
      sk (stage_explicit U ps ef p t dt y i st) i_st.
    Proof.
      intros HI Hi Hy [HE (K1 & K2 & K3 & K4 & K5 & K6 & K7)]. facts. destruct st as [e b]. prj.
      unfold stage_explicit. fold bt. st. st. destruct (Nat.eqb_spec i 0).
      - st. st. apply ok_some. split; auto. destruct VX1 as [Q1 Q2].
        repeat split; prj; auto; try congruence; now apply K7.
      - eapply ok_bind; [apply (@row_s dt i i); auto; rewrite HI; lia|]. intros co Hco. cbn beta in Hco.
        eapply ok_bind with (Q := fun r => B (fst r) /\ (rp_correction p = true -> B (snd r))).
        { destruct (rp_correction p).
          - destruct (K7 eq_refl) as [K8 K9]. st. st. eapply ok_mono; [apply s_fmaddn_corr; auto; lia|].
            intros r [Q1 Q2]. auto.
          - eapply ok_bind; [apply s_fmaddn; [auto|exact Hy|auto|lia]|]. intros mt Hm. apply ok_some. prj. split; auto. discriminate. }
        intros [mt tc] [Q1 Q2]. prj. st. st. apply ok_some. split; auto. destruct VX1 as [Q3 Q4].
        repeat split; prj; auto; try congruence; now apply K7.
    Qed.
    Lemma first_s t dt y i st : i < bt_steps bt -> B y -> i_st0 st -> sk (stage_first U ps ef p t dt y i st) i_st.
    Proof.
      intros Hi Hy [HE (K1 & K2 & K3 & K4 & K5 & K6 & K7)]. facts. destruct st as [e b]. prj.
      unfold stage_first. fold bt. st. st. st. st. st. apply ok_some. split; auto. destruct VX2 as [Q1 Q2].
      repeat split; prj; auto; try congruence; now apply K7.
    Qed.
    Lemma implicit_s t dt y i st : bt_implicit bt = true -> i < bt_steps bt -> B y -> i_st0 st ->
      sk (stage_implicit U ps ef p t dt y i st) i_st.
    Proof.
      intros HI Hi Hy [HE (K1 & K2 & K3 & K4 & K5 & K6 & K7)]. facts. destruct st as [e b]. prj.
      unfold stage_implicit. fold bt. st. st.
      eapply ok_bind; [apply (@row_s dt i (bt_steps bt)); auto; rewrite HI; lia|]. intros co Hco. cbn beta in Hco.
      eapply ok_bind; [apply s_fmaddn; [auto|exact Hy|auto|lia]|]. intros mt Hm.
      st. st. apply ok_some. split; auto. destruct VX1 as [Q1 Q2].
      repeat split; prj; auto; try congruence; now apply K7.
    Qed.
    Lemma for_st n (body : nat -> eng * @rk_bufs T -> option (eng * @rk_bufs T)) st :
      (forall k s, k < n -> i_st0 s -> sk (body k s) i_st) -> i_st0 st -> i_st st \/ 0 < n ->
      sk (for_ n 0 body st) i_st.
    Proof.
      intros H H0 HV. apply ok_mono with (Q := fun s => i_st0 s /\ (i_st s \/ n = 0 /\ s = st)).
      - apply (@ok_for0 _ False (fun c s => i_st0 s /\ (i_st s \/ c = 0 /\ s = st))); auto.
        intros k s Hk [A _]. eapply ok_mono; [apply H; auto|]. intros s' Q. auto.
      - intros s [_ [A|[-> ->]]]; auto. destruct HV as [V|V]; auto. lia.
    Qed.

    Lemma stages_s nf t dt y st : B y -> i_st0 st -> i_st st \/ starts nf ->
      sk (if bt_implicit bt then sub_step_implicit U ps ef p nf t dt y st
          else sub_step_explicit U ps ef p t dt y st) i_st.
    Proof.
      intros Hy Hst HV. destruct (bt_implicit bt) eqn:HI.
      - unfold sub_step_implicit. fold bt. eapply ok_bind with (Q := i_st).
        + destruct nf.
          * destruct st as [e b]. destruct Hst as [HE (K1 & K2 & K3 & K4 & K5 & K6 & K7)].
            prj. st. assert (IS : i_st (e0, mkRkBufs (rb_k b) (rb_t b) k (rb_ycorr b) (rb_tcorr b) (rb_stack b))).
            { split; auto. prj. repeat split; prj; auto; now apply K7. }
            apply for_st; auto. intros; apply first_s; auto.
          * apply ok_some. destruct HV as [V|[_ V]]; auto. discriminate (V HI).
        + intros s Hs. apply ok_for_const; auto. intros _ s1 H1. apply for_st; auto.
          intros k s2 Hk H2. apply implicit_s; auto.
      - unfold sub_step_explicit. fold bt. apply for_st; auto.
        + intros k s Hk Hs. apply explicit_s; auto.
        + destruct HV as [V|[V _]]; auto.
    Qed.

    Lemma estimate_s b : i_rkb b -> sk (estimate U ps p b) (fun r => i_rkb (snd r)).
    Proof.
      intros HB. pose proof HB as (K1 & K2 & K3 & K4 & K5 & K6 & K7). facts.
      unfold estimate. fold bt. destruct (bt_embedded bt) eqn:HE; [|now apply ok_some].
      pose proof (W_b1 HE).
      eapply ok_bind; [apply s_collect; intros k Hk|].
      { st. st. now apply ok_some. }
      intros co Hco. cbn beta in Hco. eapply ok_bind; [apply s_fmaddn; [auto|exact I|auto|lia]|]. intros mt Hm.
      eapply ok_bind; [now apply s_fmaxabs|]. intros er _. apply ok_some. prj.
      repeat split; prj; auto; now apply K7.
    Qed.
    Lemma accept_s dt y b : B y -> i_rkb b -> sk (accept U ps p dt y b) (fun r => B (fst r) /\ i_rkb (snd r)).
    Proof.
      intros Hy HB. pose proof HB as (K1 & K2 & K3 & K4 & K5 & K6 & K7). facts.
      unfold accept. fold bt. eapply ok_bind; [apply s_collect; intros k Hk|].
      { st. now apply ok_some. }
      intros co Hco. cbn beta in Hco. destruct (rp_correction p) eqn:HC.
      - destruct (K7 eq_refl) as [K8 K9].
        eapply ok_bind; [apply s_fmaddn_corr; auto; lia|]. intros [y' yc] [Q1 Q2]. prj. apply ok_some. prj.
        split; auto. repeat split; prj; auto.
      - eapply ok_bind; [apply s_fmaddn_inplace; auto; lia|]. intros y' Q1. apply ok_some. prj. auto.
    Qed.

    Definition i_loop0 (st : @rk_loop T E) : Prop :=
      let '(e, b, y, t, tr) := st in EI e /\ i_rkb b /\ B y.
    Definition i_loop (st : @rk_loop T E) : Prop :=
      let '(e, b, y, t, tr) := st in EV e /\ i_rkb b /\ B y.
    Lemma i_loop_0 st : i_loop st -> i_loop0 st.
    Proof. destruct st as [[[[e b] y] t] tr]. intros (A & C & D). split; auto. Qed.
    Lemma for_loop n nf (body : nat -> @rk_loop T E -> option (@rk_loop T E)) st :
      i_loop0 st -> i_loop st \/ 0 < n /\ starts nf ->
      (forall k s, i_loop0 s -> i_loop s \/ starts nf -> sk (body k s) i_loop) -> sk (for_ n 0 body st) i_loop.
    Proof.
      intros H0 HV H. apply ok_mono with (Q := fun s => i_loop0 s /\ (i_loop s \/ n = 0 /\ s = st)).
      - apply (@ok_for0 _ False (fun c s => i_loop0 s /\ (i_loop s \/ c = 0 /\ s = st))); auto.
        intros k s Hk [A C]. eapply ok_mono; [apply H; auto|].
        + destruct C as [C|[_ ->]]; auto. destruct HV as [V|[_ V]]; auto.
        + intros s' Q. split; auto. now apply i_loop_0.
      - intros s [_ [A|[-> ->]]]; auto. destruct HV as [V|[V _]]; auto. lia.
    Qed.
    Lemma sub_step_s rem : forall level substeps nf dt st, level + rem = rp_max_recursion p ->
      i_loop0 st -> i_loop st \/ 0 < substeps /\ starts nf ->
      sk (sub_step U ps ef p rem level substeps nf dt st) i_loop.
    Proof.
      induction rem as [|rem IH]; intros level substeps nf dt st Hl HI HV; cbn [sub_step];
        (apply (@for_loop substeps nf); [exact HI|exact HV|]; clear st HI HV;
         intros k [[[[e b] y] t] tr] (HE & HB & Hy) HV;
         fold bt;
         eapply ok_bind; [apply (@stages_s nf t dt y (e, b));
           [auto|split; auto|destruct HV as [(V & _)|V]; [left; split; auto|auto]]|];
         intros [e1 b1] [HE1 HB1]; cbn [fst snd] in HE1, HB1;
         eapply ok_bind; [apply estimate_s; exact HB1|]; intros [er b2] HB2; cbn [snd] in HB2).
      - eapply ok_bind; [apply accept_s; eauto|]. intros [y' b3] [Q1 Q2]. apply ok_some.
        cbn [fst snd] in *. split; auto.
      - destruct (andb _ _).
        + pose proof HB2 as (K1 & K2 & K3 & K4 & K5 & K6 & K7).
          eapply ok_bind; [apply s_rdb; [exact K6|lia]|]. intros cy Hcy.
          eapply ok_bind; [apply s_copy; auto|]. intros cy' Hcy'.
          eapply ok_bind; [apply s_wrb; [exact K6|exact Hcy'|lia]|]. intros sk1 [Q1 Q2].
          eapply ok_bind.
          { assert (IL : forall tr', i_loop (e1, mkRkBufs (rb_k b2) (rb_t b2) (rb_tmpk b2) (rb_ycorr b2) (rb_tcorr b2) sk1,
              cy', t, tr')).
            { intros tr'. cbn [i_loop]. split; auto. split; auto.
              repeat split; prj; auto; try congruence; now apply K7. }
            apply (IH (S level)); [lia| |]; [apply i_loop_0|left]; apply IL. }
          intros [[[[e3 b3] y3] t3] tr3] (HE3 & HB3 & Hy3).
          pose proof HB3 as (J1 & J2 & J3 & J4 & J5 & J6 & J7).
          eapply ok_bind; [apply s_wrb; [exact J6|exact Hy3|lia]|]. intros sk2 [Q3 Q4].
          eapply ok_bind; [apply s_copy; auto|]. intros y4 Hy4. apply ok_some. cbn [i_loop].
          split; auto. split; auto. repeat split; prj; auto; try congruence; now apply J7.
        + eapply ok_bind; [apply accept_s; eauto|]. intros [y' b3] [Q1 Q2]. apply ok_some.
          cbn [fst snd] in *. split; auto.
    Qed.

    Definition i_rk (s : option (@rk_bufs T)) : Prop := forall b, s = Some b -> i_rkb b.
    Lemma rk_s dt s (e : eng) : i_rk s -> EI e -> EV e \/ s = None /\ 0 < bt_steps bt ->
      sk (rk_advise U ps ef garbage p dt s e) (fun r => i_rk (fst r) /\ EV (snd r)).
    Proof.
      intros HS HE HV. unfold rk_advise, rk_step.
      eapply ok_bind with (Q := fun r => i_rkb (fst (fst r)) /\ EV (snd (fst r))).
      2: { intros [[b e1] tr] [Q1 Q2]. prj. apply ok_some. prj. split; auto.
           intros z X. injection X as <-. auto. }
      eapply ok_bind with (Q := fun r => i_rkb (fst (fst r)) /\ EI (snd (fst r)) /\
        (EV (snd (fst r)) \/ starts (snd r))).
      - destruct s as [b|].
        { apply ok_some; prj. split; auto. split; auto. destruct HV as [V|[V _]]; auto. discriminate. }
        eapply ok_bind with (Q := fun r => i_rkb (fst r) /\ EI (snd r) /\ (EV e -> EV (snd r))).
        2: { intros [b e1] (Q1 & Q2 & Q3). apply ok_some. prj. split; auto. split; auto.
             destruct HV as [V|[_ V]]; auto. right. split; auto. }
        unfold rk_alloc. fold bt. alloc. destruct (rp_correction p) eqn:HC.
        + alloc. st. st. apply ok_some. prj. split; [repeat split; prj; auto|]. split; auto 8.
        + apply ok_some. prj. split; [|split; auto 8]. repeat split; prj; auto; congruence.
      - intros [[b e1] nf] (Q1 & Q2 & Q3). prj.
        eapply ok_bind.
        { apply (@sub_step_s (rp_max_recursion p) 0); auto.
          - cbn [i_loop0]. auto.
          - destruct Q3 as [Q3|Q3]; auto. left. cbn [i_loop]. auto. }
        intros [[[[e3 b3] y3] t3] tr3] (HE3 & HB3 & Hy3). apply ok_some. prj. auto.
    Qed.
  End Butcher.

  (** ** Bulirsch-Stoer *)
  Section BS.
    Variable p : @bs_params T.
    Notation L := (bp_max_level p).
    Notation cn := (map bs_seq (seq 0 L)).
    Lemma cn_len : length cn = L.
    Proof. now rewrite map_length, seq_length. Qed.
    Definition i_bsb (b : @bs_bufs T) : Prop :=
      B (bb_y0 b) /\ i_stetter (bb_int b) /\ neville_bufs ps L (bb_ext b).
    Lemma update_s n k y : neville_bufs ps L n -> k < L -> B y ->
      sk (neville_update U ps (ext_counts 2 cn) n k y) (neville_bufs ps L).
    Proof.
      intros (N1 & N2 & N3 & N4 & N5) Hk Hy. unfold neville_update. change (Forall B (ne_table n)) in N3.
      change (Forall B (ne_prev n)) in N4.
      st. st. st. destruct VX1 as [Q1 Q2]. eapply ok_bind with (Q := fun l => Forall B l /\ length l = L).
      - apply (@ok_for0 _ False (fun _ l => Forall B l /\ length l = L)); [split; [auto|congruence]|].
        intros j l Hj [Q3 Q4]. unfold neville_column.
        eapply ok_bind; [apply s_rd_any; rewrite ext_counts_length, cn_len; lia|]. intros s1 _.
        eapply ok_bind; [apply s_rd_any; rewrite ext_counts_length, cn_len; lia|]. intros s2 _. cbv zeta.
        st. st. st. eapply ok_bind; [apply s_fmaddn; [auto|exact I|auto|cbn; lia]|]. intros r Hr.
        eapply ok_mono; [apply s_wrb; auto; lia|]. intros l' [Q5 Q6]. split; auto. congruence.
      - intros l [Q3 Q4]. apply ok_some. repeat split; prj; auto; try apply N3.
    Qed.
    Lemma error_s n k : neville_bufs ps L n -> k < L -> sk (neville_error U ps n k) (fun r => neville_bufs ps L (snd r)).
    Proof.
      intros HN Hk. pose proof HN as (N1 & N2 & N3 & N4 & N5). unfold neville_error.
      change (Forall B (ne_table n)) in N3. change (B (ne_diff n)) in N5.
      destruct k; [now apply ok_some|]. st. st. st. eapply ok_bind; [now apply s_fmaxabs|]. intros m _.
      apply ok_some. repeat split; prj; auto.
    Qed.
    Lemma extrapolate_s n k y : neville_bufs ps L n -> k < L -> B y -> sk (neville_extrapolate ps n k y) B.
    Proof.
      intros (N1 & N2 & N3 & N4 & N5) Hk Hy. unfold neville_extrapolate.
      change (Forall B (ne_table n)) in N3. st. now apply s_copy.
    Qed.
    Lemma compute_s level dt t0 b (e : eng) : level < L -> i_bsb b -> EI e ->
      sk (bs_compute U ps ef garbage cn level dt t0 b e) (fun r => i_bsb (fst r) /\ EV (snd r)).
    Proof.
      intros Hl (A1 & A2 & A3) HE. unfold bs_compute. st. cbv zeta.
      eapply ok_bind; [apply s_rd_any; rewrite cn_len; lia|]. intros n Hn.
      assert (n0 : 0 < n).
      { apply nth_error_In in Hn. apply in_map_iff in Hn. destruct Hn as (k & <- & _). apply bs_seq_even. }
      eapply ok_bind with (Q := fun r => i_stetter (fst r) /\ EV (snd r)).
      - unfold bs_substeps.
        apply ok_mono with (Q := fun r => i_stetter (fst r) /\ EI (snd r) /\ (n = 0 \/ EV (snd r))).
        + apply (@ok_for0 _ False (fun c r => i_stetter (fst r) /\ EI (snd r) /\ (c = 0 \/ EV (snd r)))).
          * cbn [fst snd]. split; [now apply stetter_reset_s|]. split; auto. split; auto. apply HE.
          * intros k [s1 e1] Hk (Q1 & Q2 & _). eapply ok_mono; [apply stetter_s; auto|].
            intros r [Q3 Q4]. auto.
        + intros r (Q1 & Q2 & [Q3|Q3]); auto. lia.
      - intros [s1 e1] [Q1 Q2]. prj. eapply ok_bind; [apply update_s; auto|]. intros ext Hx.
        apply ok_some. prj. split; auto. split; auto.
    Qed.
    Lemma levels_s dt t0 left : forall level b (e : eng), level + left = L -> i_bsb b -> EI e -> EV e \/ 0 < left ->
      sk (bs_levels U ps ef garbage p cn dt t0 left level b e) (fun r => i_bsb (fst r) /\ EV (snd r)).
    Proof.
      induction left as [|left IH]; intros level b e Hl HB HE HV; cbn [bs_levels];
        [apply ok_some; prj; split; auto; destruct HV; auto; lia|].
      eapply ok_bind; [apply compute_s; eauto; lia|]. intros [b1 e1] [HB1 HE1]. prj.
      destruct (Nat.ltb level 2); [apply IH; auto; lia|]. destruct HB1 as (A1 & A2 & A3).
      eapply ok_bind; [apply error_s; eauto; lia|]. intros [md ext] Hx. prj. cbv zeta.
      match goal with |- context [if ?c then _ else _] => destruct c end.
      - eapply ok_bind; [apply extrapolate_s; eauto; lia|]. intros y Hy. apply ok_some. prj.
        split; [split; auto|]. split; auto. apply HE1.
      - apply IH; auto; [lia|]. split; auto.
    Qed.
    Definition i_bs (s : option (@bs_bufs T)) : Prop := forall b, s = Some b -> i_bsb b.
    Lemma bs_s dt s (e : eng) : i_bs s -> EI e -> EV e \/ 0 < L ->
      sk (bs_advise U ps ef garbage p dt s e) (fun r => i_bs (fst r) /\ EV (snd r)).
    Proof.
      intros HS HE HV. unfold bs_advise. rewrite init_steps_ok. cbn [obind].
      assert (G : forall b (e : eng), i_bsb b -> EI e -> EV e \/ 0 < L ->
        sk (let t0 := e_time e in
            let* y0 := copy_buffer ps (bb_y0 b) (e_y e) in
            let b0 := mkBsBufs y0 (bb_int b) (bb_ext b) in
            let* (b1, e0) := bs_levels U ps ef garbage p cn dt t0 L 0 b0 e in
            Some (Some b1, advise_time U (set_time e0 t0) dt))
           (fun r => i_bs (fst r) /\ EV (snd r))).
      { intros b e0 (A1 & A2 & A3) H0 V0. cbv zeta. st.
        eapply ok_bind; [apply levels_s; auto; split; auto|]. intros [b1 e1] [Q1 Q2]. prj.
        apply ok_some. prj. split; [intros z X; injection X as <-; auto|]. apply s_adv'. exact Q2. }
      destruct s as [b|]; [apply G; auto|]. rewrite cn_len. alloc. apply G; [|auto|destruct HV; auto 8]. split; auto. split.
      - intros m X. discriminate.
      - repeat split; prj; auto.
    Qed.
  End BS.

  (** ** any solver *)
  Fixpoint i_solver (s : @solver T) : Prop :=
    match s with
    | SEuler b => i_euler b
    | SMidpoint b => i_midpoint b
    | SStetter b => i_stetter b
    | SRk4 b => i_rk4 b
    | STrapeze _ b => i_trapeze b
    | SButcher p b => i_rk p b
    | SBs p b => i_bs p b
    | SAdams p st b _ => i_solver st /\ forall b', b = Some b' -> length (ab_f b') = ap_rank p /\ Forall B (ab_f b') /\
        (ap_corr p = true -> B (ab_corr b'))
    end.
  (** the first step evaluates the right-hand side before the time advances *)
  Definition evaluates (s : @solver T) : Prop :=
    match s with
    | SButcher p _ => 0 < bt_steps (rp_table p)
    | SBs p _ => 0 < bp_max_level p
    | _ => True
    end.
  Lemma fresh_i s : fresh s -> i_solver s.
  Proof.
    induction s; cbn [fresh i_solver]; try (intros ->; intros b X; discriminate).
    intros (A & -> & _). split; auto. intros b X. discriminate.
  Qed.

  Lemma adams_rows_row k row : nth_error (adams_rows U) k = Some row -> length row = k.
  Proof. intros H. do 6 (destruct k as [|k]; [injection H as <-; reflexivity|]). destruct k; discriminate. Qed.

  Lemma adams_coeff_s (a : list T) rank fnum dt : 0 < rank -> rank <= length a ->
    sk (adams_coeff U a rank fnum dt) (fun c => length c = rank).
  Proof.
    intros Hr Ha. unfold adams_coeff.
    apply (@ok_for0 _ False (fun _ c => length c = rank)); [apply repeat_length|].
    intros k c Hk Hc. eapply ok_bind; [apply s_rd_any; lia|]. intros x _.
    rewrite wr_ok; [apply ok_some; now rewrite upd_length|]. rewrite Hc. apply Nat.mod_upper_bound. lia.
  Qed.

  Lemma advise_s dt s : forall (e : eng), solver_ok s -> i_solver s -> EI e -> EV e \/ fresh s /\ evaluates s ->
    sk (advise U ps ef garbage dt s e) (fun r => solver_ok (fst r) /\ i_solver (fst r) /\ EV (snd r)).
  Proof.
    induction s as [b|b|b|b|r b|p b|p b|p st IHs b step]; intros e HO HI HE HV; cbn [advise i_solver solver_ok fresh evaluates] in *.
    - eapply ok_bind; [apply euler_s; eauto|]. intros [b' e1] [Q1 Q2]. apply ok_some. prj. cbn [solver_ok]. auto.
    - eapply ok_bind; [apply midpoint_s; eauto|]. intros [b' e1] [Q1 Q2]. apply ok_some. prj. cbn [solver_ok]. auto.
    - eapply ok_bind; [apply stetter_s; eauto|]. intros [b' e1] [Q1 Q2]. apply ok_some. prj. cbn [solver_ok]. auto.
    - eapply ok_bind; [apply rk4_s; eauto|]. intros [b' e1] [Q1 Q2]. apply ok_some. prj. cbn [solver_ok]. auto.
    - eapply ok_bind; [apply trapeze_s; eauto|]. intros [b' e1] [Q1 Q2]. apply ok_some. prj. cbn [solver_ok]. auto.
    - eapply ok_bind; [apply rk_s; eauto|]. intros [b' e1] [Q1 Q2]. apply ok_some. prj. cbn [solver_ok]. auto.
    - eapply ok_bind; [apply bs_s; eauto; destruct HV as [V|[_ V]]; auto|]. intros [b' e1] [Q1 Q2]. apply ok_some. prj. cbn [solver_ok]. auto.
    - destruct HO as [HR HO]. destruct HI as [HI HB].
      destruct (Nat.eqb_spec (ap_rank p) 0); [lia|].
      eapply ok_bind; [apply s_rd_any; cbn [adams_rows length]; lia|]. intros a Ea. apply adams_rows_row in Ea.
      cbv zeta.
      eapply ok_bind with (Q := fun r => EI (snd r) /\ length (ab_f (fst r)) = ap_rank p /\ Forall B (ab_f (fst r)) /\
        (ap_corr p = true -> B (ab_corr (fst r)))).
      { destruct b as [b|].
        - destruct (HB b eq_refl) as (J1 & J2 & J3). apply ok_some. prj. auto.
        - unfold adams_alloc. alloc. destruct (ap_corr p).
          + alloc. st. apply ok_some. prj. auto.
          + apply ok_some. prj. split; auto. split; auto. split; auto. discriminate. }
      intros [b1 e1] (HE1 & J1 & J2 & J3). prj.
      pose proof (Nat.mod_upper_bound step (ap_rank p) ltac:(lia)) as Hm.
      st. st. st. destruct VX0 as [Q1 Q2].
      destruct (Nat.ltb (ap_rank p) step).
      + eapply ok_bind; [apply adams_coeff_s; lia|]. intros co Hco. cbn beta in Hco. destruct (ap_corr p) eqn:HC.
        * eapply ok_bind; [apply s_fmaddn_corr; auto; lia|]. intros [y' c'] [Q3 Q4]. prj. apply ok_some. prj.
          cbn [solver_ok i_solver]. split; auto. split; auto. split; auto.
          intros b' X. injection X as <-. prj. split; [congruence|]. auto.
        * eapply ok_bind; [apply s_fmaddn_inplace; auto; lia|]. intros y' Q3. apply ok_some. prj.
          cbn [solver_ok i_solver]. split; auto. split; auto. split; auto.
          intros b' X. injection X as <-. prj. split; [congruence|]. split; auto. congruence.
      + eapply ok_bind; [apply IHs; eauto|]. intros [st' e2] (Q3 & Q4 & Q5). prj. apply ok_some. prj.
        cbn [solver_ok i_solver]. split; auto. split; auto. split; auto.
        intros b' X. injection X as <-. prj. split; [congruence|]. auto.
  Qed.

  Lemma all_s dts : forall s (e : eng), solver_ok s -> i_solver s -> EV e ->
    sk (advise_all U ps ef garbage dts s e) (fun r => B (e_y (snd r)) /\ PInv (e_priv (snd r))).
  Proof.
    induction dts as [|dt dts IH]; intros s e HO HI HE; cbn [advise_all].
    - apply ok_some. exact HE.
    - eapply ok_bind; [apply advise_s; eauto|]. intros [s1 e1] (Q1 & Q2 & Q3). apply IH; auto.
  Qed.

  (** a fresh solver on an engine that may be evaluated *)
  Lemma all_fresh dts s (e : eng) : solver_ok s -> fresh s -> evaluates s ->
    B (e_y e) -> Ready (e_step e) (e_priv e) ->
    sk (advise_all U ps ef garbage dts s e) (fun r => B (e_y (snd r))).
  Proof.
    intros HO HF HV HB HR. destruct dts as [|dt dts]; cbn [advise_all]; [now apply ok_some|].
    eapply ok_bind; [apply advise_s; eauto; [now apply fresh_i|split; auto]|].
    intros [s1 e1] (Q1 & Q2 & Q3). eapply ok_mono; [apply all_s; auto|]. intros r [Q4 _]. auto.
  Qed.

  (** an idle solver never evaluates: Bulirsch-Stoer without levels *)
  Lemma idle_all p dts : forall b (e : eng), bp_max_level p = 0 -> i_bs p b -> B (e_y e) ->
    sk (advise_all U ps ef garbage dts (SBs p b) e) (fun r => B (e_y (snd r))).
  Proof.
    induction dts as [|dt dts IH]; intros b e HL HB HE; cbn [advise_all]; [now apply ok_some|].
    eapply ok_bind with (Q := fun r => exists b', fst r = SBs p b' /\ i_bs p b' /\ B (e_y (snd r))).
    2: { intros [s1 e1] (b' & A & C & D). prj. subst s1. now apply IH. }
    cbn [advise]. eapply ok_bind with (Q := fun r => i_bs p (fst r) /\ B (e_y (snd r))).
    2: { intros [b' e1] [A C]. apply ok_some. prj. eauto. }
    unfold bs_advise. rewrite init_steps_ok. cbn [obind].
    assert (G : forall b (e : eng), i_bsb p b -> B (e_y e) ->
      sk (let t0 := e_time e in
          let* y0 := copy_buffer ps (bb_y0 b) (e_y e) in
          let b0 := mkBsBufs y0 (bb_int b) (bb_ext b) in
          let* (b1, e0) := bs_levels U ps ef garbage p (map bs_seq (seq 0 (bp_max_level p))) dt t0 (bp_max_level p) 0 b0 e in
          Some (Some b1, advise_time U (set_time e0 t0) dt))
         (fun r => i_bs p (fst r) /\ B (e_y (snd r)))).
    { clear b e HB HE. intros b e (A1 & A2 & A3) HE. cbv zeta. st. rewrite HL. cbn [bs_levels obind].
      apply ok_some. prj. split; [|exact HE]. intros z X. injection X as <-. split; auto. }
    destruct b as [b|]; [apply G; auto|]. rewrite cn_len.
    destruct (new_buffer garbage e) as [b1 e1] eqn:X1.
    assert (B b1 /\ e_y e1 = e_y e) as [V1 Y1].
    { unfold new_buffer in X1. injection X1 as <- <-. split; auto. }
    rewrite HL in *. cbn [new_buffers].
    destruct (new_buffer garbage e1) as [b2 e2] eqn:X2.
    assert (B b2 /\ e_y e2 = e_y e1) as [V2 Y2].
    { unfold new_buffer in X2. injection X2 as <- <-. split; auto. }
    apply G; [|congruence]. split; auto. split; [intros m X; discriminate|]. rewrite HL. repeat split; prj; auto.
  Qed.
End Safe.

(** ** a first evaluation that crashes *)
Section Crash.
  Context {T E : Type} (U : NumOps T) (ps : nat)
          (ef : E -> nat -> T -> list T -> list T -> option (E * list T))
          (garbage : nat -> list T) (q0 : E) (n0 : nat).
  Notation eng := (@eng T E).
  Notation Bf := (B ps).
  Hypothesis Hps : 0 < ps.
  Hypothesis Hgarb : forall n, Bf (garbage n).
  Hypothesis Hbad : forall t y f, Bf y -> Bf f -> ef q0 n0 t y f = None.
  Definition ER (e : eng) : Prop := Bf (e_y e) /\ e_priv e = q0 /\ e_step e = n0.
  Lemma c_fc (e : eng) t y f : ER e -> Bf y -> Bf f -> eng_fcompute ef e t y f = None.
  Proof. intros (A & C & D) Hy Hf. unfold eng_fcompute. now rewrite C, D, Hbad. Qed.
  Lemma c_bind A C (o : option A) (g : A -> option C) (Q : A -> Prop) :
    ok False o Q -> (forall a, Q a -> g a = None) -> obind o g = None.
  Proof. destruct o; cbn; auto. Qed.
  Lemma c_new (e : eng) : ER e -> Bf (fst (new_buffer garbage e)) /\ ER (snd (new_buffer garbage e)).
  Proof. intros H. split; [apply Hgarb|exact H]. Qed.
  Lemma c_news n : forall (e : eng), ER e -> length (fst (new_buffers garbage n e)) = n /\
    Forall Bf (fst (new_buffers garbage n e)) /\ ER (snd (new_buffers garbage n e)).
  Proof.
    induction n as [|n IH]; intros e H; cbn [new_buffers]; [cbn; auto|].
    destruct (new_buffer garbage e) as [b e'] eqn:X. destruct (c_new H) as (A & C). rewrite X in A, C.
    cbn [fst snd] in *. specialize (IH e' C). destruct (new_buffers garbage n e') as [l e2].
    cbn [fst snd length] in *. destruct IH as (I1 & I2 & I3). split; [congruence|]. split; auto.
  Qed.
  Lemma ER_y (e : eng) : ER e -> Bf (e_y e).
  Proof. intros H. apply H. Qed.
  Hint Resolve ER_y : core.
  Ltac prj := cbn [fst snd mp_k1 mp_k2 mp_tmp sm_tmp sm_du sm_fu sm_uv sm_init r4_k r4_tmp tz_f tz_pred
    rb_k rb_t rb_tmpk rb_ycorr rb_tcorr rb_stack bb_y0 bb_int bb_ext ne_table ne_prev ne_diff ab_f ab_corr] in *.
  Ltac alloc :=
    repeat match goal with
    | H : ER ?e |- context [new_buffer garbage ?e] =>
        let b := fresh "b" in let e' := fresh "eng" in let A := fresh "VB" in let C := fresh "EB" in
        pose proof (c_new H) as (A & C); destruct (new_buffer garbage e) as [b e']; cbn [fst snd] in A, C
    | H : ER ?e |- context [new_buffers garbage ?k ?e] =>
        let b := fresh "b" in let e' := fresh "eng" in
        let A := fresh "VB" in let C := fresh "EB" in let L := fresh "LB" in
        pose proof (@c_news k e H) as (L & A & C);
        destruct (new_buffers garbage k e) as [b e']; cbn [fst snd] in L, A, C
    end.
  Ltac boom := rewrite c_fc by auto; reflexivity.

  Lemma euler_c dt (e : eng) : ER e -> euler_advise U ps ef garbage dt None e = None.
  Proof. intros H. unfold euler_advise. alloc. boom. Qed.
  Lemma midpoint_c dt (e : eng) : ER e -> midpoint_advise U ps ef garbage dt None e = None.
  Proof. intros H. unfold midpoint_advise. alloc. prj. boom. Qed.
  Lemma rk4_c dt (e : eng) : ER e -> rk4_advise U ps ef garbage dt None e = None.
  Proof.
    intros H. unfold rk4_advise. alloc. prj.
    do 4 (eapply c_bind; [apply s_rdb with (ps := ps); solve [auto|lia]|]; intros ? ?). boom.
  Qed.
  Lemma trapeze_c r dt (e : eng) : ER e -> trapeze_advise U ps ef garbage r dt None e = None.
  Proof.
    intros H. unfold trapeze_advise. alloc. prj.
    do 2 (eapply c_bind; [apply s_rdb with (ps := ps); solve [auto|lia]|]; intros ? ?). boom.
  Qed.
  Lemma stetter_c dt s (e : eng) : ER e -> i_stetter ps s -> (forall m, s = Some m -> sm_init m = false) ->
    stetter_advise U ps ef garbage dt s e = None.
  Proof.
    intros H HS HI. unfold stetter_advise.
    assert (G : forall (s : @stetter T) (e : eng) (first_run : bool) t,
      two_bufs ps (sm_fu s) -> two_bufs ps (sm_uv s) -> orb (negb (sm_init s)) first_run = true -> ER e ->
      (let* u := rd (sm_uv s) 0 in
       let* v := rd (sm_uv s) 1 in
       let* fu0 := rd (sm_fu s) 0 in
       let* fu1 := rd (sm_fu s) 1 in
       let* (u, v, first_run) :=
         if orb (negb (sm_init s)) first_run then
           let* u := copy_buffer ps u (e_y e) in
           let* v := copy_buffer ps v (e_y e) in
           Some (u, v, true)
         else Some (u, v, first_run) in
       let* (e, fu0) := if (first_run : bool) then eng_fcompute ef e t u fu0 else Some (e, fu0) in
       let* tmp := fmadd U ps (sm_tmp s) v fu0 (ndiv U dt (nlit U 2)) in
       let* (e, du) := eng_fcompute ef e (nadd U t (ndiv U dt (nlit U 2))) tmp (sm_du s) in
       let* u := fmadd_inplace U ps u du dt in
       let* (e, fu1) := eng_fcompute ef e (nadd U t dt) u fu1 in
       let* v := fmaddn_inplace U ps v [fu0; fu1] [ndiv U dt (nlit U 2); ndiv U dt (nlit U 2)] 2 in
       let half := ndiv U (nlit U 1) (nlit U 2) in
       let* y := fmaddn U ps (e_y e) None [u; v] [half; half] 2 in
       Some (Some (mkStetter tmp du [fu1; fu0] [u; v] true), advise_time U (set_y e y) dt)) = None).
    { intros m e0 fr t [A1 A2] [A3 A4] A5 H0.
      do 4 (eapply c_bind; [apply s_rdb with (ps := ps); solve [auto|lia]|]; intros ? ?).
      rewrite A5. eapply c_bind with (Q := fun r => Bf (fst (fst r)) /\ snd r = true).
      { do 2 (eapply ok_bind; [apply s_copy; auto|]; intros ? ?). apply ok_some. auto. }
      intros [[u v] fr'] [Q1 Q2]. prj. subst fr'. boom. }
    destruct s as [m|].
    - destruct (HS m eq_refl) as (A1 & A2 & A3 & A4). apply G; auto. now rewrite (HI m eq_refl).
    - alloc. apply G; auto; try (split; auto).
  Qed.
  Lemma rk_c p dt (e : eng) : table_wf (rp_table p) -> 0 < bt_steps (rp_table p) -> ER e ->
    rk_advise U ps ef garbage p dt None e = None.
  Proof.
    intros W Hs H. unfold rk_advise, rk_step.
    enough (X : forall A (g : _ -> option A), obind (let* (b, e) := rk_alloc U garbage p e in Some (b, e, true))
      (fun r => let '(b, e1, nf) := r in
         obind (sub_step U ps ef p (rp_max_recursion p) 0 1 nf dt (e1, b, e_y e1, e_time e, [])) g) = None)
      by (rewrite X; reflexivity).
    intros A g. eapply c_bind with (Q := fun r => snd r = true /\ ER (snd (fst r)) /\
      length (rb_k (fst (fst r))) = bt_steps (rp_table p) /\ Forall Bf (rb_k (fst (fst r))) /\ Bf (rb_tmpk (fst (fst r)))).
    { eapply ok_bind with (Q := fun r => ER (snd r) /\
        length (rb_k (fst r)) = bt_steps (rp_table p) /\ Forall Bf (rb_k (fst r)) /\ Bf (rb_tmpk (fst r))).
      2: { intros [b e1] Q. apply ok_some. prj. auto. }
      unfold rk_alloc. alloc. destruct (rp_correction p).
      - alloc. do 2 (eapply ok_bind; [apply s_fill; eauto|]; intros ? ?). apply ok_some. prj. auto.
      - apply ok_some. prj. auto. }
    intros [[b e1] nf] (Q1 & Q2 & Q3 & Q4 & Q5). prj. subst nf.
    assert (ST : forall t y, Bf y -> (if bt_implicit (rp_table p) then sub_step_implicit U ps ef p true t dt y (e1, b)
          else sub_step_explicit U ps ef p t dt y (e1, b)) = None).
    { intros t y Hy. destruct (bt_implicit (rp_table p)).
      - unfold sub_step_implicit. boom.
      - unfold sub_step_explicit. destruct (bt_steps (rp_table p)) as [|k] eqn:X; [lia|]. cbn [for_].
        replace (stage_explicit U ps ef p t dt y 0 (e1, b)) with (@None (eng * @rk_bufs T)); [reflexivity|].
        symmetry. unfold stage_explicit. destruct W as (_ & _ & _ & W & _).
        eapply c_bind; [apply s_rd_any with (ps := ps); solve [auto|lia]|]. intros ci _.
        eapply c_bind; [apply s_rdb with (ps := ps); solve [auto|lia]|]. intros ki Hk. cbn [Nat.eqb]. boom. }
    destruct (rp_max_recursion p); cbn [sub_step for_]; rewrite ST by auto; reflexivity.
  Qed.
  Lemma compute_c L dt t0 (b : @bs_bufs T) (e : eng) : Bf (bb_y0 b) -> bb_int b = None -> ER e ->
    bs_compute U ps ef garbage (map bs_seq (seq 0 (S L))) 0 dt t0 b e = None.
  Proof.
    intros Hb Hi H. unfold bs_compute.
    eapply c_bind; [apply s_copy; auto|]. intros y Hy. cbn [seq map]. cbv zeta.
    cbn [rd nth_error obind]. change (bs_seq 0) with 2. unfold bs_substeps. rewrite Hi. cbn [stetter_reset for_ fst snd].
    rewrite stetter_c; [reflexivity| | |]; try (intros m Y; discriminate).
    destruct H as (K1 & K2 & K3). split; auto.
  Qed.
  Lemma bs_c p dt (e : eng) : 0 < bp_max_level p -> ER e -> bs_advise U ps ef garbage p dt None e = None.
  Proof.
    intros HL H. unfold bs_advise. rewrite init_steps_ok. cbn [obind]. rewrite cn_len. alloc. prj. cbv zeta.
    eapply c_bind; [apply s_copy; auto|]. intros y0 Hy0. destruct (bp_max_level p) as [|L] eqn:X; [lia|].
    cbn [bs_levels]. rewrite compute_c; auto.
  Qed.

  (** the first step is undefined *)
  Lemma advise_c dt dts s (e : eng) : fresh s -> evaluates s -> (forall p b, s = SButcher p b -> table_wf (rp_table p)) ->
    ER e -> advise_all U ps ef garbage (dt :: dts) s e = None.
  Proof.
    intros HF HV HW H. cbn [advise_all].
    enough (X : advise U ps ef garbage dt s e = None) by now rewrite X.
    destruct s as [b|b|b|b|r b|p b|p b|p st b step]; cbn [fresh evaluates advise] in *; subst.
    - now rewrite euler_c.
    - now rewrite midpoint_c.
    - rewrite stetter_c; auto; intros m Y; discriminate.
    - now rewrite rk4_c.
    - now rewrite trapeze_c.
    - rewrite rk_c; eauto.
    - now rewrite bs_c.
    - destruct HF as (HF & -> & ->). destruct (Nat.eqb_spec (ap_rank p) 0) as [Z|Z]; [reflexivity|].
      destruct (rd (adams_rows U) (ap_rank p)) as [a|]; [|reflexivity]. cbn [obind]. cbv zeta.
      eapply c_bind with (Q := fun r => ER (snd r) /\ length (ab_f (fst r)) = ap_rank p /\ Forall Bf (ab_f (fst r))).
      { unfold adams_alloc. alloc. destruct (ap_corr p).
        - alloc. eapply ok_bind; [apply s_fill; eauto|]. intros ? ?. apply ok_some. prj. auto.
        - apply ok_some. prj. auto. }
      intros [b e1] (Q1 & Q2 & Q3). prj.
      pose proof (Nat.mod_upper_bound 0 (ap_rank p) ltac:(lia)) as Hm.
      eapply c_bind; [apply s_rdb with (ps := ps); solve [auto|lia]|]. intros fb Hfb. boom.
  Qed.
End Crash.
