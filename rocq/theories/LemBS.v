(** The exact result of a Bulirsch-Stoer step over the reals. *)
From Coq Require Import ZArith Reals List Arith Lia Lra.
From Verif Require Import Num Arr ArrLemmas SpecPhys SpecEngine RLemmas ModelVertex ModelForce ModelSum
  ModelEngine ModelSolverBase ModelButcher ModelExtrap ModelSolver LemOk LemBufR SpecSolver SpecExtrap
  SpecBS LemExtrap LemSolver LemRk LemSolverTime LemExact.
Import ListNotations.
Set Implicit Arguments.
Local Open Scope R_scope.

(** ** Neville's triangle is Lagrange's formula *)
Lemma rprod_ext n (f g : nat -> R) : (forall i, (i < n)%nat -> f i = g i) -> rprod n f = rprod n g.
Proof. induction n as [|n IH]; intros H; cbn; auto. rewrite IH, H; auto. Qed.
Lemma rprod_nonzero n (f : nat -> R) : (forall i, (i < n)%nat -> f i <> 0) -> rprod n f <> 0.
Proof. induction n as [|n IH]; intros H; cbn; [lra|]. apply Rmult_integral_contrapositive; split; [apply IH; intros; apply H; lia|apply H; lia]. Qed.
Lemma rprod_zero n (f : nat -> R) i : (i < n)%nat -> f i = 0 -> rprod n f = 0.
Proof.
  induction n as [|n IH]; intros H E; [lia|]. cbn. destruct (Nat.eq_dec i n) as [->|].
  - rewrite E. ring.
  - rewrite IH by (auto; lia). ring.
Qed.
Lemma rprod_div n (f g : nat -> R) : (forall i, (i < n)%nat -> g i <> 0) ->
  rprod n (fun i => f i / g i) = rprod n f / rprod n g.
Proof.
  induction n as [|n IH]; intros H; cbn; [field|]. rewrite IH by auto. field. split; auto.
  apply rprod_nonzero. auto.
Qed.

Section Lagrange.
  Variable s : nat -> R.
  Variable m0 : nat.
  Hypothesis pos : forall i, (i < m0)%nat -> s i <> 0.
  Hypothesis dif : forall i j, (i < j < m0)%nat -> s j - s i <> 0.
  Notation x := (fun i => / s i).

  Lemma tri_ext_in f g j : forall k, (j <= k)%nat -> (forall i, (k - j <= i <= k)%nat -> f i = g i) ->
    tri s f k j = tri s g k j.
  Proof.
    induction j as [|j IH]; intros k Hk H; cbn [tri]; [apply H; lia|].
    rewrite (IH k), (IH (k - 1)%nat); auto; try lia; intros; apply H; lia.
  Qed.
  Lemma tri_0 k j : tri s (fun _ => 0) k j = 0.
  Proof. rewrite (tri_ext s _ (fun i => 0 * 0)); [|intros; ring]. rewrite tri_scal. ring. Qed.
  Lemma tri_rsum n (c : nat -> R) (g : nat -> nat -> R) k j :
    tri s (fun i => rsum n (fun q => c q * g q i)) k j = rsum n (fun q => c q * tri s (g q) k j).
  Proof.
    induction n as [|n IH]; cbn [rsum]; [apply tri_0|]. now rewrite tri_plus, tri_scal, IH.
  Qed.

  (** the coefficients of prev + (x - a) c *)
  Fixpoint pm (a prev : R) (c : list R) : list R :=
    match c with [] => [prev] | c0 :: r => (prev - a * c0) :: pm a c0 r end.
  Lemma pm_eval a X c : forall prev, peval (pm a prev c) X = prev + (X - a) * peval c X.
  Proof. induction c as [|c0 r IH]; intros prev; cbn [pm peval]; [ring|]. rewrite IH. ring. Qed.
  Lemma pm_length a c : forall prev, length (pm a prev c) = S (length c).
  Proof. induction c as [|c0 r IH]; intros; cbn; auto. Qed.

  Section Basis.
    Variables (a : nat).
    Fixpoint pb (i m : nat) : list R :=
      match m with
      | O => [1]
      | S k => if Nat.eqb k i then pb i k else pm (x (a + k)%nat) 0 (pb i k)
      end.
    Lemma pb_eval i X m : peval (pb i m) X = rprod m (fun j => if Nat.eqb j i then 1 else X - x (a + j)%nat).
    Proof.
      induction m as [|m IH]; cbn [pb rprod]; [cbn; ring|].
      destruct (Nat.eqb_spec m i); [now rewrite IH, Rmult_1_r|]. rewrite pm_eval, IH. ring.
    Qed.
    Lemma pb_length i m : length (pb i m) = if Nat.ltb i m then m else S m.
    Proof.
      induction m as [|m IH]; cbn [pb]; auto. destruct (Nat.eqb_spec m i) as [<-|].
      - rewrite IH. destruct (Nat.ltb_spec m m), (Nat.ltb_spec m (S m)); lia.
      - rewrite pm_length, IH. destruct (Nat.ltb_spec i m), (Nat.ltb_spec i (S m)); lia.
    Qed.
  End Basis.

  Lemma inv_dif i j : (i < m0)%nat -> (j < m0)%nat -> i <> j -> x i - x j <> 0.
  Proof.
    intros Hi Hj Hn E. assert (X : s i = s j).
    { cbn beta in E. rewrite <- (Rinv_inv (s i)), <- (Rinv_inv (s j)).
      f_equal. lra. }
    destruct (Nat.lt_trichotomy i j) as [H|[H|H]]; try lia.
    - apply (@dif i j); [lia|lra].
    - apply (@dif j i); [lia|lra].
  Qed.

  Lemma tri_lagrange f k j : (j <= k < m0)%nat -> tri s f k j = at_zero x f (k - j) (S j).
  Proof.
    intros Hk. set (a := (k - j)%nat).
    set (D := fun q => rprod (S j) (fun i => if Nat.eqb i q then 1 else x (a + q)%nat - x (a + i)%nat)).
    assert (HD : forall q, (q < S j)%nat -> D q <> 0).
    { intros q Hq. apply rprod_nonzero. intros i Hi. destruct (Nat.eqb_spec i q); [lra|].
      apply inv_dif; subst a; lia. }
    rewrite (@tri_ext_in f (fun i => rsum (S j) (fun q => f (a + q)%nat / D q * peval (pb a q (S j)) (x i)))).
    - rewrite tri_rsum. unfold at_zero. apply rsum_ext. intros q Hq.
      rewrite (@tri_poly s m0 pos dif j (pb a q (S j)) k); [|rewrite pb_length; destruct (Nat.ltb_spec q (S j)); lia|lia].
      rewrite pb_eval. unfold Rdiv. rewrite Rmult_assoc. f_equal.
      rewrite (@rprod_ext (S j) (fun i => if Nat.eqb i q then 1 else _ * _)
         (fun i => (if Nat.eqb i q then 1 else 0 - x (a + i)%nat) / (if Nat.eqb i q then 1 else x (a + q)%nat - x (a + i)%nat))).
      + rewrite rprod_div; [unfold D, Rdiv; ring|]. intros i Hi.
        destruct (Nat.eqb_spec i q); [lra|]. apply inv_dif; subst a; lia.
      + intros i Hi. destruct (Nat.eqb_spec i q); [field|].
        assert (x (a + q)%nat - x (a + i)%nat <> 0) by (apply inv_dif; subst a; lia).
        assert (x (a + i)%nat - x (a + q)%nat <> 0) by (apply inv_dif; subst a; lia).
        cbn beta in *. set (u := / s (a + i)%nat) in *. set (v := / s (a + q)%nat) in *. field. auto.
    - lia.
    - intros i Hi. rewrite (@rsum_ext _ _ (fun q => (if Nat.eqb q (i - a) then 1 else 0) * f i)).
      + rewrite (rsum_indicator (fun _ => f i)); auto. subst a. lia.
      + intros q Hq. rewrite pb_eval. destruct (Nat.eqb_spec q (i - a)).
        * subst q. replace (a + (i - a))%nat with i by (subst a; lia).
          change (rprod (S j) _) with (rprod (S j) (fun j0 => if Nat.eqb j0 (i - a) then 1 else x i - x (a + j0)%nat)).
          unfold D. replace (a + (i - a))%nat with i by (subst a; lia).
          set (P := rprod _ _). assert (P <> 0); [|field; auto].
          specialize (HD (i - a)%nat Hq). unfold D in HD. replace (a + (i - a))%nat with i in HD by (subst a; lia).
          exact HD.
        * rewrite (@rprod_zero _ _ (i - a)%nat); [field; auto|subst a; lia|].
          destruct (Nat.eqb_spec (i - a) q); [lia|].
          replace (a + (i - a))%nat with i by (subst a; lia). ring.
  Qed.
End Lagrange.

Lemma nth_map_seq0 A (f : nat -> A) n c d : (c < n)%nat -> nth c (map f (seq 0 n)) d = f c.
Proof.
  intros H. apply nth_error_nth. rewrite nth_error_map, (nth_error_nth' _ O) by now rewrite seq_length.
  now rewrite seq_nth.
Qed.

Lemma run_steps_snoc A (phi : R -> R -> A -> A) h c : forall t y,
  run_steps phi t y (repeat h (S c)) = phi (t + INR c * h) h (run_steps phi t y (repeat h c)).
Proof.
  induction c as [|c IH]; intros t y.
  - cbn. f_equal. ring.
  - change (run_steps phi (t + h) (phi t h y) (repeat h (S c)) =
            phi (t + INR (S c) * h) h (run_steps phi (t + h) (phi t h y) (repeat h c))).
    rewrite IH. f_equal. rewrite S_INR. ring.
Qed.

Section Exact.
  Context {E : Type} (mind : R) (ps : nat)
          (ef : E -> nat -> R -> list R -> list R -> option (E * list R))
          (garbage : nat -> list R) (F : R -> list R -> list R).
  Notation N := (Rops mind).
  Notation V := (V ps).
  Notation eng := (@eng R E).
  Notation Ex := (@Ex E ps).
  Notation stx := (@stx ps F).
  Hypothesis Hps : (0 < ps)%nat.
  Hypothesis Hgarb : forall n, V (garbage n).
  Hypothesis HF : forall t y, V y -> V (F t y).
  Hypothesis Hef : forall q step t y f, V y -> V f -> ef q step t y f = Some (q, F t y).
  Let mf := False.

  Lemma half_sum_V uv : V (half_sum ps uv).
  Proof. apply lincomb_V. Qed.
  Lemma smoothed_half t dt y n :
    smoothed ps F t dt y n = half_sum ps (run_steps (stetter_value ps F) t (y, y) (repeat (dt / INR n) n)).
  Proof.
    unfold smoothed, half_sum. destruct (run_steps _ _ _ _) as [u v]. unfold lincomb. apply map_ext_in.
    intros c Hc. apply in_seq in Hc. cbn [rsum nth fst snd].
    replace (nth c (repeat 0 ps) 0) with 0; [field|].
    symmetry. apply nth_error_nth. rewrite nth_error_repeat; auto. lia.
  Qed.
  Lemma smoothed_V t dt y n : V (smoothed ps F t dt y n).
  Proof. rewrite smoothed_half. apply half_sum_V. Qed.

  Lemma substeps_x n h s (e : eng) t y : stx t (y, y) s -> ~ running s -> Ex t y e ->
    ok mf (bs_substeps N ps ef garbage n h (s, e))
      (fun r => (exists uv, stx (t + INR n * h) uv (fst r)) /\
        Ex (t + INR n * h) (half_sum ps (run_steps (stetter_value ps F) t (y, y) (repeat h n))) (snd r)).
  Proof.
    intros HS HR HE. unfold bs_substeps. eapply ok_mono.
    - apply (@ok_for0 _ mf (fun c st =>
        let uv := run_steps (stetter_value ps F) t (y, y) (repeat h c) in
        stx (t + INR c * h) uv (fst st) /\ (~ running (fst st) -> uv = (y, y)) /\
        Ex (t + INR c * h) (half_sum ps uv) (snd st))).
      + cbn [repeat run_steps fst snd INR]. replace (t + 0 * h) with t by ring.
        split; auto. split; auto. rewrite half_sum_same; auto. apply HE.
      + intros c [s1 e1] Hc (A & B & C). cbn [fst snd] in *. cbv zeta in *.
        rewrite run_steps_snoc. eapply ok_mono.
        * apply (@stetter_x E mind ps ef garbage F Hps Hgarb HF Hef h s1 e1 (t + INR c * h)
            (half_sum ps (run_steps (stetter_value ps F) t (y, y) (repeat h c)))
            (run_steps (stetter_value ps F) t (y, y) (repeat h c))); auto.
          intros X. rewrite (B X). rewrite half_sum_same; auto. apply HE.
        * intros [s2 e2] (D1 & D2 & D3). cbn [fst snd] in *.
          replace (t + INR (S c) * h) with (t + INR c * h + h) by (rewrite S_INR; ring).
          split; auto. split; auto. intros X. contradiction.
    - cbv zeta. intros [s1 e1] (A & _ & C). cbn [fst snd] in *. eauto.
  Qed.

  Section Levels.
    Variables (p : @bs_params R) (t dt : R) (y : list R).
    Hypothesis Hy : V y.
    Notation L := (bp_max_level p).
    Notation thr := (bp_threshold p).
    Definition cnts : list nat := map bs_seq (seq 0 L).
    Notation S' i := (smoothed ps F t dt y (bs_seq i)).
    Notation X a m := (extrapolated ps F t dt y a m).

    Lemma cnts_len : length cnts = L.
    Proof. unfold cnts. now rewrite map_length, seq_length. Qed.

    Definition bsx (b : @bs_bufs R) : Prop :=
      V (bb_y0 b) /\ (exists q uv, stx q uv (bb_int b)) /\ neville_bufs ps L (bb_ext b).
    Definition row (level : nat) (b : @bs_bufs R) : Prop :=
      level <> O -> neville_row ps (ext_counts 2 cnts) (fun i => S' i) (level - 1) (ne_table (bb_ext b)).

    (** a cell of row [k] *)
    Lemma row_cell k j b : bsx b -> row (S k) b -> (j <= k < L)%nat ->
      nth j (ne_table (bb_ext b)) [] = X (k - j)%nat (S j).
    Proof.
      intros (_ & _ & (B1 & B2 & B3 & _)) HR Hj.
      assert (Vn : V (nth j (ne_table (bb_ext b)) [])) by (apply Forall_V_nth; auto; lia).
      specialize (HR ltac:(lia)). replace (S k - 1)%nat with k in HR by lia.
      assert (G : good_counts cnts) by apply bs_counts_good.
      destruct (node_good (ext_counts_good (o := 2) ltac:(lia) G)) as [P D].
      rewrite ext_counts_length, cnts_len in P, D.
      apply nth_ext with (d := 0) (d' := 0).
      { unfold extrapolated. rewrite map_length, seq_length. exact Vn. }
      intros c Hc. unfold LemBufR.V in Vn. rewrite Vn in Hc.
      specialize (HR j (unit_w c) ltac:(lia)). rewrite lin_unit in HR by auto. rewrite HR.
      unfold extrapolated.
      rewrite nth_map_seq0 by auto.
      rewrite (@tri_lagrange _ L P D) by lia. unfold at_zero. apply rsum_ext. intros i Hi.
      rewrite lin_unit by auto. f_equal.
      assert (Q : forall i, (i < L)%nat -> / node (ext_counts 2 cnts) i = (/ INR (bs_seq i)) ^ 2).
      { intros q Hq. unfold node. rewrite ext_counts_nth by (rewrite cnts_len; lia).
        unfold cnts. rewrite nth_map_seq0 by auto. rewrite pow_INR. symmetry. apply pow_inv. }
      apply rprod_ext. intros q Hq. destruct (Nat.eqb q i); auto.
      rewrite !Q by lia. reflexivity.
    Qed.

    Lemma compute_x level b (e : eng) : (level < L)%nat -> bsx b -> bb_y0 b = y -> row level b -> V (e_y e) ->
      ok mf (bs_compute N ps ef garbage cnts level dt t b e)
        (fun r => bsx (fst r) /\ bb_y0 (fst r) = y /\ row (S level) (fst r) /\
                  Ex (t + dt) (S' level) (snd r)).
    Proof.
      intros Hl (B1 & (q & uv & B2) & B3) E0 HR HV. unfold bs_compute. rewrite E0.
      eapply ok_bind; [apply (ok_copy mind); auto|]. intros y' ->. cbv zeta.
      unfold cnts at 1. rewrite rd_map by auto. cbn [obind].
      assert (Z : INR (bs_seq level) <> 0).
      { apply not_0_INR. pose proof (bs_seq_even level). lia. }
      eapply ok_bind.
      { apply (@substeps_x (bs_seq level) (ndiv N dt (nnat N (bs_seq level))) _ _ t y).
        - eapply stx_reset; eauto.
        - apply reset_not_running.
        - repeat split; auto. }
      intros [int e1] (A & B). cbn [fst snd] in *. rewrite nnat_R in *. cbn [ndiv Rops] in *.
      replace (t + INR (bs_seq level) * (dt / INR (bs_seq level))) with (t + dt) in * by (field; auto).
      rewrite <- smoothed_half in B. pose proof B as (T1 & Y1 & _). rewrite Y1.
      eapply ok_bind.
      { apply (@neville_update_ok mind ps mf (ext_counts 2 cnts) L (bb_ext b) level (S' level) (fun i => S' i)); auto.
        - rewrite ext_counts_length, cnts_len. auto.
        - apply smoothed_V. }
      intros ext (C1 & C2 & _). apply ok_some. cbn [fst snd bb_y0 bb_int bb_ext].
      split; [|split; auto; split; auto].
      - split; [rewrite <- E0; auto|]. split; auto. destruct A as (uv1 & A). eauto.
      - intros _. cbn [bb_ext]. replace (S level - 1)%nat with level by lia. exact C2.
    Qed.

    Lemma settled_iff k b m i : bsx b -> row (S (S k)) b -> (S k < L)%nat ->
      (i < ps)%nat ->
      m = Rabs (nth i (nth (S k) (ne_table (bb_ext b)) []) 0 - nth i (nth k (ne_table (bb_ext b)) []) 0) ->
      (forall i, (i < ps)%nat ->
         Rabs (nth i (nth (S k) (ne_table (bb_ext b)) []) 0 - nth i (nth k (ne_table (bb_ext b)) []) 0) <= m) ->
      m < thr <-> settled ps F thr t dt y (S k).
    Proof.
      intros HB HR Hk Hi -> HM. unfold settled.
      rewrite !(@row_cell (S k) (S k) b), !(@row_cell (S k) k b) in * by (auto; lia).
      replace (S k - S k)%nat with O in * by lia. replace (S k - k)%nat with 1%nat in * by lia.
      split.
      - intros H c Hc. eapply Rle_lt_trans; [apply HM; auto|auto].
      - intros H. apply H. auto.
    Qed.

    (** after the levels below [level] *)
    Lemma levels_x left : forall level b (e : eng), (level + left = L)%nat ->
      bsx b -> bb_y0 b = y -> row level b -> V (e_y e) ->
      match level with O => e_y e = y | S l => e_y e = S' l end ->
      (forall j, (2 <= j < level)%nat -> ~ settled ps F thr t dt y j) ->
      (2 < level -> level < L)%nat ->
      ok mf (bs_levels N ps ef garbage p cnts dt t left level b e)
        (fun r => bsx (fst r) /\ bs_result ps F L thr t dt y (e_y (snd r)) /\ V (e_y (snd r))).
    Proof.
      induction left as [|left IH]; intros level b e Hl HB E0 HR HV HY HN HL; cbn [bs_levels].
      - apply ok_some. cbn [fst snd]. split; auto. split; auto.
        assert (E1 : level = L) by lia. subst level. unfold bs_result.
        destruct L as [|[|[|l]]]; auto. lia.
      - eapply ok_bind; [apply compute_x; eauto; lia|].
        intros [b1 e1] (A1 & A2 & A3 & A4). cbn [fst snd] in *. pose proof A4 as (T1 & Y1 & V1).
        assert (Ve : V (e_y e1)) by now rewrite Y1.
        destruct (Nat.ltb_spec level 2) as [H2|H2].
        + apply IH; auto; try lia.
        + destruct A1 as (I1 & I2 & I3).
          eapply ok_bind; [apply neville_error_ok; eauto; lia|].
          intros [md ext] (B1 & B2 & B3 & B4). cbn [fst snd] in *.
          assert (HB2 : bsx (mkBsBufs (bb_y0 b1) (bb_int b1) ext)) by (split; auto).
          assert (HR2 : row (S level) (mkBsBufs (bb_y0 b1) (bb_int b1) ext)).
          { unfold row in *. cbn [bb_ext]. now rewrite B2. }
          destruct md as [m|]; [|lia]. destruct B4 as (_ & i & Hi & Hm & HM).
          rewrite <- B2 in Hm, HM. destruct level as [|k]; [lia|].
          replace (S k - 1)%nat with k in Hm, HM by lia.
          pose proof (@settled_iff k _ m i HB2 HR2 ltac:(lia) Hi Hm HM) as HS.
          destruct (nltb N m thr) eqn:EM; cbn [orb].
          * apply nltb_R in EM. apply HS in EM.
            eapply ok_bind; [eapply (neville_extrapolate_ok mind); [exact B1|lia|exact Ve]|].
            intros y' Ey. cbn beta in Ey. apply ok_some. cbn [fst snd].
            assert (Ey' : y' = X 0%nat (S (S k))).
            { rewrite Ey. change (ne_table ext) with (ne_table (bb_ext (mkBsBufs (bb_y0 b1) (bb_int b1) ext))).
              rewrite (@row_cell (S k) (S k)); auto; [|lia]. f_equal. lia. }
            split; auto. cbn [e_y set_y]. split.
            -- unfold bs_result. destruct L as [|[|[|l]]] eqn:EL; try lia.
               exists (S k). split; [lia|]. auto.
            -- rewrite Ey'. unfold LemBufR.V, extrapolated. now rewrite map_length, seq_length.
          * apply nltb_R_false in EM.
            assert (NS : ~ settled ps F thr t dt y (S k)) by (intros X; apply HS in X; lra).
            destruct (Nat.eqb_spec (S k) (L - 1)) as [EL1|EL1].
            -- eapply ok_bind; [eapply (neville_extrapolate_ok mind); [exact B1|lia|exact Ve]|].
               intros y' Ey. cbn beta in Ey. apply ok_some. cbn [fst snd].
               assert (Ey' : y' = X 0%nat (S (S k))).
               { rewrite Ey. change (ne_table ext) with (ne_table (bb_ext (mkBsBufs (bb_y0 b1) (bb_int b1) ext))).
                 rewrite (@row_cell (S k) (S k)); auto; [|lia]. f_equal. lia. }
               split; auto. cbn [e_y set_y]. split.
               ++ unfold bs_result. destruct L as [|[|[|l]]] eqn:EL; try lia.
                  exists (S k). split; [lia|]. auto.
               ++ rewrite Ey'. unfold LemBufR.V, extrapolated. now rewrite map_length, seq_length.
            -- apply IH; auto; try lia.
               intros j Hj. destruct (Nat.eq_dec j (S k)) as [->|]; auto. apply HN. lia.
    Qed.
  End Levels.

  Definition bs_good (p : @bs_params R) (s : option (@bs_bufs R)) : Prop := forall b, s = Some b -> bsx p b.

  Lemma bs_x p dt s (e : eng) t y : bs_good p s -> Ex t y e ->
    ok mf (bs_advise N ps ef garbage p dt s e)
      (fun r => bs_good p (fst r) /\
         exists y', bs_result ps F (bp_max_level p) (bp_threshold p) t dt y y' /\ Ex (t + dt) y' (snd r)).
  Proof.
    intros HS HE. unfold bs_advise. rewrite init_steps_ok. cbn [obind].
    fold (cnts p).
    assert (G : forall b (e : eng), bsx p b -> Ex t y e ->
      ok mf
       (let t0 := e_time e in
        let* y0 := copy_buffer ps (bb_y0 b) (e_y e) in
        let b0 := mkBsBufs y0 (bb_int b) (bb_ext b) in
        let* (b1, e0) := bs_levels N ps ef garbage p (cnts p) dt t0 (bp_max_level p) 0 b0 e in
        Some (Some b1, advise_time N (set_time e0 t0) dt))
       (fun r => bs_good p (fst r) /\
         exists y', bs_result ps F (bp_max_level p) (bp_threshold p) t dt y y' /\ Ex (t + dt) y' (snd r))).
    { intros b e0 HB (T0 & Y0 & V0). cbv zeta. rewrite T0, Y0. pose proof HB as (B1 & B2 & B3).
      eapply ok_bind; [apply (ok_copy mind); auto|]. intros y0 ->.
      eapply ok_bind.
      { apply (@levels_x p t dt y V0 (bp_max_level p) 0); auto; try lia.
        - split; auto.
        - intros X. congruence.
        - now rewrite Y0. }
      intros [b1 e1] (A & B & C). cbn [fst snd] in *. apply ok_some. cbn [fst snd]. split.
      - intros b' X. injection X as <-. auto.
      - eexists. split; [exact B|]. split; [reflexivity|]. split; [reflexivity|]. exact C. }
    destruct s as [b|]; [apply G; auto|]. rewrite cnts_len.
    destruct (new_x garbage Hgarb HE) as [N1 E1]. destruct (new_buffer garbage e) as [y0 e1].
    cbn [fst snd] in *.
    destruct (news_x garbage Hgarb (bp_max_level p) E1) as (N2 & N3 & E2).
    destruct (new_buffers garbage (bp_max_level p) e1) as [tb e2]. cbn [fst snd] in *.
    destruct (news_x garbage Hgarb (bp_max_level p) E2) as (N4 & N5 & E3).
    destruct (new_buffers garbage (bp_max_level p) e2) as [pv e3]. cbn [fst snd] in *.
    destruct (new_x garbage Hgarb E3) as [N6 E4]. destruct (new_buffer garbage e3) as [df e4].
    cbn [fst snd] in *. apply G; auto. split; auto. split.
    - exists t, (y, y). split; [apply HE|]. split; [apply HE|]. intros m X. discriminate.
    - unfold neville_bufs. cbn [ne_table ne_prev ne_diff bb_ext]. unfold LemBufR.V in *. auto.
  Qed.

  Lemma bs_all p dts : forall s (e : eng) t y, bs_good p s -> Ex t y e ->
    ok mf (advise_all N ps ef garbage dts (SBs p s) e)
      (fun r => bs_history ps F (bp_max_level p) (bp_threshold p) t y dts (e_time (snd r)) (e_y (snd r))).
  Proof.
    induction dts as [|dt dts IH]; intros s e t y HS HE; cbn [advise_all].
    - apply ok_some. cbn [snd]. destruct HE as (-> & -> & _). constructor.
    - eapply ok_bind with (Q := fun r => exists b y', fst r = SBs p b /\ bs_good p b /\
        bs_result ps F (bp_max_level p) (bp_threshold p) t dt y y' /\ Ex (t + dt) y' (snd r)).
      { cbn [advise]. eapply ok_bind; [eapply bs_x; eauto|]. intros [b e1] (A & y' & B & C).
        apply ok_some. exists b, y'. auto. }
      intros [s1 e1] (b & y' & A & B & C & D). cbn [fst snd] in *. subst s1.
      eapply ok_mono; [eapply IH; eauto|]. intros r Hr. econstructor; eauto.
  Qed.
End Exact.
