(** The implicit Runge-Kutta solvers: exact result for an engine whose right-hand side is a
    function, and convergence of the sweeps. *)
From Coq Require Import ZArith Reals List Arith Lia Lra Bool.
From Verif Require Import Num Arr ArrLemmas SpecPhys SpecEngine RLemmas ModelVertex ModelForce ModelSum
  ModelEngine ModelSolverBase ModelButcher ModelExtrap ModelSolver LemOk LemBufR SpecSolver SpecExtrap
  LemExtrap LemSolver LemRk SpecImplicit.
Import ListNotations.
Set Implicit Arguments.
Local Open Scope R_scope.

Lemma put_upd (ks : list (list R)) i k : (i < length ks)%nat -> put ks i k = upd ks i k.
Proof.
  intros H. unfold put. revert i H. induction ks as [|a ks IH]; intros [|i] H; cbn [length] in H; try lia.
  - reflexivity.
  - cbn. f_equal. apply IH. lia.
Qed.
Lemma put_length (ks : list (list R)) i k : (i < length ks)%nat -> length (put ks i k) = length ks.
Proof. intros H. rewrite put_upd by auto. apply upd_length. Qed.

Section Sweep.
  Variables (ps : nat) (F : R -> list R -> list R) (bt : table R).
  Let s := bt_steps bt.
  Notation stage := (impl_stage ps F bt).
  Notation sweep := (impl_sweep ps F bt).
  Notation sweeps := (impl_sweeps ps F bt).

  Definition partial t h y i ks := fold_left (fun ks i => put ks i (stage t h y ks i)) (seq 0 i) ks.
  Lemma partial_S t h y i ks : partial t h y (S i) ks =
    put (partial t h y i ks) i (stage t h y (partial t h y i ks) i).
  Proof. unfold partial. rewrite seq_S, fold_left_app. reflexivity. Qed.
  Lemma partial_length t h y i ks : (i <= length ks)%nat -> length (partial t h y i ks) = length ks.
  Proof.
    induction i as [|i IH]; intros H; auto. rewrite partial_S, put_length; rewrite IH; lia.
  Qed.
  Lemma sweep_length t h y ks : length ks = s -> length (sweep t h y ks) = s.
  Proof. intros H. unfold sweep. fold s. change (length (partial t h y s ks) = s). rewrite partial_length; lia. Qed.
  Lemma sweeps_length r : forall t h y ks, length ks = s -> length (sweeps r t h y ks) = s.
  Proof. induction r as [|r IH]; intros t h y ks H; cbn [impl_sweeps]; auto. apply IH. now apply sweep_length. Qed.
  Lemma sweeps_S r : forall t h y ks, sweeps (S r) t h y ks = sweep t h y (sweeps r t h y ks).
  Proof. induction r as [|r IH]; intros t h y ks; auto. cbn [impl_sweeps] in *. now rewrite IH. Qed.

  (** solutions are the fixed points *)
  Lemma solves_partial t h y ks : impl_solves ps F bt t h y ks -> forall i, (i <= s)%nat -> partial t h y i ks = ks.
  Proof.
    intros [L H]. induction i as [|i IH]; intros Hi; auto. rewrite partial_S, IH by lia.
    rewrite put_upd by (fold s in L; lia). rewrite <- H by (fold s; lia).
    apply nth_error_ext; [apply upd_length|]. intros j Hj. rewrite upd_length in Hj.
    destruct (Nat.eq_dec j i) as [->|].
    - rewrite upd_nth_same by auto. symmetry. now apply nth_error_nth'.
    - now rewrite upd_nth_other by auto.
  Qed.
  Lemma solves_fixed t h y ks : length ks = s ->
    (impl_solves ps F bt t h y ks <-> sweep t h y ks = ks).
  Proof.
    intros L. split.
    - intros H. apply (solves_partial H). lia.
    - intros H. assert (P : forall i, (i <= s)%nat -> partial t h y i ks = ks).
      { (* later replacements do not touch earlier stages *)
        assert (K : forall d i j, (i + d <= s)%nat -> (j < i)%nat ->
          nth j (partial t h y (i + d) ks) [] = nth j (partial t h y i ks) []).
        { induction d as [|d IH]; intros i j Hd Hj; [now rewrite Nat.add_0_r|].
          rewrite Nat.add_succ_r, partial_S, put_upd by (rewrite partial_length; lia).
          rewrite nth_upd by (rewrite partial_length; lia). destruct (Nat.eqb_spec j (i + d)); [lia|].
          apply IH; lia. }
        induction i as [|i IH]; intros Hi; auto. rewrite partial_S, IH by lia.
        assert (E : nth i (partial t h y (S i) ks) [] = nth i ks []).
        { rewrite <- (K (s - S i)%nat (S i) i) by lia. replace (S i + (s - S i))%nat with s by lia.
          change (partial t h y s ks) with (sweep t h y ks). now rewrite H. }
        rewrite partial_S, IH in E by lia. rewrite put_upd in E |- * by lia.
        rewrite nth_upd in E by lia. rewrite Nat.eqb_refl in E. rewrite E.
        apply nth_error_ext; [apply upd_length|]. intros j Hj. rewrite upd_length in Hj.
        destruct (Nat.eq_dec j i) as [->|].
        - rewrite upd_nth_same by auto. symmetry. now apply nth_error_nth'.
        - now rewrite upd_nth_other by auto. }
      split; auto. intros i Hi. fold s in Hi.
      pose proof (P (S i) ltac:(lia)) as E. rewrite partial_S, P in E by lia.
      rewrite put_upd in E by lia. rewrite <- E at 1. rewrite nth_upd by lia. now rewrite Nat.eqb_refl.
  Qed.
End Sweep.

(** ** Convergence *)
Lemma rsum_abs n f : Rabs (rsum n f) <= rsum n (fun i => Rabs (f i)).
Proof.
  induction n as [|n IH]; cbn [rsum]; [rewrite Rabs_R0; lra|].
  eapply Rle_trans; [apply Rabs_triang|]. lra.
Qed.
Lemma rsum_le n f g : (forall i, (i < n)%nat -> f i <= g i) -> rsum n f <= rsum n g.
Proof.
  induction n as [|n IH]; intros H; cbn [rsum]; [lra|].
  assert (f n <= g n) by (apply H; lia). assert (rsum n f <= rsum n g) by (apply IH; intros; apply H; lia). lra.
Qed.

Section Conv.
  Variables (ps : nat) (F : R -> list R -> list R) (bt : table R) (L A : R).
  Let s := bt_steps bt.
  Hypothesis HL0 : 0 <= L.
  Hypothesis HF : forall t u v d, length u = ps -> length v = ps -> near ps u v d -> near ps (F t u) (F t v) (L * d).
  Hypothesis HA : forall i, (i < s)%nat -> rsum s (fun j => Rabs (nth j (nth i (bt_a bt) []) 0)) <= A.
  Notation stage := (impl_stage ps F bt).
  Notation sweep := (impl_sweep ps F bt).
  Notation sweeps := (impl_sweeps ps F bt).

  Lemma lincomb_near y h c ks ks' d S0 : rsum s (fun j => Rabs (c j)) <= S0 -> 0 <= d ->
    (forall j, (j < s)%nat -> near ps (nth j ks []) (nth j ks' []) d) ->
    near ps (lincomb ps y h s c ks) (lincomb ps y h s c ks') (Rabs h * S0 * d).
  Proof.
    intros HS Hd H q Hq. rewrite !lincomb_nth by auto.
    replace (nth q y 0 + h * rsum s (fun j => c j * nth q (nth j ks []) 0) -
             (nth q y 0 + h * rsum s (fun j => c j * nth q (nth j ks' []) 0)))
      with (h * rsum s (fun j => c j * (nth q (nth j ks []) 0 - nth q (nth j ks' []) 0))).
    2:{ rewrite (rsum_ext s (fun j => c j * (nth q (nth j ks []) 0 - nth q (nth j ks' []) 0))
          (fun j => c j * nth q (nth j ks []) 0 - c j * nth q (nth j ks' []) 0)) by (intros; lra).
        rewrite rsum_minus. lra. }
    rewrite Rabs_mult, Rmult_assoc. apply Rmult_le_compat_l; [apply Rabs_pos|].
    eapply Rle_trans; [apply rsum_abs|].
    eapply Rle_trans; [apply rsum_le with (g := fun j => Rabs (c j) * d)|].
    - intros j Hj. rewrite Rabs_mult. apply Rmult_le_compat_l; [apply Rabs_pos|]. now apply H.
    - rewrite rsum_scal_r. now apply Rmult_le_compat_r.
  Qed.

  Variables (t h : R) (y : list R) (kx : list (list R)).
  Hypothesis Hsol : impl_solves ps F bt t h y kx.
  Let q := Rabs h * L * A.
  Hypothesis Hq : q <= 1.

  Definition all_near ks d := forall j, (j < s)%nat -> near ps (nth j ks []) (nth j kx []) d.

  Lemma stage_near ks d i : (i < s)%nat -> 0 <= d -> all_near ks d ->
    near ps (stage t h y ks i) (nth i kx []) (q * d).
  Proof.
    intros Hi Hd H. destruct Hsol as [Lk Hk]. rewrite Hk by auto. unfold impl_stage. fold s.
    replace (q * d) with (L * (Rabs h * A * d)) by (unfold q; ring).
    apply HF; try apply lincomb_V.
    apply lincomb_near; auto.
  Qed.

  Lemma partial_near ks d : length ks = s -> 0 <= d -> all_near ks d -> forall i, (i <= s)%nat ->
    all_near (partial ps F bt t h y i ks) d /\
    forall j, (j < i)%nat -> near ps (nth j (partial ps F bt t h y i ks) []) (nth j kx []) (q * d).
  Proof.
    intros Lk Hd H. induction i as [|i IH]; intros Hi.
    - split; auto. intros j Hj. lia.
    - destruct IH as [I1 I2]; [lia|]. rewrite partial_S, put_upd by (rewrite partial_length; lia).
      assert (X : near ps (stage t h y (partial ps F bt t h y i ks) i) (nth i kx []) (q * d)).
      { apply stage_near; auto. }
      assert (Xd : q * d <= d).
      { rewrite <- (Rmult_1_l d) at 2. now apply Rmult_le_compat_r. }
      split; intros j Hj; rewrite nth_upd by (rewrite partial_length; lia); destruct (Nat.eqb_spec j i) as [->|].
      + intros c Hc. eapply Rle_trans; [apply X; auto|exact Xd].
      + now apply I1.
      + exact X.
      + apply I2. lia.
  Qed.

  Lemma sweep_near ks d : length ks = s -> 0 <= d -> all_near ks d -> all_near (sweep t h y ks) (q * d).
  Proof.
    intros Lk Hd H j Hj. destruct (partial_near Lk Hd H (i := s)) as [_ X]; [lia|].
    now apply X.
  Qed.

  Lemma q_pos : (0 < s)%nat -> 0 <= q.
  Proof.
    intros Hs. unfold q. assert (0 <= A).
    { eapply Rle_trans; [|apply (HA Hs)]. clear. induction s as [|n IH]; cbn [rsum]; [lra|].
      pose proof (Rabs_pos (nth n (nth 0 (bt_a bt) []) 0)). lra. }
    pose proof (Rabs_pos h). apply Rmult_le_pos; [now apply Rmult_le_pos|auto].
  Qed.

  Lemma sweeps_near r : forall ks d, length ks = s -> 0 <= d -> all_near ks d ->
    all_near (sweeps r t h y ks) (q ^ r * d).
  Proof.
    induction r as [|r IH]; intros ks d Lk Hd H; cbn [impl_sweeps].
    - intros j Hj. rewrite pow_O, Rmult_1_l. now apply H.
    - intros j Hj. cbn [pow]. replace (q * q ^ r * d) with (q ^ r * (q * d)) by ring.
      apply IH; auto.
      + now apply sweep_length.
      + apply Rmult_le_pos; auto. apply q_pos. lia.
      + now apply sweep_near.
  Qed.
End Conv.

(** ** The stage equations have exactly one solution when the sweep contracts *)
Section Banach.
  Variables (ps : nat) (F : R -> list R -> list R) (bt : table R) (L A : R).
  Let s := bt_steps bt.
  Hypothesis HL0 : 0 <= L.
  Hypothesis HF : forall t u v d, length u = ps -> length v = ps -> near ps u v d -> near ps (F t u) (F t v) (L * d).
  Hypothesis HFl : forall t u, length u = ps -> length (F t u) = ps.
  Hypothesis HA : forall i, (i < s)%nat -> rsum s (fun j => Rabs (nth j (nth i (bt_a bt) []) 0)) <= A.
  Hypothesis HA0 : 0 <= A.
  Variables (t h : R) (y : list R).
  Let q := Rabs h * L * A.
  Hypothesis Hq : q < 1.
  Notation stage := (impl_stage ps F bt).
  Notation sweep := (impl_sweep ps F bt).
  Notation sweeps := (impl_sweeps ps F bt).

  Lemma q0 : 0 <= q.
  Proof. unfold q. apply Rmult_le_pos; auto. apply Rmult_le_pos; auto. apply Rabs_pos. Qed.

  Definition two_near ks ks' d := forall j, (j < s)%nat -> near ps (nth j ks []) (nth j ks' []) d.

  Lemma partial_two ks ks' d : length ks = s -> length ks' = s -> 0 <= d -> two_near ks ks' d ->
    forall i, (i <= s)%nat ->
    two_near (partial ps F bt t h y i ks) (partial ps F bt t h y i ks') d /\
    forall j, (j < i)%nat -> near ps (nth j (partial ps F bt t h y i ks) []) (nth j (partial ps F bt t h y i ks') []) (q * d).
  Proof.
    intros Lk Lk' Hd H. induction i as [|i IH]; intros Hi.
    - split; [exact H|]. intros j Hj. lia.
    - destruct IH as [I1 I2]; [lia|]. rewrite !partial_S.
      set (K := partial ps F bt t h y i ks) in *. set (K' := partial ps F bt t h y i ks') in *.
      assert (LK : length K = s) by (unfold K; rewrite partial_length; lia).
      assert (LK' : length K' = s) by (unfold K'; rewrite partial_length; lia).
      assert (X : near ps (stage t h y K i) (stage t h y K' i) (q * d)).
      { unfold impl_stage. fold s. replace (q * d) with (L * (Rabs h * A * d)) by (unfold q; ring).
        apply HF; try apply lincomb_V. apply lincomb_near; auto. }
      assert (Xd : q * d <= d) by (pose proof q0; nra).
      rewrite !put_upd by lia. split; intros j Hj; rewrite !nth_upd by lia; destruct (Nat.eqb_spec j i) as [->|].
      + intros c Hc. eapply Rle_trans; [apply X; auto|exact Xd].
      + now apply I1.
      + exact X.
      + apply I2. lia.
  Qed.

  Lemma sweep_two ks ks' d : length ks = s -> length ks' = s -> 0 <= d -> two_near ks ks' d ->
    two_near (sweep t h y ks) (sweep t h y ks') (q * d).
  Proof.
    intros L1 L2 Hd H j Hj. destruct (partial_two L1 L2 Hd H (i := s)) as [_ X]; [lia|]. now apply X.
  Qed.

  (** *** lengths of the stages *)
  Lemma partial_V ks : length ks = s -> forall i, (i <= s)%nat -> forall j, (j < i)%nat ->
    length (nth j (partial ps F bt t h y i ks) []) = ps.
  Proof.
    intros Lk. induction i as [|i IH]; intros Hi j Hj; [lia|].
    rewrite partial_S, put_upd by (rewrite partial_length; lia).
    rewrite nth_upd by (rewrite partial_length; lia). destruct (Nat.eqb_spec j i) as [->|].
    - unfold impl_stage. apply HFl. apply lincomb_V.
    - apply IH; lia.
  Qed.
  Lemma sweep_V ks j : length ks = s -> (j < s)%nat -> length (nth j (sweep t h y ks) []) = ps.
  Proof. intros Lk Hj. exact (@partial_V ks Lk s (le_n s) j Hj). Qed.

  Lemma stages_eq ks ks' : length ks = s -> length ks' = s ->
    (forall j, (j < s)%nat -> length (nth j ks []) = ps) -> (forall j, (j < s)%nat -> length (nth j ks' []) = ps) ->
    (forall j c, (j < s)%nat -> (c < ps)%nat -> nth c (nth j ks []) 0 = nth c (nth j ks' []) 0) -> ks = ks'.
  Proof.
    intros L1 L2 V1 V2 H. apply nth_error_ext; [congruence|]. intros j Hj.
    rewrite !(nth_error_nth' _ []) by lia. f_equal.
    apply (nth_ext _ _ 0 0); [rewrite V1, V2 by lia; auto|].
    intros c Hc. rewrite V1 in Hc by lia. apply H; lia.
  Qed.

  Lemma solution_unique ks ks' : impl_solves ps F bt t h y ks -> impl_solves ps F bt t h y ks' -> ks = ks'.
  Proof.
    intros S1 S2. pose proof S1 as [L1 E1]. pose proof S2 as [L2 E2]. fold s in L1, L2, E1, E2.
    assert (V1 : forall j, (j < s)%nat -> length (nth j ks []) = ps) by (intros j Hj; rewrite E1 by auto; apply HFl, lincomb_V).
    assert (V2 : forall j, (j < s)%nat -> length (nth j ks' []) = ps) by (intros j Hj; rewrite E2 by auto; apply HFl, lincomb_V).
    (* the largest difference *)
    assert (Dm : exists d, 0 <= d /\ two_near ks ks' d).
    { exists (rsum s (fun j => rsum ps (fun c => Rabs (nth c (nth j ks []) 0 - nth c (nth j ks' []) 0)))).
      assert (P : forall n (g : nat -> R), (forall i, 0 <= g i) -> 0 <= rsum n g).
      { induction n as [|n IH]; intros g Hg; cbn [rsum]; [lra|]. specialize (IH g Hg). specialize (Hg n). lra. }
      assert (Q : forall n (g : nat -> R) i, (forall i, 0 <= g i) -> (i < n)%nat -> g i <= rsum n g).
      { induction n as [|n IH]; intros g i Hg Hi; [lia|]. cbn [rsum].
        destruct (Nat.eq_dec i n) as [->|]; [pose proof (P n g Hg); lra|].
        pose proof (IH g i Hg ltac:(lia)). pose proof (Hg n). lra. }
      split; [apply P; intros; apply P; intros; apply Rabs_pos|].
      intros j Hj c Hc.
      eapply Rle_trans; [|apply (Q s (fun j => rsum ps (fun c => Rabs (nth c (nth j ks []) 0 - nth c (nth j ks' []) 0))) j); auto].
      - apply (Q ps (fun c => Rabs (nth c (nth j ks []) 0 - nth c (nth j ks' []) 0)) c); auto. intros; apply Rabs_pos.
      - intros i. apply P. intros; apply Rabs_pos. }
    destruct Dm as (d & Hd & D).
    assert (It : forall r, two_near ks ks' (q ^ r * d)).
    { induction r as [|r IH]; [intros j Hj; rewrite pow_O, Rmult_1_l; now apply D|].
      cbn [pow]. replace (q * q ^ r * d) with (q * (q ^ r * d)) by ring.
      rewrite <- (proj1 (@solves_fixed ps F bt t h y ks L1) S1), <- (proj1 (@solves_fixed ps F bt t h y ks' L2) S2).
      apply sweep_two; auto. apply Rmult_le_pos; auto. apply pow_le, q0. }
    apply stages_eq; auto. intros j c Hj Hc.
    destruct (Req_dec (nth c (nth j ks []) 0 - nth c (nth j ks' []) 0) 0) as [E0|E0]; [lra|exfalso].
    set (x := Rabs (nth c (nth j ks []) 0 - nth c (nth j ks' []) 0)).
    assert (Hx : 0 < x) by (now apply Rabs_pos_lt).
    destruct (pow_lt_1_zero q ltac:(rewrite Rabs_pos_eq; [exact Hq|apply q0]) (x / (d + 1))) as [n Hn].
    { apply Rdiv_lt_0_compat; lra. }
    specialize (Hn n (le_n n)). rewrite Rabs_pos_eq in Hn by (apply pow_le, q0).
    assert (q ^ n * d < x).
    { apply Rle_lt_trans with (q ^ n * (d + 1)); [pose proof (pow_le q n q0); nra|].
      apply Rlt_le_trans with (x / (d + 1) * (d + 1)); [apply Rmult_lt_compat_r; lra|]. right. field. lra. }
    pose proof (It n j Hj c Hc) as Y. unfold x in *. lra.
  Qed.

  (** *** existence *)
  Let it n := sweeps n t h y (repeat (repeat 0 ps) s).
  Lemma it_length n : length (it n) = s.
  Proof. apply sweeps_length. apply repeat_length. Qed.
  Lemma it_S n : it (S n) = sweep t h y (it n).
  Proof. apply sweeps_S. Qed.
  Lemma it_step : exists d, 0 <= d /\ forall n, two_near (it (S n)) (it n) (q ^ n * d).
  Proof.
    assert (P : forall n (g : nat -> R), (forall i, 0 <= g i) -> 0 <= rsum n g).
    { induction n as [|n IH]; intros g Hg; cbn [rsum]; [lra|]. specialize (IH g Hg). specialize (Hg n). lra. }
    assert (Q : forall n (g : nat -> R) i, (forall i, 0 <= g i) -> (i < n)%nat -> g i <= rsum n g).
    { induction n as [|n IH]; intros g i Hg Hi; [lia|]. cbn [rsum].
      destruct (Nat.eq_dec i n) as [->|]; [pose proof (P n g Hg); lra|].
      pose proof (IH g i Hg ltac:(lia)). pose proof (Hg n). lra. }
    set (g j := rsum ps (fun c => Rabs (nth c (nth j (it 1) []) 0 - nth c (nth j (it 0) []) 0))).
    assert (Hg : forall j, 0 <= g j) by (intros j; apply P; intros; apply Rabs_pos).
    exists (rsum s g). split; [now apply P|].
    induction n as [|n IH].
    - intros j Hj c Hc. rewrite pow_O, Rmult_1_l. eapply Rle_trans; [|apply (Q s g j); auto].
      apply (Q ps (fun c => Rabs (nth c (nth j (it 1) []) 0 - nth c (nth j (it 0) []) 0)) c); auto. intros; apply Rabs_pos.
    - cbn [pow]. replace (q * q ^ n * rsum s g) with (q * (q ^ n * rsum s g)) by ring.
      rewrite (it_S (S n)). replace (two_near (sweep t h y (it (S n))) (it (S n)))
        with (two_near (sweep t h y (it (S n))) (sweep t h y (it n))) by now rewrite (it_S n).
      apply sweep_two; auto using it_length.
      apply Rmult_le_pos; [apply pow_le, q0|now apply P].
  Qed.

  Lemma it_cauchy : exists D, 0 <= D /\ forall n m, two_near (it (n + m)) (it n) (q ^ n * D).
  Proof.
    destruct it_step as (d & Hd & H). exists (d / (1 - q)). assert (0 < 1 - q) by lra.
    assert (HD : 0 <= d / (1 - q)) by (apply Rmult_le_pos; auto; left; now apply Rinv_0_lt_compat).
    split; auto. intros n m j Hj c Hc.
    assert (G : Rabs (nth c (nth j (it (n + m)) []) 0 - nth c (nth j (it n) []) 0) <= q ^ n * (1 - q ^ m) * (d / (1 - q))).
    { induction m as [|m IH].
      - rewrite Nat.add_0_r. rewrite Rminus_diag_eq, Rabs_R0 by auto. cbn [pow]. lra.
      - rewrite Nat.add_succ_r. pose proof (H (n + m)%nat j Hj c Hc) as X.
        set (u := nth c (nth j (it (S (n + m))) []) 0) in *. set (v := nth c (nth j (it (n + m)) []) 0) in *.
        set (w := nth c (nth j (it n) []) 0) in *.
        replace (u - w) with ((u - v) + (v - w)) by ring. eapply Rle_trans; [apply Rabs_triang|].
        eapply Rle_trans; [apply Rplus_le_compat; [exact X|exact IH]|]. right. rewrite pow_add. cbn [pow]. field. lra. }
    eapply Rle_trans; [exact G|]. apply Rmult_le_compat_r; auto.
    pose proof (pow_le q n q0). pose proof (pow_le q m q0). nra.
  Qed.

  Lemma solution_exists : exists ks, impl_solves ps F bt t h y ks.
  Proof.
    destruct it_cauchy as (D & HD & H).
    assert (Lim : forall j c, (j < s)%nat -> (c < ps)%nat ->
      { l | Un_cv (fun n => nth c (nth j (it n) []) 0) l }).
    { intros j c Hj Hc. apply R_complete. intros eps Heps.
      destruct (pow_lt_1_zero q ltac:(rewrite Rabs_pos_eq; [exact Hq|apply q0]) (eps / 2 / (D + 1))) as [n Hn].
      { apply Rdiv_lt_0_compat; lra. }
      exists n. intros a b Ha Hb. specialize (Hn n (le_n n)). rewrite Rabs_pos_eq in Hn by (apply pow_le, q0).
      assert (Hs : q ^ n * D < eps / 2).
      { apply Rle_lt_trans with (q ^ n * (D + 1)); [pose proof (pow_le q n q0); nra|].
        apply Rlt_le_trans with (eps / 2 / (D + 1) * (D + 1)); [apply Rmult_lt_compat_r; lra|]. right. field. lra. }
      pose proof (H n (a - n)%nat j Hj c Hc) as Xa. pose proof (H n (b - n)%nat j Hj c Hc) as Xb.
      replace (n + (a - n))%nat with a in Xa by lia. replace (n + (b - n))%nat with b in Xb by lia.
      unfold R_dist. revert Xa Xb. unfold Rabs. repeat destruct Rcase_abs; lra. }
    set (lim j c := match lt_dec j s, lt_dec c ps with
                    | left a, left b => proj1_sig (Lim j c a b) | _, _ => 0 end).
    assert (Hlim : forall j c, (j < s)%nat -> (c < ps)%nat -> Un_cv (fun n => nth c (nth j (it n) []) 0) (lim j c)).
    { intros j c Hj Hc. unfold lim. destruct (lt_dec j s); [|lia]. destruct (lt_dec c ps); [|lia]. apply proj2_sig. }
    set (ks := map (fun j => map (lim j) (seq 0 ps)) (seq 0 s)).
    assert (Lks : length ks = s) by (unfold ks; now rewrite map_length, seq_length).
    assert (Kn : forall j, (j < s)%nat -> nth j ks [] = map (lim j) (seq 0 ps)).
    { intros j Hj. unfold ks. apply nth_error_nth. rewrite nth_error_map.
      rewrite (nth_error_nth' (seq 0 s) O) by (rewrite seq_length; auto). now rewrite seq_nth. }
    assert (Kv : forall j c, (j < s)%nat -> (c < ps)%nat -> nth c (nth j ks []) 0 = lim j c).
    { intros j c Hj Hc. rewrite Kn by auto. now rewrite nth_map_seq. }
    assert (Nl : forall n, two_near (it n) ks (q ^ n * D)).
    { intros n j Hj c Hc. rewrite Kv by auto.
      destruct (Rle_dec (Rabs (nth c (nth j (it n) []) 0 - lim j c)) (q ^ n * D)) as [|Hno]; auto. exfalso.
      set (eps := Rabs (nth c (nth j (it n) []) 0 - lim j c) - q ^ n * D).
      assert (0 < eps) by (unfold eps; lra).
      destruct (Hlim j c Hj Hc eps H0) as [m Hm]. specialize (Hm (n + m)%nat ltac:(lia)).
      pose proof (H n m j Hj c Hc) as X. unfold R_dist, eps in *.
      revert X Hm Hno. unfold Rabs. repeat destruct Rcase_abs; lra. }
    exists ks. apply solves_fixed; auto.
    apply stages_eq; auto.
    - now apply sweep_length.
    - intros j Hj. now apply sweep_V.
    - intros j Hj. rewrite Kn by auto. now rewrite map_length, seq_length.
    - intros j c Hj Hc.
      destruct (Req_dec (nth c (nth j (sweep t h y ks) []) 0 - nth c (nth j ks []) 0) 0) as [E0|E0]; [lra|exfalso].
      set (x := Rabs (nth c (nth j (sweep t h y ks) []) 0 - nth c (nth j ks []) 0)).
      assert (Hx : 0 < x) by (now apply Rabs_pos_lt).
      destruct (pow_lt_1_zero q ltac:(rewrite Rabs_pos_eq; [exact Hq|apply q0]) (x / 2 / (D + 1))) as [n Hn].
      { apply Rdiv_lt_0_compat; lra. }
      specialize (Hn n (le_n n)). rewrite Rabs_pos_eq in Hn by (apply pow_le, q0).
      pose proof (pow_le q n q0) as Hp.
      assert (Hs : q ^ n * D < x / 2).
      { apply Rle_lt_trans with (q ^ n * (D + 1)); [nra|].
        apply Rlt_le_trans with (x / 2 / (D + 1) * (D + 1)); [apply Rmult_lt_compat_r; lra|]. right. field. lra. }
      assert (P0 : 0 <= q ^ n * D) by (now apply Rmult_le_pos).
      pose proof (@sweep_two (it n) ks (q ^ n * D) (it_length n) Lks P0 (Nl n) j Hj c Hc) as X1. rewrite <- it_S in X1.
      pose proof (Nl (S n) j Hj c Hc) as X2. cbn [pow] in X2.
      assert (q * (q ^ n * D) <= q ^ n * D) by (pose proof q0; nra).
      unfold x in *. revert X1 X2 Hs. unfold Rabs. repeat destruct Rcase_abs; lra.
  Qed.
End Banach.

(** ** The exact result *)
Section Exact.
  Context {E : Type} (mind : R) (ps : nat)
          (ef : E -> nat -> R -> list R -> list R -> option (E * list R))
          (garbage : nat -> list R) (F : R -> list R -> list R).
  Notation N := (Rops mind).
  Notation V := (LemBufR.V ps).
  Notation lin := (LemBufR.lin ps).
  Notation eng := (@eng R E).
  Notation lincomb := (lincomb ps).
  Hypothesis Hps : (0 < ps)%nat.
  Hypothesis Hgarb : forall n, V (garbage n).
  Hypothesis HF : forall t y, V y -> V (F t y).
  Hypothesis Hef : forall q step t y f, V y -> V f -> ef q step t y f = Some (q, F t y).
  Let mf := False.
  Variable p : @rk_params R.
  Notation bt := (rp_table p).
  Notation steps := (bt_steps bt).
  Hypothesis Hwf : table_wf bt.
  Hypothesis Hrows : implicit_rows bt.
  Notation stage := (impl_stage ps F bt).
  Notation sweep := (impl_sweep ps F bt).
  Notation sweeps := (impl_sweeps ps F bt).
  Notation guess := (impl_guess ps F bt).

  Lemma fcF (e : eng) t y f : V y -> V f ->
    ok mf (eng_fcompute ef e t y f) (fun r => fst r = e /\ snd r = F t y).
  Proof. intros Hy Hf. unfold eng_fcompute. rewrite Hef by auto. cbn. destruct e; auto. Qed.

  Lemma row_i dt i : (i < steps)%nat ->
    ok mf (row_coeff N p dt i steps)
      (fun r => r = map (fun j => dt * nth j (nth i (bt_a bt) []) 0) (seq 0 steps)).
  Proof.
    intros Hi. destruct Hwf as (W1 & W2 & _). destruct Hrows as [Himp _]. unfold row_coeff.
    rewrite (rd_nth (bt_a bt) []) by lia. cbn [obind].
    apply ok_collect. intros k Hk.
    rewrite (rd_nth _ 0); [reflexivity|].
    specialize (W2 i (nth i (bt_a bt) []) Hi).
    rewrite (nth_error_nth' (bt_a bt) []) in W2 by lia. specialize (W2 eq_refl).
    rewrite Himp in W2. lia.
  Qed.

  Lemma stage_i t h y i (e : eng) b : h <> 0 -> (i < steps)%nat -> V y -> bufs_ok ps p b ->
    ok mf (stage_implicit N ps ef p t h y i (e, b))
      (fun r => fst r = e /\ bufs_ok ps p (snd r) /\ rb_k (snd r) = put (rb_k b) i (stage t h y (rb_k b) i)).
  Proof.
    intros Hh Hi Hy Hb. pose proof Hb as (A & B & C & D & G1 & G2 & H).
    pose proof Hwf as (_ & _ & _ & W4 & _).
    unfold stage_implicit. rewrite (rd_nth (bt_c bt) 0) by lia.
    rewrite (rd_nth (rb_k b) []) by lia. cbn [obind].
    eapply ok_bind; [apply row_i; auto|]. intros coeff Hcoeff. cbn beta in Hcoeff.
    assert (Lc : length coeff = steps) by (subst coeff; now rewrite map_length, seq_length).
    eapply ok_bind; [apply ok_fmaddn_some; eauto; lia|]. intros mt (X1 & X2 & _).
    assert (Em : mt = lincomb y h steps (fun j => nth j (nth i (bt_a bt) []) 0) (rb_k b)).
    { apply lincomb_eq; auto. intros w. rewrite X2.
      - f_equal. rewrite A. unfold wsum. rewrite <- rsum_scal. apply rsum_ext. intros j Hj. subst coeff.
        rewrite nth_map_seq by auto. lra.
      - destruct Hrows as [_ Hr]. destruct (Hr i Hi) as (j & Hj & Xj). rewrite A.
        exists j. split; auto. subst coeff. rewrite nth_map_seq by auto.
        now apply Rmult_integral_contrapositive_currified. }
    assert (Vi : V (nth i (rb_k b) [])) by (apply Forall_V_nth; auto; lia).
    eapply ok_bind; [apply fcF; eauto|]. intros [e1 k1] (P1 & P2). cbn [fst snd] in *. subst e1 k1.
    eapply ok_bind; [apply ok_wr; lia|]. intros k' ->. apply ok_some. cbn [fst snd]. split; auto. split.
    - apply bufs_upd; auto. intros X. now apply G1.
    - cbn [rb_k]. rewrite put_upd by lia. unfold impl_stage. now rewrite <- Em.
  Qed.

  Lemma sweep_i t h y (e : eng) b : h <> 0 -> V y -> bufs_ok ps p b ->
    ok mf (for_ steps 0 (stage_implicit N ps ef p t h y) (e, b))
      (fun r => fst r = e /\ bufs_ok ps p (snd r) /\ rb_k (snd r) = sweep t h y (rb_k b)).
  Proof.
    intros Hh Hy Hb.
    apply (@ok_for0 _ mf (fun i st => fst st = e /\ bufs_ok ps p (snd st) /\
      rb_k (snd st) = partial ps F bt t h y i (rb_k b))).
    - cbn [fst snd]. auto.
    - intros i [e3 b3] Hi (S1 & S2 & S3). cbn [fst snd] in *. subst e3.
      eapply ok_mono; [apply stage_i; eauto|]. intros [e4 b4] (T1 & T2 & T3). cbn [fst snd] in *.
      split; auto. split; auto. rewrite partial_S, T3, S3. reflexivity.
  Qed.

  Lemma sweeps_i t h y (e : eng) b : h <> 0 -> V y -> bufs_ok ps p b -> forall r,
    ok mf (for_ r 0 (fun _ => for_ steps 0 (stage_implicit N ps ef p t h y)) (e, b))
      (fun r0 => fst r0 = e /\ bufs_ok ps p (snd r0) /\ rb_k (snd r0) = sweeps r t h y (rb_k b)).
  Proof.
    intros Hh Hy Hb r.
    apply (@ok_for0 _ mf (fun i st => fst st = e /\ bufs_ok ps p (snd st) /\
      rb_k (snd st) = sweeps i t h y (rb_k b))).
    - cbn [fst snd]. auto.
    - intros i [e3 b3] Hi (S1 & S2 & S3). cbn [fst snd] in *. subst e3.
      eapply ok_mono; [apply sweep_i; eauto|]. intros [e4 b4] (T1 & T2 & T3). cbn [fst snd] in *.
      split; auto. split; auto. rewrite sweeps_S, T3, S3. reflexivity.
  Qed.

  Lemma guess_length t h y : length (guess t h y) = steps.
  Proof. unfold impl_guess. now rewrite map_length, seq_length. Qed.

  Lemma guess_nth t h y i : (i < steps)%nat -> nth i (guess t h y) [] =
    F (t + nth i (bt_c bt) 0 * h) (shift ps y (h * nth i (bt_c bt) 0) (F t y)).
  Proof.
    intros Hi. unfold impl_guess. apply nth_error_nth. rewrite nth_error_map.
    rewrite (nth_error_nth' (seq 0 steps) O) by (rewrite seq_length; auto). now rewrite seq_nth.
  Qed.

  Lemma first_i t h y (e : eng) b : V y -> bufs_ok ps p b -> rb_tmpk b = F t y ->
    ok mf (for_ steps 0 (stage_first N ps ef p t h y) (e, b))
      (fun r => fst r = e /\ bufs_ok ps p (snd r) /\ rb_k (snd r) = guess t h y).
  Proof.
    intros Hy Hb0 Et0.
    eapply ok_mono; [apply (@ok_for0 _ mf (fun i st => fst st = e /\ bufs_ok ps p (snd st) /\
      rb_tmpk (snd st) = F t y /\
      forall j, (j < i)%nat -> nth j (rb_k (snd st)) [] = nth j (guess t h y) []))|].
    - cbn [fst snd]. split; auto. split; auto. split; auto. intros j Hj. lia.
    - intros i [e3 b3] Hi (S1 & Hb & Et & S3). cbn [fst snd] in *. subst e3.
      pose proof Hb as (A & B & C & D & G1 & G2 & H). pose proof Hwf as (_ & _ & _ & W4 & _).
      unfold stage_first. rewrite (rd_nth (bt_c bt) 0) by lia.
      rewrite (rd_nth (rb_k b3) []) by lia. cbn [obind].
      eapply ok_bind; [apply ok_fmadd; eauto|]. intros mt (X1 & X2). cbn beta in X2.
      assert (Em : mt = shift ps y (h * nth i (bt_c bt) 0) (F t y)).
      { unfold shift. apply lincomb_eq; auto. intros w. rewrite X2, Et. cbn [rsum nth nmul Rops]. lra. }
      assert (Vi : V (nth i (rb_k b3) [])) by (apply Forall_V_nth; auto; lia).
      eapply ok_bind; [apply fcF; eauto|]. intros [e1 k1] (P1 & P2). cbn [fst snd] in *. subst e1 k1.
      eapply ok_bind; [apply ok_wr; lia|]. intros k' ->. apply ok_some. cbn [fst snd rb_k rb_tmpk]. split; auto. split.
      + apply bufs_upd; auto. intros X. now apply G1.
      + split; auto. intros j Hj. rewrite nth_upd by lia. destruct (Nat.eqb_spec j i) as [->|].
        * rewrite guess_nth by auto.
          now rewrite Em.
        * apply S3. lia.
    - intros [e4 b4] (T1 & T2 & T3 & T4). cbn [fst snd] in *. split; auto. split; auto.
      pose proof T2 as (A & _). apply nth_error_ext; [now rewrite guess_length|].
      intros i Hi. rewrite (nth_error_nth' (rb_k b4) []) by auto.
      rewrite (nth_error_nth' (guess t h y) []) by (rewrite guess_length; lia).
      rewrite T4 by lia. reflexivity.
  Qed.

  Definition start (nf : bool) t h y (b : @rk_bufs R) : list (list R) := if nf then guess t h y else rb_k b.

  Lemma stages_i nf t h y (e : eng) b : h <> 0 -> V y -> bufs_ok ps p b ->
    ok mf (if bt_implicit bt then sub_step_implicit N ps ef p nf t h y (e, b)
           else sub_step_explicit N ps ef p t h y (e, b))
      (fun r => fst r = e /\ bufs_ok ps p (snd r) /\
                rb_k (snd r) = sweeps (rp_refine p) t h y (start nf t h y b)).
  Proof.
    intros Hh Hy Hb. rewrite (proj1 Hrows). unfold sub_step_implicit, start.
    eapply ok_bind with (Q := fun r => fst r = e /\ bufs_ok ps p (snd r) /\
      rb_k (snd r) = if nf then guess t h y else rb_k b).
    - destruct nf; [|apply ok_some; auto].
      pose proof Hb as (A & B & C & D & G1 & G2 & H).
      eapply ok_bind; [apply fcF; eauto|]. intros [e1 k1] (P1 & P2). cbn [fst snd] in *. subst e1 k1.
      apply first_i; auto. unfold bufs_ok. cbn [rb_k rb_t rb_tmpk rb_ycorr rb_tcorr rb_stack]. repeat (split; auto).
    - intros [e1 b1] (P1 & P2 & P3). cbn [fst snd] in *. subst e1.
      eapply ok_mono; [apply sweeps_i; eauto|]. intros [e4 b4] (T1 & T2 & T3). cbn [fst snd] in *.
      split; auto. split; auto. now rewrite T3, P3.
  Qed.

  Lemma estimate_i b : bufs_ok ps p b ->
    ok mf (estimate N ps p b) (fun r => bufs_ok ps p (snd r) /\ rb_k (snd r) = rb_k b /\
      if bt_embedded bt then impl_error ps bt (rb_k b) (fst r) else fst r = 0).
  Proof.
    intros Hb. pose proof Hb as (A & B & C & D & G1 & G2 & H).
    pose proof Hwf as (_ & _ & W3 & _ & W5).
    unfold estimate. destruct (bt_embedded bt).
    - specialize (W5 eq_refl).
      eapply ok_bind.
      { apply ok_collect with (h := fun n => nth n (bt_b2 bt) 0 - nth n (bt_b1 bt) 0).
        intros k Hk. rewrite !(rd_nth _ 0) by lia. reflexivity. }
      intros coeff Hc. cbn beta in Hc. eapply ok_bind.
      { apply ok_fmaddn_none; eauto; subst coeff; rewrite ?map_length, ?seq_length; lia. }
      intros mt (Vm & Lm). eapply ok_bind; [apply ok_fmaxabs; auto|]. intros er (M1 & M2).
      apply ok_some. cbn [fst snd].
      split; [|split; auto].
      + unfold bufs_ok. cbn [rb_k rb_t rb_tmpk rb_ycorr rb_tcorr rb_stack]. repeat (split; auto).
      + assert (Cm : forall q, (q < ps)%nat -> nth q mt 0 = rsum steps (fun i =>
           (nth i (bt_b2 bt) 0 - nth i (bt_b1 bt) 0) * nth q (nth i (rb_k b) []) 0)).
        { intros q Hq. pose proof (Lm (unit_w q)) as X. rewrite lin_unit in X by auto. rewrite X.
          unfold wsum. apply rsum_ext. intros i Hi. rewrite lin_unit by auto.
          subst coeff. rewrite nth_map_seq by auto. reflexivity. }
        unfold impl_error. split.
        * destruct M2 as (q & Hq & ->). exists q. split; auto. now rewrite Cm.
        * intros q Hq. rewrite <- Cm by auto. auto.
    - apply ok_some. cbn [fst snd]. auto.
  Qed.

  Lemma accept_i h y b : V y -> bufs_ok ps p b ->
    ok mf (accept N ps p h y b) (fun r => fst r = impl_value ps bt h y (rb_k b) /\ bufs_ok ps p (snd r) /\
      rb_k (snd r) = rb_k b).
  Proof.
    intros Hy Hb. pose proof Hb as (A & B & C & D & G1 & G2 & H).
    pose proof Hwf as (_ & _ & W3 & _ & _).
    unfold accept. eapply ok_bind.
    { apply ok_collect with (h := fun n => nth n (bt_b2 bt) 0 * h).
      intros k Hk. rewrite !(rd_nth _ 0) by lia. reflexivity. }
    intros coeff Hc. cbn beta in Hc. rewrite A.
    assert (Lc : length coeff = steps) by (subst coeff; now rewrite map_length, seq_length).
    assert (FIN : forall y', V y' -> (forall w, lin w y' = lin w y + wsum ps steps coeff (rb_k b) w) ->
                  y' = impl_value ps bt h y (rb_k b)).
    { intros y' Vy' L. apply lincomb_eq; auto. intros w. rewrite L. f_equal.
      unfold wsum. rewrite <- rsum_scal. apply rsum_ext. intros j Hj. subst coeff.
      rewrite nth_map_seq by auto. lra. }
    destruct (rp_correction p) eqn:EC.
    - destruct (G1 eq_refl) as (F1 & F2 & F3).
      eapply ok_bind; [apply ok_fmaddn_corr; eauto; lia|]. intros [y' yc] (X1 & X2 & X3 & X4).
      cbn [fst snd] in *. apply ok_some. cbn [fst snd]. split; auto. split; auto.
      unfold bufs_ok. cbn [rb_k rb_t rb_tmpk rb_ycorr rb_tcorr rb_stack]. repeat (split; auto).
    - eapply ok_bind; [apply ok_fmaddn_inplace; eauto; lia|]. intros y' (X1 & X4).
      apply ok_some. cbn [fst snd]. auto.
  Qed.

  (** *** any adaptive run *)
  Lemma ireplay_app r l1 : forall y l2 y1 y2,
    impl_replay ps F bt r y l1 y1 -> impl_replay ps F bt r y1 l2 y2 -> impl_replay ps F bt r y (l1 ++ l2) y2.
  Proof.
    induction l1 as [|a l1 IH]; intros y l2 y1 y2 H1 H2; cbn [impl_replay app] in *.
    - now subst.
    - destruct H1 as (k0 & A & B & C). exists k0. split; auto. split; auto. eapply IH; eauto.
  Qed.

  Hypothesis Hsub : (1 <= rp_subdivisions p)%nat.
  Notation replay := (impl_replay ps F bt (rp_refine p)).

  Lemma start_length nf t h y b : bufs_ok ps p b -> length (start nf t h y b) = steps.
  Proof. intros (A & _). unfold start. destruct nf; auto. apply guess_length. Qed.

  Lemma sub_step_i rem : forall level substeps nf h (e : eng) b y0 t0 tr,
    (level + rem <= rp_max_recursion p)%nat -> h <> 0 -> bufs_ok ps p b -> V y0 ->
    ok mf (sub_step N ps ef p rem level substeps nf h (e, b, y0, t0, tr))
      (fun r => let '(e', b', y', t', tr') := r in e' = e /\ bufs_ok ps p b' /\ V y' /\
         exists l, tr' = tr ++ l /\ replay y0 l y').
  Proof.
    assert (VV : forall h y ks, V (impl_value ps bt h y ks)) by (intros; apply lincomb_V).
    induction rem as [|rem IH]; intros level substeps nf h e b0 y0 t0 tr Hlev Hh H0 Hy0; cbn [sub_step];
      (apply (@ok_for_const _ mf (fun r : @rk_loop R E => let '(e', b', y', t', tr') := r in
           e' = e /\ bufs_ok ps p b' /\ V y' /\ exists l, tr' = tr ++ l /\ replay y0 l y'));
       [split; auto; split; auto; split; auto; exists []; split; [now rewrite app_nil_r|reflexivity]|]);
      intros c [[[[e' b] y] t] tr'] (-> & A2 & A3 & l & -> & A5).
    - eapply ok_bind; [eapply stages_i; eauto|]. intros [e1 b1] (B1 & B2 & B3). cbn [fst snd] in *. subst e1.
      eapply ok_bind; [apply estimate_i; eauto|]. intros [er b2] (C1 & C2 & C3). cbn [fst snd] in *.
      eapply ok_bind; [eapply accept_i; eauto|]. intros [y' b3] (D1 & D2 & D3). cbn [fst snd] in *. subst y'.
      apply ok_some. split; auto. split; auto. split; auto.
      eexists (l ++ [_]). rewrite app_assoc. split; [reflexivity|]. eapply ireplay_app; [exact A5|].
      cbn [impl_replay ac_t ac_dt ac_err]. exists (start nf t h y b). rewrite <- B3.
      split; [now apply start_length|]. split; [exact C3|]. now rewrite C2.
    - eapply ok_bind; [eapply stages_i; eauto|]. intros [e1 b1] (B1 & B2 & B3). cbn [fst snd] in *. subst e1.
      eapply ok_bind; [apply estimate_i; eauto|]. intros [er b2] (C1 & C2 & C3). cbn [fst snd] in *.
      destruct (_ && _ && _)%bool.
      + pose proof C1 as (Q1 & Q2 & Q3 & Q4 & Q5 & Q6 & Q7).
        rewrite (rd_nth (rb_stack b2) []) by lia. cbn [obind].
        eapply ok_bind; [apply (ok_copy mind); eauto; apply Forall_V_nth; auto; lia|]. intros cy ->.
        eapply ok_bind; [apply ok_wr; lia|]. intros st2 Est. cbn beta in Est.
        eapply ok_bind.
        { apply IH; auto; [lia| |].
          - rewrite nnat_R. cbn [ndiv Rops]. unfold Rdiv.
            apply Rmult_integral_contrapositive_currified; auto. apply Rinv_neq_0_compat.
            apply not_0_INR. lia.
          - unfold bufs_ok. cbn [rb_k rb_t rb_tmpk rb_ycorr rb_tcorr rb_stack]. subst st2. rewrite upd_length.
            repeat (split; auto). apply Forall_upd; eauto. }
        intros [[[[e3 b3] y3] t3] tr3] (-> & D2 & D3 & l' & -> & D5).
        pose proof D2 as (U1 & U2 & U3 & U4 & U5 & U6 & U7).
        eapply ok_bind; [apply ok_wr; lia|]. intros st3 Est3. cbn beta in Est3.
        eapply ok_bind; [apply (ok_copy mind); eauto|]. intros y4 ->. apply ok_some.
        split; auto. split.
        { unfold bufs_ok. cbn [rb_k rb_t rb_tmpk rb_ycorr rb_tcorr rb_stack]. subst st3. rewrite upd_length.
          repeat (split; auto). apply Forall_upd; eauto. }
        split; auto. exists (l ++ l'). rewrite app_assoc. split; [reflexivity|]. eapply ireplay_app; eauto.
      + eapply ok_bind; [eapply accept_i; eauto|]. intros [y' b3] (D1 & D2 & D3). cbn [fst snd] in *. subst y'.
        apply ok_some. split; auto. split; auto. split; auto.
        eexists (l ++ [_]). rewrite app_assoc. split; [reflexivity|]. eapply ireplay_app; [exact A5|].
        cbn [impl_replay ac_t ac_dt ac_err]. exists (start nf t h y b). rewrite <- B3.
        split; [now apply start_length|]. split; [exact C3|]. now rewrite C2.
  Qed.

  (** invariants of the substeps: [Py] of time and state, [Pk] of the stages too *)
  Section Inv.
    Variables (ts te : R) (Py : R -> list R -> Prop) (Pk : R -> list R -> list (list R) -> Prop).
    Definition try_ok (nf : bool) t h y ks : Prop :=
      ts <= t /\ 0 < h /\ t + h <= te /\ V y /\ Py t y /\ (nf = false -> Pk t y ks).
    Notation made nf t h y ks := (sweeps (rp_refine p) t h y (if nf then guess t h y else ks)).
    Hypothesis P1 : forall (nf : bool) t h y ks, length ks = steps -> try_ok nf t h y ks -> Pk t y (made nf t h y ks).
    Hypothesis P2 : forall (nf : bool) t h y ks, length ks = steps -> try_ok nf t h y ks ->
      Py (t + h) (impl_value ps bt h y (made nf t h y ks)) /\
      Pk (t + h) (impl_value ps bt h y (made nf t h y ks)) (made nf t h y ks).

    Lemma sub_step_inv rem : forall level substeps nf h (e : eng) b y0 t0 tr,
      (level + rem <= rp_max_recursion p)%nat -> 0 < h -> ts <= t0 -> t0 + INR substeps * h <= te ->
      bufs_ok ps p b -> V y0 -> Py t0 y0 -> (nf = false -> Pk t0 y0 (rb_k b)) ->
      ok mf (sub_step N ps ef p rem level substeps nf h (e, b, y0, t0, tr))
        (fun r => let '(e', b', y', t', tr') := r in e' = e /\ bufs_ok ps p b' /\ V y' /\
           t' = t0 + INR substeps * h /\ Py t' y' /\ (nf = false \/ (0 < substeps)%nat -> Pk t' y' (rb_k b'))).
    Proof.
      assert (VV : forall h y ks, V (impl_value ps bt h y ks)) by (intros; apply lincomb_V).
      induction rem as [|rem IH]; intros level substeps nf h e b0 y0 t0 tr Hlev Hh Ht0 Hte H0 Hy0 HPy HPk; cbn [sub_step];
        (apply (@ok_for0 _ mf (fun c (r : @rk_loop R E) => let '(e', b', y', t', tr') := r in
             e' = e /\ bufs_ok ps p b' /\ V y' /\ t' = t0 + INR c * h /\ Py t' y' /\
             (nf = false \/ (0 < c)%nat -> Pk t' y' (rb_k b'))));
         [cbn [INR]; replace (t0 + 0 * h) with t0 by ring;
          split; auto; split; auto; split; auto; split; auto; split; auto; intros [X|X]; [auto|lia]|]);
        intros c [[[[e' b] y] t] tr'] Hc (-> & A2 & A3 & -> & A5 & A6);
        (assert (TRY : try_ok nf (t0 + INR c * h) h y (rb_k b));
         [assert (Q0 : 0 <= INR c * h) by (apply Rmult_le_pos; [apply pos_INR|lra]);
          assert (Q1 : INR (S c) * h <= INR substeps * h) by (apply Rmult_le_compat_r; [lra|apply le_INR; lia]);
          rewrite S_INR in Q1; split; [lra|]; split; [lra|]; split; [lra|]; auto|]);
        (assert (Hh' : h <> 0) by lra);
        (assert (LK : length (rb_k b) = steps) by (apply A2));
        pose proof (P1 LK TRY) as G1; pose proof (P2 LK TRY) as G2; rewrite S_INR;
        (assert (TT : t0 + (INR c + 1) * h = t0 + INR c * h + h) by ring); rewrite TT.
      - eapply ok_bind; [eapply stages_i; eauto|]. intros [e1 b1] (B1 & B2 & B3). cbn [fst snd] in *. subst e1.
        eapply ok_bind; [apply estimate_i; eauto|]. intros [er b2] (C1 & C2 & C3). cbn [fst snd] in *.
        eapply ok_bind; [eapply accept_i; eauto|]. intros [y' b3] (D1 & D2 & D3). cbn [fst snd] in *. subst y'.
        apply ok_some. cbn [nadd Rops]. unfold start in B3. rewrite D3, C2, B3. split; auto. split; auto. split; auto. split; auto. split; [apply G2|]. intros _. apply G2.
      - eapply ok_bind; [eapply stages_i; eauto|]. intros [e1 b1] (B1 & B2 & B3). cbn [fst snd] in *. subst e1.
        eapply ok_bind; [apply estimate_i; eauto|]. intros [er b2] (C1 & C2 & C3). cbn [fst snd] in *.
        unfold start in B3.
        destruct (_ && _ && _)%bool.
        + pose proof C1 as (Q1 & Q2 & Q3 & Q4 & Q5 & Q6 & Q7).
          rewrite (rd_nth (rb_stack b2) []) by lia. cbn [obind].
          eapply ok_bind; [apply (ok_copy mind); eauto; apply Forall_V_nth; auto; lia|]. intros cy ->.
          eapply ok_bind; [apply ok_wr; lia|]. intros st2 Est. cbn beta in Est.
          assert (Im : INR (rp_subdivisions p) * (h / INR (rp_subdivisions p)) = h).
          { field. apply not_0_INR. lia. }
          eapply ok_bind.
          { destruct TRY as (U1 & U2 & U3 & U4 & U5 & U6).
            apply IH; auto; rewrite ?nnat_R; cbn [ndiv Rops rb_k]; auto.
            - lia.
            - apply Rdiv_lt_0_compat; auto. apply lt_0_INR. lia.
            - rewrite Im. lra.
            - unfold bufs_ok. cbn [rb_k rb_t rb_tmpk rb_ycorr rb_tcorr rb_stack]. subst st2. rewrite upd_length.
              repeat (split; auto). apply Forall_upd; eauto.
            - intros _. rewrite C2, B3. exact G1. }
          intros [[[[e3 b3] y3] t3] tr3] (-> & D2 & D3 & D4 & D5 & D6).
          pose proof D2 as (U1 & U2 & U3 & U4 & U5 & U6 & U7).
          eapply ok_bind; [apply ok_wr; lia|]. intros st3 Est3. cbn beta in Est3.
          eapply ok_bind; [apply (ok_copy mind); eauto|]. intros y4 ->. apply ok_some.
          rewrite nnat_R in D4. cbn [ndiv Rops] in D4. rewrite Im in D4. cbn [nadd Rops rb_k]. rewrite <- D4.
          split; auto. split.
          { unfold bufs_ok. cbn [rb_k rb_t rb_tmpk rb_ycorr rb_tcorr rb_stack]. subst st3. rewrite upd_length.
            repeat (split; auto). apply Forall_upd; eauto. }
          split; auto.
        + eapply ok_bind; [eapply accept_i; eauto|]. intros [y' b3] (D1 & D2 & D3). cbn [fst snd] in *. subst y'.
          apply ok_some. cbn [nadd Rops]. rewrite D3, C2, B3. split; auto. split; auto. split; auto. split; auto. split; [apply G2|]. intros _. apply G2.
    Qed.

    Lemma step_inv h s (e : eng) : 0 < h -> ts <= e_time e -> e_time e + h <= te -> V (e_y e) -> Py (e_time e) (e_y e) ->
      (forall b, s = Some b -> bufs_ok ps p b /\ Pk (e_time e) (e_y e) (rb_k b)) ->
      ok mf (rk_step N ps ef garbage p h s e)
        (fun r => bufs_ok ps p (fst (fst r)) /\ V (e_y (snd (fst r))) /\ e_time (snd (fst r)) = e_time e + h /\
          Py (e_time e + h) (e_y (snd (fst r))) /\ Pk (e_time e + h) (e_y (snd (fst r))) (rb_k (fst (fst r)))).
    Proof.
      intros Hh Ht He Hy HPy Hs. unfold rk_step.
      eapply ok_bind with (Q := fun r => bufs_ok ps p (fst (fst r)) /\ e_y (snd (fst r)) = e_y e /\
         e_time (snd (fst r)) = e_time e /\ (snd r = false -> Pk (e_time e) (e_y e) (rb_k (fst (fst r))))).
      { destruct s as [b|].
        - apply ok_some. cbn [fst snd]. destruct (Hs b eq_refl). auto.
        - eapply ok_bind; [apply (@alloc_x E mind ps garbage Hgarb p); auto|]. intros [b e1] (A & B & C). apply ok_some.
          cbn [fst snd] in *. split; auto. split; auto. split; auto. discriminate. }
      intros [[b e1] nf] (A & B & C & D). cbn [fst snd] in *. rewrite B.
      eapply ok_bind; [apply sub_step_inv; auto; cbn [INR]; lra|].
      intros [[[[e3 b3] y3] t3] tr3] (-> & D2 & D3 & D4 & D5 & D6). cbn [INR] in D4. rewrite Rmult_1_l in D4. subst t3.
      apply ok_some. cbn [fst snd e_y e_time set_y advise_time app nadd Rops]. rewrite C.
      split; auto. split; auto. split; auto.
    Qed.
  End Inv.

  Lemma step_replay h s (e : eng) : h <> 0 -> V (e_y e) ->
    (forall b, s = Some b -> bufs_ok ps p b) ->
    ok mf (rk_step N ps ef garbage p h s e)
      (fun r => bufs_ok ps p (fst (fst r)) /\ replay (e_y e) (snd r) (e_y (snd (fst r))) /\
        V (e_y (snd (fst r))) /\ e_time (snd (fst r)) = e_time e + h).
  Proof.
    intros Hh Hy Hs. unfold rk_step.
    eapply ok_bind with (Q := fun r => bufs_ok ps p (fst (fst r)) /\ e_y (snd (fst r)) = e_y e /\
       e_time (snd (fst r)) = e_time e).
    { destruct s as [b|].
      - apply ok_some. cbn [fst snd]. auto.
      - eapply ok_bind; [apply (@alloc_x E mind ps garbage Hgarb p); auto|]. intros [b e1] (A & B & C). apply ok_some. cbn [fst snd] in *. auto. }
    intros [[b e1] nf] (A & B & C). cbn [fst snd] in *. rewrite B.
    eapply ok_bind; [apply sub_step_i; auto|].
    intros [[[[e3 b3] y3] t3] tr3] (-> & D2 & D3 & l' & -> & D5). apply ok_some. cbn [fst snd e_y e_time set_y advise_time app nadd Rops].
    rewrite C. auto.
  Qed.

  Lemma run_replay : forall dts s (e : eng), (forall h, In h dts -> h <> 0) -> V (e_y e) ->
    (forall b, s = Some b -> bufs_ok ps p b) ->
    ok mf (advise_all N ps ef garbage dts (SButcher p s) e) (fun r =>
      exists l, replay (e_y e) l (e_y (snd r)) /\ covers (e_time e) l (e_time (snd r)) /\
        e_time (snd r) = e_time e + fold_right Rplus 0 dts).
  Proof.
    induction dts as [|h dts IH]; intros s e Hd Hy Hs; cbn [advise_all].
    - apply ok_some. exists []. cbn [fst snd fold_right]. split; [reflexivity|]. split; [reflexivity|]. lra.
    - cbn [advise]. unfold rk_advise.
      assert (S := @step_replay h s e (Hd h (or_introl eq_refl)) Hy Hs).
      pose proof (fun r => @rk_step_covers E mind ps ef garbage p Hsub h s e r) as Cv.
      destruct (rk_step N ps ef garbage p h s e) as [[[b e1] tr]|]; [|destruct S].
      cbn [ok fst snd] in S. cbn [obind]. destruct S as (A & B & C & D).
      destruct (Cv _ eq_refl) as (Cv1 & _). cbn [snd] in Cv1.
      eapply ok_mono; [apply IH|].
      + intros h' Hh'. apply Hd. now right.
      + exact C.
      + now intros b' [= <-].
      + intros r (l & R1 & R2 & R3). exists (tr ++ l). rewrite D in R2, R3. cbn [fold_right].
        split; [eapply ireplay_app; eauto|]. split; [eapply covers_app; eauto|]. lra.
  Qed.

  (** *** without subdivision *)
  Hypothesis Hno : bt_embedded bt = false \/ rp_max_recursion p = O.

  Lemma step_once h s (e : eng) : h <> 0 -> V (e_y e) ->
    (forall b, s = Some b -> bufs_ok ps p b) ->
    ok mf (rk_step N ps ef garbage p h s e)
      (fun r => let ks := sweeps (rp_refine p) (e_time e) h (e_y e)
                  (match s with Some b => rb_k b | None => guess (e_time e) h (e_y e) end) in
        bufs_ok ps p (fst (fst r)) /\ rb_k (fst (fst r)) = ks /\
        e_y (snd (fst r)) = impl_value ps bt h (e_y e) ks /\ e_time (snd (fst r)) = e_time e + h).
  Proof.
    intros Hh Hy Hs. unfold rk_step.
    eapply ok_bind with (Q := fun r => bufs_ok ps p (fst (fst r)) /\ e_y (snd (fst r)) = e_y e /\
       e_time (snd (fst r)) = e_time e /\
       start (snd r) (e_time e) h (e_y e) (fst (fst r)) =
         match s with Some b => rb_k b | None => guess (e_time e) h (e_y e) end).
    { destruct s as [b|].
      - apply ok_some. cbn [fst snd]. auto.
      - eapply ok_bind; [apply (@alloc_x E mind ps garbage Hgarb p); auto|]. intros [b e1] (A & B & C). apply ok_some. cbn [fst snd] in *. auto. }
    intros [[b e1] nf] (A & B & C & D). cbn [fst snd] in *. rewrite B.
    eapply ok_bind with (Q := fun r => let '(e', b', y', t', tr') := r in e' = e1 /\ bufs_ok ps p b' /\
      rb_k b' = sweeps (rp_refine p) (e_time e) h (e_y e) (start nf (e_time e) h (e_y e) b) /\
      y' = impl_value ps bt h (e_y e) (rb_k b')).
    - assert (G : forall rem, rem = rp_max_recursion p ->
        ok mf (sub_step N ps ef p rem 0 1 nf h (e1, b, e_y e, e_time e, [])) (fun r => let '(e', b', y', t', tr') := r in
          e' = e1 /\ bufs_ok ps p b' /\
          rb_k b' = sweeps (rp_refine p) (e_time e) h (e_y e) (start nf (e_time e) h (e_y e) b) /\
          y' = impl_value ps bt h (e_y e) (rb_k b'))); [|now apply G].
      intros rem Er.
      destruct rem as [|rem]; cbn [sub_step for_];
        (eapply ok_bind; [|intros st H; apply ok_some; exact H]);
        (eapply ok_bind; [eapply stages_i; eauto|]); intros [e2 b1] (B1 & B2 & B3); cbn [fst snd] in *; subst e2;
        (eapply ok_bind; [apply estimate_i; eauto|]); intros [er b2] (C1 & C2 & C3); cbn [fst snd] in *.
      + eapply ok_bind; [eapply accept_i; eauto|]. intros [y' b3] (D1 & D2 & D3). cbn [fst snd] in *. subst y'.
        apply ok_some. split; auto. split; auto. split; [congruence|]. now rewrite D3.
      + destruct Hno as [Hn|Hn]; [|congruence]. rewrite Hn. cbn [andb].
        eapply ok_bind; [eapply accept_i; eauto|]. intros [y' b3] (D1 & D2 & D3). cbn [fst snd] in *. subst y'.
        apply ok_some. split; auto. split; auto. split; [congruence|]. now rewrite D3.
    - intros [[[[e3 b3] y3] t3] tr3] (-> & D2 & D3 & ->). apply ok_some.
      cbn [fst snd e_y e_time set_y advise_time app nadd Rops]. rewrite <- D, <- D3, C. auto.
  Qed.

  Lemma run_i : forall dts s (e : eng), (forall h, In h dts -> h <> 0) -> V (e_y e) ->
    (forall b, s = Some b -> bufs_ok ps p b) ->
    ok mf (advise_all N ps ef garbage dts (SButcher p s) e) (fun r =>
      e_y (snd r) = impl_run ps F bt (rp_refine p) (e_time e) (e_y e)
        (match s with Some b => Some (rb_k b) | None => None end) dts).
  Proof.
    induction dts as [|h dts IH]; intros s e Hd Hy Hs; cbn [advise_all].
    - apply ok_some. reflexivity.
    - cbn [advise]. unfold rk_advise.
      assert (S := @step_once h s e (Hd h (or_introl eq_refl)) Hy Hs).
      destruct (rk_step N ps ef garbage p h s e) as [[[b e1] tr]|]; [|destruct S].
      cbn [ok fst snd] in S. cbn [obind]. destruct S as (A & B & C & D).
      eapply ok_mono; [apply IH|].
      + intros h' Hh'. apply Hd. now right.
      + rewrite C. apply lincomb_V.
      + now intros b' [= <-].
      + intros r ->. cbn [impl_run]. rewrite B, C, D. destruct s; reflexivity.
  Qed.
End Exact.
