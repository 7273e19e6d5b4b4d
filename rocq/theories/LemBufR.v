(** Buffer primitives over the reals as statements about linear functionals: [lin w a] is
    sum_j w_j a[j]; taking [w] an indicator gives the cells. *)
From Coq Require Import ZArith Reals List Arith Lia Lra.
From Verif Require Import Num Arr ArrLemmas SpecPhys SpecEngine RLemmas ModelVertex ModelForce ModelSum
  ModelEngine ModelSolverBase LemBuffers LemBufProp LemOk.
Import ListNotations.
Set Implicit Arguments.
Local Open Scope R_scope.

Definition lin (ps : nat) (w : nat -> R) (a : list R) : R := rsum ps (fun j => w j * nth j a 0).

Lemma rsum_indicator n i f : (i < n)%nat -> rsum n (fun j => (if Nat.eqb j i then 1 else 0) * f j) = f i.
Proof.
  induction n as [|n IH]; intros H; [lia|]. cbn [rsum].
  destruct (Nat.eqb_spec n i).
  - subst. rewrite rsum_zero; [lra|]. intros j Hj. destruct (Nat.eqb_spec j i); [lia|lra].
  - rewrite IH by lia. lra.
Qed.

Section Lin.
  Variables (mind : R) (ps : nat).
  Notation N := (Rops mind).
  Notation lin := (lin ps).
  Definition V (a : list R) : Prop := length a = ps.
  Implicit Types (a b : list R) (mf : Prop) (w : nat -> R).

  Definition unit_w (i : nat) : nat -> R := fun j => if Nat.eqb j i then 1 else 0.
  Lemma lin_unit i a : (i < ps)%nat -> lin (unit_w i) a = nth i a 0.
  Proof. intros H. unfold LemBufR.lin, unit_w. now rewrite rsum_indicator. Qed.

  Lemma lin_zero a : lin (fun _ => 0) a = 0.
  Proof. unfold LemBufR.lin. apply rsum_zero. intros. lra. Qed.

  (** equal functionals: equal vectors *)
  Lemma V_ext a b : V a -> V b -> (forall w, lin w a = lin w b) -> a = b.
  Proof.
    unfold V. intros Ha Hb H. apply nth_error_ext; [congruence|]. intros i Hi.
    pose proof (H (unit_w i)) as K. rewrite !lin_unit in K by lia.
    rewrite !(nth_error_nth' _ 0) by lia. congruence.
  Qed.

  Lemma elementwise_lin (f : nat -> R) a a' w :
    V a -> elementwise ps f a a' -> V a' /\ lin w a' = rsum ps (fun j => w j * f j).
  Proof.
    unfold V. intros Ha [L C]. split; [congruence|]. apply rsum_ext. intros j Hj. f_equal.
    apply nth_error_nth. rewrite C. now destruct (Nat.ltb_spec j ps); [|lia].
  Qed.

  Lemma lin_weighted w m c bs :
    rsum ps (fun j => w j * weighted m c bs j) = rsum m (fun k => nth k c 0 * lin w (nth k bs [])).
  Proof.
    unfold weighted, LemBufR.lin.
    rewrite (rsum_ext _ _ (fun j => rsum m (fun k => w j * (nth k c 0 * nth j (nth k bs []) 0))))
      by (intros; now rewrite rsum_scal).
    rewrite rsum_swap. apply rsum_ext. intros k Hk. rewrite <- rsum_scal. apply rsum_ext. intros. lra.
  Qed.

  Lemma ok_copy mf a b : V a -> V b -> ok mf (copy_buffer ps a b) (fun r => r = b).
  Proof.
    unfold V. intros Ha Hb. apply ok_match.
    destruct (@copy_elementwise R N ps a b) as (a' & E & L & C); try lia.
    exists a'. split; auto. apply nth_error_ext; [congruence|]. intros j Hj. rewrite C.
    now destruct (Nat.ltb_spec j ps); [|lia].
  Qed.

  Lemma ok_fill mf a : ok mf (fill_buffer a (nlit N 0)) (fun r => length r = length a /\
    (forall w, lin w r = 0) /\ forall i, nth i r 0 = 0).
  Proof.
    rewrite fill_elementwise. apply ok_some. rewrite repeat_length. cbn [nlit Rops].
    assert (Z : forall i, nth i (repeat (IZR 0) (length a)) 0 = 0).
    { intros i. destruct (Nat.lt_ge_cases i (length a)).
      - apply nth_error_nth. now rewrite nth_error_repeat.
      - apply nth_overflow. now rewrite repeat_length. }
    split; auto. split; auto. intros w. apply rsum_zero. intros i Hi. rewrite Z. lra.
  Qed.

  Lemma ok_fmadd_inplace mf a b c : V a -> V b ->
    ok mf (fmadd_inplace N ps a b c) (fun r => V r /\ forall w, lin w r = lin w a + lin w b * c).
  Proof.
    intros Ha Hb. apply ok_match. unfold V in *.
    destruct (@fmadd_inplace_elementwise R N ps a b c 0) as (a' & E & C); try lia.
    exists a'. split; auto. split; [apply (elementwise_lin (fun _ => 0) Ha C)|]. intros w.
    destruct (elementwise_lin w Ha C) as [_ ->]. cbn [nadd nmul Rops]. unfold LemBufR.lin.
    rewrite <- rsum_scal_r, <- rsum_plus. apply rsum_ext. intros. lra.
  Qed.

  Lemma ok_fmadd mf a b c d : V a -> V b -> V c ->
    ok mf (fmadd N ps a b c d) (fun r => V r /\ forall w, lin w r = lin w b + lin w c * d).
  Proof.
    intros Ha Hb Hc. apply ok_match. unfold V in *.
    destruct (@fmadd_elementwise R N ps a b c d 0) as (a' & E & C); try lia.
    exists a'. split; auto. split; [apply (elementwise_lin (fun _ => 0) Ha C)|]. intros w.
    destruct (elementwise_lin w Ha C) as [_ ->]. cbn [nadd nmul Rops]. unfold LemBufR.lin.
    rewrite <- rsum_scal_r, <- rsum_plus. apply rsum_ext. intros. lra.
  Qed.

  (** sum over k < m of c[k] * lin w (bs[k]) *)
  Definition wsum (m : nat) (c : list R) (bs : list (list R)) (w : nat -> R) : R :=
    rsum m (fun k => nth k c 0 * lin w (nth k bs [])).

  Lemma Forall_V_nth bs k : Forall V bs -> (k < length bs)%nat -> V (nth k bs []).
  Proof. intros H Hk. rewrite Forall_forall in H. apply H. now apply nth_In. Qed.

  Lemma ok_fmaddn_inplace mf a bs c m : V a -> Forall V bs -> (m <= length c)%nat -> (m <= length bs)%nat ->
    ok mf (fmaddn_inplace N ps a bs c m)
      (fun r => V r /\ forall w, lin w r = lin w a + wsum m c bs w).
  Proof.
    intros Ha Hb Hc Hm. apply ok_match.
    destruct (@fmaddn_inplace_R mind ps a bs c m) as (a' & E & C); auto.
    { unfold V in Ha. lia. }
    { intros k Hk. pose proof (@Forall_V_nth bs k Hb ltac:(lia)) as K. unfold V in K. lia. }
    exists a'. split; auto. split; [apply (elementwise_lin (fun _ => 0) Ha C)|]. intros w.
    destruct (elementwise_lin w Ha C) as [_ ->]. unfold wsum. rewrite <- lin_weighted.
    unfold LemBufR.lin. rewrite <- rsum_plus. apply rsum_ext. intros. lra.
  Qed.

  Lemma some_weight_dec m c : some_weight m c \/ forall k, (k < m)%nat -> nth k c 0 = 0.
  Proof.
    induction m as [|m [H|H]].
    - right. intros. lia.
    - left. destruct H as (k & Hk & E). exists k. split; auto.
    - destruct (Req_EM_T (nth m c 0) 0) as [E|E].
      + right. intros k Hk. destruct (Nat.eq_dec k m) as [->|]; auto. apply H. lia.
      + left. exists m. split; auto.
  Qed.

  Lemma wsum_zero m c bs w : (forall k, (k < m)%nat -> nth k c 0 = 0) -> wsum m c bs w = 0.
  Proof. intros H. apply rsum_zero. intros k Hk. rewrite H by auto. lra. Qed.

  Lemma ok_fmaddn_some mf a b cs d m :
    V a -> V b -> Forall V cs -> (m <= length d)%nat -> (m <= length cs)%nat ->
    ok mf (fmaddn N ps a (Some b) cs d m)
      (fun r => V r /\ (some_weight m d -> forall w, lin w r = lin w b + wsum m d cs w) /\
                (~ some_weight m d -> r = a)).
  Proof.
    intros Ha Hb Hcs Hd Hm. apply ok_match.
    destruct (@fmaddn_some_R mind ps a b cs d m) as (a' & E & C1 & C2); auto; try (unfold V in *; lia).
    { intros k Hk. pose proof (@Forall_V_nth cs k Hcs ltac:(lia)) as K. unfold V in K. lia. }
    exists a'. split; auto. split; [|split; auto].
    - destruct (some_weight_dec m d) as [H|H].
      + apply (elementwise_lin (fun _ => 0) Ha (C1 H)).
      + rewrite C2; auto. intros (k & Hk & X). apply X. auto.
    - intros H w. destruct (elementwise_lin w Ha (C1 H)) as [_ ->]. unfold wsum.
      rewrite <- lin_weighted. unfold LemBufR.lin. rewrite <- rsum_plus. apply rsum_ext. intros. lra.
  Qed.

  Lemma ok_fmaddn_none mf a cs d m :
    V a -> Forall V cs -> (m <= length d)%nat -> (m <= length cs)%nat ->
    ok mf (fmaddn N ps a None cs d m)
      (fun r => V r /\ forall w, lin w r = wsum m d cs w).
  Proof.
    intros Ha Hcs Hd Hm. apply ok_match.
    destruct (@fmaddn_none_R mind ps a cs d m) as (a' & E & C); auto; try (unfold V in *; lia).
    { intros k Hk. pose proof (@Forall_V_nth cs k Hcs ltac:(lia)) as K. unfold V in K. lia. }
    exists a'. split; auto. split; [apply (elementwise_lin (fun _ => 0) Ha C)|]. intros w.
    destruct (elementwise_lin w Ha C) as [_ ->]. unfold wsum. now rewrite <- lin_weighted.
  Qed.

  (** with a zero correction: the plain sum, and the correction stays zero *)
  Definition zeros (a : list R) : Prop := forall i, nth i a 0 = 0.
  Lemma lin_zeros w a : zeros a -> lin w a = 0.
  Proof. intros H. apply rsum_zero. intros i _. rewrite H. lra. Qed.

  Lemma ok_fmaddn_corr mf a corr bs c m :
    V a -> V corr -> zeros corr -> Forall V bs -> (m <= length c)%nat -> (m <= length bs)%nat ->
    ok mf (fmaddn_corr N ps a corr bs c m)
      (fun r => V (fst r) /\ V (snd r) /\ zeros (snd r) /\
                forall w, lin w (fst r) = lin w a + wsum m c bs w).
  Proof.
    intros Ha Hr Hz Hb Hc Hm. apply ok_match.
    destruct (@fmaddn_corr_R mind ps a corr bs c m) as (a' & corr' & E & L1 & L2 & C1 & C2 & C3); auto;
      try (unfold V in *; lia).
    { intros k Hk. pose proof (@Forall_V_nth bs k Hb ltac:(lia)) as K. unfold V in K. lia. }
    exists (a', corr'). split; auto. cbn [fst snd]. unfold V in *.
    split; [lia|]. split; [lia|].
    destruct (some_weight_dec m c) as [H|H].
    - assert (Z : zeros corr').
      { intros i. destruct (Nat.lt_ge_cases i ps).
        - now apply C1.
        - apply nth_overflow. lia. }
      split; auto. intros w. unfold wsum. rewrite <- lin_weighted. unfold LemBufR.lin.
      rewrite <- rsum_plus. apply rsum_ext. intros j Hj. destruct (C1 j Hj) as [K _].
      rewrite Z, Hz in K. rewrite <- Rmult_plus_distr_l. f_equal. lra.
    - destruct C2 as [-> ->].
      { intros (k & Hk & X). apply X. auto. }
      split; auto. intros w. rewrite wsum_zero; auto. lra.
  Qed.

  Lemma ok_fmaxabs mf a : V a -> (0 < ps)%nat ->
    ok mf (fmaxabs N ps a) (fun m => (forall i, (i < ps)%nat -> Rabs (nth i a 0) <= m) /\
      exists i, (i < ps)%nat /\ m = Rabs (nth i a 0)).
  Proof.
    unfold V. intros Ha Hp. apply ok_match. rewrite <- Ha in *.
    destruct (@fmaxabs_R mind a) as (m & E & (v & Hv & Em) & H).
    { intros ->. cbn in Hp. lia. }
    exists m. split; auto. split.
    - intros i Hi. apply H. now apply nth_In.
    - destruct (In_nth _ _ 0 Hv) as (i & Hi & <-). eauto.
  Qed.

  Lemma ok_wr A mf (l : list A) i v : (i < length l)%nat -> ok mf (wr l i v) (fun r => r = upd l i v).
  Proof. intros H. rewrite wr_ok by auto. now apply ok_some. Qed.

  Lemma ok_collect mf n : forall i (g : nat -> option R) (h : nat -> R),
    (forall k, (i <= k < i + n)%nat -> g k = Some (h k)) ->
    ok mf (ModelSolverBase.collect n i g) (fun r => r = map h (seq i n)).
  Proof.
    induction n as [|n IH]; intros i g h H; cbn [ModelSolverBase.collect seq map].
    - now apply ok_some.
    - rewrite (H i) by lia. cbn [obind]. eapply ok_bind; [apply IH with (h := h)|].
      + intros k Hk. apply H. lia.
      + intros l ->. now apply ok_some.
  Qed.
End Lin.
