(** Lemmas for C83. *)
From Coq Require Import ZArith Reals List Arith Lia Lra Ranalysis.
From Verif Require Import Num Arr ArrLemmas SpecPhys SpecStat SpecEngine RLemmas ModelVertex ModelEngine ModelStat LemStat LemMain LemPhys
  SpecImplicit SpecConv LemConv LemNewtonLip SpecInv PropBuffers.
Import ListNotations.
Set Implicit Arguments.
Local Open Scope R_scope.

(** ** what is reported, in terms of the state vector *)
Section Values.
  Variables (mind : R) (n : nat) (mass : list R).
  Notation m := (fun i => nth i mass 0).
  Definition v_P y k := tot_impulse n m (comp y n k).
  Definition v_L y a b := tot_ang n m (comp y n a) (comp y n b) (comp y n (a + 3)) (comp y n (b + 3)).
  Definition v_V y k := mass_centre n m (comp y n k).
  Definition v_K y := tot_kinetic n m (comp y n 3) (comp y n 4) (comp y n 5).
  Definition v_U y := tot_potential n m (comp y n 0) (comp y n 1) (comp y n 2) mind.

  Lemma row_c y off i : (i < n)%nat -> cx (rows (Rops mind) n off y) i = comp y n off i /\
    cy (rows (Rops mind) n off y) i = comp y n (off + 1) i /\ cz (rows (Rops mind) n off y) i = comp y n (off + 2) i.
  Proof.
    intros Hi. unfold cx, cy, cz, rows.
    match goal with |- context [map ?f _] => rewrite !(nth_indep _ (V3 0 0 0) (f 0%nat)) by (now rewrite map_length, seq_length); rewrite !(map_nth f) end.
    rewrite seq_nth by auto. cbn [vx vy vz]. repeat split.
  Qed.

  Lemma pair_sum_ext f g : (forall i j, (i < n)%nat -> (j < n)%nat -> i <> j -> f i j = g i j) -> pair_sum n f = pair_sum n g.
  Proof. intros H. unfold pair_sum. apply rsum_ext. intros j Hj. apply rsum_ext. intros i Hi. apply H; lia. Qed.

  Lemma reports_values y : 0 < mind -> length mass = n -> length y = (6 * n)%nat -> exists r, reports mind n mass y r.
  Proof.
    intros Hm Hl Hy.
    destruct (@C53_totals mind (Chk true true true true) n (rows (Rops mind) n 0 y) (rows (Rops mind) n 3 y) mass) as (r & Er & _);
      auto using rows_length.
    exists r, (repeat (V3 0 0 0) n), (repeat (V3 0 0 0) n), (rows (Rops mind) n 0 y), (rows (Rops mind) n 3 y).
    rewrite repeat_length. split; auto. split; auto. split; auto. apply get_data_rows; rewrite ?repeat_length; auto. lia.
  Qed.

  Lemma reports_inv y r : 0 < mind -> length mass = n -> length y = (6 * n)%nat -> reports mind n mass y r ->
    rep_P r = V3 (v_P y 3) (v_P y 4) (v_P y 5) /\ rep_L r = V3 (v_L y 1 2) (v_L y 2 0) (v_L y 0 1) /\
    rep_V r = V3 (v_V y 0) (v_V y 1) (v_V y 2) /\ rep_K r = v_K y /\ rep_U r = v_U y.
  Proof.
    intros Hm Hl Hy (v0 & w0 & vrt & vel & L1 & L2 & E1 & E2).
    rewrite (@get_data_rows R (Rops mind)) in E1 by (auto; lia). injection E1 as <- <-.
    destruct (@C53_totals mind (Chk true true true true) n (rows (Rops mind) n 0 y) (rows (Rops mind) n 3 y) mass) as (r' & Er & H1 & H2 & H3 & H4);
      auto using rows_length.
    rewrite E2 in Er. injection Er as <-.
    specialize (H1 eq_refl). specialize (H2 eq_refl). specialize (H3 eq_refl). specialize (H4 eq_refl). destruct H4 as [H4 H5].
    rewrite H1, H2, H3, H4, H5. unfold v_P, v_L, v_V, v_K, v_U, cm.
    assert (X : forall off i, (i < n)%nat -> cx (rows (Rops mind) n off y) i = comp y n off i) by (intros; now apply row_c).
    assert (Y : forall off i, (i < n)%nat -> cy (rows (Rops mind) n off y) i = comp y n (off + 1) i) by (intros; now apply row_c).
    assert (Z : forall off i, (i < n)%nat -> cz (rows (Rops mind) n off y) i = comp y n (off + 2) i) by (intros; now apply row_c).
    split; [|split; [|split; [|split]]].
    - f_equal; unfold tot_impulse; apply rsum_ext; intros i Hi; now rewrite ?X, ?Y, ?Z by exact Hi.
    - f_equal; unfold tot_ang; apply rsum_ext; intros i Hi; now rewrite ?X, ?Y, ?Z by exact Hi.
    - f_equal; unfold mass_centre; f_equal; apply rsum_ext; intros i Hi; now rewrite ?X, ?Y, ?Z by exact Hi.
    - unfold tot_kinetic; apply rsum_ext; intros i Hi; now rewrite ?X, ?Y, ?Z by exact Hi.
    - unfold tot_potential. apply pair_sum_ext. intros i j Hi Hj _. unfold dist2. now rewrite ?X, ?Y, ?Z by assumption.
  Qed.
End Values.

(** ** derivatives *)
Lemma D_sum t : forall n (f : nat -> R -> R) f', (forall i, (i < n)%nat -> derivable_pt_lim (f i) t (f' i)) ->
  derivable_pt_lim (fun s => rsum n (fun i => f i s)) t (rsum n f').
Proof.
  induction n as [|n IH]; intros f f' H; cbn [rsum].
  - apply derivable_pt_lim_const.
  - apply (@derivable_pt_lim_plus (fun s => rsum n (fun i => f i s)) (f n)); [apply IH; intros; apply H; lia|apply H; lia].
Qed.
Lemma D_ext f g t l : (forall s, f s = g s) -> derivable_pt_lim f t l -> derivable_pt_lim g t l.
Proof. intros H D eps He. destruct (D eps He) as [d Hd]. exists d. intros h H1 H2. rewrite <- !H. now apply Hd. Qed.
Lemma D_scal c f t l : derivable_pt_lim f t l -> derivable_pt_lim (fun s => c * f s) t (c * l).
Proof. intros H. now apply (@derivable_pt_lim_scal f c t l). Qed.
Lemma D_mult f g t l k : derivable_pt_lim f t l -> derivable_pt_lim g t k -> derivable_pt_lim (fun s => f s * g s) t (l * g t + f t * k).
Proof. intros H K. now apply (@derivable_pt_lim_mult f g t l k). Qed.
Lemma D_minus f g t l k : derivable_pt_lim f t l -> derivable_pt_lim g t k -> derivable_pt_lim (fun s => f s - g s) t (l - k).
Proof. intros H K. now apply (@derivable_pt_lim_minus f g t l k). Qed.
Lemma D_plus f g t l k : derivable_pt_lim f t l -> derivable_pt_lim g t k -> derivable_pt_lim (fun s => f s + g s) t (l + k).
Proof. intros H K. now apply (@derivable_pt_lim_plus f g t l k). Qed.
Lemma D_val f t l l' : l = l' -> derivable_pt_lim f t l -> derivable_pt_lim f t l'.
Proof. now intros ->. Qed.

Lemma D_const (g : R -> R) t0 T : (forall t, t0 <= t <= t0 + T -> derivable_pt_lim g t 0) ->
  forall t, t0 <= t <= t0 + T -> g t = g t0.
Proof.
  intros H t Ht. destruct (Req_dec t t0) as [->|Hn]; auto.
  destruct (@MVT_cor2 g (fun _ => 0) t0 t) as (c & E & _); [lra|intros; apply H; lra|lra].
Qed.

(** two functions that meet with the same slope *)
Lemma D_glue f g a l : derivable_pt_lim f a l -> derivable_pt_lim g a l -> f a = g a ->
  derivable_pt_lim (fun x => if Rlt_dec x a then f x else g x) a l.
Proof.
  intros F G E eps He. destruct (F eps He) as [d1 H1]. destruct (G eps He) as [d2 H2].
  assert (P : 0 < Rmin d1 d2) by (apply Rmin_glb_lt; [apply d1|apply d2]).
  exists (mkposreal _ P). cbn [pos]. intros h Hh Hd.
  destruct (Rlt_dec a a); [lra|]. destruct (Rlt_dec (a + h) a).
  - rewrite <- E. apply H1; auto. eapply Rlt_le_trans; [exact Hd|apply Rmin_l].
  - apply H2; auto. eapply Rlt_le_trans; [exact Hd|apply Rmin_r].
Qed.
Lemma D_local f g a l (d : R) : 0 < d -> (forall x, Rabs (x - a) < d -> f x = g x) -> derivable_pt_lim f a l -> derivable_pt_lim g a l.
Proof.
  intros Hd H F eps He. destruct (F eps He) as [d1 H1].
  assert (P : 0 < Rmin d1 d) by (apply Rmin_glb_lt; [apply d1|auto]).
  exists (mkposreal _ P). cbn [pos]. intros h Hh Hhd.
  rewrite <- !H.
  - apply H1; auto. eapply Rlt_le_trans; [exact Hhd|apply Rmin_l].
  - rewrite Rminus_diag_eq by reflexivity. now rewrite Rabs_R0.
  - replace (a + h - a) with h by ring. eapply Rlt_le_trans; [exact Hhd|apply Rmin_r].
Qed.

(** ** the softened potential *)
Definition phi (mind d2 : R) : R :=
  if Rlt_dec d2 mind then d2 / (2 * mind * sqrt mind) - 3 / (2 * sqrt mind) else - / sqrt d2.

Lemma D_inv_sqrt x : 0 < x -> derivable_pt_lim (fun x => - / sqrt x) x (/ (2 * (x * sqrt x))).
Proof.
  intros Hx. pose proof (sqrt_lt_R0 x Hx) as Hs.
  assert (X : derivable_pt_lim (fun x => - (1 / sqrt x)) x (- ((0 * sqrt x - / (2 * sqrt x) * 1) / Rsqr (sqrt x)))).
  { apply (@derivable_pt_lim_opp (fun x => 1 / sqrt x)).
    apply (@derivable_pt_lim_div (fun _ => 1) sqrt); [apply derivable_pt_lim_const|now apply derivable_pt_lim_sqrt|lra]. }
  eapply D_val; [|eapply D_ext; [|exact X]].
  - rewrite Rsqr_sqrt by lra. field. lra.
  - intros s. cbn beta. unfold Rdiv. ring.
Qed.
Lemma D_phi mind x : 0 < mind -> derivable_pt_lim (phi mind) x (/ (2 * soft_cube mind x)).
Proof.
  intros Hm. pose proof (sqrt_lt_R0 mind Hm) as Hs.
  assert (LIN : forall x, derivable_pt_lim (fun d => d / (2 * mind * sqrt mind) - 3 / (2 * sqrt mind)) x (/ (2 * (mind * sqrt mind)))).
  { intros a. eapply D_val; [|apply D_minus; [apply D_ext with (f := fun s => / (2 * mind * sqrt mind) * s); [intros; unfold Rdiv; ring|
      apply (@D_scal (/ (2 * mind * sqrt mind)) id); apply derivable_pt_lim_id]|apply derivable_pt_lim_const]].
    field. split; lra. }
  unfold soft_cube. destruct (Rtotal_order x mind) as [H|[->|H]].
  - rewrite Rmax_left by lra. apply (@D_local (fun d => d / (2 * mind * sqrt mind) - 3 / (2 * sqrt mind)) (phi mind) x _ (mind - x)); [lra| |apply LIN].
    intros s Hd. unfold phi. destruct (Rlt_dec s mind); auto. revert Hd. unfold Rabs. destruct Rcase_abs; lra.
  - rewrite Rmax_left by lra. apply D_glue; [apply LIN|now apply D_inv_sqrt|]. field_simplify_eq; [|lra].
    rewrite ?pow2_sqrt by lra. ring_simplify. try lra.
  - rewrite Rmax_right by lra. apply (@D_local (fun x => - / sqrt x) (phi mind) x _ (x - mind)); [lra| |apply D_inv_sqrt; lra].
    intros s Hd. unfold phi. destruct (Rlt_dec s mind); auto. exfalso. revert Hd. unfold Rabs. destruct Rcase_abs; lra.
Qed.

(** ** the motion *)
Section Motion.
  Variables (mind : R) (n : nat) (mass : list R) (t0 T : R) (Y : R -> list R).
  Hypothesis Hmind : 0 < mind.
  Hypothesis HT : 0 <= T.
  Hypothesis HY : exact_on (6 * n) (newton_field mind n mass) t0 T Y.
  Notation m := (fun i => nth i mass 0).
  Notation acc t k := (newton_acc mind n m (comp (Y t) n 0) (comp (Y t) n 1) (comp (Y t) n 2) (comp (Y t) n k)).

  Lemma D_pos t i k : t0 <= t <= t0 + T -> (i < n)%nat -> (k < 3)%nat ->
    derivable_pt_lim (fun s => comp (Y s) n k i) t (comp (Y t) n (k + 3) i).
  Proof.
    intros Ht Hi Hk. destruct (HY Ht) as [_ H]. specialize (H (k * n + i)%nat ltac:(nia)). unfold comp at 1.
    eapply D_val; [|exact H]. rewrite field_nth by nia.
    assert (E1 : ((k * n + i) / n = k)%nat) by (rewrite Nat.div_add_l by lia; rewrite Nat.div_small by lia; lia).
    assert (E2 : ((k * n + i) mod n = i)%nat) by (rewrite Nat.add_comm, Nat.mod_add by lia; now apply Nat.mod_small).
    rewrite E1, E2. destruct (Nat.ltb_spec k 3); [reflexivity|lia].
  Qed.
  Lemma D_vel t i k : t0 <= t <= t0 + T -> (i < n)%nat -> (k < 3)%nat ->
    derivable_pt_lim (fun s => comp (Y s) n (k + 3) i) t (acc t k i).
  Proof.
    intros Ht Hi Hk. destruct (HY Ht) as [_ H]. specialize (H ((k + 3) * n + i)%nat ltac:(nia)). unfold comp at 1.
    eapply D_val; [|exact H]. rewrite field_nth by nia.
    assert (E1 : (((k + 3) * n + i) / n = k + 3)%nat) by (rewrite Nat.div_add_l by lia; rewrite Nat.div_small by lia; lia).
    assert (E2 : (((k + 3) * n + i) mod n = i)%nat) by (rewrite Nat.add_comm, Nat.mod_add by lia; now apply Nat.mod_small).
    rewrite E1, E2. destruct (Nat.ltb_spec (k + 3) 3); [lia|]. replace (k + 3 - 3)%nat with k by lia. reflexivity.
  Qed.

  Lemma P_const k t : (k < 3)%nat -> t0 <= t <= t0 + T -> v_P n mass (Y t) (k + 3) = v_P n mass (Y t0) (k + 3).
  Proof.
    intros Hk. apply (@D_const (fun t => v_P n mass (Y t) (k + 3))). intros s Hs. unfold v_P, tot_impulse.
    eapply D_val; [apply (@newton_net_force mind n m (comp (Y s) n 0) (comp (Y s) n 1) (comp (Y s) n 2) (comp (Y s) n k))|].
    apply (@D_sum s n (fun i s => m i * comp (Y s) n (k + 3) i)). intros i Hi. apply D_scal. now apply D_vel.
  Qed.
  Lemma C_line k t : (k < 3)%nat -> t0 <= t <= t0 + T ->
    rsum n (fun i => m i * comp (Y t) n k i) = rsum n (fun i => m i * comp (Y t0) n k i) + (t - t0) * v_P n mass (Y t0) (k + 3).
  Proof.
    intros Hk Ht.
    pose proof (@D_const (fun t => rsum n (fun i => m i * comp (Y t) n k i) - v_P n mass (Y t0) (k + 3) * t) t0 T) as X.
    enough (E : rsum n (fun i => m i * comp (Y t) n k i) - v_P n mass (Y t0) (k + 3) * t =
                rsum n (fun i => m i * comp (Y t0) n k i) - v_P n mass (Y t0) (k + 3) * t0) by lra.
    apply X; auto. intros s Hs. eapply D_val; [|apply D_minus].
    - apply Rminus_diag_eq. apply (@P_const k s Hk Hs).
    - unfold v_P, tot_impulse. apply (@D_sum s n (fun i s => m i * comp (Y s) n k i)). intros i Hi. apply D_scal. now apply D_pos.
    - eapply D_val; [|apply (@D_scal (v_P n mass (Y t0) (k + 3)) id); apply derivable_pt_lim_id]. ring.
  Qed.
  Lemma L_const a b t : (a < 3)%nat -> (b < 3)%nat -> t0 <= t <= t0 + T -> v_L n mass (Y t) a b = v_L n mass (Y t0) a b.
  Proof.
    intros Ha Hb. apply (@D_const (fun t => v_L n mass (Y t) a b)). intros s Hs. unfold v_L, tot_ang.
    eapply D_val; [apply (@newton_net_torque mind n m (comp (Y s) n 0) (comp (Y s) n 1) (comp (Y s) n 2) (comp (Y s) n a) (comp (Y s) n b))|].
    apply (@D_sum s n (fun i s => m i * (comp (Y s) n a i * comp (Y s) n (b + 3) i - comp (Y s) n b i * comp (Y s) n (a + 3) i))).
    intros i Hi. apply D_scal. eapply D_val; [|apply D_minus; apply D_mult].
    2: apply (@D_pos s i a); auto. 2: apply (@D_vel s i b); auto. 2: apply (@D_pos s i b); auto. 2: apply (@D_vel s i a); auto.
    cbn beta. ring.
  Qed.

  (** kinetic energy and softened potential *)
  Definition full (y : list R) : R :=
    v_K n mass y + pair_sum n (fun i j => m i * m j * phi mind (dist2 (comp y n 0) (comp y n 1) (comp y n 2) i j)).

  Lemma power (x y z u v w : nat -> R) :
    rsum n (fun i => m i * (u i * newton_acc mind n m x y z x i + v i * newton_acc mind n m x y z y i + w i * newton_acc mind n m x y z z i)) +
    pair_sum n (fun i j => m i * m j * ((x i - x j) * (u i - u j) + (y i - y j) * (v i - v j) + (z i - z j) * (w i - w j)) / soft_cube mind (dist2 x y z i j)) = 0.
  Proof.
    set (c := fun i j => soft_cube mind (dist2 x y z i j)).
    assert (cs : forall i j, c i j = c j i) by (intros; unfold c; now rewrite dist2_sym).
    set (g := fun i j => m i * m j * ((x i - x j) * (u i - u j) + (y i - y j) * (v i - v j) + (z i - z j) * (w i - w j)) / c i j).
    set (h := fun i j => m i * m j * ((x i - x j) * u i + (y i - y j) * v i + (z i - z j) * w i) / c i j).
    change (pair_sum n _) with (pair_sum n g).
    assert (G : rsum n (fun i => rsum n (fun j => if Nat.eqb i j then 0 else g i j)) = 2 * pair_sum n g).
    { apply sym_pairs. intros i j. unfold g. rewrite (cs j i). unfold Rdiv. ring. }
    assert (H : rsum n (fun i => m i * (u i * newton_acc mind n m x y z x i + v i * newton_acc mind n m x y z y i + w i * newton_acc mind n m x y z z i)) =
                rsum n (fun i => rsum n (fun j => if Nat.eqb i j then 0 else - h i j))).
    { apply rsum_ext. intros i _. unfold newton_acc. rewrite <- !rsum_opp, <- !rsum_scal, <- !rsum_plus, <- rsum_scal.
      apply rsum_ext. intros j _. unfold h, c. destruct (Nat.eqb i j); unfold Rdiv; ring. }
    assert (A : rsum n (fun i => rsum n (fun j => if Nat.eqb i j then 0 else 2 * h i j - g i j)) = 0).
    { apply rsum_antisym. intros i j _ _. rewrite (Nat.eqb_sym j i). destruct (Nat.eqb i j); [ring|].
      unfold h, g. rewrite (cs j i). unfold Rdiv. ring. }
    assert (B : rsum n (fun i => rsum n (fun j => if Nat.eqb i j then 0 else 2 * h i j - g i j)) =
      - 2 * rsum n (fun i => rsum n (fun j => if Nat.eqb i j then 0 else - h i j)) - rsum n (fun i => rsum n (fun j => if Nat.eqb i j then 0 else g i j))).
    { rewrite <- rsum_scal, <- rsum_minus. apply rsum_ext. intros i _. rewrite <- rsum_scal, <- rsum_minus. apply rsum_ext. intros j _.
      destruct (Nat.eqb i j); ring. }
    cbn beta in *. rewrite H. lra.
  Qed.

  Lemma E_const t : t0 <= t <= t0 + T -> full (Y t) = full (Y t0).
  Proof.
    apply (@D_const (fun t => full (Y t))). intros s Hs. unfold full.
    pose proof (power (comp (Y s) n 0) (comp (Y s) n 1) (comp (Y s) n 2) (comp (Y s) n 3) (comp (Y s) n 4) (comp (Y s) n 5)) as PW.
    eapply D_val; [exact PW|]. clear PW. apply D_plus.
    - unfold v_K, tot_kinetic.
      apply (@D_sum s n (fun i s => m i * (comp (Y s) n 3 i * comp (Y s) n 3 i + comp (Y s) n 4 i * comp (Y s) n 4 i + comp (Y s) n 5 i * comp (Y s) n 5 i) / 2)).
      intros i Hi.
      pose proof (@D_vel s i 0 Hs Hi ltac:(lia)) as D0. pose proof (@D_vel s i 1 Hs Hi ltac:(lia)) as D1. pose proof (@D_vel s i 2 Hs Hi ltac:(lia)) as D2.
      cbn [Nat.add] in D0, D1, D2.
      eapply D_val; [|eapply D_ext with (f := fun s => (m i / 2) * (comp (Y s) n 3 i * comp (Y s) n 3 i + comp (Y s) n 4 i * comp (Y s) n 4 i + comp (Y s) n 5 i * comp (Y s) n 5 i));
        [intros; unfold Rdiv; ring|apply D_scal; apply D_plus; [apply D_plus|]; apply D_mult; eassumption]].
      cbn beta. field.
    - unfold pair_sum. 
      apply (@D_sum s n (fun j s => rsum j (fun i => m i * m j * phi mind (dist2 (comp (Y s) n 0) (comp (Y s) n 1) (comp (Y s) n 2) i j)))). intros j Hj.
      apply (@D_sum s j (fun i s => m i * m j * phi mind (dist2 (comp (Y s) n 0) (comp (Y s) n 1) (comp (Y s) n 2) i j))). intros i Hi.
      assert (Hi' : (i < n)%nat) by lia.
      pose proof (fun k (Hk : (k < 3)%nat) => D_minus (@D_pos s i k Hs Hi' Hk) (@D_pos s j k Hs Hj Hk)) as D.
      pose proof (D 0%nat ltac:(lia)) as D0. pose proof (D 1%nat ltac:(lia)) as D1. pose proof (D 2%nat ltac:(lia)) as D2. clear D.
      cbn [Nat.add] in D0, D1, D2.
      pose proof (D_plus (D_plus (D_mult D0 D0) (D_mult D1 D1)) (D_mult D2 D2)) as DD.
      pose proof (@derivable_pt_lim_comp (fun s => dist2 (comp (Y s) n 0) (comp (Y s) n 1) (comp (Y s) n 2) i j) (phi mind) s _ _ DD (@D_phi mind _ Hmind)) as DC.
      eapply D_val; [|apply D_scal; exact DC]. cbn beta. field.
      apply Rgt_not_eq. apply soft_cube_pos. exact Hmind.
  Qed.

  Lemma full_reported y : full y = v_K n mass y + v_U mind n mass y + left_out mind n mass y.
  Proof.
    unfold full, v_U, tot_potential, left_out. rewrite Rplus_assoc. f_equal. unfold pair_sum. rewrite <- rsum_plus. apply rsum_ext. intros j _.
    rewrite <- rsum_plus. apply rsum_ext. intros i _. cbv zeta. unfold phi. destruct Rlt_dec; unfold Rdiv; ring.
  Qed.
  Lemma apart_left y : apart mind n y -> left_out mind n mass y = 0.
  Proof.
    intros H. unfold left_out, pair_sum. apply rsum_zero. intros j Hj. apply rsum_zero. intros i Hi. cbv zeta.
    destruct Rlt_dec as [L|]; auto. specialize (H i j ltac:(lia) Hj ltac:(lia)). lra.
  Qed.
End Motion.

(** ** Lipschitz bounds on bounded sets *)
Lemma phi_lip mind a b : 0 < mind -> Rabs (phi mind a - phi mind b) <= Rabs (a - b) * / (2 * (mind * sqrt mind)).
Proof.
  intros Hm. pose proof (sqrt_lt_R0 mind Hm) as Hs.
  assert (P : 0 < mind * sqrt mind) by now apply Rmult_lt_0_compat.
  assert (W : forall a b, a < b -> Rabs (phi mind b - phi mind a) <= Rabs (b - a) * / (2 * (mind * sqrt mind))).
  { clear a b. intros a b H. destruct (@MVT_cor2 (phi mind) (fun x => / (2 * soft_cube mind x)) a b H) as (c & E & _).
    - intros c _. now apply D_phi.
    - rewrite E, Rabs_mult, Rmult_comm. apply Rmult_le_compat_l; [apply Rabs_pos|].
      assert (Q : mind * sqrt mind <= soft_cube mind c).
      { unfold soft_cube. apply Rmult_le_compat; try lra; [apply Rmax_l|]. apply sqrt_le_1_alt. apply Rmax_l. }
      rewrite Rabs_right.
      + apply Rinv_le_contravar; lra.
      + apply Rle_ge. left. apply Rinv_0_lt_compat. lra. }
  destruct (Rtotal_order a b) as [H|[->|H]].
  - rewrite (Rabs_minus_sym (phi mind a)), (Rabs_minus_sym a). now apply W.
  - rewrite !Rminus_diag_eq by reflexivity. rewrite Rabs_R0. lra.
  - now apply W.
Qed.

Lemma mul_lip a b a' b' B d : Rabs a <= B -> Rabs b <= B -> Rabs a' <= B -> Rabs b' <= B ->
  Rabs (a - a') <= d -> Rabs (b - b') <= d -> Rabs (a * b - a' * b') <= 2 * B * d.
Proof.
  intros H1 H2 H3 H4 H5 H6. replace (a * b - a' * b') with ((a - a') * b + a' * (b - b')) by ring.
  eapply Rle_trans; [apply Rabs_triang|]. rewrite !Rabs_mult.
  assert (X : Rabs (a - a') * Rabs b <= d * B) by (apply Rmult_le_compat; auto using Rabs_pos).
  assert (X' : Rabs a' * Rabs (b - b') <= B * d) by (apply Rmult_le_compat; auto using Rabs_pos). lra.
Qed.

Section Lip.
  Variables (mind : R) (n : nat) (mass : list R) (B : R).
  Hypothesis Hmind : 0 < mind.
  Notation m := (fun i => nth i mass 0).
  Definition small (y : list R) : Prop := forall q, (q < 6 * n)%nat -> Rabs (nth q y 0) <= B.
  Definition lipE : R := rsum n (fun i => Rabs (nth i mass 0) * (3 * B)) +
    pair_sum n (fun i j => Rabs (nth i mass 0 * nth j mass 0) * (24 * B * / (2 * (mind * sqrt mind)))).
  Definition lipL : R := rsum n (fun i => Rabs (nth i mass 0) * (4 * B)).

  Variables (y y' : list R) (d : R).
  Hypothesis (Hy : small y) (Hy' : small y') (Hn : near (6 * n) y y' d).

  Lemma c_small k i : (k < 6)%nat -> (i < n)%nat -> Rabs (comp y n k i) <= B /\ Rabs (comp y' n k i) <= B /\
    Rabs (comp y n k i - comp y' n k i) <= d.
  Proof. intros Hk Hi. unfold comp. split; [apply Hy; nia|]. split; [apply Hy'; nia|apply Hn; nia]. Qed.

  Lemma sum_lip k (f g : nat -> R) c : (forall i, (i < k)%nat -> Rabs (f i - g i) <= c i * d) -> Rabs (rsum k f - rsum k g) <= rsum k c * d.
  Proof.
    intros H. eapply Rle_trans; [apply rsum_abs_diff|]. rewrite <- rsum_scal_r. apply rsum_le'. exact H.
  Qed.

  Lemma L_lip a b : (a < 3)%nat -> (b < 3)%nat -> Rabs (v_L n mass y a b - v_L n mass y' a b) <= lipL * d.
  Proof.
    intros Ha Hb. unfold v_L, tot_ang, lipL. apply sum_lip. intros i Hi. rewrite <- Rmult_minus_distr_l, Rabs_mult, Rmult_assoc.
    apply Rmult_le_compat_l; [apply Rabs_pos|].
    destruct (@c_small a i ltac:(lia) Hi) as (A1 & A2 & A3). destruct (@c_small b i ltac:(lia) Hi) as (B1 & B2 & B3).
    destruct (@c_small (a + 3) i ltac:(lia) Hi) as (C1 & C2 & C3). destruct (@c_small (b + 3) i ltac:(lia) Hi) as (D1 & D2 & D3).
    pose proof (@mul_lip _ _ _ _ B d A1 D1 A2 D2 A3 D3) as X. pose proof (@mul_lip _ _ _ _ B d B1 C1 B2 C2 B3 C3) as X'.
    match goal with |- Rabs (?p - ?q - (?p' - ?q')) <= _ => replace (p - q - (p' - q')) with ((p - p') - (q - q')) by ring end.
    eapply Rle_trans; [apply Rabs_triang|]. rewrite Rabs_Ropp. lra.
  Qed.

  Lemma E_lip : Rabs (full mind n mass y - full mind n mass y') <= lipE * d.
  Proof.
    unfold full, lipE. match goal with |- Rabs (?p + ?q - (?p' + ?q')) <= _ => replace (p + q - (p' + q')) with ((p - p') + (q - q')) by ring end.
    eapply Rle_trans; [apply Rabs_triang|]. rewrite Rmult_plus_distr_r. apply Rplus_le_compat.
    - unfold v_K, tot_kinetic. apply sum_lip. intros i Hi.
      destruct (@c_small 3 i ltac:(lia) Hi) as (A1 & A2 & A3). destruct (@c_small 4 i ltac:(lia) Hi) as (B1 & B2 & B3).
      destruct (@c_small 5 i ltac:(lia) Hi) as (C1 & C2 & C3).
      pose proof (@mul_lip _ _ _ _ B d A1 A1 A2 A2 A3 A3) as X. pose proof (@mul_lip _ _ _ _ B d B1 B1 B2 B2 B3 B3) as X'.
      pose proof (@mul_lip _ _ _ _ B d C1 C1 C2 C2 C3 C3) as X''.
      match goal with |- Rabs (_ * (?a + ?b + ?c) / 2 - _ * (?a' + ?b' + ?c') / 2) <= _ =>
        replace (nth i mass 0 * (a + b + c) / 2 - nth i mass 0 * (a' + b' + c') / 2) with (nth i mass 0 * (((a - a') + (b - b') + (c - c')) / 2)) by field end.
      rewrite Rabs_mult, Rmult_assoc. apply Rmult_le_compat_l; [apply Rabs_pos|].
      unfold Rdiv. rewrite Rabs_mult, (Rabs_right (/ 2)) by lra.
      match goal with |- Rabs (?a + ?b + ?c) * / 2 <= _ => assert (Rabs (a + b + c) <= Rabs a + Rabs b + Rabs c) by
        (eapply Rle_trans; [apply Rabs_triang|]; apply Rplus_le_compat_r; apply Rabs_triang) end. lra.
    - unfold pair_sum. apply sum_lip. intros j Hj. apply sum_lip. intros i Hi. assert (Hi' : (i < n)%nat) by lia.
      rewrite <- Rmult_minus_distr_l, Rabs_mult, (Rmult_assoc (Rabs _)). apply Rmult_le_compat_l; [apply Rabs_pos|].
      eapply Rle_trans; [now apply phi_lip|].
      replace (24 * B * / (2 * (mind * sqrt mind)) * d) with (24 * B * d * / (2 * (mind * sqrt mind))) by ring. apply Rmult_le_compat_r.
      { left. apply Rinv_0_lt_compat. apply Rmult_lt_0_compat; [lra|]. apply Rmult_lt_0_compat; auto. now apply sqrt_lt_R0. }
      assert (SQ : forall k, (k < 3)%nat -> Rabs ((comp y n k i - comp y n k j) * (comp y n k i - comp y n k j) -
         (comp y' n k i - comp y' n k j) * (comp y' n k i - comp y' n k j)) <= 2 * (2 * B) * (2 * d)).
      { intros k Hk. destruct (@c_small k i ltac:(lia) Hi') as (A1 & A2 & A3). destruct (@c_small k j ltac:(lia) Hj) as (B1 & B2 & B3).
        assert (TR : forall p q b, Rabs p <= b -> Rabs q <= b -> Rabs (p - q) <= 2 * b).
        { intros p q b Hp Hq. eapply Rle_trans; [apply Rabs_triang|]. rewrite Rabs_Ropp. lra. }
        assert (DD : Rabs (comp y n k i - comp y n k j - (comp y' n k i - comp y' n k j)) <= 2 * d).
        { replace (comp y n k i - comp y n k j - (comp y' n k i - comp y' n k j)) with
            ((comp y n k i - comp y' n k i) - (comp y n k j - comp y' n k j)) by ring. now apply TR. }
        apply mul_lip; auto. }
      unfold dist2. pose proof (SQ 0%nat ltac:(lia)) as S0. pose proof (SQ 1%nat ltac:(lia)) as S1. pose proof (SQ 2%nat ltac:(lia)) as S2.
      match goal with |- Rabs (?a + ?b + ?c - (?a' + ?b' + ?c')) <= _ => replace (a + b + c - (a' + b' + c')) with ((a - a') + (b - b') + (c - c')) by ring end.
      eapply Rle_trans; [apply Rabs_triang|].
      match goal with |- Rabs (?a + ?b) + _ <= _ => pose proof (Rabs_triang a b) end. lra.
  Qed.
End Lip.
