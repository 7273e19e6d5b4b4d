(** Simulations with the Barnes-Hut engines: C85. *)
From Coq Require Import ZArith NArith Reals List Arith Lia Lra Permutation.
From Verif Require Import Num Arr ArrLemmas SpecPhys SpecEngine RLemmas ModelVertex ModelForce ModelSolverBase ModelButcher ModelExtrap
  ModelEngine ModelSolver ModelTree ModelHeap ModelBH ModelBHSolver SpecTree SpecHeap SpecBHError SpecSolver SpecImplicit SpecConv
  LemEngine LemPhys LemTree LemHeap LemHeap2 LemNext LemBH LemTreeR LemTreeProp LemConv LemConvAll LemConvState LemNewtonLip
  PropTree PropBHError PropConv.
Import ListNotations.
Local Open Scope R_scope.

(** the answers of all the Barnes-Hut engines that build the tree anew for every evaluation *)
Definition bhF (mind : R) (n : nat) (mass : list R) (split : list R -> nat -> nat -> list nat -> list nat) (ratio : R) (_ : R) (y : list R) : list R :=
  match bh_tree_fcompute (Rops mind) (split y) ratio ett_cycle 0 0 n mass y (repeat 0 (6 * n)) None with
  | Some r => fst r | None => repeat 0 (6 * n) end.

Lemma cells_any n (V A : nat -> vec3 R) f g f1 f2 : length f = (6 * n)%nat -> length g = (6 * n)%nat ->
  deriv_cells n V A f f1 -> deriv_cells n V A g f2 -> f1 = f2.
Proof.
  intros Lf Lg H1 (L2 & C2 & O2). eapply deriv_cells_unique; [exact H1|]. split; [congruence|]. split; [exact C2|].
  intros q Hq. rewrite O2 by exact Hq. rewrite (proj2 (nth_error_None g q)), (proj2 (nth_error_None f q)); auto; lia.
Qed.

Lemma always_builds rate step e : (rate <= 1)%nat -> build_now rate step e = true.
Proof.
  intros H. unfold build_now. destruct rate as [|[|rate]]; [reflexivity| |lia].
  rewrite Nat.mod_1_r. cbn. now rewrite Bool.orb_true_r.
Qed.
Lemma get_anew (mind : R) split ratio rate step n mass y tree0 : (rate <= 1)%nat ->
  get_tree (Rops mind) split ratio rate step n mass y tree0 = tree_build (Rops mind) split n y mass ratio.
Proof. intros H. unfold get_tree. destruct tree0; [|reflexivity]. now rewrite always_builds. Qed.

Lemma pull_bound mind n mass y i : 0 < mind -> (forall j, (j < n)%nat -> 0 < nth j mass 0) ->
  pull_size mind n mass y i <= rsum n (fun j => nth j mass 0) / mind.
Proof.
  intros Hmd Hpos. unfold pull_size. unfold Rdiv at 2. rewrite <- rsum_scal_r.
  apply rsum_le'. intros j Hj. cbn beta. specialize (Hpos j Hj).
  assert (0 < / mind) by now apply Rinv_0_lt_compat.
  destruct (i =? j)%nat.
  - apply Rmult_le_pos; lra.
  - apply Rmult_le_compat_l; [lra|]. apply Rinv_le_contravar; [exact Hmd|apply Rmax_l].
Qed.

Lemma near_field mind n mass t y f e : 0 < mind -> (forall j, (j < n)%nat -> 0 < nth j mass 0) -> 0 <= e ->
  near_newton e mind n mass y f -> near (6 * n) f (newton_field mind n mass t y) (e * (rsum n (fun j => nth j mass 0) / mind)).
Proof.
  intros Hmd Hpos He HN q Hq.
  assert (PM : 0 <= rsum n (fun j => nth j mass 0) / mind).
  { apply Rmult_le_pos; [|left; now apply Rinv_0_lt_compat]. apply rsum_pos. intros j Hj. left. now apply Hpos. }
  assert (n <> 0)%nat by lia.
  assert (Hq' : nth q f 0 = comp f n (q / n) (q mod n)).
  { unfold comp. f_equal. rewrite (Nat.div_mod q n) at 1 by auto. ring. }
  assert (Hi : (q mod n < n)%nat) by now apply Nat.mod_upper_bound.
  assert (Hk : (q / n < 6)%nat) by (apply Nat.div_lt_upper_bound; lia).
  rewrite Hq', field_nth by exact Hq. set (k := (q / n)%nat) in *. set (i := (q mod n)%nat) in *.
  destruct (Nat.ltb_spec k 3) as [K|K].
  - destruct (HN i k Hi K) as [-> _]. rewrite Rminus_diag_eq by reflexivity. rewrite Rabs_R0. apply Rmult_le_pos; lra.
  - destruct (HN i (k - 3)%nat Hi) as [_ H1]; [lia|]. replace (k - 3 + 3)%nat with k in H1 by lia.
    eapply Rle_trans; [exact H1|]. apply Rmult_le_compat_l; [exact He|]. now apply pull_bound.
Qed.

Lemma err1_linear x : 0 <= x <= 1 -> 0 <= bh_err1 x <= 11 * x.
Proof.
  intros H. unfold bh_err1. assert (0 <= x * x <= x) by (split; [apply Rmult_le_pos; lra|rewrite <- (Rmult_1_r x) at 3; apply Rmult_le_compat_l; lra]).
  assert (0 <= x * (x * x) <= x) by (split; [apply Rmult_le_pos; lra|rewrite <- (Rmult_1_r x) at 4; apply Rmult_le_compat_l; lra]).
  split; nra.
Qed.

Section BH.
  Variables (mind : R) (n : nat) (mass : list R) (split : list R -> nat -> nat -> list nat -> list nat) (ratio : R) (rate : nat).
  Hypothesis Hmd : 0 < mind.
  Hypothesis Hm : length mass = n.
  Hypothesis Hpos : forall i, (i < n)%nat -> 0 < nth i mass 0.
  Hypothesis Hs : forall y, permuting (split y).
  Hypothesis Hr : 1 <= ratio.
  Hypothesis Hrate : (rate <= 1)%nat.

  Lemma tree_call : (1 <= n)%nat -> (n <= 2 ^ 63)%nat -> forall s step t y f, length y = (6 * n)%nat -> length f = (6 * n)%nat ->
    exists s', bh_tree_ef (Rops mind) n mass split ratio ett_cycle rate s step t y f = Some (s', bhF mind n mass split ratio t y).
  Proof.
    intros H1 H2 s step t y f Ly Lf.
    assert (L0 : length (repeat 0 (6 * n)) = (6 * n)%nat) by apply repeat_length.
    assert (Hy : (6 * n <= length y)%nat) by (rewrite Ly; apply le_n). assert (Hf : (6 * n <= length f)%nat) by (rewrite Lf; apply le_n).
    assert (Hg : (6 * n <= length (repeat 0%R (6 * n)))%nat) by (rewrite L0; apply le_n).
    assert (Hm' : (n <= length mass)%nat) by (rewrite Hm; apply le_n).
    destruct (@tree_fcompute_any R (Rops mind) (split y) ratio rate step n mass y f None (Hs y) H1 H2 Hy Hm' Hf I) as (a & fa & Ea & _ & _ & Ca & Xa & _).
    destruct (@tree_fcompute_any R (Rops mind) (split y) ratio 0 0 n mass y (repeat 0 (6 * n)) None (Hs y) H1 H2 Hy Hm' Hg I) as (b & fb & Eb & _ & _ & Cb & Xb & _).
    assert (a = b) as -> by (cbn [get_tree] in Ea, Eb; congruence). clear Ea Eb H1 H2.
    pose proof (cells_any _ _ _ _ _ _ _ Lf L0 Ca Cb) as ->. clear Ca Cb.
    exists (Some b). unfold bhF. rewrite Xb. cbn [fst]. unfold bh_tree_ef.
    replace (bh_tree_fcompute (Rops mind) (split y) ratio ett_cycle rate step n mass y f s) with (Some (fb, Some b)); [reflexivity|].
    rewrite <- Xa. unfold bh_tree_fcompute. destruct s; [|reflexivity]. now rewrite always_builds.
  Qed.

  Lemma tree_near : (1 <= n)%nat -> (n <= 2 ^ 63)%nat -> forall t y, length y = (6 * n)%nat ->
    length (bhF mind n mass split ratio t y) = (6 * n)%nat /\
    near (6 * n) (bhF mind n mass split ratio t y) (newton_field mind n mass t y) (11 * (rsum n (fun j => nth j mass 0) / mind) * / ratio).
  Proof.
    intros H1 H2 t y Ly.
    assert (L0 : length (repeat 0 (6 * n)) = (6 * n)%nat) by apply repeat_length.
    assert (Hy : (6 * n <= length y)%nat) by (rewrite Ly; apply le_n).
    assert (Hg : (6 * n <= length (repeat 0%R (6 * n)))%nat) by (rewrite L0; apply le_n).
    assert (Hm' : (n <= length mass)%nat) by (rewrite Hm; apply le_n).
    assert (Px : 0 <= / ratio <= 1).
    { split; [left; apply Rinv_0_lt_compat; lra|]. rewrite <- Rinv_1. apply Rinv_le_contravar; lra. }
    destruct (err1_linear _ Px) as [Q1 Q2].
    destruct (@tree_fcompute_any R (Rops mind) (split y) ratio 0 0 n mass y (repeat 0 (6 * n)) None (Hs y) H1 H2 Hy Hm' Hg I) as (b & fb & _ & _ & _ & (Lb & _) & Xb & _).
    destruct (C84_first_order mind ratio 0 n mass [BCall 0 (split y) y (repeat 0 (6 * n))] Hmd H1 H2 Hm' Hpos Hr) as (fs & E & F).
    { constructor; [|constructor]. split; [apply Hs|]. split; assumption. }
    clear H1 H2. cbn [run_tree bc_split bc_step bc_y bc_f] in E. rewrite Xb in E. cbn [obind fst snd] in E. injection E as <-.
    assert (HN : near_newton (bh_err1 (/ ratio)) mind n mass y fb) by (inversion F; assumption). unfold bhF. rewrite Xb. cbn [fst]. split; [congruence|].
    assert (PM : 0 <= rsum n (fun j => nth j mass 0) / mind).
    { apply Rmult_le_pos; [|left; now apply Rinv_0_lt_compat]. apply rsum_pos. intros j Hj. left. now apply Hpos. }
    eapply near_mono; [apply near_field; [exact Hmd|exact Hpos|exact Q1|exact HN]|].
    replace (11 * (rsum n (fun j => nth j mass 0) / mind) * / ratio) with (11 * / ratio * (rsum n (fun j => nth j mass 0) / mind)) by ring.
    apply Rmult_le_compat_r; assumption.
  Qed.
End BH.

Lemma heap_call mind k mass split ratio rate trav shape :
  (k <= 63)%nat -> length mass = (2 ^ k)%nat -> (forall y, permuting (split y)) -> (rate <= 1)%nat ->
  (trav = heap_traverse (Rops mind) \/ trav = stackless_traverse (Rops mind) next_down \/
   ((k <= 30)%nat /\ trav = stackless_traverse (Rops mind) next_down_gcc_nat)) ->
  forall h step t y f, (exists t0, same_state (Rops mind) k mass t0 h) -> length y = (6 * 2 ^ k)%nat -> length f = (6 * 2 ^ k)%nat ->
  exists h', bh_heap_ef (Rops mind) (2 ^ k) mass trav split ratio shape rate h step t y f = Some (h', bhF mind (2 ^ k) mass split ratio t y) /\
    exists t0, same_state (Rops mind) k mass t0 h'.
Proof.
  intros Hk Hm Hs Hrate Htr h step t y f [t0 S0] Ly Lf.
  assert (L0 : length (repeat 0 (6 * 2 ^ k)) = (6 * 2 ^ k)%nat) by apply repeat_length.
  assert (Hy : (6 * 2 ^ k <= length y)%nat) by (rewrite Ly; apply le_n). assert (Hf : (6 * 2 ^ k <= length f)%nat) by (rewrite Lf; apply le_n).
  assert (Hg : (6 * 2 ^ k <= length (repeat 0%R (6 * 2 ^ k)))%nat) by (rewrite L0; apply le_n).
  assert (Hm' : (2 ^ k <= length mass)%nat) by (rewrite Hm; apply le_n).
  assert (HT : forall h t v1 m1, length h = (2 * 2 ^ k)%nat -> perfect k t -> repr h 1 t -> trav h v1 m1 = Some (bh_force (Rops mind) t v1 m1)).
  { intros h1 t1 v1 m1 Hl Hp Hrp. destruct Htr as [->|[->|[H30 ->]]].
    - apply (heap_traverse_walk (Rops mind) h1 t1 v1 m1 Hl Hk Hp Hrp).
    - apply (@stackless_traverse_walk R (Rops mind) next_down h1 t1 k v1 m1 Hl (next_down_spec _) Hp Hrp).
    - refine (@stackless_traverse_walk R (Rops mind) next_down_gcc_nat h1 t1 k v1 m1 Hl (@gcc_next_spec _ _) Hp Hrp).
      rewrite Nat2N.inj_mul, Nat2N.inj_pow. change (N.of_nat 2) with 2%N.
      rewrite <- N.pow_succ_r'. apply N.pow_lt_mono_r; lia. }
  destruct (@heap_step R (Rops mind) k trav (split y) ratio shape rate step mass y f t0 h HT (Hs y) Hy Hm' Hf S0) as (a & h' & fa & Ea & Xa & Sa & Ca).
  destruct (@tree_step R (Rops mind) k (split y) ratio 0 0 mass y (repeat 0 (6 * 2 ^ k)) None [] Hk (Hs y) Hy Hm' Hg eq_refl) as (b & fb & Eb & Xb & Cb).
  assert (a = b) as -> by (rewrite get_anew in Ea, Eb by (exact Hrate || lia); congruence).
  pose proof (cells_any _ _ _ _ _ _ _ Lf L0 Ca Cb) as ->.
  exists h'. unfold bh_heap_ef, bhF. rewrite Xa, Xb. cbn [obind fst]. split; [reflexivity|]. now exists (Some b).
Qed.

Lemma limit_bound C a h r eps : 0 <= C -> 0 < eps -> a = 0 -> 0 <= h <= eps / (2 * (C + 1)) -> 0 <= r <= eps / (2 * (C + 1)) ->
  C * (0 + h + a + r) <= eps.
Proof.
  intros HC He -> H1 H2. set (u := eps / (2 * (C + 1))) in *.
  assert (E : (C + 1) * (2 * u) = eps) by (unfold u; field; lra).
  assert (C * (0 + h + 0 + r) <= C * (2 * u)) by (apply Rmult_le_compat_l; lra). nra.
Qed.

(** ** C85 *)

(** A right-hand side that is Lipschitz and an exact solution: the solvers driven by an engine that keeps what it likes between
    the evaluations, and whose answers are within [eps] of the right-hand side, end within C (d + h + defect + eps) of the exact
    solution; C depends neither on the engine nor on the steps. *)
Theorem C85_approximate : forall mind ps F0 L t0 T Y s,
  (0 < ps)%nat -> smooth_rhs ps F0 L -> 0 <= T -> exact_on ps F0 t0 T Y -> fresh s -> convergent s ->
  exists C h0, 0 <= C /\ 0 < h0 /\
    forall (E : Type) (ef : E -> nat -> R -> list R -> list R -> option (E * list R)) (Inv : E -> Prop) garbage F eps,
    (forall k, length (garbage k) = ps) ->
    (forall q step t y f, Inv q -> length y = ps -> length f = ps -> exists q', ef q step t y f = Some (q', F t y) /\ Inv q') ->
    0 <= eps -> (forall t y, length y = ps -> length (F t y) = ps /\ near ps (F t y) (F0 t y) eps) ->
    forall (e : @eng R E) dts h d, Inv (e_priv e) -> e_time e = t0 -> length (e_y e) = ps -> 0 <= d -> near ps (e_y e) (Y t0) d ->
      0 <= h <= h0 -> Forall (fun dt => 0 < dt <= h) dts -> total dts <= T ->
      exists r, advise_all (Rops mind) ps ef garbage dts s e = Some r /\
        near ps (e_y (snd r)) (Y (t0 + total dts)) (C * (d + h + defect s + eps)).
Proof. intros. eapply stateful_run; eauto. Qed.
Print Assumptions C85_approximate.

(** The pointer-tree engine, the tree built for every evaluation: the error is at most C (d + h + defect + 1/ratio), with one C
    for all opening ratios, all orders in which nth_element may leave the bodies, all steps, and whatever tree the engine holds. *)
Theorem C85_tree : forall mind n mass t0 T Y s,
  0 < mind -> (1 <= n)%nat -> (n <= 2 ^ 63)%nat -> length mass = n -> (forall i, (i < n)%nat -> 0 < nth i mass 0) ->
  0 <= T -> exact_on (6 * n) (newton_field mind n mass) t0 T Y -> fresh s -> convergent s ->
  exists C h0, 0 <= C /\ 0 < h0 /\ forall split ratio rate garbage,
    (forall y, permuting (split y)) -> 1 <= ratio -> (rate <= 1)%nat -> (forall k, length (garbage k) = (6 * n)%nat) ->
    forall e dts h d, e_time e = t0 -> length (e_y e) = (6 * n)%nat -> 0 <= d -> near (6 * n) (e_y e) (Y t0) d ->
      0 <= h <= h0 -> Forall (fun dt => 0 < dt <= h) dts -> total dts <= T ->
      exists r, advise_all (Rops mind) (6 * n) (bh_tree_ef (Rops mind) n mass split ratio ett_cycle rate) garbage dts s e = Some r /\
        near (6 * n) (e_y (snd r)) (Y (t0 + total dts)) (C * (d + h + defect s + / ratio)).
Proof.
  intros mind n mass t0 T Y s Hmd H1 H2 Hm Hpos HT HY Hf Hc.
  assert (Hps : (0 < 6 * n)%nat) by (clear H2; lia).
  destruct (C85_approximate mind (6 * n) (newton_field mind n mass) (newton_lip mind n mass) t0 T Y s Hps
    (newton_smooth n mass Hmd) HT HY Hf Hc) as (C & h0 & HC & Hh & H).
  set (M := 11 * (rsum n (fun j => nth j mass 0) / mind)).
  assert (PM : 0 <= M).
  { apply Rmult_le_pos; [lra|]. apply Rmult_le_pos; [|left; now apply Rinv_0_lt_compat]. apply rsum_pos. intros j Hj. left. now apply Hpos. }
  exists (C * (1 + M)), h0. split; [apply Rmult_le_pos; lra|]. split; [exact Hh|].
  intros split ratio rate garbage Hs Hr Hrate Hg e dts h d Ht Ly Hd Hn Hh0 Hds Htot.
  assert (Pr : 0 < / ratio) by (apply Rinv_0_lt_compat; lra).
  destruct (H (option tree) (bh_tree_ef (Rops mind) n mass split ratio ett_cycle rate) (fun _ => True) garbage
    (bhF mind n mass split ratio) (M * / ratio) Hg) with (e := e) (dts := dts) (h := h) (d := d) as (r & Er & Hr'); try assumption; try exact I.
  - intros q step t y f _ Vy Vf.
    destruct (tree_call mind n mass split ratio rate Hm Hs Hrate H1 H2 q step t y f Vy Vf) as (q' & E1). exists q'. split; [exact E1|exact I].
  - apply Rmult_le_pos; lra.
  - intros t y Vy. apply (tree_near mind n mass split ratio Hmd Hm Hpos Hs Hr H1 H2 t y Vy).
  - exists r. split; [exact Er|]. eapply near_mono; [exact Hr'|]. rewrite Rmult_assoc. apply Rmult_le_compat_l; [exact HC|].
    assert (Dp : 0 <= defect s) by apply defect_pos.
    assert (0 <= M * (d + h + defect s)) by (apply Rmult_le_pos; lra).
    replace ((1 + M) * (d + h + defect s + / ratio)) with (d + h + defect s + M * / ratio + M * (d + h + defect s) + / ratio) by ring. lra.
Qed.
Print Assumptions C85_tree.

(** The heap engine and the two builds of the stackless one, either shape of the loops, new when the simulation starts. *)
Theorem C85_heap : forall mind k mass t0 T Y s,
  0 < mind -> (k <= 63)%nat -> length mass = (2 ^ k)%nat -> (forall i, (i < 2 ^ k)%nat -> 0 < nth i mass 0) ->
  0 <= T -> exact_on (6 * 2 ^ k) (newton_field mind (2 ^ k) mass) t0 T Y -> fresh s -> convergent s ->
  exists C h0, 0 <= C /\ 0 < h0 /\ forall trav shape split ratio rate garbage,
    (trav = heap_traverse (Rops mind) \/ trav = stackless_traverse (Rops mind) next_down \/
     ((k <= 30)%nat /\ trav = stackless_traverse (Rops mind) next_down_gcc_nat)) ->
    (forall y, permuting (split y)) -> 1 <= ratio -> (rate <= 1)%nat -> (forall i, length (garbage i) = (6 * 2 ^ k)%nat) ->
    forall e dts h d, e_priv e = [] -> e_time e = t0 -> length (e_y e) = (6 * 2 ^ k)%nat -> 0 <= d -> near (6 * 2 ^ k) (e_y e) (Y t0) d ->
      0 <= h <= h0 -> Forall (fun dt => 0 < dt <= h) dts -> total dts <= T ->
      exists r, advise_all (Rops mind) (6 * 2 ^ k) (bh_heap_ef (Rops mind) (2 ^ k) mass trav split ratio shape rate) garbage dts s e = Some r /\
        near (6 * 2 ^ k) (e_y (snd r)) (Y (t0 + total dts)) (C * (d + h + defect s + / ratio)).
Proof.
  intros mind k mass t0 T Y s Hmd Hk Hm Hpos HT HY Hf Hc.
  assert (H1 : (1 <= 2 ^ k)%nat) by (pose proof (Nat.pow_nonzero 2 k); lia).
  assert (H2 : (2 ^ k <= 2 ^ 63)%nat) by (apply Nat.pow_le_mono_r; [lia|exact Hk]).
  assert (Hps : (0 < 6 * 2 ^ k)%nat) by (clear H2; lia).
  destruct (C85_approximate mind (6 * 2 ^ k) (newton_field mind (2 ^ k) mass) (newton_lip mind (2 ^ k) mass) t0 T Y s Hps
    (newton_smooth (2 ^ k) mass Hmd) HT HY Hf Hc) as (C & h0 & HC & Hh & H).
  set (M := 11 * (rsum (2 ^ k) (fun j => nth j mass 0) / mind)).
  assert (PM : 0 <= M).
  { apply Rmult_le_pos; [lra|]. apply Rmult_le_pos; [|left; now apply Rinv_0_lt_compat]. apply rsum_pos. intros j Hj. left. now apply Hpos. }
  exists (C * (1 + M)), h0. split; [apply Rmult_le_pos; lra|]. split; [exact Hh|].
  intros trav shape split ratio rate garbage Htr Hs Hr Hrate Hg e dts h d Hp Ht Ly Hd Hn Hh0 Hds Htot.
  assert (Pr : 0 < / ratio) by (apply Rinv_0_lt_compat; lra).
  destruct (H heap (bh_heap_ef (Rops mind) (2 ^ k) mass trav split ratio shape rate) (fun h => exists t0, same_state (Rops mind) k mass t0 h) garbage
    (bhF mind (2 ^ k) mass split ratio) (M * / ratio) Hg) with (e := e) (dts := dts) (h := h) (d := d) as (r & Er & Hr'); try assumption.
  - intros q step t y f Hq Vy Vf. apply heap_call; assumption.
  - apply Rmult_le_pos; lra.
  - intros t y Vy. apply (tree_near mind (2 ^ k) mass split ratio Hmd Hm Hpos Hs Hr H1 H2 t y Vy).
  - exists None. cbn [same_state]. exact Hp.
  - exists r. split; [exact Er|]. eapply near_mono; [exact Hr'|]. rewrite Rmult_assoc. apply Rmult_le_compat_l; [exact HC|].
    assert (Dp : 0 <= defect s) by apply defect_pos.
    assert (0 <= M * (d + h + defect s)) by (apply Rmult_le_pos; lra).
    replace ((1 + M) * (d + h + defect s + / ratio)) with (d + h + defect s + M * / ratio + M * (d + h + defect s) + / ratio) by ring. lra.
Qed.
Print Assumptions C85_heap.

(** Hence, when the weights add up to one, the error tends to zero as the steps shrink and the opening ratio grows. *)
Theorem C85_limit : forall mind n mass t0 T Y s,
  0 < mind -> (1 <= n)%nat -> (n <= 2 ^ 63)%nat -> length mass = n -> (forall i, (i < n)%nat -> 0 < nth i mass 0) ->
  0 <= T -> exact_on (6 * n) (newton_field mind n mass) t0 T Y -> fresh s -> convergent s -> defect s = 0 ->
  forall eps, 0 < eps -> exists h0 r0, 0 < h0 /\ forall split ratio rate garbage,
    (forall y, permuting (split y)) -> r0 <= ratio -> (rate <= 1)%nat -> (forall k, length (garbage k) = (6 * n)%nat) ->
    forall e dts, e_time e = t0 -> e_y e = Y t0 -> Forall (fun dt => 0 < dt <= h0) dts -> total dts <= T ->
      exists r, advise_all (Rops mind) (6 * n) (bh_tree_ef (Rops mind) n mass split ratio ett_cycle rate) garbage dts s e = Some r /\
        near (6 * n) (e_y (snd r)) (Y (t0 + total dts)) eps.
Proof.
  intros mind n mass t0 T Y s Hmd H1 H2 Hm Hpos HT HY Hf Hc Hd eps He.
  destruct (C85_tree mind n mass t0 T Y s Hmd H1 H2 Hm Hpos HT HY Hf Hc) as (C & h1 & HC & Hh1 & H). clear H1 H2.
  set (u := eps / (2 * (C + 1))).
  assert (Pu : 0 < u) by (apply Rmult_lt_0_compat; [exact He|apply Rinv_0_lt_compat; lra]).
  assert (Ph : 0 < Rmin h1 u) by (apply Rmin_glb_lt; assumption).
  exists (Rmin h1 u), (Rmax 1 (/ u)). split; [exact Ph|].
  intros split ratio rate garbage Hs Hr Hrate Hg e dts Ht Hy Hds Htot.
  assert (Hr1 : 1 <= ratio) by (eapply Rle_trans; [apply Rmax_l|exact Hr]).
  assert (Hr2 : / ratio <= u).
  { rewrite <- (Rinv_inv u). apply Rinv_le_contravar; [now apply Rinv_0_lt_compat|]. eapply Rle_trans; [apply Rmax_r|exact Hr]. }
  assert (Pr : 0 < / ratio) by (apply Rinv_0_lt_compat; lra).
  destruct (H split ratio rate garbage Hs Hr1 Hrate Hg e dts (Rmin h1 u) 0) as (r & Er & Hr'); try assumption; try lra.
  - rewrite Hy. apply (HY t0). lra.
  - rewrite Hy. apply near_refl. lra.
  - split; [lra|apply Rmin_l].
  - exists r. split; [exact Er|]. eapply near_mono; [exact Hr'|]. apply limit_bound; try assumption.
    + split; [lra|apply Rmin_r].
    + split; [lra|exact Hr2].
Qed.
Print Assumptions C85_limit.

(** The hypotheses hold for the two bodies on the circle and the Euler solver: within any tolerance with the tree engine. *)
Example C85_case : forall t0 T eps, 0 <= T -> 0 < eps -> exists h0 r0, 0 < h0 /\ forall dts,
  Forall (fun dt => 0 < dt <= h0) dts -> total dts <= T ->
  exists r, advise_all (Rops 1) 12 (bh_tree_ef (Rops 1) 2 [4; 4] (fun _ _ _ l => l) r0 ett_cycle 0) (fun _ => repeat 0 12) dts
      (SEuler None) (mkEng (circle t0) t0 0 None 0) = Some r /\
    near 12 (e_y (snd r)) (circle (t0 + total dts)) eps.
Proof.
  intros t0 T eps HT He.
  assert (H2 : (2 <= 2 ^ 63)%nat) by (apply (Nat.pow_le_mono_r 2 1 63); repeat constructor; discriminate).
  destruct (C85_limit 1 2 [4; 4] t0 T circle (SEuler None)) with (eps := eps) as (h0 & r0 & Hh & H); try assumption; try reflexivity; try exact I; try lra.
  - repeat constructor.
  - clear H2. intros [|[|i]] Hi; cbn; try lra; lia.
  - now apply C82_circle.
  - clear H2. exists h0, r0. split; [exact Hh|]. intros dts Hds Htot.
    apply (H (fun _ _ _ l => l) r0 0%nat (fun _ => repeat 0 12)); try reflexivity; try assumption; try lra; auto.
    intros y idx dim l. apply Permutation_refl.
Qed.
