(** Momentum and mass centre under every solver, for the direct-sum engines. *)
From Coq Require Import ZArith Reals List Arith Lia Lra.
From Verif Require Import Num Arr ArrLemmas SpecPhys SpecEngine RLemmas ModelVertex ModelForce
  ModelEngine ModelBlock ModelAH ModelSolverBase ModelButcher ModelExtrap ModelSolver
  LemEngine LemPhys LemBlock LemAH LemForce LemOk LemBufR SpecSolver SpecExtrap LemSolver.
Import ListNotations.
Set Implicit Arguments.
Local Open Scope R_scope.

Lemma rsum_split a : forall b f, rsum (a + b) f = rsum a f + rsum b (fun i => f (a + i)%nat).
Proof.
  induction b as [|b IH]; intros f; cbn [rsum].
  - rewrite Nat.add_0_r. lra.
  - rewrite Nat.add_succ_r. cbn [rsum]. rewrite IH. lra.
Qed.

(** the functional sum_i m_i c_i of component [c] *)
Definition comp_w (n : nat) (mass : list R) (c j : nat) : R :=
  if andb (Nat.leb (c * n) j) (Nat.ltb j (c * n + n)) then nth (j - c * n) mass 0 else 0.

Lemma lin_comp n mass c y : (c < 6)%nat ->
  lin (6 * n) (comp_w n mass c) y = rsum n (fun i => nth i mass 0 * comp y n c i).
Proof.
  intros Hc. unfold lin. replace (6 * n)%nat with (c * n + (n + (5 - c) * n))%nat by nia.
  rewrite !rsum_split.
  rewrite (rsum_zero (c * n)), (rsum_zero ((5 - c) * n)).
  - rewrite Rplus_0_l, Rplus_0_r. apply rsum_ext. intros i Hi. unfold comp_w, comp.
    replace (c * n <=? c * n + i)%nat with true by (symmetry; apply Nat.leb_le; lia).
    replace (c * n + i <? c * n + n)%nat with true by (symmetry; apply Nat.ltb_lt; lia).
    cbn [andb]. f_equal. f_equal. lia.
  - intros i Hi. unfold comp_w.
    replace (c * n + (n + i) <? c * n + n)%nat with false by (symmetry; apply Nat.ltb_ge; lia).
    rewrite Bool.andb_false_r. lra.
  - intros i Hi. unfold comp_w.
    replace (c * n <=? i)%nat with false by (symmetry; apply Nat.leb_gt; lia). cbn [andb]. lra.
Qed.

Section Phys.
  Context {E : Type} (mind : R) (n : nat) (mass : list R)
          (ef : E -> nat -> R -> list R -> list R -> option (E * list R))
          (garbage : nat -> list R) (mf : Prop) (PInv : E -> Prop).
  Hypothesis Hn : (0 < n)%nat.
  Hypothesis Hgarb : forall k, length (garbage k) = (6 * n)%nat.
  Hypothesis Hef : forall p step t y f, PInv p -> length y = (6 * n)%nat -> length f = (6 * n)%nat ->
    ok mf (ef p step t y f) (fun r => PInv (fst r) /\ length (snd r) = (6 * n)%nat /\
      (forall k, (k < 3)%nat -> rsum n (fun i => nth i mass 0 * comp (snd r) n (k + 3) i) = 0) /\
      forall i k, (i < n)%nat -> (k < 3)%nat -> comp (snd r) n k i = comp y n (k + 3) i).

  Lemma momentum_kept dts s (e : @eng R E) :
    solver_ok s -> fresh s -> PInv (e_priv e) -> length (e_y e) = (6 * n)%nat ->
    ok mf (advise_all (Rops mind) (6 * n) ef garbage dts s e) (fun r => forall k, (k < 3)%nat ->
      rsum n (fun i => nth i mass 0 * comp (e_y (snd r)) n (k + 3) i) =
      rsum n (fun i => nth i mass 0 * comp (e_y e) n (k + 3) i)).
  Proof.
    intros HS HF HP HY.
    assert (G : forall k, (k < 3)%nat ->
      ok mf (advise_all (Rops mind) (6 * n) ef garbage dts s e) (fun r =>
      rsum n (fun i => nth i mass 0 * comp (e_y (snd r)) n (k + 3) i) =
      rsum n (fun i => nth i mass 0 * comp (e_y e) n (k + 3) i))).
    { intros k Hk. rewrite <- (@lin_comp n mass (k + 3) (e_y e)) by lia.
      eapply ok_mono.
      - eapply (@advise_all_Y E mind (6 * n) ef garbage mf PInv (comp_w n mass (k + 3)) (fun _ => 0) 0 0);
          try lia; auto.
        + intros p st t y f H1 H2 H3. eapply ok_mono; [apply Hef; eauto|].
          intros r (A & B & C & D). split; auto. split; auto. rewrite lin_zero. split; auto.
          intros _. rewrite lin_comp by lia. auto.
        + clear HF. induction s; cbn [good solver_ok] in *; auto.
          * split; auto. split; [lra|]. split; auto. left. intros. apply lin_zero.
          * destruct HS. auto.
        + apply fresh_inv. exact HF.
        + split; auto. split; auto. split; [apply lin_zero|reflexivity].
      - cbn beta. intros r (_ & _ & _ & X). rewrite lin_comp in X by lia. rewrite X. lra. }
    destruct (advise_all (Rops mind) (6 * n) ef garbage dts s e) as [r|] eqn:X.
    - cbn. intros k Hk. exact (G k Hk).
    - exact (G O ltac:(lia)).
  Qed.

  Lemma centre_uniform dts s (e : @eng R E) :
    solver_ok s -> consistent s -> fresh s -> PInv (e_priv e) -> length (e_y e) = (6 * n)%nat ->
    ok mf (advise_all (Rops mind) (6 * n) ef garbage dts s e) (fun r => forall k, (k < 3)%nat ->
      rsum n (fun i => nth i mass 0 * comp (e_y (snd r)) n k i) =
      rsum n (fun i => nth i mass 0 * comp (e_y e) n k i) +
      fold_right Rplus 0 dts * rsum n (fun i => nth i mass 0 * comp (e_y e) n (k + 3) i)).
  Proof.
    intros HS HC HF HP HY.
    assert (G : forall k, (k < 3)%nat ->
      ok mf (advise_all (Rops mind) (6 * n) ef garbage dts s e) (fun r =>
      rsum n (fun i => nth i mass 0 * comp (e_y (snd r)) n k i) =
      rsum n (fun i => nth i mass 0 * comp (e_y e) n k i) +
      fold_right Rplus 0 dts * rsum n (fun i => nth i mass 0 * comp (e_y e) n (k + 3) i))).
    { intros k Hk. set (p := rsum n (fun i => nth i mass 0 * comp (e_y e) n (k + 3) i)).
      rewrite <- (@lin_comp n mass k (e_y e)) by lia.
      eapply ok_mono.
      - eapply (@advise_all_Y E mind (6 * n) ef garbage mf PInv (comp_w n mass k) (comp_w n mass (k + 3)) p p);
          try lia; auto.
        + intros q st t y f H1 H2 H3. eapply ok_mono; [apply Hef; eauto|].
          intros r (A & B & C & D). split; auto. split; auto. rewrite !lin_comp by lia. split; auto.
          intros <-. apply rsum_ext. intros i Hi. now rewrite D.
        + clear HF. induction s; cbn [good solver_ok consistent] in *; auto.
          * destruct HC as (C1 & C2 & C3). split; auto. rewrite C1. split; [lra|]. auto.
          * destruct HS. auto.
        + apply fresh_inv. exact HF.
        + split; auto. split; auto. split; [apply lin_comp; lia|reflexivity].
      - cbn beta. intros r (_ & _ & _ & X). rewrite lin_comp in X by lia. rewrite X. unfold dsum. lra. }
    destruct (advise_all (Rops mind) (6 * n) ef garbage dts s e) as [r|] eqn:X.
    - cbn. intros k Hk. exact (G k Hk).
    - exact (G O ltac:(lia)).
  Qed.
End Phys.

(** ** The engines *)
Lemma rhs_ef mind n mass y f : newton_rhs mind n mass y f ->
  length f = (6 * n)%nat /\
  (forall k, (k < 3)%nat -> rsum n (fun i => nth i mass 0 * comp f n (k + 3) i) = 0) /\
  forall i k, (i < n)%nat -> (k < 3)%nat -> comp f n k i = comp y n (k + 3) i.
Proof.
  intros H. split; [apply H|]. split.
  - intros k Hk. eapply rhs_net_force; eauto.
  - intros i k Hi Hk. eapply rhs_vel; eauto.
Qed.

Lemma simple_ef_ok mind n mass : 0 < mind -> length mass = n -> (forall i, (i < n)%nat -> nth i mass 0 <> 0) ->
  forall p step t y f, True -> length y = (6 * n)%nat -> length f = (6 * n)%nat ->
    ok False (simple_ef (Rops mind) n mass p step t y f) (fun r => True /\ length (snd r) = (6 * n)%nat /\
      (forall k, (k < 3)%nat -> rsum n (fun i => nth i mass 0 * comp (snd r) n (k + 3) i) = 0) /\
      forall i k, (i < n)%nat -> (k < 3)%nat -> comp (snd r) n k i = comp y n (k + 3) i).
Proof.
  intros H1 H2 H3 p step t y f _ Hy Hf. unfold simple_ef.
  destruct (simple_rhs mind n mass y f) as (f' & -> & G); auto.
  cbn. split; auto. apply (rhs_ef G).
Qed.

Lemma block_ef_ok mind q mass : length mass = (q * 64)%nat ->
  forall p step t y f, True -> length y = (6 * (q * 64))%nat -> length f = (6 * (q * 64))%nat ->
    ok False (block_ef (Rops mind) (q * 64) mass p step t y f)
     (fun r => True /\ length (snd r) = (6 * (q * 64))%nat /\
      (forall k, (k < 3)%nat -> rsum (q * 64) (fun i => nth i mass 0 * comp (snd r) (q * 64) (k + 3) i) = 0) /\
      forall i k, (i < q * 64)%nat -> (k < 3)%nat -> comp (snd r) (q * 64) k i = comp y (q * 64) (k + 3) i).
Proof.
  intros H2 p step t y f _ Hy Hf. unfold block_ef.
  destruct (block_rhs mind q mass y f) as (f' & -> & G); auto.
  cbn. split; auto. apply (rhs_ef G).
Qed.

(** *** Ahmad-Cohen: the neighbour lists are symmetric, so stale lists keep the third law *)
Definition vc (c : nat) (v : vec3 R) : R := match c with O => vx v | S O => vy v | _ => vz v end.

Lemma vc_filter_sum mind c (g : nat -> vec3 R) (b : nat -> bool) k : forall a,
  vc c (fold_left (fun t j => vadd (Rops mind) t (g j)) (filter b (seq 0 k)) a) =
  vc c a + rsum k (fun j => if b j then vc c (g j) else 0).
Proof.
  induction k as [|k IH]; intros a; cbn [rsum].
  - cbn. lra.
  - rewrite seq_S, filter_app, fold_left_app, Nat.add_0_l. cbn [filter].
    destruct (b k); cbn [fold_left].
    + transitivity (vc c (fold_left (fun t j => vadd (Rops mind) t (g j)) (filter b (seq 0 k)) a) + vc c (g k)).
      * destruct c as [|[|c]]; reflexivity.
      * rewrite IH. lra.
    + rewrite IH. lra.
Qed.

Lemma pf_anti mind n y mass i j c :
  vc c (pf (Rops mind) n y mass i j) = - vc c (pf (Rops mind) n y mass j i).
Proof.
  unfold pf. rewrite !force_R. cbv zeta. rewrite (vd2_sym (cv _ y n 0 i)), (Rmult_comm (nth i mass _)).
  destruct c as [|[|c]]; cbn [vc vx vy vz]; ring.
Qed.

Lemma adjb_sym mind D F n y mass i j :
  adjb (Rops mind) D F n y mass i j = adjb (Rops mind) D F n y mass j i.
Proof.
  unfold adjb, is_adjacent, vnorm.
  pose proof (pf_anti mind n y mass i j 0) as A0. pose proof (pf_anti mind n y mass i j 1) as A1.
  pose proof (pf_anti mind n y mass i j 2) as A2. cbn [vc] in A0, A1, A2.
  set (p := pf (Rops mind) n y mass i j) in *. set (q := pf (Rops mind) n y mass j i) in *.
  cbn [vsub vx vy vz nmul nadd nsub Rops]. rewrite A0, A1, A2.
  f_equal; f_equal; ring.
Qed.

Lemma ah_filled_net mind D F n y0 y mass s k : ah_filled (Rops mind) D F n y0 mass s ->
  rsum n (fun i => vc k (sparse_force (Rops mind) n y mass s i)) = 0.
Proof.
  intros (_ & _ & H).
  transitivity (rsum n (fun i => rsum n (fun j =>
    if negb (Nat.eqb i j) then
      if adjb (Rops mind) D F n y0 mass i j then vc k (pf (Rops mind) n y mass i j)
      else vc k (pf (Rops mind) n y0 mass i j)
    else 0))).
  - apply rsum_ext. intros i Hi. destruct (H i Hi) as [E1 E2]. unfold sparse_force.
    apply nth_error_nth with (d := vzero (Rops mind)) in E1.
    apply nth_error_nth with (d := []) in E2. rewrite E1, E2. unfold univ_of, adj_of.
    rewrite !vc_filter_sum. replace (vc k (vzero (Rops mind))) with 0 by (destruct k as [|[|k]]; reflexivity).
    rewrite Rplus_0_l, <- rsum_plus. apply rsum_ext. intros j Hj.
    destruct (negb (Nat.eqb i j)); cbn [andb]; [|lra].
    destruct (adjb (Rops mind) D F n y0 mass i j); cbn [negb]; lra.
  - apply rsum_antisym. intros i j Hi Hj. rewrite (Nat.eqb_sym j i), (adjb_sym mind D F n y0 mass j i).
    destruct (negb (Nat.eqb i j)); [|lra].
    destruct (adjb (Rops mind) D F n y0 mass i j); apply pf_anti.
Qed.

Definition ah_reached mind D F n mass (s : ah_state R) : Prop :=
  s = ah_init \/ exists y0, ah_filled (Rops mind) D F n y0 mass s.

Lemma ah_step_ok mind D F rate n mass s step y f : 0 < mind -> (0 < n)%nat -> length mass = n ->
  (forall i, (i < n)%nat -> nth i mass 0 <> 0) -> ah_reached mind D F n mass s ->
  length y = (6 * n)%nat -> length f = (6 * n)%nat ->
  ok True (ah_fcompute (Rops mind) D F rate step n mass y f s) (fun r =>
      ah_reached mind D F n mass (snd r) /\ length (fst r) = (6 * n)%nat /\
      (forall k, (k < 3)%nat -> rsum n (fun i => nth i mass 0 * comp (fst r) n (k + 3) i) = 0) /\
      forall i k, (i < n)%nat -> (k < 3)%nat -> comp (fst r) n k i = comp y n (k + 3) i).
Proof.
  intros H0 Hn H1 H2 HS Hy Hf. unfold ah_fcompute.
  destruct (rate =? 0)%nat; [apply ok_none|]. destruct (step mod rate =? 0)%nat.
  - destruct (@ah_full_ok R (Rops mind) D F n y mass f s) as (f' & s' & E & C & HF); try lia.
    rewrite E. apply ok_some. cbn [fst snd]. split; [right; eauto|].
    apply (@rhs_ef mind n mass y f').
    eapply deriv_cells_rhs with (A := nacc_vec mind n mass y); eauto.
    eapply deriv_cells_ext; [| |exact C]; auto.
    intros i Hi. simpl. apply acc_fold_div_R. auto.
  - destruct HS as [->|(y0 & HF)].
    + rewrite ah_sparse_fresh by auto. apply ok_none.
    + destruct (@ah_sparse_ok R (Rops mind) n y mass f s) as (f' & E & C); try lia.
      { eapply ah_filled_ok; eauto. }
      rewrite E. apply ok_some. cbn [fst snd]. split; [right; eauto|].
      destruct C as (L & C & _). split; [congruence|].
      assert (X : forall i k, (i < n)%nat -> (k < 3)%nat -> comp f' n k i = comp y n (k + 3) i /\
          comp f' n (k + 3) i = vc k (sparse_force (Rops mind) n y mass s i) / nth i mass 0).
      { intros i k Hi Hk. destruct (C i Hi) as [(C1 & C2 & C3) (C4 & C5 & C6)]. unfold comp.
        do 3 (destruct k as [|k]; [split; erewrite nth_error_nth by eassumption; reflexivity|]). lia. }
      split; [|intros i k Hi Hk; now apply X].
      intros k Hk. eapply eq_trans; [|exact (@ah_filled_net mind D F n y0 y mass s k HF)]. apply rsum_ext. intros i Hi.
      destruct (X i k Hi Hk) as [_ ->]. field. auto.
Qed.

Lemma ah_ef_ok mind D F rate n mass : 0 < mind -> (0 < n)%nat -> length mass = n ->
  (forall i, (i < n)%nat -> nth i mass 0 <> 0) ->
  forall p step t y f, ah_reached mind D F n mass p -> length y = (6 * n)%nat -> length f = (6 * n)%nat ->
    ok True (ah_ef (Rops mind) n mass D F rate p step t y f) (fun r =>
      ah_reached mind D F n mass (fst r) /\ length (snd r) = (6 * n)%nat /\
      (forall k, (k < 3)%nat -> rsum n (fun i => nth i mass 0 * comp (snd r) n (k + 3) i) = 0) /\
      forall i k, (i < n)%nat -> (k < 3)%nat -> comp (snd r) n k i = comp y n (k + 3) i).
Proof.
  intros. unfold ah_ef. eapply ok_bind; [apply ah_step_ok; eauto|].
  intros [f' s'] H6. apply ok_some. exact H6.
Qed.

(** every result of a run of the engine *)
Lemma ah_run_net mind D F rate n mass calls : 0 < mind -> (0 < n)%nat -> length mass = n ->
  (forall i, (i < n)%nat -> nth i mass 0 <> 0) ->
  Forall (fun c => length (c_y c) = 6 * n /\ length (c_f c) = 6 * n)%nat calls ->
  forall s r, ah_reached mind D F n mass s ->
  ah_run (Rops mind) D F rate n mass calls s = Some r ->
  Forall (fun f => forall k, (k < 3)%nat -> rsum n (fun i => nth i mass 0 * comp f n (k + 3) i) = 0) (fst r).
Proof.
  intros H0 Hn H1 H2 HC. induction HC as [|c calls [C1 C2] HC IH]; intros s r HS E; cbn [ah_run] in E.
  - injection E as <-. constructor.
  - pose proof (@ah_step_ok mind D F rate n mass s (c_step c) (c_y c) (c_f c) H0 Hn H1 H2 HS C1 C2) as X.
    destruct (ah_fcompute _ _ _ _ _ _ _ _ _ _) as [[f s']|]; cbn [obind] in E; [|discriminate].
    cbn in X. destruct X as (X1 & X2 & X3 & X4). cbn [snd fst] in E.
    destruct (ah_run _ _ _ _ _ _ _ _) as [r'|] eqn:E'; cbn [obind] in E; [|discriminate].
    injection E as <-. cbn [fst]. constructor; eauto.
Qed.
