(** Tree and heap properties in the form stated in PropTree.v. *)
From Coq Require Import ZArith NArith Reals List Arith Lia Lra Psatz Permutation.
From Verif Require Import Num Arr ArrLemmas SpecPhys RLemmas ModelVertex ModelForce ModelEngine
  ModelTree ModelHeap ModelBH SpecTree SpecHeap LemEngine LemPhys LemTree LemHeap LemHeap2 LemNext LemBH
  LemTreeR.
Import ListNotations.

Lemma log2_up_63 n k : n <= 2 ^ k -> Nat.log2_up n <= k.
Proof. intros H. rewrite <- (Nat.log2_up_pow2 k) by lia. now apply Nat.log2_up_le_mono. Qed.

Lemma perm_lt n l b : Permutation l (seq 0 n) -> In b l -> b < n.
Proof. intros P H. eapply Permutation_in in H; [|exact P]. apply in_seq in H. lia. Qed.

Lemma nth_skipn {A} (l : list A) a i : nth_error (skipn a l) i = nth_error l (a + i).
Proof. revert l. induction a as [|a IH]; intros [|x l]; cbn; auto. now destruct i. Qed.

(** ** Any arithmetic *)

Section Gen.
  Context {T : Type} (N : NumOps T).
  Notation tree := (tree (T := T)).
  Notation heap := (heap (T := T)).
  Implicit Types (t s : tree) (h : heap).

  (** *** C20 *)

  Lemma repr_bodies h t k : length h = 2 * 2 ^ k -> perfect k t -> repr h 1 t ->
    map c_body (skipn (2 ^ k) h) = map Some (bodies t).
  Proof.
    intros Hl Hp Hr. rewrite <- leaves_bodies, map_map.
    assert (Hll : length (leaves t) = 2 ^ k) by now apply leaves_length.
    assert (G : forall (l : list (payload (T := T) * nat)) (g : heap), length g = length l ->
      (forall i p b, nth_error l i = Some (p, b) -> nth_error g i = Some (Cell p (Some b))) ->
      map c_body g = map (fun x => Some (snd x)) l).
    { induction l as [|[p b] l IH]; intros [|c g] HL HE; cbn in HL; try lia; auto.
      cbn [map snd]. specialize (HE 0 p b eq_refl) as E0. cbn in E0. injection E0 as ->. cbn [c_body]. f_equal.
      apply IH; [lia|]. intros i p' b' H. apply (HE (S i) p' b' H). }
    apply G.
    - rewrite skipn_length. lia.
    - intros i p b E. pose proof (@repr_leaves T h t k 1 i p b Hp Hr E) as H.
      rewrite Nat.mul_1_l in H. unfold rd in H. rewrite nth_skipn. exact H.
  Qed.

  Lemma heap_build_iff split n y mass ratio :
    permuting split -> 6 * n <= length y -> n <= length mass ->
    (exists h, heap_build N split n y mass ratio [] = Some h) <-> exists k, n = 2 ^ k.
  Proof.
    intros Hs Hy Hm. split.
    - intros [h E]. eapply heap_build_bound; [exact Hs| |exact E]. cbn. lia.
    - intros [k ->]. pose proof (pow2_ge1 k).
      destruct (@tree_build_ok T N split (2 ^ k) y mass ratio Hs) as (t & E & _); auto.
      destruct (@heap_build_ok T N split k y mass ratio [] t Hs) as (h & Eh & _); auto; [now left|].
      eauto.
  Qed.

  Lemma heap_build_cells split n y mass ratio h :
    permuting split -> 6 * n <= length y -> n <= length mass ->
    heap_build N split n y mass ratio [] = Some h ->
    length h = 2 * n /\
    Permutation (map c_body (skipn n h)) (map Some (seq 0 n)) /\
    (forall j c, j < n -> nth_error h j = Some c -> c_body c = None).
  Proof.
    intros Hs Hy Hm E.
    destruct (proj1 (@heap_build_iff split n y mass ratio Hs Hy Hm) (ex_intro _ h E)) as [k ->].
    pose proof (pow2_ge1 k).
    destruct (@tree_build_ok T N split (2 ^ k) y mass ratio Hs) as (t & Et & P & _ & _ & F); auto.
    destruct (@heap_build_ok T N split k y mass ratio [] t Hs) as (h' & Eh & I & R); auto; [now left|].
    rewrite E in Eh. injection Eh as <-.
    assert (Hl : length h = 2 * 2 ^ k) by apply I.
    split; auto. split.
    - rewrite (repr_bodies h t k) by auto. now apply Permutation_map.
    - intros j c Hj Hc. destruct I as (_ & _ & I3). apply (I3 j c); [lia|exact Hc].
  Qed.

  (** *** C25 *)

  Lemma repr_det h h' t : forall d idx, perfect d t -> repr h idx t -> repr h' idx t ->
    forall e j, e <= d -> j / 2 ^ e = idx -> rd h j = rd h' j.
  Proof.
    induction t as [p b|p l IHl r IHr]; intros [|d] idx Hp R R' e j He Hj; cbn [perfect] in Hp; try contradiction.
    - assert (e = 0) by lia. subst e. rewrite Nat.pow_0_r, Nat.div_1_r in Hj. subst j.
      cbn [repr] in *. congruence.
    - cbn [repr] in R, R'. destruct R as (R0 & R1 & R2). destruct R' as (R0' & R1' & R2').
      destruct e as [|e].
      + rewrite Nat.pow_0_r, Nat.div_1_r in Hj. subst j. congruence.
      + assert (Hd : (j / 2 ^ e) / 2 = idx).
        { rewrite <- Hj. rewrite Nat.pow_succ_r', (Nat.mul_comm 2), Nat.div_div; auto.
          apply Nat.pow_nonzero; lia. }
        pose proof (Nat.div_mod (j / 2 ^ e) 2 ltac:(lia)) as DM.
        pose proof (Nat.mod_upper_bound (j / 2 ^ e) 2 ltac:(lia)).
        assert (j / 2 ^ e = 2 * idx \/ j / 2 ^ e = 2 * idx + 1) as [E|E] by lia.
        * apply (IHl d (2 * idx)) with (e := e); auto; try tauto; lia.
        * apply (IHr d (2 * idx + 1)) with (e := e); auto; try tauto; lia.
  Qed.

  Lemma repr_all h h' t k : perfect k t -> repr h 1 t -> repr h' 1 t ->
    forall j, 1 <= j < 2 * 2 ^ k -> nth_error h j = nth_error h' j.
  Proof.
    intros Hp R R' j Hj. apply (@repr_det h h' t k 1 Hp R R' (Nat.log2 j) j).
    - assert (Nat.log2 j < S k); [|lia]. apply Nat.log2_lt_pow2; [lia|]. rewrite Nat.pow_succ_r'. lia.
    - pose proof (Nat.log2_spec j ltac:(lia)) as [H1 H2]. rewrite Nat.pow_succ_r' in H2.
      symmetry. apply Nat.div_unique with (j - 2 ^ Nat.log2 j); lia.
  Qed.

  Lemma tree_rebuild_build split n y0 y mass ratio t :
    permuting split -> 6 * n <= length y0 -> 6 * n <= length y -> n <= length mass ->
    tree_build N split n y0 mass ratio = Some t ->
    tree_rebuild N n y ratio t = tree_build N split n y mass ratio /\
    exists t', tree_rebuild N n y ratio t = Some t'.
  Proof.
    intros Hs Hy0 Hy Hm E.
    destruct (Nat.eq_dec n 0) as [->|Hn].
    { rewrite tree_build_0 in E by auto. discriminate. }
    destruct (@tree_build_ok T N split n y0 mass ratio Hs ltac:(lia) Hy0 Hm) as (t2 & E2 & P & _).
    rewrite E in E2. injection E2 as <-.
    destruct (@trebuild_tbuild T N n y0 y mass (nmul N ratio ratio) split Hy (S n) 0 1 (seq 0 n) t E) as (A & t' & B & _).
    - intros b. now apply perm_lt.
    - split; eauto.
  Qed.

  Lemma heap_rebuild_build split n y0 y mass ratio h :
    permuting split -> 6 * n <= length y0 -> 6 * n <= length y -> n <= length mass ->
    heap_build N split n y0 mass ratio [] = Some h ->
    exists h1 h2, heap_rebuild N n y ratio h = Some h1 /\
      heap_build N split n y mass ratio [] = Some h2 /\
      length h1 = 2 * n /\ length h2 = 2 * n /\
      forall j, 1 <= j < 2 * n -> nth_error h1 j = nth_error h2 j.
  Proof.
    intros Hs Hy0 Hy Hm E.
    destruct (proj1 (@heap_build_iff split n y0 mass ratio Hs Hy0 Hm) (ex_intro _ h E)) as [k ->].
    pose proof (pow2_ge1 k).
    destruct (@tree_build_ok T N split (2 ^ k) y0 mass ratio Hs) as (t & Et & P & _ & _ & F); auto.
    destruct (@heap_build_ok T N split k y0 mass ratio [] t Hs) as (h' & Eh & I & R); auto; [now left|].
    rewrite E in Eh. injection Eh as <-.
    destruct (@heap_rebuild_ok T N k y ratio h t I (F k eq_refl) R Hy) as (h1 & t1 & E1 & Et1 & I1 & P1 & R1).
    { intros b. now apply perm_lt. }
    destruct (@tree_rebuild_build split (2 ^ k) y0 y mass ratio t Hs Hy0 Hy Hm Et) as (EB & _).
    rewrite Et1 in EB. symmetry in EB.
    destruct (@heap_build_ok T N split k y mass ratio [] t1 Hs) as (h2 & Eh2 & I2 & R2); auto; [now left|].
    exists h1, h2. split; auto. split; auto. split; [apply I1|]. split; [apply I2|].
    now apply repr_all with t1.
  Qed.

  (** *** C21 *)

  Lemma hwalk_preorder acc d : forall idx st,
    hwalk (fun i st => Some (st ++ [i], acc i)) d idx st = Some (st ++ preorder acc d idx).
  Proof.
    induction d as [|d IH]; intros idx st; cbn [hwalk preorder obind].
    - destruct (acc idx); reflexivity.
    - destruct (acc idx); [reflexivity|]. rewrite IH. cbn [obind]. rewrite IH.
      now rewrite <- !app_assoc.
  Qed.

  (** *** C23 *)

  Lemma stack_never_overflows {A} (visit : payload (T := T) -> A -> A * bool) split n y mass ratio st :
    permuting split -> 1 <= n -> n <= 2 ^ 63 -> 6 * n <= length y -> n <= length mass ->
    exists t st', tree_build N split n y mass ratio = Some t /\
      stack_loop visit (tree_nodes t) [t] st = Some st'.
  Proof.
    intros Hs H1 H2 Hy Hm.
    destruct (@tree_build_ok T N split n y mass ratio Hs H1 Hy Hm) as (t & E & _ & _ & D & _).
    exists t, (walk visit t st). split; auto. apply stack_loop_top. rewrite D. now apply log2_up_63.
  Qed.

  Lemma stack_overflow {A} (visit : payload (T := T) -> A -> A * bool) :
    (forall p st, snd (visit p st) = false) ->
    forall t d fuel stack st, perfect d t -> 1 <= d -> 64 <= length stack + d ->
    stack_loop visit fuel (t :: stack) st = None.
  Proof.
    intros Hv. induction t as [p b|p l IHl r IHr]; intros [|d] fuel stack st Hp Hd Hl; cbn [perfect] in Hp;
      try contradiction; try lia.
    destruct fuel as [|fuel]; auto. cbn [stack_loop pay].
    specialize (Hv p st). destruct (visit p st) as [st' a]. cbn in Hv. subst a.
    unfold push at 1. destruct (Nat.ltb (length stack) MAX_STACK_SIZE) eqn:E1; auto. cbn [obind].
    unfold push. destruct (Nat.ltb (length (r :: stack)) MAX_STACK_SIZE) eqn:E2; auto. cbn [obind].
    apply Nat.ltb_lt in E2. unfold MAX_STACK_SIZE in E2. cbn [length] in E2.
    destruct d as [|d]; [lia|].
    apply IHl with (S d); [tauto|lia|]. cbn [length]. lia.
  Qed.

  Lemma stack_limit {A} (visit : payload (T := T) -> A -> A * bool) split y mass ratio st :
    permuting split -> 6 * 2 ^ 64 <= length y -> 2 ^ 64 <= length mass ->
    (forall p st, snd (visit p st) = false) ->
    exists t, tree_build N split (2 ^ 64) y mass ratio = Some t /\
      stack_loop visit (tree_nodes t) [t] st = None.
  Proof.
    intros Hs Hy Hm Hv.
    destruct (@tree_build_ok T N split (2 ^ 64) y mass ratio Hs (pow2_ge1 64) Hy Hm) as (t & E & _ & _ & _ & F).
    exists t. split; auto. apply (@stack_overflow A visit Hv t 64).
    - now apply F.
    - apply le_n_S, Nat.le_0_l.
    - apply Nat.le_refl.
  Qed.

  (** *** Evaluations with a pointer tree, any body count *)

  Definition tree_state (n : nat) (mass : list T) (tree0 : option tree) : Prop :=
    match tree0 with
    | None => True
    | Some t => Permutation (bodies t) (seq 0 n) /\ masses_ok N n mass t /\ depth t <= 63
    end.

  Lemma get_tree_ok split ratio rate step n mass y tree0 :
    permuting split -> 1 <= n -> n <= 2 ^ 63 -> 6 * n <= length y -> n <= length mass ->
    tree_state n mass tree0 ->
    exists t, get_tree N split ratio rate step n mass y tree0 = Some t /\
      tree_state n mass (Some t) /\ tree_wf N n y mass (nmul N ratio ratio) t.
  Proof.
    intros Hs H1 H2 Hy Hm HS.
    assert (HB : exists t, tree_build N split n y mass ratio = Some t /\
      tree_state n mass (Some t) /\ tree_wf N n y mass (nmul N ratio ratio) t).
    { destruct (@tree_build_ok T N split n y mass ratio Hs H1 Hy Hm) as (t & E & P & W & D & _).
      exists t. split; auto. split; auto. cbn [tree_state]. split; auto. split.
      - eapply wf_masses; eauto. intros b. now apply perm_lt.
      - rewrite D. now apply log2_up_63. }
    destruct tree0 as [t0|]; cbn [get_tree]; auto.
    destruct (build_now rate step false); auto.
    destruct HS as (P & M & D).
    destruct (@trebuild_wf T N n y mass (nmul N ratio ratio) t0 Hy M) as (t & E & W & M').
    destruct (trebuild_shape _ _ _ _ _ E) as (B & D' & _).
    exists t. split; auto. split; auto. cbn [tree_state]. rewrite B, D'. auto.
  Qed.

  Lemma tree_traverse_bh t v m : depth t <= 63 -> tree_traverse N t v m = Some (bh_force N t v m).
  Proof.
    intros Hd. unfold tree_traverse, bh_force, push. cbn [length].
    change (0 <? MAX_STACK_SIZE) with true. cbn [obind]. now apply stack_loop_top.
  Qed.

  (** both traversal types from the tree [t] of this evaluation *)
  Lemma tree_fcompute_any split ratio rate step n mass y f tree0 :
    permuting split -> 1 <= n -> n <= 2 ^ 63 -> 6 * n <= length y -> n <= length mass ->
    6 * n <= length f -> tree_state n mass tree0 ->
    exists t f', get_tree N split ratio rate step n mass y tree0 = Some t /\
      tree_state n mass (Some t) /\ tree_wf N n y mass (nmul N ratio ratio) t /\
      deriv_cells n (cv N y n 3)
        (fun i => vdivs N (bh_force N t (cv N y n 0 i) (nth i mass (nlit N 0))) (nth i mass (nlit N 0))) f f' /\
      bh_tree_fcompute N split ratio ett_cycle rate step n mass y f tree0 = Some (f', Some t) /\
      ((forall s, subtree s t -> inner s -> nltb N (nlit N 0) (p_rad (pay s)) = true) ->
       nltb N (nlit N 0) (nlit N 0) = false ->
       bh_tree_fcompute N split ratio ett_nested_tree rate step n mass y f tree0 = Some (f', Some t)) /\
      ((exists s, subtree s t /\ inner s /\ nltb N (nlit N 0) (p_rad (pay s)) = false) ->
       bh_tree_fcompute N split ratio ett_nested_tree rate step n mass y f tree0 = None).
  Proof.
    intros Hs H1 H2 Hy Hm Hf HS.
    destruct (@get_tree_ok split ratio rate step n mass y tree0 Hs H1 H2 Hy Hm HS) as (t & Et & St & W).
    pose proof St as (P & M & D).
    assert (HT : forall v m, tree_traverse N t v m = Some (bh_force N t v m))
      by (intros; now apply tree_traverse_bh).
    destruct (@cycle_result T N t n mass y f (tree_traverse N t) Hy Hm Hf HT) as (f' & Ef & C).
    exists t, f'. split; auto. split; auto. split; auto. split; auto.
    unfold bh_tree_fcompute. unfold get_tree in Et. rewrite Et. cbn [obind].
    rewrite Ef. cbn [obind]. split; auto.
    assert (Hpush : push t [] = Some [t]) by reflexivity. rewrite Hpush. cbn [obind].
    rewrite (@tree_visit_top T N (list T) (node_visitor N (tree_traverse N t) n mass y) t f D).
    split.
    - intros Hr H0.
      rewrite (@tvisit_leaves T N (list T) (node_visitor N (tree_traverse N t) n mass y) t f Hr).
      + destruct (@vfold_deriv T N (tree_traverse N t)
          (fun i => bh_force N t (cv N y n 0 i) (nth i mass (nlit N 0))) n mass y f (rev (leaves t)) Hy Hm Hf)
          as (f2 & Ef2 & C2).
        * intros i _. apply HT.
        * rewrite map_rev, leaves_bodies. rewrite <- P. symmetry. apply Permutation_rev.
        * intros p b Hin. apply in_rev in Hin. pose proof (wf_leaves _ _ _ _ _ _ W _ _ Hin) as E.
          apply wf_leaf_inv in E; auto; [subst p; auto|]. apply M in Hin. apply Hin.
        * rewrite Ef2. cbn [obind]. repeat f_equal. eapply deriv_cells_unique; eauto.
      + intros p b Hin. destruct (M p b Hin) as (_ & _ & ->). auto.
    - intros (s & S1 & S2 & S3).
      rewrite (@tvisit_fails T N (list T) (node_visitor N (tree_traverse N t) n mass y) t f s); auto.
      intros p st. unfold node_visitor. rewrite HT. reflexivity.
  Qed.
End Gen.

Lemma leftover_same_count : forall T (N : NumOps T) k trav split split0 ratio ratio0 tt step mass mass0 y y0 f h0,
  (forall h t v1 m1, length h = (2 * 2 ^ k)%nat -> perfect k t -> repr h 1 t ->
     trav h v1 m1 = Some (bh_force N t v1 m1)) ->
  permuting split -> permuting split0 -> (6 * 2 ^ k <= length y)%nat -> (2 ^ k <= length mass)%nat ->
  (6 * 2 ^ k <= length f)%nat -> (6 * 2 ^ k <= length y0)%nat -> (2 ^ k <= length mass0)%nat ->
  heap_build N split0 (2 ^ k) y0 mass0 ratio0 [] = Some h0 ->
  exists f' h1 h2,
    bh_heap_fcompute N trav split ratio tt 0 step (2 ^ k) mass y f h0 = Some (f', h1) /\
    bh_heap_fcompute N trav split ratio tt 0 step (2 ^ k) mass y f [] = Some (f', h2).
Proof.
  intros T N k trav split split0 ratio ratio0 tt step mass mass0 y y0 f h0 HT Hs Hs0 Hy Hm Hf Hy0 Hm0 E0.
  pose proof (pow2_ge1 k) as H1.
  destruct (@tree_build_ok T N split0 (2 ^ k) y0 mass0 ratio0 Hs0 H1 Hy0 Hm0) as (t0 & Et0 & P0 & W0 & _ & F0).
  destruct (@heap_build_ok T N split0 k y0 mass0 ratio0 [] t0 Hs0 (or_introl eq_refl) Et0) as (h0' & Eh0 & I0 & R0).
  rewrite E0 in Eh0. injection Eh0 as <-.
  destruct (@heap_step T N k trav split ratio tt 0 step mass y f None [] HT Hs Hy Hm Hf eq_refl)
    as (t & h2 & f' & Et & E2 & S2 & C2).
  exists f'.
  (* a rebuild from the left-over heap *)
  destruct (@tree_build_ok T N split (2 ^ k) y mass ratio Hs H1 Hy Hm) as (t' & Et' & P' & W' & _ & F').
  cbn [get_tree] in Et. rewrite Et in Et'. injection Et' as <-.
  destruct (@heap_build_ok T N split k y mass ratio h0 t Hs (or_intror I0) Et) as (h1 & Eh1 & I1 & R1).
  exists h1, h2. split; [|exact E2].
  assert (HT' : forall v m, trav h1 v m = Some (bh_force N t v m)) by (intros; apply HT; auto; apply I1).
  unfold bh_heap_fcompute, build_now. cbn [Nat.eqb orb]. rewrite Eh1. cbn [obind].
  destruct tt.
  - destruct (@cycle_result T N t (2 ^ k) mass y f (trav h1) Hy Hm Hf HT') as (f1 & Ef & C).
    rewrite Ef. cbn [obind]. repeat f_equal. eapply deriv_cells_unique; eauto.
  - rewrite (@heap_visit_leaves _ _ _ h1 t k f); auto; [|apply I1].
    destruct (@vfold_deriv T N (trav h1) (fun i => bh_force N t (cv N y (2 ^ k) 0 i) (nth i mass (nlit N 0)))
      (2 ^ k) mass y f (leaves t) Hy Hm Hf) as (f1 & Ef & C).
    + auto.
    + now rewrite leaves_bodies.
    + intros p b Hin. pose proof (wf_leaves _ _ _ _ _ _ W' _ _ Hin) as E.
      apply wf_leaf_inv in E; auto; [subst p; auto|].
      apply (perm_lt _ _ b P'). rewrite <- leaves_bodies. change b with (snd (p, b)). now apply in_map.
    + rewrite Ef. cbn [obind]. repeat f_equal. eapply deriv_cells_unique; eauto.
Qed.

(** ** Closed form of the next node (C22) *)

Lemma next_down_closed e m :
  1 <= 2 ^ e * (2 * m) + (2 ^ e - 1) -> next_down (2 ^ e * (2 * m) + (2 ^ e - 1)) = Some (2 * m + 1).
Proof.
  induction e as [|e IH]; intros H.
  - cbn [Nat.pow]. replace (1 * (2 * m) + (1 - 1)) with (2 * m) by lia. apply next_down_even.
  - pose proof (pow2_ge1 e). rewrite Nat.pow_succ_r' in *.
    replace (2 * 2 ^ e * (2 * m) + (2 * 2 ^ e - 1)) with (2 * (2 ^ e * (2 * m) + (2 ^ e - 1)) + 1) by lia.
    destruct (Nat.eq_dec (2 ^ e * (2 * m) + (2 ^ e - 1)) 0) as [E|E].
    + rewrite E. assert (m = 0) as -> by nia. reflexivity.
    + rewrite next_down_odd by lia. apply IH. lia.
Qed.

Lemma closed_form i : exists e m, i = 2 ^ e * (2 * m) + (2 ^ e - 1).
Proof.
  induction i as [i IH] using lt_wf_ind.
  destruct (Nat.Even_or_Odd i) as [[m ->]|[m E]].
  - exists 0, m. cbn. lia.
  - destruct (IH m) as (e & q & Em); [lia|]. exists (S e), q. rewrite Nat.pow_succ_r'.
    pose proof (pow2_ge1 e). lia.
Qed.

(** ** Reals *)

Local Open Scope R_scope.

Section Reals.
  Variables (mind : R) (split : nat -> nat -> list nat -> list nat) (n : nat) (y mass : list R) (ratio : R).
  Let N := Rops mind.
  Hypothesis Hs : permuting split.
  Hypothesis H1 : (1 <= n)%nat.
  Hypothesis Hy : (6 * n <= length y)%nat.
  Hypothesis Hm : (n <= length mass)%nat.
  Hypothesis Hpos : forall i, (i < n)%nat -> 0 < nth i mass 0.
  Notation tree := (tree (T := R)).

  Lemma build_wf (t : tree) : tree_build N split n y mass ratio = Some t -> wf mind n y mass ratio t.
  Proof.
    intros E. destruct (@tree_build_ok R N split n y mass ratio Hs H1 Hy Hm) as (t2 & E2 & P & W & _).
    rewrite E in E2. injection E2 as <-. split; auto. intros b. now apply perm_lt.
  Qed.

  Lemma tree_summaries : exists t, tree_build N split n y mass ratio = Some t /\
    Permutation (bodies t) (seq 0 n) /\
    forall s, subtree s t -> summary ratio n y mass s.
  Proof.
    destruct (@tree_build_ok R N split n y mass ratio Hs H1 Hy Hm) as (t & E & P & W & _).
    exists t. split; auto. split; auto. intros s S. eapply wf_summary; eauto. now apply build_wf.
  Qed.

  Lemma traverse_clusters (t : tree) v m1 :
    tree_build N split n y mass ratio = Some t -> (n <= 2 ^ 63)%nat ->
    exists cl : list tree,
      tree_traverse N t v m1 =
        Some (fold_left (fun F s => vadd N F (force N v (p_center (pay s)) m1 (p_mass (pay s)))) cl (vzero N)) /\
      (forall s, In s cl -> subtree s t /\
         exists r, 0 <= r /\ ratio * ratio * (r * r) < sqd v (p_center (pay s)) /\
           forall b, In b (bodies s) -> sqd (pos y n b) (p_center (pay s)) <= r * r) /\
      (1 <= ratio -> Permutation (flat_map bodies cl) (filter (elsewhere n y v) (seq 0 n))).
  Proof.
    intros E Hn. pose proof (build_wf t E) as W.
    destruct (@tree_build_ok R N split n y mass ratio Hs H1 Hy Hm) as (t2 & E2 & P & _ & D & _).
    rewrite E in E2. injection E2 as <-.
    exists (accepted (bh_accept N v) t). split.
    - apply tree_traverse_accepted. rewrite D. now apply log2_up_63.
    - split.
      + intros s Hin. apply accepted_sub in Hin. destruct Hin as [S A]. split; auto.
        pose proof (wf_summary mind n y mass ratio Hy Hm Hpos t s W S) as HS.
        destruct HS as (_ & _ & _ & _ & _ & _ & _ & _ & (r & Hr & Er & _ & Hin)).
        exists r. split; auto. split; auto.
        apply accept_R in A. rewrite Er in A. lra.
      + intros Hr. unfold N. rewrite (accepted_bodies mind n y mass ratio Hy Hm Hpos v t Hr W).
        clear - P. induction P; cbn [filter]; auto.
        * destruct (elsewhere n y v x); auto.
        * destruct (elsewhere n y v x), (elsewhere n y v y0); auto. constructor.
        * eauto using Permutation_trans.
  Qed.

  (** direct sum *)
  Lemma bh_force_direct (t : tree) dmin dmax i :
    wf mind n y mass ratio t -> Permutation (bodies t) (seq 0 n) ->
    1 <= ratio -> 0 < dmin -> 0 <= dmax -> 2 * dmax <= ratio * dmin ->
    (forall a b, (a < n)%nat -> (b < n)%nat ->
       sqd (pos y n a) (pos y n b) <= dmax * dmax /\
       (pos y n a = pos y n b \/ dmin * dmin <= sqd (pos y n a) (pos y n b))) ->
    (i < n)%nat ->
    bh_force N t (pos y n i) (nth i mass 0) = acc_fold N n y mass i.
  Proof.
    intros W P Hr Hd1 Hd2 Hrat Hsep Hi. unfold bh_force. rewrite walk_accepted. unfold N.
    rewrite (fold_cluster mind n y mass ratio Hy Hm Hpos).
    - rewrite (accepted_bodies mind n y mass ratio Hy Hm Hpos _ t Hr W).
      rewrite acc_fold_R by auto.
      assert (G : forall (g : vec3 R -> R) k, (forall b, g (pos y n b) = comp y n k b) ->
        (forall b, g (vforce mind n y mass (pos y n i) (nth i mass 0) b) =
          (g (pos y n i) - g (pos y n b)) * (- (nth i mass 0 * nth b mass 0) / soft_cube mind (vd2 (pos y n i) (pos y n b)))) ->
        lsum (filter (elsewhere n y (pos y n i)) (bodies t)) (fun b => g (vforce mind n y mass (pos y n i) (nth i mass 0) b)) =
        nth i mass 0 * newton_acc mind n (fun j => nth j mass 0) (comp y n 0) (comp y n 1) (comp y n 2) (comp y n k) i).
      { intros g k Hg Hf. rewrite lsum_filter.
        - rewrite (lsum_perm _ (seq 0 n)) by auto. rewrite lsum_seq.
          unfold newton_acc. rewrite Ropp_mult_distr_r_reverse, Ropp_mult_distr_l, <- rsum_scal.
          apply rsum_ext. intros b Hb. rewrite Hf, !Hg.
          destruct (Nat.eqb_spec i b) as [->|Hne].
          + rewrite Rminus_diag_eq by auto. ring.
          + change (vd2 (pos y n i) (pos y n b)) with (dist2 (comp y n 0) (comp y n 1) (comp y n 2) i b).
            unfold Rdiv. ring.
        - intros b _ E. apply elsewhere_false in E. rewrite Hf, E. ring. }
      unfold lsumV, vzero, vadd. cbn [vx vy vz nadd nlit Rops].
      f_equal; rewrite Rplus_0_l; apply G; intros b; auto; unfold vforce; rewrite force_R; reflexivity.
    - intros s Hin. apply accepted_sub in Hin. destruct Hin as [S A].
      assert (Ws : wf mind n y mass ratio s) by now apply wf_sub with t.
      split; auto. assert (Hb : forall b, In b (bodies s) -> (b < n)%nat) by apply Ws.
      apply (far_accept mind n y mass ratio Hy Hm Hpos dmin dmax (pos y n i) s); auto; try lra.
      + intros a b Ha Hb'. apply Hsep; auto.
      + intros b Hb'. apply Hsep; auto.
  Qed.
End Reals.

Lemma bh_tree_direct mind split n y mass f ratio rate step dmin dmax :
  0 < mind -> permuting split -> (1 <= n)%nat -> (n <= 2 ^ 63)%nat ->
  length y = (6 * n)%nat -> length mass = n -> length f = (6 * n)%nat ->
  (forall i, (i < n)%nat -> 0 < nth i mass 0) ->
  1 <= ratio -> 0 < dmin -> 0 <= dmax -> 2 * dmax <= ratio * dmin ->
  (forall a b, (a < n)%nat -> (b < n)%nat ->
     sqd (pos y n a) (pos y n b) <= dmax * dmax /\
     (pos y n a = pos y n b \/ dmin * dmin <= sqd (pos y n a) (pos y n b))) ->
  exists f' t, bh_tree_fcompute (Rops mind) split ratio ett_cycle rate step n mass y f None = Some (f', t) /\
    newton_rhs mind n mass y f'.
Proof.
  intros Hmd Hs H1 H2 Hy Hm Hf Hpos Hr Hd1 Hd2 Hrat Hsep.
  destruct (@tree_fcompute_any R (Rops mind) split ratio rate step n mass y f None Hs H1 H2) as
    (t & f' & Et & St & W & C & Ec & _); cbn [tree_state]; auto; try lia.
  exists f', (Some t). split; auto.
  apply (deriv_cells_rhs mind n mass y) with (f := f) (V := cv (Rops mind) y n 3)
    (A := fun i => vdivs (Rops mind) (bh_force (Rops mind) t (cv (Rops mind) y n 0 i) (nth i mass (nlit (Rops mind) 0)))
                     (nth i mass (nlit (Rops mind) 0))); auto.
  intros i Hi. change (nlit (Rops mind) 0) with 0. rewrite cv_comp.
  change (V3 (comp y n 0 i) (comp y n (0 + 1) i) (comp y n (0 + 2) i)) with (pos y n i).
  rewrite (bh_force_direct mind n y mass ratio) with (dmin := dmin) (dmax := dmax); auto; try lia.
  - apply acc_fold_div_R; auto. specialize (Hpos i Hi). lra.
  - split; [exact W|]. intros b. apply perm_lt. apply St.
  - apply St.
Qed.

(** radii of inner nodes with two distinct positions are positive *)
Lemma inner_radius_pos mind n y mass ratio s :
  (6 * n <= length y)%nat -> (n <= length mass)%nat -> (forall i, (i < n)%nat -> 0 < nth i mass 0) ->
  wf mind n y mass ratio s -> inner s -> ratio <> 0 -> NoDup (bodies s) ->
  (forall a b, In a (bodies s) -> In b (bodies s) -> a <> b -> pos y n a <> pos y n b) ->
  0 < p_rad (pay s).
Proof.
  intros Hy Hm Hpos W (p & l & r & ->) Hr ND Hd.
  destruct (wf_strong mind n y mass ratio Hy Hm Hpos _ W) as (S & _).
  destruct S as (_ & _ & _ & _ & _ & _ & _ & _ & (q & Hq & Eq & _ & Hin)).
  rewrite Eq.
  assert (Hne : forall t : tree (T := R), exists b, In b (bodies t)).
  { induction t as [p' b'|p' l' [b Hb] r' _]; [exists b'; left; auto|exists b; apply in_or_app; auto]. }
  destruct (Hne l) as [a Ha]. destruct (Hne r) as [b Hb].
  assert (Ha' : In a (bodies (Node p l r))) by (apply in_or_app; auto).
  assert (Hb' : In b (bodies (Node p l r))) by (apply in_or_app; auto).
  assert (a <> b).
  { intros ->. revert ND Ha Hb. cbn [bodies]. generalize (bodies l) (bodies r). intros L R0.
    induction L as [|x L IH]; cbn; [tauto|]. intros ND [->|HL] HR.
    - inversion ND; subst. apply H1. apply in_or_app; auto.
    - inversion ND; subst. auto. }
  destruct (Rle_lt_or_eq_dec 0 q Hq) as [Hq'|<-].
  - pose proof (Rsqr_pos_lt ratio Hr) as Hrr. unfold Rsqr in Hrr. apply Rmult_lt_0_compat; auto. nra.
  - exfalso. pose proof (Hin a Ha') as A. pose proof (Hin b Hb') as B.
    rewrite Rmult_0_l in A, B. apply sqd_zero in A. apply sqd_zero in B.
    apply (Hd a b Ha' Hb' H). congruence.
Qed.

Lemma nodup_parts {A} (l1 l2 : list A) : NoDup (l1 ++ l2) -> NoDup l1 /\ NoDup l2.
Proof.
  induction l1 as [|x l1 IH]; cbn; intros H; [split; [constructor|auto]|].
  inversion H as [|? ? H1 H2]; subst. destruct (IH H2). split; auto.
  constructor; auto. intros Hin. apply H1. apply in_or_app. auto.
Qed.

Lemma nodup_sub {T} (s t : tree (T := T)) : subtree s t -> NoDup (bodies t) -> NoDup (bodies s).
Proof.
  induction 1 as [|p l r S IH|p l r S IH]; auto; cbn [bodies]; intros ND; apply IH.
  - now apply nodup_parts in ND.
  - now apply nodup_parts in ND.
Qed.

Lemma bodies_sub {T} (s t : tree (T := T)) : subtree s t -> incl (bodies s) (bodies t).
Proof.
  induction 1 as [|p l r S IH|p l r S IH]; [apply incl_refl| |]; cbn [bodies]; intros b Hb;
    apply in_or_app; [left|right]; auto.
Qed.

(** nested = cycle along a whole sequence of evaluations *)
Lemma tree_nested_run mind ratio rate n mass : forall calls tree0,
  (1 <= n)%nat -> (n <= 2 ^ 63)%nat -> (n <= length mass)%nat ->
  (forall i, (i < n)%nat -> 0 < nth i mass 0) -> ratio <> 0 ->
  Forall (fun c => good_call n c /\
    forall a b, (a < n)%nat -> (b < n)%nat -> a <> b -> pos (bc_y c) n a <> pos (bc_y c) n b) calls ->
  tree_state (Rops mind) n mass tree0 ->
  exists fs, run_tree (Rops mind) ratio ett_cycle rate n mass calls tree0 = Some fs /\
             run_tree (Rops mind) ratio ett_nested_tree rate n mass calls tree0 = Some fs.
Proof.
  induction calls as [|c calls IH]; intros tree0 H1 H2 Hm Hpos Hr HF HS.
  - exists []. auto.
  - inversion HF as [|? ? ((Hs & Hy & Hf) & Hd) HF']; subst.
    destruct (@tree_fcompute_any R (Rops mind) (bc_split c) ratio rate (bc_step c) n mass (bc_y c) (bc_f c) tree0
      Hs H1 H2 Hy Hm Hf HS) as (t & f' & Et & St & W & _ & Ec & En & _).
    destruct (IH (Some t) H1 H2 Hm Hpos Hr HF' St) as (fs & E1 & E2).
    exists (f' :: fs). cbn [run_tree].
    assert (HW : wf mind n (bc_y c) mass ratio t).
    { split; [exact W|]. intros b. apply perm_lt. apply St. }
    rewrite Ec, En.
    + cbn [obind fst snd]. rewrite E1, E2. auto.
    + intros s S I. apply nltb_R. change (nlit (Rops mind) 0) with 0.
      assert (Ws : wf mind n (bc_y c) mass ratio s) by now apply wf_sub with t.
      apply (inner_radius_pos mind n (bc_y c) mass ratio s); auto.
      * apply nodup_sub with t; auto. destruct St as (P & _).
        eapply Permutation_NoDup; [symmetry; exact P|]. apply seq_NoDup.
      * intros a b Ha Hb. apply Hd; apply Ws; auto.
    + apply nltb_R_false. apply Rlt_irrefl.
Qed.
