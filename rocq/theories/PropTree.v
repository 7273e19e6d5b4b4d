(** C17-C26, C58, C59: space trees, heap layouts and the Barnes-Hut engines. *)
From Coq Require Import ZArith NArith Reals List Arith Lia Lra Permutation.
From Verif Require Import Num Arr ArrLemmas SpecPhys RLemmas ModelVertex ModelForce ModelEngine
  ModelTree ModelHeap ModelBH SpecTree SpecHeap LemEngine LemPhys LemTree LemHeap LemHeap2 LemNext LemBH
  LemTreeR LemTreeProp.
Import ListNotations.
Local Open Scope R_scope.

(** four bodies at x = 0, 1, 5, 7 with masses 1, 2, 1, 3; [rev] is a split order *)
Definition ex_split : nat -> nat -> list nat -> list nat := fun _ _ l => rev l.
Definition ex_y : list R := [0; 1; 5; 7] ++ repeat 0 20.
Definition ex_m : list R := [1; 2; 1; 3].
Lemma ex_permuting : permuting ex_split.
Proof. intros i d l. symmetry. apply Permutation_rev. Qed.
Lemma ex_pos i : (i < 4)%nat -> 0 < nth i ex_m 0.
Proof. intros H. do 4 (destruct i as [|i]; [cbn; lra|]). lia. Qed.

(** ** C17 *)

Theorem C17_tree_summaries : forall mind split n y mass ratio,
  permuting split -> (1 <= n)%nat -> (6 * n <= length y)%nat -> (n <= length mass)%nat ->
  (forall i, (i < n)%nat -> 0 < nth i mass 0) ->
  exists t, tree_build (Rops mind) split n y mass ratio = Some t /\
    Permutation (bodies t) (seq 0 n) /\
    forall s, subtree s t -> summary ratio n y mass s.
Proof. exact tree_summaries. Qed.
Print Assumptions C17_tree_summaries.

(** the array holds, node by node, such a tree *)
Theorem C17_heap_summaries : forall mind split k y mass ratio,
  let n := (2 ^ k)%nat in
  permuting split -> (6 * n <= length y)%nat -> (n <= length mass)%nat ->
  (forall i, (i < n)%nat -> 0 < nth i mass 0) ->
  exists h t, heap_build (Rops mind) split n y mass ratio [] = Some h /\ repr h 1 t /\
    Permutation (bodies t) (seq 0 n) /\
    forall s, subtree s t -> summary ratio n y mass s.
Proof.
  intros mind split k y mass ratio n Hs Hy Hm Hp.
  destruct (tree_summaries mind split n y mass ratio Hs (pow2_ge1 k) Hy Hm Hp) as (t & E & P & S).
  destruct (@heap_build_ok R (Rops mind) split k y mass ratio [] t Hs (or_introl eq_refl) E) as (h & Eh & _ & Rp).
  exists h, t. auto.
Qed.
Print Assumptions C17_heap_summaries.

Example C17_example : exists t, tree_build (Rops 1) ex_split 4 ex_y ex_m 10 = Some t /\
  summary 10 4 ex_y ex_m t /\ p_mass (pay t) = 7 /\ vx (p_bmax (pay t)) = 7.
Proof.
  destruct (C17_tree_summaries 1 ex_split 4 ex_y ex_m 10 ex_permuting) as (t & E & P & S); try (cbn; lia).
  { exact ex_pos. }
  exists t. split; auto. pose proof (S t (sub_refl t)) as St. split; auto.
  destruct St as (A & _ & _ & _ & B & (a & b & Ha & Hb & _ & Eb) & _). split.
  - rewrite A, (lsum_perm _ _ _ P). cbn. lra.
  - assert (H3 : In 3%nat (bodies t)) by (eapply Permutation_in; [symmetry; exact P|cbn; auto]).
    destruct (B 3%nat H3) as (B3 & _). change (comp ex_y 4 0 3) with 7 in B3.
    eapply Permutation_in in Hb; [|exact P]. cbn in Hb.
    assert (vx (p_bmax (pay t)) <= 7); [|lra]. rewrite Eb.
    destruct Hb as [<-|[<-|[<-|[<-|[]]]]]; cbn; lra.
Qed.

(** ** C18, C58: the clusters used for a force *)

(** The force on a point [v] is the sum, in order, of the forces of clusters [cl] that contain every
    body not at [v] exactly once, and no body at [v] (so not the body itself). *)
Theorem C18_exactly_once : forall mind split n y mass ratio t v m1,
  permuting split -> (1 <= n)%nat -> (n <= 2 ^ 63)%nat -> (6 * n <= length y)%nat -> (n <= length mass)%nat ->
  (forall i, (i < n)%nat -> 0 < nth i mass 0) -> 1 <= ratio ->
  tree_build (Rops mind) split n y mass ratio = Some t ->
  exists cl,
    tree_traverse (Rops mind) t v m1 =
      Some (fold_left (fun F s => vadd (Rops mind) F (force (Rops mind) v (p_center (pay s)) m1 (p_mass (pay s))))
              cl (V3 0 0 0)) /\
    (forall s, In s cl -> subtree s t) /\
    NoDup (flat_map bodies cl) /\
    forall b, In b (flat_map bodies cl) <-> (b < n)%nat /\ pos y n b <> v.
Proof.
  intros mind split n y mass ratio t v m1 Hs H1 H2 Hy Hm Hp Hr E.
  destruct (traverse_clusters mind split n y mass ratio Hs H1 Hy Hm Hp t v m1 E H2) as (cl & A & B & C).
  specialize (C Hr). exists cl. split; [exact A|]. split; [intros s Hin; now apply B|]. split.
  - eapply Permutation_NoDup; [symmetry; exact C|]. apply NoDup_filter, seq_NoDup.
  - intros b. split.
    + intros Hin. eapply Permutation_in in Hin; [|exact C]. apply filter_In in Hin.
      destruct Hin as [Hin He]. apply in_seq in Hin. split; [lia|]. intros Hv. symmetry in Hv.
      apply elsewhere_false in Hv. congruence.
    + intros [Hb Hv]. eapply Permutation_in; [symmetry; exact C|]. apply filter_In.
      split; [apply in_seq; lia|]. destruct (elsewhere n y v b) eqn:Ee; auto.
      apply elsewhere_false in Ee. congruence.
Qed.
Print Assumptions C18_exactly_once.

(** below ratio 1 this fails: with ratio 0 (the default of the engine classes) the root is accepted and
    every body attracts itself *)
Theorem C18_ratio_zero_self_attraction : exists mind split n y mass t v m1 F,
  permuting split /\ (1 <= n)%nat /\ (n <= 2 ^ 63)%nat /\ length y = (6 * n)%nat /\ length mass = n /\
  (forall i, (i < n)%nat -> 0 < nth i mass 0) /\ v = pos y n 0 /\
  tree_build (Rops mind) split n y mass 0 = Some t /\
  tree_traverse (Rops mind) t v m1 = Some F /\
  F <> force (Rops mind) v (pos y n 1) m1 (nth 1 mass 0).
Proof.
  set (y := [0; 2] ++ repeat 0 10). set (mass := [1; 1]).
  destruct (@tree_build_ok R (Rops 1) (fun _ _ l => l) 2 y mass 0) as (t & E & P & W & D & F).
  { intros i d l. apply Permutation_refl. }
  { lia. } { cbn; lia. } { cbn; lia. }
  exists 1, (fun _ _ l => l), 2%nat, y, mass, t, (pos y 2 0), 1.
  cbn in E. injection E as <-.
  eexists. split; [intros i d l; apply Permutation_refl|]. split; [lia|]. split.
  { change 2%nat with (2 ^ 1)%nat at 1. apply Nat.pow_le_mono_r; lia. }
  split; [reflexivity|]. split; [reflexivity|]. split.
  { intros [|[|i]] H; cbn; try lra; lia. }
  split; [reflexivity|]. split; [reflexivity|]. split.
  - rewrite tree_traverse_accepted by (cbn; lia). cbn [accepted pay].
    match goal with |- context [bh_accept ?N ?v ?p] => assert (H : bh_accept N v p = true) end.
    { apply accept_R. unfold merge. cbn [p_rad p_center p_mass]. unfold sqd. cbn.
      match goal with |- ?a * (0 * 0) < _ => replace (a * (0 * 0)) with 0 by ring end. lra. }
    rewrite H. cbn [fold_left]. reflexivity.
  - unfold cluster_force. rewrite !force_R. unfold vadd, merge. cbn [pay p_center p_mass vx vy vz].
    unfold soft_cube, vd2. cbn. intros HF. apply (f_equal (@vx R)) in HF. cbn in HF.
    revert HF.
    replace ((0 - (0 * 1 + 2 * 1) / (1 + 1)) * (0 - (0 * 1 + 2 * 1) / (1 + 1)) +
      (0 - (0 * 1 + 0 * 1) / (1 + 1)) * (0 - (0 * 1 + 0 * 1) / (1 + 1)) +
      (0 - (0 * 1 + 0 * 1) / (1 + 1)) * (0 - (0 * 1 + 0 * 1) / (1 + 1))) with 1 by field.
    replace ((0 - 2) * (0 - 2) + (0 - 0) * (0 - 0) + (0 - 0) * (0 - 0)) with (2 * 2) by ring.
    rewrite (Rmax_right 1 1), (Rmax_right 1 (2 * 2)) by lra. rewrite sqrt_1, sqrt_square by lra. lra.
Qed.
Print Assumptions C18_ratio_zero_self_attraction.

Theorem C58_accuracy_criterion : forall mind split n y mass ratio t v m1,
  permuting split -> (1 <= n)%nat -> (n <= 2 ^ 63)%nat -> (6 * n <= length y)%nat -> (n <= length mass)%nat ->
  (forall i, (i < n)%nat -> 0 < nth i mass 0) ->
  tree_build (Rops mind) split n y mass ratio = Some t ->
  exists cl,
    tree_traverse (Rops mind) t v m1 =
      Some (fold_left (fun F s => vadd (Rops mind) F (force (Rops mind) v (p_center (pay s)) m1 (p_mass (pay s))))
              cl (V3 0 0 0)) /\
    forall s, In s cl -> subtree s t /\ summary ratio n y mass s /\
      exists r, 0 <= r /\ Rabs ratio * r < sqrt (sqd v (p_center (pay s))) /\
        forall b, In b (bodies s) -> sqrt (sqd (pos y n b) (p_center (pay s))) <= r.
Proof.
  intros mind split n y mass ratio t v m1 Hs H1 H2 Hy Hm Hp E.
  destruct (traverse_clusters mind split n y mass ratio Hs H1 Hy Hm Hp t v m1 E H2) as (cl & A & B & _).
  exists cl. split; [exact A|]. intros s Hin. destruct (B s Hin) as (S & r & Hr & Hd & Hi).
  split; auto. split.
  { eapply wf_summary; eauto. now apply (build_wf mind split n y mass ratio Hs H1 Hy Hm). }
  exists r. split; auto. pose proof (Rabs_pos ratio) as HR. split.
  - rewrite <- (sqrt_square (Rabs ratio * r)) by (apply Rmult_le_pos; auto).
    apply sqrt_lt_1_alt. split.
    + apply Rle_0_sqr.
    + replace (Rabs ratio * r * (Rabs ratio * r)) with ((Rabs ratio * Rabs ratio) * (r * r)) by ring.
      rewrite <- Rabs_mult, Rabs_right by (apply Rle_ge, Rle_0_sqr). exact Hd.
  - intros b Hb. rewrite <- (sqrt_square r) by auto. apply sqrt_le_1_alt. auto.
Qed.
Print Assumptions C58_accuracy_criterion.

Example C18_C58_example : exists t cl, tree_build (Rops 1) ex_split 4 ex_y ex_m 10 = Some t /\
  tree_traverse (Rops 1) t (V3 5 0 0) 1 =
    Some (fold_left (fun F s => vadd (Rops 1) F (force (Rops 1) (V3 5 0 0) (p_center (pay s)) 1 (p_mass (pay s))))
            cl (V3 0 0 0)) /\
  In 0%nat (flat_map bodies cl) /\ ~ In 2%nat (flat_map bodies cl).
Proof.
  assert (H4 : (4 <= 2 ^ 63)%nat) by (change 4%nat with (2 ^ 2)%nat; apply Nat.pow_le_mono_r; lia).
  destruct (C17_tree_summaries 1 ex_split 4 ex_y ex_m 10 ex_permuting) as (t & E & _); try (cbn; lia).
  { exact ex_pos. }
  destruct (C18_exactly_once 1 ex_split 4 ex_y ex_m 10 t (V3 5 0 0) 1 ex_permuting) as (cl & A & _ & _ & C);
    auto; try (cbn; lia); try lra.
  { exact ex_pos. }
  exists t, cl. split; auto. split; auto. split.
  - apply C. split; [lia|]. unfold pos, comp, ex_y. cbn. intros H. apply (f_equal (@vx R)) in H. cbn in H. lra.
  - intros Hin. apply C in Hin. destruct Hin as [_ Hn]. apply Hn. reflexivity.
Qed.

(** ** C19 *)

(** Whole sequences of evaluations (each with its own state, step number and nth_element behaviour),
    any arithmetic, tree rebuilt at any rate, heaps with either traversal type: identical results. *)
Theorem C19_heap_equals_tree : forall T (N : NumOps T) k ratio tt rate mass calls,
  (k <= 63)%nat -> (2 ^ k <= length mass)%nat -> Forall (good_call (2 ^ k)) calls ->
  exists fs, run_tree N ratio ett_cycle rate (2 ^ k) mass calls None = Some fs /\
             run_heap N (heap_traverse N) ratio tt rate (2 ^ k) mass calls [] = Some fs.
Proof.
  intros T N k ratio tt rate mass calls Hk Hm HF. apply run_same; auto; [|reflexivity].
  intros h t v1 m1 Hl Hp Hr. apply (heap_traverse_walk N h t v1 m1 Hl Hk Hp Hr).
Qed.
Print Assumptions C19_heap_equals_tree.

Theorem C19_stackless_equals_tree : forall T (N : NumOps T) k ratio tt rate mass calls,
  (k <= 63)%nat -> (2 ^ k <= length mass)%nat -> Forall (good_call (2 ^ k)) calls ->
  exists fs, run_tree N ratio ett_cycle rate (2 ^ k) mass calls None = Some fs /\
             run_heap N (stackless_traverse N next_down) ratio tt rate (2 ^ k) mass calls [] = Some fs.
Proof.
  intros T N k ratio tt rate mass calls Hk Hm HF. apply run_same; auto; [|reflexivity].
  intros h t v1 m1 Hl Hp Hr.
  apply (@stackless_traverse_walk T N next_down h t k v1 m1 Hl (next_down_spec _) Hp Hr).
Qed.
Print Assumptions C19_stackless_equals_tree.

(** the gcc build uses the bit trick *)
Theorem C19_stackless_gcc_equals_tree : forall T (N : NumOps T) k ratio tt rate mass calls,
  (k <= 30)%nat -> (2 ^ k <= length mass)%nat -> Forall (good_call (2 ^ k)) calls ->
  exists fs, run_tree N ratio ett_cycle rate (2 ^ k) mass calls None = Some fs /\
             run_heap N (stackless_traverse N next_down_gcc_nat) ratio tt rate (2 ^ k) mass calls [] = Some fs.
Proof.
  intros T N k ratio tt rate mass calls Hk Hm HF. apply run_same; auto; [lia| |reflexivity].
  intros h t v1 m1 Hl Hp Hr.
  refine (@stackless_traverse_walk T N next_down_gcc_nat h t k v1 m1 Hl (@gcc_next_spec _ _) Hp Hr).
  rewrite Nat2N.inj_mul, Nat2N.inj_pow. change (N.of_nat 2) with 2%N.
  rewrite <- N.pow_succ_r'. apply N.pow_lt_mono_r; lia.
Qed.
Print Assumptions C19_stackless_gcc_equals_tree.

Definition ex_Fy : list SpecFloat.spec_float := map F_of_Z [0; 1; 5; 7; 2; 0; 1; 0; 0; 3; 0; 1; 1; 1; 0; 0; 0; 0; 0; 0; 0; 0; 0; 1]%Z.
Definition ex_Fm : list SpecFloat.spec_float := map F_of_Z [1; 2; 1; 3]%Z.
Definition ex_call (step : nat) : bcall := BCall step ex_split ex_Fy (repeat (F_of_Z 0) 24).
Example C19_example : Forall (good_call (2 ^ 2)) [ex_call 0; ex_call 1] /\
  match run_tree Fops (F_of_Z 1) ett_cycle 5 (2 ^ 2) ex_Fm [ex_call 0; ex_call 1] None,
        run_heap Fops (stackless_traverse Fops next_down_gcc_nat) (F_of_Z 1) ett_nested_tree 5 (2 ^ 2) ex_Fm
          [ex_call 0; ex_call 1] [] with
  | Some fs1, Some fs2 => fs1 = fs2 /\ nth 12 (nth 0 fs1 []) (F_of_Z 0) <> F_of_Z 0
  | _, _ => False
  end.
Proof.
  split; [repeat constructor; try apply ex_permuting; cbn; lia|].
  vm_compute. split; [reflexivity|discriminate].
Qed.

(** ** C20 *)

Theorem C20_heap_bounds_iff : forall T (N : NumOps T) split n y mass ratio,
  permuting split -> (6 * n <= length y)%nat -> (n <= length mass)%nat ->
  (exists h, heap_build N split n y mass ratio [] = Some h) <-> exists k, n = (2 ^ k)%nat.
Proof. exact @heap_build_iff. Qed.
Print Assumptions C20_heap_bounds_iff.

Theorem C20_heap_cells : forall T (N : NumOps T) split n y mass ratio h,
  permuting split -> (6 * n <= length y)%nat -> (n <= length mass)%nat ->
  heap_build N split n y mass ratio [] = Some h ->
  length h = (2 * n)%nat /\
  Permutation (map c_body (skipn n h)) (map Some (seq 0 n)) /\
  (forall j c, (j < n)%nat -> nth_error h j = Some c -> c_body c = None).
Proof. exact @heap_build_cells. Qed.
Print Assumptions C20_heap_cells.

Theorem C20_heap_bounds_refuted : exists split n y mass,
  permuting split /\ (1 <= n)%nat /\ (6 * n <= length y)%nat /\ (n <= length mass)%nat /\
  heap_build Fops split n y mass (F_of_Z 10) [] = None.
Proof.
  exists ex_split, 3%nat, (repeat (F_of_Z 1) 18), (repeat (F_of_Z 1) 3).
  split; [exact ex_permuting|]. split; [lia|]. split; [cbn; lia|]. split; [cbn; lia|]. vm_compute. reflexivity.
Qed.
Print Assumptions C20_heap_bounds_refuted.

Example C20_example : exists h, heap_build Fops ex_split 4 ex_Fy ex_Fm (F_of_Z 1) [] = Some h /\
  map c_body (skipn 4 h) = [Some 2; Some 3; Some 0; Some 1]%nat.
Proof. eexists. split; vm_compute; reflexivity. Qed.

(** ** C21 *)

Theorem C21_stackless_preorder : forall acc k,
  stackless_loop next_down (fun i visited => Some (visited ++ [i], acc i)) (2 * 2 ^ k) (2 * 2 ^ k) ROOT [] =
  Some (preorder acc k 1).
Proof.
  intros acc k. unfold ROOT. rewrite stackless_loop_top by apply next_down_spec. now rewrite hwalk_preorder.
Qed.
Print Assumptions C21_stackless_preorder.

Theorem C21_stackless_gcc_preorder : forall acc k, (k <= 30)%nat ->
  stackless_loop next_down_gcc_nat (fun i visited => Some (visited ++ [i], acc i)) (2 * 2 ^ k) (2 * 2 ^ k) ROOT [] =
  Some (preorder acc k 1).
Proof.
  intros acc k Hk. unfold ROOT. rewrite stackless_loop_top.
  - now rewrite hwalk_preorder.
  - apply gcc_next_spec. rewrite Nat2N.inj_mul, Nat2N.inj_pow. change (N.of_nat 2) with 2%N.
    rewrite <- N.pow_succ_r'. apply N.pow_lt_mono_r; lia.
Qed.
Print Assumptions C21_stackless_gcc_preorder.

Theorem C21_heap_preorder : forall acc k, (k <= 63)%nat ->
  heap_loop (fun i visited => Some (visited ++ [i], acc i)) (2 * 2 ^ k) (2 * 2 ^ k) [ROOT] [] =
  Some (preorder acc k 1).
Proof. intros acc k Hk. unfold ROOT. rewrite heap_loop_top by auto. now rewrite hwalk_preorder. Qed.
Print Assumptions C21_heap_preorder.

Example C21_example : preorder (fun i => Nat.eqb i 2) 2 1 = [1; 2; 3; 6; 7]%nat.
Proof. reflexivity. Qed.

(** ** C22 *)

(** Write the index as 2m followed by e ones in binary: every index has this form, and the next node
    is 2m+1 (the root when m = 0). *)
Theorem C22_next_node : forall i, exists e m, i = (2 ^ e * (2 * m) + (2 ^ e - 1))%nat /\
  ((1 <= i)%nat -> next_down i = Some (2 * m + 1)%nat).
Proof.
  intros i. destruct (closed_form i) as (e & m & E). exists e, m. split; auto.
  intros H. subst i. now apply next_down_closed.
Qed.
Print Assumptions C22_next_node.

Theorem C22_variants_agree : forall i, (1 <= i)%nat -> (N.of_nat i mod 2 ^ 32 <> 2 ^ 32 - 1)%N ->
  next_down_gcc (N.of_nat i) = option_map N.of_nat (next_down i) /\
  next_down_cuda (N.of_nat i) = option_map N.of_nat (next_down i).
Proof.
  intros i H1 H2. rewrite next_down_cuda_gcc. split; now apply gcc_loop.
Qed.
Print Assumptions C22_variants_agree.

Theorem C22_variants_undefined : forall i, (i mod 2 ^ 32 = 2 ^ 32 - 1)%N ->
  next_down_gcc i = None /\ next_down_cuda i = None.
Proof. intros i H. rewrite next_down_cuda_gcc. split; now apply gcc_undefined. Qed.
Print Assumptions C22_variants_undefined.

(** the guard is needed: some 64-bit index is a valid node for the loop but not for the bit trick *)
Theorem C22_guard_needed : exists i, (1 <= i < 2 ^ 64)%N /\ next_down_gcc i = None.
Proof. exists (2 ^ 32 - 1)%N. split; [split; [|reflexivity]; discriminate|reflexivity]. Qed.
Print Assumptions C22_guard_needed.

Example C22_example : next_down 11 = Some 3%nat /\ next_down_gcc 11 = Some 3%N /\ next_down 15 = Some 1%nat.
Proof. repeat split. Qed.

(** ** C23 *)

Theorem C23_tree_stack : forall T (N : NumOps T) A (visit : payload (T := T) -> A -> A * bool) split n y mass ratio st,
  permuting split -> (1 <= n)%nat -> (n <= 2 ^ 63)%nat -> (6 * n <= length y)%nat -> (n <= length mass)%nat ->
  exists t st', tree_build N split n y mass ratio = Some t /\
    stack_loop visit (tree_nodes t) [t] st = Some st'.
Proof. intros T N A visit split n y mass ratio st. apply stack_never_overflows. Qed.
Print Assumptions C23_tree_stack.

Theorem C23_heap_stack : forall A (visit : nat -> A -> A * bool) k st, (k <= 63)%nat ->
  exists st', heap_loop (fun i st => Some (visit i st)) (2 * 2 ^ k) (2 * 2 ^ k) [ROOT] st = Some st'.
Proof.
  intros A visit k st Hk. unfold ROOT. rewrite heap_loop_top by auto.
  clear Hk. generalize 1%nat. revert st. induction k as [|k IH]; intros st idx; cbn [hwalk obind];
    destruct (visit idx st) as [st' [|]]; eauto.
  destruct (IH st' (2 * idx)%nat) as [st1 ->]. cbn [obind]. apply IH.
Qed.
Print Assumptions C23_heap_stack.

(** the bound is sharp: twice as many bodies overflow the stack when nothing is accepted *)
Theorem C23_stack_limit : forall T (N : NumOps T) A (visit : payload (T := T) -> A -> A * bool) split y mass ratio st,
  permuting split -> (6 * 2 ^ 64 <= length y)%nat -> (2 ^ 64 <= length mass)%nat ->
  (forall p st, snd (visit p st) = false) ->
  exists t, tree_build N split (2 ^ 64) y mass ratio = Some t /\
    stack_loop visit (tree_nodes t) [t] st = None.
Proof. intros T N A visit split y mass ratio st. apply stack_limit. Qed.
Print Assumptions C23_stack_limit.

Example C23_example : exists t st', tree_build Fops ex_split 4 ex_Fy ex_Fm (F_of_Z 10) = Some t /\
  stack_loop (fun _ k => (S k, false)) (tree_nodes t) [t] 0%nat = Some st' /\ st' = 7%nat.
Proof. do 2 eexists. split; [vm_compute; reflexivity|split; vm_compute; reflexivity]. Qed.

(** ** C24 *)

(** [dmax] bounds all distances and [dmin] is a lower bound of the non-zero ones *)
Theorem C24_direct_sum : forall mind split n y mass f ratio rate step dmin dmax,
  0 < mind -> permuting split -> (1 <= n)%nat -> (n <= 2 ^ 63)%nat ->
  length y = (6 * n)%nat -> length mass = n -> length f = (6 * n)%nat ->
  (forall i, (i < n)%nat -> 0 < nth i mass 0) ->
  1 <= ratio -> 0 < dmin -> 0 <= dmax -> 2 * dmax <= ratio * dmin ->
  (forall a b, (a < n)%nat -> (b < n)%nat ->
     sqd (pos y n a) (pos y n b) <= dmax * dmax /\
     (pos y n a = pos y n b \/ dmin * dmin <= sqd (pos y n a) (pos y n b))) ->
  exists f' t, bh_tree_fcompute (Rops mind) split ratio ett_cycle rate step n mass y f None = Some (f', t) /\
    newton_rhs mind n mass y f'.
Proof. exact bh_tree_direct. Qed.
Print Assumptions C24_direct_sum.

(** and the two heap engines, with either traversal type *)
Theorem C24_heap_direct_sum : forall mind split k y mass f ratio tt rate step dmin dmax,
  let n := (2 ^ k)%nat in
  0 < mind -> permuting split -> (k <= 63)%nat ->
  length y = (6 * n)%nat -> length mass = n -> length f = (6 * n)%nat ->
  (forall i, (i < n)%nat -> 0 < nth i mass 0) ->
  1 <= ratio -> 0 < dmin -> 0 <= dmax -> 2 * dmax <= ratio * dmin ->
  (forall a b, (a < n)%nat -> (b < n)%nat ->
     sqd (pos y n a) (pos y n b) <= dmax * dmax /\
     (pos y n a = pos y n b \/ dmin * dmin <= sqd (pos y n a) (pos y n b))) ->
  exists f' h1 h2,
    bh_heap_fcompute (Rops mind) (heap_traverse (Rops mind)) split ratio tt rate step n mass y f [] = Some (f', h1) /\
    bh_heap_fcompute (Rops mind) (stackless_traverse (Rops mind) next_down) split ratio tt rate step n mass y f []
      = Some (f', h2) /\
    newton_rhs mind n mass y f'.
Proof.
  intros mind split k y mass f ratio tt rate step dmin dmax n Hmd Hs Hk Hy Hm Hf Hp Hr Hd1 Hd2 Hrat Hsep.
  destruct (bh_tree_direct mind split n y mass f ratio rate step dmin dmax) as (f' & t & E & Rhs); auto.
  { apply pow2_ge1. } { apply Nat.pow_le_mono_r; lia. }
  set (c := BCall step split y f).
  assert (HF : Forall (good_call (2 ^ k)) [c]).
  { repeat constructor; auto; cbn [bc_y bc_f c]; fold n; lia. }
  destruct (C19_heap_equals_tree R (Rops mind) k ratio tt rate mass [c] Hk) as (fs & E1 & E2); auto; [fold n; lia|].
  destruct (C19_stackless_equals_tree R (Rops mind) k ratio tt rate mass [c] Hk) as (fs' & E1' & E3); auto; [fold n; lia|].
  rewrite E1 in E1'. injection E1' as <-.
  cbn [run_tree run_heap bc_split bc_step bc_y bc_f c] in E1, E2, E3. fold n in E1, E2, E3.
  rewrite E in E1. cbn [obind fst snd] in E1. injection E1 as <-.
  destruct (bh_heap_fcompute (Rops mind) (heap_traverse (Rops mind)) split ratio tt rate step n mass y f []) as [[f1 h1]|];
    [|discriminate]. cbn [obind fst] in E2. injection E2 as ->.
  destruct (bh_heap_fcompute (Rops mind) (stackless_traverse (Rops mind) next_down) split ratio tt rate step n mass y f [])
    as [[f2 h2]|]; [|discriminate]. cbn [obind fst] in E3. injection E3 as ->.
  exists f', h1, h2. auto.
Qed.
Print Assumptions C24_heap_direct_sum.

(** distances 1..7 between the four bodies: any ratio from 14 on gives the direct sum *)
Example C24_example : exists f' t,
  bh_tree_fcompute (Rops 1) ex_split 14 ett_cycle 0 0 4 ex_m ex_y (repeat 0 24) None = Some (f', t) /\
  newton_rhs 1 4 ex_m ex_y f'.
Proof.
  apply (C24_direct_sum 1 ex_split 4 ex_y ex_m (repeat 0 24) 14 0 0 1 7); try reflexivity; try lra; try lia.
  - exact ex_permuting.
  - change 4%nat with (2 ^ 2)%nat; apply Nat.pow_le_mono_r; lia.
  - exact ex_pos.
  - intros a b Ha Hb. unfold sqd, pos, comp, ex_y.
    do 4 (destruct a as [|a]; [do 4 (destruct b as [|b]; [cbn; split; [lra|try (left; reflexivity); right; lra]|]); lia|]).
    lia.
Qed.

(** ** C25 *)

Theorem C25_tree_rebuild : forall T (N : NumOps T) split n y0 y mass ratio t,
  permuting split -> (6 * n <= length y0)%nat -> (6 * n <= length y)%nat -> (n <= length mass)%nat ->
  tree_build N split n y0 mass ratio = Some t ->
  tree_rebuild N n y ratio t = tree_build N split n y mass ratio /\
  exists t', tree_rebuild N n y ratio t = Some t'.
Proof. exact @tree_rebuild_build. Qed.
Print Assumptions C25_tree_rebuild.

Theorem C25_heap_rebuild : forall T (N : NumOps T) split n y0 y mass ratio h,
  permuting split -> (6 * n <= length y0)%nat -> (6 * n <= length y)%nat -> (n <= length mass)%nat ->
  heap_build N split n y0 mass ratio [] = Some h ->
  exists h1 h2, heap_rebuild N n y ratio h = Some h1 /\
    heap_build N split n y mass ratio [] = Some h2 /\
    length h1 = (2 * n)%nat /\ length h2 = (2 * n)%nat /\
    forall j, (1 <= j < 2 * n)%nat -> nth_error h1 j = nth_error h2 j.
Proof. exact @heap_rebuild_build. Qed.
Print Assumptions C25_heap_rebuild.

(** cell 0 is not a node: [rebuild] leaves other data there than [build] *)
Example C25_example : exists h h1 h2,
  heap_build Fops ex_split 4 (repeat (F_of_Z 3) 24) ex_Fm (F_of_Z 1) [] = Some h /\
  heap_rebuild Fops 4 ex_Fy (F_of_Z 1) h = Some h1 /\
  heap_build Fops ex_split 4 ex_Fy ex_Fm (F_of_Z 1) [] = Some h2 /\ tl h1 = tl h2 /\ tl h <> tl h1.
Proof.
  do 3 eexists. split; [vm_compute; reflexivity|]. split; [vm_compute; reflexivity|].
  split; [vm_compute; reflexivity|]. split; [reflexivity|discriminate].
Qed.

(** ** C26 *)

(** heap engines: nested-tree traversal returns what the cycle over the bodies returns *)
Theorem C26_heap_nested : forall T (N : NumOps T) k ratio rate mass calls,
  (k <= 63)%nat -> (2 ^ k <= length mass)%nat -> Forall (good_call (2 ^ k)) calls ->
  exists fs, run_heap N (heap_traverse N) ratio ett_cycle rate (2 ^ k) mass calls [] = Some fs /\
             run_heap N (heap_traverse N) ratio ett_nested_tree rate (2 ^ k) mass calls [] = Some fs.
Proof.
  intros T N k ratio rate mass calls Hk Hm HF.
  destruct (C19_heap_equals_tree T N k ratio ett_cycle rate mass calls Hk Hm HF) as (fs & E1 & E2).
  destruct (C19_heap_equals_tree T N k ratio ett_nested_tree rate mass calls Hk Hm HF) as (fs' & E1' & E2').
  exists fs. split; auto. congruence.
Qed.
Print Assumptions C26_heap_nested.

(** tree engine, any arithmetic: right when every inner node has a positive critical radius, and an
    access with an invalid body number as soon as one has not *)
Theorem C26_tree_nested_any : forall T (N : NumOps T) split ratio rate step n mass y f t,
  permuting split -> (1 <= n)%nat -> (n <= 2 ^ 63)%nat -> (6 * n <= length y)%nat -> (n <= length mass)%nat ->
  (6 * n <= length f)%nat -> nltb N (nlit N 0) (nlit N 0) = false ->
  tree_build N split n y mass ratio = Some t ->
  ((forall s, subtree s t -> inner s -> nltb N (nlit N 0) (p_rad (pay s)) = true) ->
   exists f', bh_tree_fcompute N split ratio ett_cycle rate step n mass y f None = Some (f', Some t) /\
              bh_tree_fcompute N split ratio ett_nested_tree rate step n mass y f None = Some (f', Some t)) /\
  ((exists s, subtree s t /\ inner s /\ nltb N (nlit N 0) (p_rad (pay s)) = false) ->
   bh_tree_fcompute N split ratio ett_nested_tree rate step n mass y f None = None).
Proof.
  intros T N split ratio rate step n mass y f t Hs H1 H2 Hy Hm Hf H0 E.
  destruct (@tree_fcompute_any T N split ratio rate step n mass y f None Hs H1 H2 Hy Hm Hf I)
    as (t' & f' & Et & _ & _ & _ & Ec & En & Ex).
  cbn [get_tree] in Et. rewrite E in Et. injection Et as <-. split; [|exact Ex].
  intros Hr. exists f'. auto.
Qed.
Print Assumptions C26_tree_nested_any.

(** over the reals: any ratio but 0 and no two bodies at one place, along whole runs *)
Theorem C26_tree_nested_run : forall mind ratio rate n mass calls,
  (1 <= n)%nat -> (n <= 2 ^ 63)%nat -> (n <= length mass)%nat ->
  (forall i, (i < n)%nat -> 0 < nth i mass 0) -> ratio <> 0 ->
  Forall (fun c => good_call n c /\
    forall a b, (a < n)%nat -> (b < n)%nat -> a <> b -> pos (bc_y c) n a <> pos (bc_y c) n b) calls ->
  exists fs, run_tree (Rops mind) ratio ett_cycle rate n mass calls None = Some fs /\
             run_tree (Rops mind) ratio ett_nested_tree rate n mass calls None = Some fs.
Proof. intros. apply tree_nested_run; auto. exact I. Qed.
Print Assumptions C26_tree_nested_run.

(** two bodies at one place (binary64): the nested traversal indexes with TREE_NO_BODY although the
    cycle works *)
Theorem C26_tree_nested_refuted : exists split n y mass f f' t,
  permuting split /\ (1 <= n)%nat /\ (6 * n <= length y)%nat /\ (n <= length mass)%nat /\ (6 * n <= length f)%nat /\
  bh_tree_fcompute Fops split (F_of_Z 10) ett_cycle 0 0 n mass y f None = Some (f', t) /\
  bh_tree_fcompute Fops split (F_of_Z 10) ett_nested_tree 0 0 n mass y f None = None.
Proof.
  exists ex_split, 2%nat, (repeat (F_of_Z 0) 12), (repeat (F_of_Z 1) 2), (repeat (F_of_Z 0) 12).
  do 2 eexists. split; [exact ex_permuting|]. split; [lia|]. split; [cbn; lia|]. split; [cbn; lia|].
  split; [cbn; lia|]. split; vm_compute; reflexivity.
Qed.
Print Assumptions C26_tree_nested_refuted.

Example C26_example : Forall (fun c => good_call 4 c /\
    forall a b, (a < 4)%nat -> (b < 4)%nat -> a <> b -> pos (bc_y c) 4 a <> pos (bc_y c) 4 b)
  [BCall 0 ex_split ex_y (repeat 0 24); BCall 1 ex_split ex_y (repeat 0 24)].
Proof.
  assert (H : forall a b, (a < 4)%nat -> (b < 4)%nat -> a <> b -> pos ex_y 4 a <> pos ex_y 4 b).
  { intros a b Ha Hb Hn Hp. apply (f_equal (@vx R)) in Hp. unfold pos, comp, ex_y in Hp. cbn [vx] in Hp.
    do 4 (destruct a as [|a]; [do 4 (destruct b as [|b]; [cbn in Hp; try lra; try lia|]); lia|]). lia. }
  repeat constructor; auto; try apply ex_permuting; cbn; lia.
Qed.

(** ** C59 *)

(** When every evaluation builds (rate 0), a heap left over from other data with the same number of
    bodies does not influence the result ... *)
Theorem C59_same_count : forall T (N : NumOps T) k trav split split0 ratio ratio0 tt step mass mass0 y y0 f h0,
  trav = heap_traverse N \/ trav = stackless_traverse N next_down -> (k <= 63)%nat ->
  permuting split -> permuting split0 -> (6 * 2 ^ k <= length y)%nat -> (2 ^ k <= length mass)%nat ->
  (6 * 2 ^ k <= length f)%nat -> (6 * 2 ^ k <= length y0)%nat -> (2 ^ k <= length mass0)%nat ->
  heap_build N split0 (2 ^ k) y0 mass0 ratio0 [] = Some h0 ->
  exists f' h1 h2,
    bh_heap_fcompute N trav split ratio tt 0 step (2 ^ k) mass y f h0 = Some (f', h1) /\
    bh_heap_fcompute N trav split ratio tt 0 step (2 ^ k) mass y f [] = Some (f', h2).
Proof.
  intros T N k trav split split0 ratio ratio0 tt step mass mass0 y y0 f h0 HT Hk. 
  apply leftover_same_count. intros h t v1 m1 Hl Hp Hr.
  destruct HT as [->| ->].
  - apply (heap_traverse_walk N h t v1 m1 Hl Hk Hp Hr).
  - apply (@stackless_traverse_walk T N next_down h t k v1 m1 Hl (next_down_spec _) Hp Hr).
Qed.
Print Assumptions C59_same_count.

(** ... but a heap left over from more bodies keeps old radii in cells that become leaves: the forces
    on the same four bodies differ from those of a new engine *)
Theorem C59_smaller_count_refuted : exists split y8 m8 h8 y m f f1 f2 h1 h2,
  permuting split /\
  heap_build Fops split 8 y8 m8 (F_of_Z 10) [] = Some h8 /\
  bh_heap_fcompute Fops (heap_traverse Fops) split (F_of_Z 10) ett_cycle 0 0 4 m y f h8 = Some (f1, h1) /\
  bh_heap_fcompute Fops (heap_traverse Fops) split (F_of_Z 10) ett_cycle 0 0 4 m y f [] = Some (f2, h2) /\
  f1 <> f2.
Proof.
  exists ex_split, (map F_of_Z (map Z.of_nat (seq 0 48))), (repeat (F_of_Z 1) 8).
  eexists. exists ex_Fy, ex_Fm, (repeat (F_of_Z 0) 24). do 4 eexists.
  split; [exact ex_permuting|]. split; [vm_compute; reflexivity|]. split; [vm_compute; reflexivity|].
  split; [vm_compute; reflexivity|]. discriminate.
Qed.
Print Assumptions C59_smaller_count_refuted.

Example C59_example : exists h0 f' h1 h2,
  heap_build Fops ex_split (2 ^ 2) (repeat (F_of_Z 3) 24) ex_Fm (F_of_Z 1) [] = Some h0 /\
  bh_heap_fcompute Fops (heap_traverse Fops) ex_split (F_of_Z 1) ett_nested_tree 0 5 (2 ^ 2) ex_Fm ex_Fy (repeat (F_of_Z 0) 24) h0 = Some (f', h1) /\
  bh_heap_fcompute Fops (heap_traverse Fops) ex_split (F_of_Z 1) ett_nested_tree 0 5 (2 ^ 2) ex_Fm ex_Fy (repeat (F_of_Z 0) 24) [] = Some (f', h2).
Proof. do 4 eexists. split; [vm_compute; reflexivity|]. split; vm_compute; reflexivity. Qed.
