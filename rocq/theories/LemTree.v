(** The pointer tree: what it contains, how it is walked. *)
From Coq Require Import ZArith List Arith Lia Permutation.
From Verif Require Import Num Arr ArrLemmas ModelVertex ModelForce ModelEngine ModelTree SpecTree
  LemEngine.
Import ListNotations.
Set Implicit Arguments.

Lemma half_lt n : 2 <= n -> 1 <= n / 2 /\ n / 2 <= n - n / 2 /\ n - n / 2 < n.
Proof.
  intros H. pose proof (Nat.div_mod n 2 ltac:(lia)). pose proof (Nat.mod_upper_bound n 2 ltac:(lia)).
  lia.
Qed.

Lemma log2_up_half n : 2 <= n -> Nat.log2_up n = S (Nat.log2_up (n - n / 2)).
Proof.
  intros H. destruct (half_lt H) as (H1 & H2 & H3).
  pose proof (Nat.div_mod n 2 ltac:(lia)). pose proof (Nat.mod_upper_bound n 2 ltac:(lia)).
  set (c := n - n / 2) in *.
  destruct (Nat.eq_dec c 1) as [E|E].
  - assert (n = 2) as -> by lia. rewrite E. reflexivity.
  - pose proof (Nat.log2_up_spec c ltac:(lia)) as [L U].
    apply Nat.log2_up_unique; [lia|].
    assert (1 <= Nat.log2_up c) by (pose proof (Nat.log2_up_pos c ltac:(lia)); lia).
    cbn [Nat.pred]. destruct (Nat.log2_up c) as [|q]; [lia|].
    cbn [Nat.pred] in L. rewrite !Nat.pow_succ_r' in *. lia.
Qed.

Section Gen.
  Context {T : Type} (N : NumOps T).
  Notation tree := (tree (T := T)).

  Fixpoint depth (t : tree) : nat :=
    match t with Leaf _ _ => 0 | Node _ l r => S (Nat.max (depth l) (depth r)) end.

  Fixpoint perfect (d : nat) (t : tree) : Prop :=
    match t, d with
    | Leaf _ _, 0 => True
    | Node _ l r, S d => perfect d l /\ perfect d r
    | _, _ => False
    end.

  Lemma tree_nodes_pos (t : tree) : 1 <= tree_nodes t.
  Proof. destruct t; simpl; lia. Qed.

  (** ** The recursive walk and the stack machine *)

  Section Walk.
    Context {A : Type} (visit : payload (T := T) -> A -> A * bool).

    Fixpoint walk (t : tree) (st : A) : A :=
      let (st, accepted) := visit (pay t) st in
      if accepted then st
      else match t with Leaf _ _ => st | Node _ l r => walk r (walk l st) end.

    Lemma stack_loop_walk t : forall stack st,
      length stack + depth t <= 63 ->
      exists k, k <= tree_nodes t /\
        forall fuel, stack_loop visit (k + fuel) (t :: stack) st = stack_loop visit fuel stack (walk t st).
    Proof.
      induction t as [p b|p l IHl r IHr]; intros stack st Hd.
      - exists 1. split; [simpl; lia|]. intros fuel. cbn [stack_loop walk Nat.add pay].
        destruct (visit p st) as [st' [|]]; reflexivity.
      - destruct (visit p st) as [st' [|]] eqn:E.
        + exists 1. split; [simpl; lia|]. intros fuel. cbn [stack_loop walk Nat.add pay].
          rewrite E. reflexivity.
        + cbn [depth] in Hd.
          destruct (IHl (r :: stack) st') as (k1 & H1 & E1); [cbn [length]; lia|].
          destruct (IHr stack (walk l st')) as (k2 & H2 & E2); [lia|].
          exists (1 + (k1 + k2)). split; [cbn [tree_nodes]; lia|].
          intros fuel. cbn [stack_loop walk Nat.add pay]. rewrite E.
          unfold push, MAX_STACK_SIZE.
          assert ((length stack <? 64) = true) as -> by (apply Nat.ltb_lt; lia). cbn [obind].
          assert ((length (r :: stack) <? 64) = true) as -> by (apply Nat.ltb_lt; cbn [length]; lia).
          cbn [obind]. replace (k1 + k2 + fuel) with (k1 + (k2 + fuel)) by lia.
          rewrite E1. apply E2.
    Qed.

    Lemma stack_loop_top t st :
      depth t <= 63 -> stack_loop visit (tree_nodes t) [t] st = Some (walk t st).
    Proof.
      intros Hd. destruct (@stack_loop_walk t [] st Hd) as (k & Hk & E).
      replace (tree_nodes t) with (k + (tree_nodes t - k)) by lia. rewrite E.
      destruct (tree_nodes t - k); reflexivity.
    Qed.
  End Walk.

  (** accepted nodes, in the order of the walk *)
  Fixpoint accepted (acc : payload (T := T) -> bool) (t : tree) : list tree :=
    if acc (pay t) then [t]
    else match t with Leaf _ _ => [] | Node _ l r => accepted acc l ++ accepted acc r end.

  Lemma accepted_sub acc t s : In s (accepted acc t) -> subtree s t /\ acc (pay s) = true.
  Proof.
    induction t as [p b|p l IHl r IHr]; cbn [accepted pay].
    - destruct (acc p) eqn:E; [|contradiction]. intros [<-|[]]. split; [constructor|auto].
    - destruct (acc p) eqn:E.
      + intros [<-|[]]. split; [constructor|auto].
      + intros H. apply in_app_or in H. destruct H as [H|H].
        * destruct (IHl H). split; auto. now apply sub_left.
        * destruct (IHr H). split; auto. now apply sub_right.
  Qed.

  Definition cluster_force (v1 : vec3 T) (m1 : T) (F : vec3 T) (s : tree) : vec3 T :=
    vadd N F (force N v1 (p_center (pay s)) m1 (p_mass (pay s))).

  Lemma walk_accepted v1 m1 t F :
    walk (bh_visit N v1 m1) t F = fold_left (cluster_force v1 m1) (accepted (bh_accept N v1) t) F.
  Proof.
    revert F. induction t as [p b|p l IHl r IHr]; intros F; cbn [walk accepted pay]; unfold bh_visit at 1.
    - destruct (bh_accept N v1 p) eqn:E; reflexivity.
    - destruct (bh_accept N v1 p) eqn:E; [reflexivity|].
      rewrite IHl, IHr, fold_left_app. reflexivity.
  Qed.

  Lemma tree_traverse_accepted t v1 m1 :
    depth t <= 63 ->
    tree_traverse N t v1 m1 =
      Some (fold_left (cluster_force v1 m1) (accepted (bh_accept N v1) t) (vzero N)).
  Proof.
    intros Hd. unfold tree_traverse. cbn [obind push length Nat.ltb Nat.leb MAX_STACK_SIZE].
    unfold push. cbn [length]. cbn [Nat.ltb Nat.leb MAX_STACK_SIZE obind].
    rewrite stack_loop_top by auto. now rewrite walk_accepted.
  Qed.

  (** ** Building *)

  Variables (count : nat) (y mass : list T) (ratio_sqr : T).

  (** every payload is the one the code computes from the leaves *)
  Fixpoint tree_wf (t : tree) : Prop :=
    match t with
    | Leaf p b => leaf_payload N count y mass b = Some p
    | Node p l r => p = merge N ratio_sqr (pay l) (pay r) /\ tree_wf l /\ tree_wf r
    end.

  Variable split : nat -> nat -> list nat -> list nat.
  Hypothesis Hsplit : permuting split.

  Lemma tbuild_nil fuel dim idx : tbuild N split count y mass ratio_sqr fuel dim idx [] = None.
  Proof.
    revert dim idx. induction fuel as [|fuel IH]; intros dim idx; auto.
    cbn [tbuild length Nat.eqb].
    assert (split idx dim [] = []) as ->.
    { apply Permutation_nil. symmetry. apply Hsplit. }
    rewrite firstn_nil, IH. reflexivity.
  Qed.

  Lemma leaf_payload_ok b : b < count -> 6 * count <= length y -> count <= length mass ->
    leaf_payload N count y mass b =
      Some (Pay (cv N y count 0 b) (nth b mass (nlit N 0)) (nlit N 0)
              (cv N y count 0 b) (cv N y count 0 b)).
  Proof.
    intros Hb Hy Hm. unfold leaf_payload. rewrite (rd3_cv N) by lia. cbn [obind].
    rewrite (rd_nth mass (nlit N 0)) by lia. reflexivity.
  Qed.

  Lemma tbuild_ok : 6 * count <= length y -> count <= length mass ->
    forall fuel dim idx inds,
    1 <= length inds -> length inds <= fuel -> (forall b, In b inds -> b < count) ->
    exists t, tbuild N split count y mass ratio_sqr fuel dim idx inds = Some t /\
      Permutation (bodies t) inds /\ tree_wf t /\ depth t = Nat.log2_up (length inds) /\
      (forall d, length inds = 2 ^ d -> perfect d t).
  Proof.
    intros Hy Hm. induction fuel as [|fuel IH]; intros dim idx inds H1 Hf Hb; [lia|].
    cbn [tbuild]. destruct (Nat.eqb_spec (length inds) 1) as [E|E].
    - destruct inds as [|b [|b2 inds]]; cbn [length] in E; try lia.
      cbn [rd nth_error obind]. rewrite leaf_payload_ok by (auto; apply Hb; left; auto).
      cbn [obind]. eexists. split; [reflexivity|]. split; [apply Permutation_refl|].
      split; [apply leaf_payload_ok; auto; apply Hb; left; auto|]. split; [reflexivity|].
      intros d Hd. destruct d as [|d]; [exact I|]. cbn [length] in Hd.
      pose proof (Nat.pow_nonzero 2 d ltac:(lia)). rewrite Nat.pow_succ_r' in Hd. lia.
    - destruct (@half_lt (length inds) ltac:(lia)) as (A1 & A2 & A3).
      pose proof (Hsplit idx dim inds) as HP. pose proof (Permutation_length HP) as HL.
      set (s := split idx dim inds) in *.
      assert (Hs : forall b, In b s -> b < count).
      { intros b Hin. apply Hb. eapply Permutation_in; eauto. }
      destruct (IH ((dim + 1) mod SPACE_DIMENSIONS) (2 * idx) (firstn (length inds / 2) s))
        as (l & El & Pl & Wl & Dl & Fl).
      { rewrite firstn_length. lia. } { rewrite firstn_length. lia. }
      { intros b Hin. apply Hs. rewrite <- (firstn_skipn (length inds / 2) s). apply in_or_app. now left. }
      destruct (IH ((dim + 1) mod SPACE_DIMENSIONS) (2 * idx + 1) (skipn (length inds / 2) s))
        as (r & Er & Pr & Wr & Dr & Fr).
      { rewrite skipn_length. lia. } { rewrite skipn_length. lia. }
      { intros b Hin. apply Hs. rewrite <- (firstn_skipn (length inds / 2) s). apply in_or_app. now right. }
      rewrite El. cbn [obind]. rewrite Er. cbn [obind].
      eexists. split; [reflexivity|]. split.
      { cbn [bodies]. rewrite <- HP. rewrite <- (firstn_skipn (length inds / 2) s).
        now apply Permutation_app. }
      split; [cbn [tree_wf]; auto|]. rewrite firstn_length in *. rewrite skipn_length in *.
      rewrite HL in *. rewrite Nat.min_l in * by lia. split.
      + cbn [depth]. rewrite Dl, Dr, (@log2_up_half (length inds)) by lia.
        f_equal. apply Nat.max_r. apply Nat.log2_up_le_mono. lia.
      + intros d Hd. destruct d as [|d]; [cbn in Hd; lia|].
        rewrite Nat.pow_succ_r' in Hd.
        assert (length inds / 2 = 2 ^ d) as Hh by (rewrite Hd, Nat.mul_comm; apply Nat.div_mul; lia).
        cbn [perfect]. split; [apply Fl|apply Fr]; lia.
  Qed.
End Gen.
