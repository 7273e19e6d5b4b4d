(** Heap builds, rebuilds, leaf visits, and the bit tricks of [next_down]. *)
From Coq Require Import ZArith NArith List Arith Lia Permutation.
From Verif Require Import Num Arr ArrLemmas ModelVertex ModelForce ModelEngine ModelTree ModelHeap
  SpecTree SpecHeap LemEngine LemTree LemHeap.
Import ListNotations.
Set Implicit Arguments.

Section Build.
  Context {T : Type} (N : NumOps T).
  Notation tree := (tree (T := T)).
  Notation heap := (heap (T := T)).
  Implicit Types (t : tree) (h : heap).

  (** a heap object that was never built, or was built for the same number of bodies *)
  Definition heap_state (n : nat) (h : heap) : Prop := h = [] \/ heap_inv N (2 * n) h.

  Lemma heap_resize_inv n h : heap_state n h -> heap_inv N (2 * n) (heap_resize N (2 * n) h).
  Proof.
    intros H. unfold heap_resize. split; [|split].
    - rewrite map_length, app_length, firstn_length, repeat_length.
      destruct H as [->|(L & _)]; cbn [length]; lia.
    - intros j c Hj Hc. unfold rd in Hc. rewrite nth_error_map in Hc.
      destruct (nth_error (firstn (2 * n) h ++ repeat (cell0 N) (2 * n - length h)) j) as [c0|] eqn:E;
        [|discriminate]. injection Hc as <-. cbn [c_pay].
      destruct H as [->|(L & R & _)].
      + rewrite firstn_nil in E. cbn [app] in E. apply nth_error_In, repeat_spec in E. now subst.
      + rewrite L, Nat.sub_diag in E. cbn [repeat] in E. rewrite app_nil_r in E.
        rewrite firstn_all2 in E by lia. eapply R; eauto.
    - intros j c _ Hc. unfold rd in Hc. rewrite nth_error_map in Hc.
      destruct (nth_error (firstn (2 * n) h ++ repeat (cell0 N) (2 * n - length h)) j);
        [|discriminate]. now injection Hc as <-.
  Qed.

  Lemma heap_build_ok split k y mass ratio h0 t :
    permuting split -> heap_state (2 ^ k) h0 ->
    tree_build N split (2 ^ k) y mass ratio = Some t ->
    exists h, heap_build N split (2 ^ k) y mass ratio h0 = Some h /\
      heap_inv N (2 * 2 ^ k) h /\ repr h 1 t.
  Proof.
    intros Hs H0 Ht. unfold heap_build, tree_build in *.
    destruct (@build_p_ok T N (2 ^ k) y mass (nmul N ratio ratio) split Hs (2 * 2 ^ k)
      _ _ _ _ (heap_resize N (2 * 2 ^ k) h0) t k Ht) as (h & E & I & R & _).
    - apply seq_length.
    - apply inheap_root.
    - now apply heap_resize_inv.
    - exists h. auto.
  Qed.

  Lemma tree_build_ok split n y mass ratio :
    permuting split -> 1 <= n -> 6 * n <= length y -> n <= length mass ->
    exists t, tree_build N split n y mass ratio = Some t /\
      Permutation (bodies t) (seq 0 n) /\ tree_wf N n y mass (nmul N ratio ratio) t /\
      depth t = Nat.log2_up n /\ (forall k, n = 2 ^ k -> perfect k t).
  Proof.
    intros Hs Hn Hy Hm. unfold tree_build.
    destruct (@tbuild_ok T N n y mass (nmul N ratio ratio) split Hs Hy Hm (S n) 0 1 (seq 0 n))
      as (t & E & P & W & D & F).
    - rewrite seq_length. auto.
    - rewrite seq_length. auto.
    - intros b Hb. apply in_seq in Hb. lia.
    - rewrite seq_length in *. exists t. auto.
  Qed.

  Lemma tree_build_0 split y mass ratio :
    permuting split -> tree_build N split 0 y mass ratio = None.
  Proof. intros Hs. unfold tree_build. apply tbuild_nil. auto. Qed.

  Lemma heap_build_bound split n y mass ratio h0 h :
    permuting split -> length h0 <= 2 * n ->
    heap_build N split n y mass ratio h0 = Some h -> exists k, n = 2 ^ k.
  Proof.
    intros Hs H0 E. unfold heap_build in E. apply build_p_bound in E; auto.
    destruct E as (E1 & E2 & E3). rewrite seq_length in *.
    assert (length (heap_resize N (2 * n) h0) = 2 * n) as L.
    { unfold heap_resize. rewrite map_length, app_length, firstn_length, repeat_length. lia. }
    rewrite L in E3. unfold ROOT in E3. exists (Nat.log2_up n).
    destruct (Nat.eq_dec n 1) as [->|]; [reflexivity|].
    pose proof (Nat.log2_up_spec n ltac:(lia)). lia.
  Qed.

  (** ** Leaves *)

  Fixpoint leaves (t : tree) : list (payload (T := T) * nat) :=
    match t with Leaf p b => [(p, b)] | Node _ l r => leaves l ++ leaves r end.

  Lemma leaves_bodies t : map snd (leaves t) = bodies t.
  Proof. induction t; cbn [leaves bodies map]; auto. rewrite map_app. congruence. Qed.

  Lemma leaves_length t : forall d, perfect d t -> length (leaves t) = 2 ^ d.
  Proof.
    induction t as [p b|p l IHl r IHr]; intros [|d] H; try contradiction; auto.
    destruct H as [H1 H2]. cbn [leaves]. rewrite app_length, (IHl d), (IHr d) by auto.
    rewrite Nat.pow_succ_r'. lia.
  Qed.

  Lemma repr_leaves h t : forall d idx i p b,
    perfect d t -> repr h idx t -> nth_error (leaves t) i = Some (p, b) ->
    rd h (idx * 2 ^ d + i) = Some (Cell p (Some b)).
  Proof.
    induction t as [p0 b0|p0 l IHl r IHr]; intros [|d] idx i p b Hp Hr Hi; try contradiction.
    - cbn [leaves] in Hi. destruct i as [|i]; [|destruct i; discriminate].
      injection Hi as <- <-. cbn [Nat.pow]. rewrite Nat.mul_1_r, Nat.add_0_r. exact Hr.
    - destruct Hp as [P1 P2]. destruct Hr as (_ & R1 & R2). cbn [leaves] in Hi.
      pose proof (leaves_length _ _ P1) as HL. rewrite Nat.pow_succ_r'.
      destruct (Nat.lt_ge_cases i (2 ^ d)) as [L|L].
      + rewrite nth_error_app1 in Hi by lia. specialize (IHl d (2 * idx) i p b P1 R1 Hi).
        rewrite <- IHl. f_equal. nia.
      + rewrite nth_error_app2 in Hi by lia. specialize (IHr d (2 * idx + 1) _ p b P2 R2 Hi).
        rewrite <- IHr. f_equal. rewrite HL. nia.
  Qed.

  (** ** Visits *)

  Definition vfold {A} (visit : option nat -> payload (T := T) -> A -> option A)
    (l : list (payload * nat)) (st : A) : option A :=
    fold_left (fun st x => let* st := st in visit (Some (snd x)) (fst x) st) l (Some st).

  Lemma vfold_none {A} (visit : option nat -> payload (T := T) -> A -> option A) l :
    fold_left (fun st x => let* st := st in visit (Some (snd x)) (fst x) st) l None = None.
  Proof. induction l; auto. Qed.

  Lemma vfold_cons {A} (visit : option nat -> payload (T := T) -> A -> option A) p b l st :
    vfold visit ((p, b) :: l) st = let* st := visit (Some b) p st in vfold visit l st.
  Proof.
    unfold vfold. cbn [fold_left obind fst snd]. destruct (visit (Some b) p st); auto.
    apply vfold_none.
  Qed.

  Lemma vfold_app {A} (visit : option nat -> payload (T := T) -> A -> option A) l1 l2 st :
    vfold visit (l1 ++ l2) st = let* st := vfold visit l1 st in vfold visit l2 st.
  Proof.
    unfold vfold. rewrite fold_left_app. destruct (fold_left _ l1 (Some st)); auto. apply vfold_none.
  Qed.

  Lemma for_vfold {A} (visit : option nat -> payload (T := T) -> A -> option A) h l : forall i st,
    (forall q p b, nth_error l q = Some (p, b) -> rd h (i + q) = Some (Cell p (Some b))) ->
    for_ (length l) i (fun idx st => let* c := rd h idx in visit (c_body c) (c_pay c) st) st =
    vfold visit l st.
  Proof.
    induction l as [|[p b] l IH]; intros i st H; [reflexivity|].
    cbn [length for_]. specialize (H 0 p b eq_refl) as H0. rewrite Nat.add_0_r in H0.
    rewrite H0. cbn [obind c_body c_pay]. rewrite vfold_cons.
    destruct (visit (Some b) p st) as [st'|]; auto. cbn [obind]. apply IH.
    intros q p' b' Hq. replace (S i + q) with (i + S q) by lia. apply H. exact Hq.
  Qed.

  Lemma heap_visit_leaves {A} (visit : option nat -> payload (T := T) -> A -> option A) h t k st :
    length h = 2 * 2 ^ k -> perfect k t -> repr h 1 t ->
    heap_visit visit h st = vfold visit (leaves t) st.
  Proof.
    intros Hl Hp Hr. unfold heap_visit. rewrite Hl, half_even.
    replace (2 * 2 ^ k - 2 ^ k) with (length (leaves t)) by (rewrite (leaves_length _ _ Hp); lia).
    apply for_vfold. intros q p b Hq.
    rewrite <- (@repr_leaves h t k 1 q p b); auto. f_equal. lia.
  Qed.

  (** ** Rebuilding *)

  Variables (count : nat) (y : list T) (ratio_sqr : T).

  (** [h'] agrees with a bottom-up pass over [h] on the cells [lo] and above *)
  Definition leaf_done (h0 h : heap) (j : nat) : Prop :=
    exists c b v, rd h0 j = Some c /\ c_body c = Some b /\ rd3 y count 0 b = Some v /\
      rd h j = Some (Cell (Pay v (p_mass (c_pay c)) (p_rad (c_pay c)) v v) (c_body c)).
  Definition inner_done (h0 h : heap) (j : nat) : Prop :=
    exists c l r, rd h0 j = Some c /\ rd h (2 * j) = Some l /\ rd h (2 * j + 1) = Some r /\
      rd h j = Some (Cell (merge N ratio_sqr (c_pay l) (c_pay r)) (c_body c)).

  Lemma rebuild_leaves h0 :
    length h0 = 2 * count ->
    (forall j, count <= j < 2 * count -> exists c b v,
       rd h0 j = Some c /\ c_body c = Some b /\ rd3 y count 0 b = Some v) ->
    exists h, for_ count 0 (rebuild_leaf count y) h0 = Some h /\ length h = 2 * count /\
      (forall j, j < count -> rd h j = rd h0 j) /\
      (forall j, count <= j < 2 * count -> leaf_done h0 h j).
  Proof.
    intros Hl Hb.
    destruct (@for_inv _ (fun k h => length h = 2 * count /\
      (forall j, j < count \/ count + k <= j -> rd h j = rd h0 j) /\
      (forall j, count <= j < count + k -> leaf_done h0 h j)) count 0 (rebuild_leaf count y) h0)
      as (h & E & L & F & D).
    - split; auto. split; auto. intros; lia.
    - intros k h Hk (L & F & D). unfold rebuild_leaf.
      destruct (Hb (count + k) ltac:(lia)) as (c & b & v & H1 & H2 & H3).
      rewrite F, H1 by lia. cbn [obind]. rewrite H2. cbn [obind]. rewrite H3. cbn [obind].
      rewrite wr_ok by lia. eexists. split; [reflexivity|].
      split; [now rewrite upd_length|]. split.
      + intros j Hj. rewrite rd_upd by lia. destruct (Nat.eqb_spec j (count + k)); [lia|].
        apply F. lia.
      + intros j Hj. destruct (Nat.eq_dec j (count + k)) as [->|].
        * exists c, b, v. repeat split; auto. rewrite rd_upd by lia.
          rewrite Nat.eqb_refl, H2. reflexivity.
        * destruct (D j ltac:(lia)) as (c' & b' & v' & G1 & G2 & G3 & G4).
          exists c', b', v'. repeat split; auto. rewrite rd_upd by lia.
          destruct (Nat.eqb_spec j (count + k)); [lia|auto].
    - exists h. split; auto. split; auto. split; [intros; apply F; lia|].
      intros j Hj. apply D. lia.
  Qed.

  Lemma rebuild_levels_ok k : forall h0 h fuel size,
    2 ^ S k <= size -> k < fuel -> length h = size -> length h0 = size ->
    (forall j, j < 2 ^ k -> rd h j = rd h0 j) ->
    exists h', rebuild_levels N ratio_sqr fuel (2 ^ k) h = Some h' /\ length h' = size /\
      (forall j, 2 ^ k <= j -> rd h' j = rd h j) /\
      (forall j, 1 <= j < 2 ^ k -> inner_done h0 h' j).
  Proof.
    induction k as [|k IH]; intros h0 h fuel size Hsz Hf Hl Hl0 Hsame.
    - cbn [Nat.pow] in Hsz. destruct fuel as [|fuel]; [lia|]. change (2 ^ 0) with 1 in *.
      cbn [rebuild_levels]. change (1 / 2) with 0. change (1 - 0) with 1. cbn [for_].
      unfold heap_update, left_idx, rght_idx. cbn [Nat.mul Nat.add].
      destruct (@rd_some _ h 0) as [c0 E0]; [lia|]. destruct (@rd_some _ h 1) as [c1 E1]; [lia|].
      rewrite E0, E1. cbn [obind]. rewrite wr_ok by lia.
      cbn [obind]. destruct fuel; cbn [rebuild_levels]; (eexists; split; [reflexivity|]);
        (split; [rewrite upd_length; auto|]); split; try (intros; lia);
        intros j Hj; rewrite rd_upd by lia; destruct (Nat.eqb_spec j 0); auto; lia.
    - destruct fuel as [|fuel]; [lia|].
      pose proof (pow2_ge1 k) as Hp.
      assert (Hhalf : 2 ^ S k / 2 = 2 ^ k) by (rewrite Nat.pow_succ_r'; apply half_even).
      rewrite (Nat.pow_succ_r' 2 (S k)) in Hsz. rewrite Nat.pow_succ_r' in Hsz, Hsame.
      assert (Hne : exists m, 2 ^ S k = S m) by (exists (2 ^ S k - 1); rewrite Nat.pow_succ_r'; lia).
      destruct Hne as [m Hm].
      assert (Eu : rebuild_levels N ratio_sqr (S fuel) (2 ^ S k) h =
        let* h := for_ (2 ^ k) (2 ^ k)
          (fun idx h => heap_update N ratio_sqr idx (left_idx idx) (rght_idx idx) h) h in
        rebuild_levels N ratio_sqr fuel (2 ^ k) h).
      { rewrite Hm at 1. cbn [rebuild_levels]. rewrite <- Hm, Hhalf.
        replace (2 ^ S k - 2 ^ k) with (2 ^ k) by (rewrite Nat.pow_succ_r'; lia). reflexivity. }
      rewrite Eu.
      destruct (@for_inv heap (fun i g => length g = size /\
        (forall j, j < 2 ^ k \/ i <= j -> rd g j = rd h j) /\
        (forall j, 2 ^ k <= j < i -> inner_done h0 g j)) (2 ^ k) (2 ^ k)
        (fun idx h => heap_update N ratio_sqr idx (left_idx idx) (rght_idx idx) h) h)
        as (h1 & E1 & L1 & F1 & D1).
      + split; auto. split; auto. intros; lia.
      + intros i g Hi (L & F & D). unfold heap_update, left_idx, rght_idx.
        destruct (@rd_some _ g (2 * i)) as [l El]; [lia|].
        destruct (@rd_some _ g (2 * i + 1)) as [r Er]; [lia|].
        destruct (@rd_some _ g i) as [c Ec]; [lia|].
        rewrite El, Er, Ec. cbn [obind]. rewrite wr_ok by lia. eexists. split; [reflexivity|].
        split; [now rewrite upd_length|]. split.
        * intros j Hj. rewrite rd_upd by lia. destruct (Nat.eqb_spec j i); [lia|]. apply F. lia.
        * intros j Hj. destruct (Nat.eq_dec j i) as [->|].
          -- exists c, l, r. rewrite !rd_upd by lia.
             destruct (Nat.eqb_spec (2 * i) i); [lia|]. destruct (Nat.eqb_spec (2 * i + 1) i); [lia|].
             rewrite Nat.eqb_refl. repeat split; auto.
             rewrite <- Hsame by lia. rewrite <- F; auto.
          -- destruct (D j ltac:(lia)) as (c' & l' & r' & G1 & G2 & G3 & G4).
             exists c', l', r'. rewrite !rd_upd by lia.
             destruct (Nat.eqb_spec (2 * j) i); [lia|]. destruct (Nat.eqb_spec (2 * j + 1) i); [lia|].
             destruct (Nat.eqb_spec j i); [lia|]. auto.
      + rewrite E1. cbn [obind].
        destruct (IH h0 h1 fuel size) as (h' & E' & L' & F' & D'); auto; try (rewrite ?Nat.pow_succ_r'; lia).
        { intros j Hj. rewrite F1 by lia. apply Hsame. lia. }
        exists h'. split; auto. split; auto. split.
        * intros j Hj. rewrite Nat.pow_succ_r' in Hj. rewrite F' by lia. apply F1. lia.
        * intros j Hj. destruct (Nat.lt_ge_cases j (2 ^ k)) as [Hlt|Hge]; [apply D'; lia|].
          rewrite Nat.pow_succ_r' in Hj.
          destruct (D1 j ltac:(lia)) as (c' & l' & r' & G1 & G2 & G3 & G4).
          exists c', l', r'. rewrite !F' by lia. auto.
  Qed.

  Lemma repr_rebuilt h0 h t : forall d idx size,
    perfect d t -> repr h0 idx t -> inheap size d idx ->
    (forall j, j < size -> size <= 2 * j -> leaf_done h0 h j) ->
    (forall j, 1 <= j -> 2 * j < size -> inner_done h0 h j) ->
    exists t', trebuild N count y ratio_sqr t = Some t' /\ perfect d t' /\ repr h idx t'.
  Proof.
    induction t as [p b|p l IHl r IHr]; intros [|d] idx size Hp Hr Hin HL HI; try contradiction.
    - destruct (HL idx) as (c & b' & v & G1 & G2 & G3 & G4);
        [now apply inheap_lt in Hin|now apply inheap_leaf|].
      cbn [repr] in Hr. rewrite Hr in G1. injection G1 as <-. cbn [c_body c_pay] in *.
      injection G2 as <-. cbn [trebuild]. rewrite G3. cbn [obind].
      eexists. split; [reflexivity|]. split; [exact I|]. cbn [repr]. exact G4.
    - destruct Hp as [P1 P2]. destruct Hr as (R0 & R1 & R2).
      destruct (IHl d (2 * idx) size) as (l' & El & Pl & Rl); auto; [now apply inheap_left|].
      destruct (IHr d (2 * idx + 1) size) as (r' & Er & Pr & Rr); auto; [now apply inheap_right|].
      destruct (HI idx) as (c & cl & cr & G1 & G2 & G3 & G4);
        [apply Hin|apply inheap_inner in Hin; lia|].
      cbn [trebuild]. rewrite El. cbn [obind]. rewrite Er. cbn [obind].
      eexists. split; [reflexivity|]. split; [split; auto|]. cbn [repr].
      rewrite R0 in G1. injection G1 as <-. cbn [c_body] in G4.
      rewrite (repr_pay _ _ _ Rl) in G2. injection G2 as <-.
      rewrite (repr_pay _ _ _ Rr) in G3. injection G3 as <-. cbn [c_pay] in G4. auto.
  Qed.
End Build.

Lemma pow_gt_lin k : k < 2 ^ k.
Proof. apply Nat.pow_gt_lin_r. lia. Qed.

Section Rebuild.
  Context {T : Type} (N : NumOps T).

  Lemma heap_rebuild_ok k y ratio h t :
    heap_inv N (2 * 2 ^ k) h -> perfect k t -> repr h 1 t ->
    6 * 2 ^ k <= length y -> (forall b, In b (bodies t) -> b < 2 ^ k) ->
    exists h' t', heap_rebuild N (2 ^ k) y ratio h = Some h' /\
      tree_rebuild N (2 ^ k) y ratio t = Some t' /\
      heap_inv N (2 * 2 ^ k) h' /\ perfect k t' /\ repr h' 1 t'.
  Proof.
    intros (L & R & B) Hp Hr Hy Hb. unfold heap_rebuild, tree_rebuild.
    assert (Hbody : forall j, 2 ^ k <= j < 2 * 2 ^ k -> exists c b v,
       rd h j = Some c /\ c_body c = Some b /\ rd3 y (2 ^ k) 0 b = Some v).
    { intros j Hj. destruct (nth_error (leaves t) (j - 2 ^ k)) as [[p b]|] eqn:E.
      - pose proof (@repr_leaves T h t k 1 _ p b Hp Hr E) as Hc.
        replace (1 * 2 ^ k + (j - 2 ^ k)) with j in Hc by lia.
        exists (Cell p (Some b)), b, (cv N y (2 ^ k) 0 b). repeat split; auto.
        apply rd3_cv; try lia. apply Hb. rewrite <- leaves_bodies.
        apply nth_error_In in E. change b with (snd (p, b)). now apply in_map.
      - apply nth_error_None in E. rewrite (leaves_length _ _ Hp) in E. lia. }
    destruct (@rebuild_leaves T (2 ^ k) y h L Hbody) as (h1 & E1 & L1 & F1 & D1).
    rewrite E1. cbn [obind].
    destruct (@rebuild_levels_ok T N (nmul N ratio ratio) k h h1 (2 ^ k) (2 * 2 ^ k))
      as (h' & E' & L' & F' & D'); auto.
    { apply pow_gt_lin. }
    rewrite E'.
    assert (HL : forall j, j < 2 * 2 ^ k -> 2 * 2 ^ k <= 2 * j -> leaf_done (2 ^ k) y h h' j).
    { intros j H1 H2. destruct (D1 j ltac:(lia)) as (c & b & v & G1 & G2 & G3 & G4).
      exists c, b, v. repeat split; auto. rewrite F' by lia. exact G4. }
    destruct (@repr_rebuilt T N (2 ^ k) y (nmul N ratio ratio) h h' t k 1 (2 * 2 ^ k))
      as (t' & Et & Pt & Rt); auto.
    { apply inheap_root. } { intros j H1 H2. apply D'. lia. }
    exists h', t'. split; auto. split; auto. split; [|auto].
    split; auto. split.
    - intros j c Hj Hc. pose proof (rd_bound _ _ Hc).
      destruct (HL j ltac:(lia) Hj) as (c0 & b & v & G1 & G2 & G3 & G4).
      rewrite Hc in G4. injection G4 as ->. cbn [c_pay p_rad]. eapply R; eauto.
    - intros j c Hj Hc. destruct j as [|j].
      + (* cell 0 keeps its (empty) body number *)
        revert E' Hc. clear - B F1 L L1 D1.
        intros E' Hc.
        enough (G : forall kk hh hh2 fuel, rebuild_levels N (nmul N ratio ratio) fuel (2 ^ kk) hh = Some hh2 ->
          option_map (@c_body T) (rd hh2 0) = option_map (@c_body T) (rd hh 0)).
        { apply G in E'. rewrite F1 in E' by (pose proof (pow2_ge1 k); lia). rewrite Hc in E'.
          destruct (rd h 0) as [c0|] eqn:E0; [|discriminate]. injection E' as ->.
          eapply B; [|exact E0]. pose proof (pow2_ge1 k). lia. }
        assert (U : forall i l r g g', heap_update N (nmul N ratio ratio) i l r g = Some g' ->
          option_map (@c_body T) (rd g' 0) = option_map (@c_body T) (rd g 0)).
        { intros i l r g g' H. unfold heap_update in H. destruct (rd g l); [|discriminate]. cbn [obind] in H.
          destruct (rd g r); [|discriminate]. cbn [obind] in H.
          destruct (rd g i) eqn:Ei; [|discriminate]. cbn [obind] in H.
          apply wr_some_inv in H. destruct H as [Hi ->]. rewrite rd_upd by auto.
          destruct (Nat.eqb_spec 0 i) as [<-|]; auto. rewrite Ei. reflexivity. }
        assert (UL : forall m i g g', for_ m i (fun idx h => heap_update N (nmul N ratio ratio) idx (left_idx idx) (rght_idx idx) h) g = Some g' ->
          option_map (@c_body T) (rd g' 0) = option_map (@c_body T) (rd g 0)).
        { induction m as [|m IH]; intros i g g' H; cbn [for_] in H; [now injection H as ->|].
          destruct (heap_update N (nmul N ratio ratio) i (left_idx i) (rght_idx i) g) eqn:Eu; [|discriminate].
          apply IH in H. apply U in Eu. congruence. }
        intros kk hh hh2 fuel. revert hh. generalize (2 ^ kk). clear kk.
        induction fuel as [|fuel IH]; intros m hh H; destruct m as [|m]; cbn [rebuild_levels] in H;
          try (now injection H as ->); try discriminate.
        destruct (for_ _ _ _ hh) as [h3|] eqn:E3; [|discriminate]. cbn [obind] in H.
        apply IH in H. apply UL in E3. congruence.
      + destruct (D' (S j) ltac:(lia)) as (c0 & l & r & G1 & G2 & G3 & G4).
        rewrite Hc in G4. injection G4 as ->. cbn [c_body]. eapply B; eauto.
  Qed.

  (** a rebuild is a build with the same leaf assignment *)
  Lemma trebuild_tbuild count y0 y mass ratio_sqr split : 6 * count <= length y ->
    forall fuel dim idx inds t,
    tbuild N split count y0 mass ratio_sqr fuel dim idx inds = Some t ->
    (forall b, In b (bodies t) -> b < count) ->
    trebuild N count y ratio_sqr t = tbuild N split count y mass ratio_sqr fuel dim idx inds /\
    exists t', trebuild N count y ratio_sqr t = Some t' /\ bodies t' = bodies t.
  Proof.
    intros Hy. induction fuel as [|fuel IH]; intros dim idx inds t; [discriminate|].
    cbn [tbuild]. destruct (Nat.eqb (length inds) 1).
    - destruct (rd inds 0) as [b|]; [|discriminate]. cbn [obind]. unfold leaf_payload.
      destruct (rd3 y0 count 0 b) as [c|]; [|discriminate]. cbn [obind].
      destruct (rd mass b) as [m|]; [|discriminate]. cbn [obind].
      intros [= <-] Hb. cbn [trebuild p_mass p_rad bodies]. cbn [bodies] in Hb.
      rewrite (rd3_cv N) by (try lia; apply Hb; left; auto). cbn [obind].
      split; auto. eexists. split; [reflexivity|reflexivity].
    - destruct (tbuild N split count y0 mass ratio_sqr fuel _ (2 * idx) _) as [l|] eqn:El; [|discriminate].
      cbn [obind].
      destruct (tbuild N split count y0 mass ratio_sqr fuel _ (2 * idx + 1) _) as [r|] eqn:Er; [|discriminate].
      cbn [obind]. intros [= <-] Hb. cbn [bodies] in Hb.
      destruct (IH _ _ _ _ El) as [E1 (l' & L1 & L2)]; [intros b Hin; apply Hb; apply in_or_app; auto|].
      destruct (IH _ _ _ _ Er) as [E2 (r' & R1 & R2)]; [intros b Hin; apply Hb; apply in_or_app; auto|].
      cbn [trebuild]. rewrite <- E1, <- E2, L1, R1. cbn [obind]. split; auto.
      eexists. split; [reflexivity|]. cbn [bodies]. congruence.
  Qed.
End Rebuild.
