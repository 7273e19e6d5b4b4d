(** The heap layouts: building, rebuilding and walking a heap of 2*2^k cells is the same as for the
    pointer tree. *)
From Coq Require Import ZArith NArith List Arith Lia Permutation.
From Verif Require Import Num Arr ArrLemmas ModelVertex ModelForce ModelEngine ModelTree ModelHeap
  SpecTree SpecHeap LemEngine LemTree.
Import ListNotations.
Set Implicit Arguments.

(** ** Indices *)

(** cell [j] lies in the subtree of cell [i] *)
Definition desc (i j : nat) : Prop := exists e, j / 2 ^ e = i.

Lemma desc_refl i : desc i i.
Proof. exists 0. now rewrite Nat.div_1_r. Qed.

Lemma div2_le n : n / 2 <= n.
Proof. apply Nat.div_le_upper_bound; lia. Qed.

Lemma desc_child i j c : desc c j -> c / 2 = i -> desc i j.
Proof.
  intros [e E] H. exists (S e). rewrite Nat.pow_succ_r'.
  rewrite (Nat.mul_comm 2), <- Nat.div_div by (try apply Nat.pow_nonzero; lia).
  now rewrite E.
Qed.

Lemma half_even i : (2 * i) / 2 = i.
Proof. rewrite Nat.mul_comm. apply Nat.div_mul. lia. Qed.
Lemma half_odd i : (2 * i + 1) / 2 = i.
Proof. rewrite Nat.mul_comm, Nat.add_comm, Nat.div_add by lia. reflexivity. Qed.

Lemma desc_left i j : desc (2 * i) j -> desc i j.
Proof. intros H. eapply desc_child; eauto. apply half_even. Qed.
Lemma desc_right i j : desc (2 * i + 1) j -> desc i j.
Proof. intros H. eapply desc_child; eauto. apply half_odd. Qed.

Lemma pow2_ge1 e : 1 <= 2 ^ e.
Proof. pose proof (Nat.pow_nonzero 2 e ltac:(lia)). lia. Qed.

Lemma div_pow_le a e : a / 2 ^ e <= a.
Proof. apply Nat.div_le_upper_bound; pose proof (pow2_ge1 e); nia. Qed.

Lemma div_pow_half a e : a / 2 ^ S e <= a / 2.
Proof.
  rewrite Nat.pow_succ_r', <- Nat.div_div by (try apply Nat.pow_nonzero; lia).
  apply div_pow_le.
Qed.

Lemma desc_ge i j : desc i j -> i <= j.
Proof. intros [e <-]. apply div_pow_le. Qed.

Lemma desc_disj i j : 1 <= i -> desc (2 * i) j -> desc (2 * i + 1) j -> False.
Proof.
  intros Hi [e1 E1] [e2 E2].
  assert (G : forall a b, j / 2 ^ (a + b) = j / 2 ^ a / 2 ^ b).
  { intros a b. rewrite Nat.pow_add_r, Nat.div_div by (apply Nat.pow_nonzero; lia). reflexivity. }
  destruct (Nat.le_gt_cases e1 e2) as [L|L].
  - replace e2 with (e1 + (e2 - e1)) in E2 by lia. rewrite G, E1 in E2.
    destruct (e2 - e1) as [|c].
    + cbn [Nat.pow] in E2. rewrite Nat.div_1_r in E2. lia.
    + pose proof (div_pow_half (2 * i) c). rewrite half_even in *. lia.
  - replace e1 with (e2 + (e1 - e2)) in E1 by lia. rewrite G, E2 in E1.
    destruct (e1 - e2) as [|c] eqn:Ec; [lia|].
    pose proof (div_pow_half (2 * i + 1) c). rewrite half_odd in *. lia.
Qed.

(** cell [idx] heads a perfect subtree of height [d] in a heap of [size] cells *)
Definition inheap (size d idx : nat) : Prop :=
  1 <= idx /\ size <= 2 * (idx * 2 ^ d) /\ (idx + 1) * 2 ^ d <= size.

Lemma inheap_root k : inheap (2 * 2 ^ k) k 1.
Proof. unfold inheap. lia. Qed.

Lemma inheap_left size d idx : inheap size (S d) idx -> inheap size d (2 * idx).
Proof. unfold inheap. rewrite Nat.pow_succ_r'. pose proof (pow2_ge1 d). nia. Qed.
Lemma inheap_right size d idx : inheap size (S d) idx -> inheap size d (2 * idx + 1).
Proof. unfold inheap. rewrite Nat.pow_succ_r'. pose proof (pow2_ge1 d). nia. Qed.

Lemma inheap_lt size d idx : inheap size d idx -> idx < size.
Proof. unfold inheap. pose proof (pow2_ge1 d). nia. Qed.
Lemma inheap_leaf size idx : inheap size 0 idx -> size <= 2 * idx.
Proof. unfold inheap. cbn [Nat.pow]. lia. Qed.
Lemma inheap_inner size d idx : inheap size (S d) idx -> 2 * idx + 1 < size.
Proof. intros H. apply inheap_right in H. now apply inheap_lt in H. Qed.

(** [next_down] as a recursion over the binary representation *)
Definition next_spec (nd : nat -> option nat) (size : nat) : Prop :=
  (forall i, 1 <= i -> 2 * i < size -> nd (2 * i) = Some (2 * i + 1)) /\
  (forall i, 1 <= i -> 2 * i + 1 < size -> nd (2 * i + 1) = nd i) /\
  (1 < size -> nd 1 = Some 1).

Lemma next_down_fuel idx : forall f g, idx <= f -> idx <= g -> next_down_loop f idx = next_down_loop g idx.
Proof.
  induction idx as [idx IH] using lt_wf_ind. intros f g Hf Hg.
  destruct idx as [|idx]; [destruct f, g; reflexivity|].
  destruct f as [|f]; [lia|]. destruct g as [|g]; [lia|].
  cbn [next_down_loop]. destruct (is_right (S idx)); auto.
  destruct (Nat.eqb (parent_idx (S idx)) ROOT); auto.
  unfold parent_idx. assert (S idx / 2 < S idx) by (apply Nat.div_lt; lia).
  apply IH; lia.
Qed.

Lemma next_down_even i : next_down (2 * i) = Some (2 * i + 1).
Proof.
  unfold next_down. assert (E : is_right (2 * i) = false).
  { unfold is_right. rewrite Nat.odd_mul. reflexivity. }
  destruct (2 * i) as [|m] eqn:Em; [reflexivity|].
  cbn [next_down_loop]. rewrite E. reflexivity.
Qed.

Lemma next_down_1 : next_down 1 = Some 1.
Proof. reflexivity. Qed.

Lemma next_down_odd i : 1 <= i -> next_down (2 * i + 1) = next_down i.
Proof.
  intros Hi. unfold next_down at 1.
  assert (E : is_right (2 * i + 1) = true).
  { unfold is_right. rewrite Nat.odd_add, Nat.odd_mul. reflexivity. }
  replace (2 * i + 1) with (S (2 * i)) in * by lia. cbn [next_down_loop]. rewrite E.
  replace (S (2 * i)) with (2 * i + 1) by lia. unfold parent_idx. rewrite half_odd.
  unfold ROOT. destruct (Nat.eqb_spec i 1) as [->|]; [reflexivity|].
  apply next_down_fuel; lia.
Qed.

Lemma next_down_spec size : next_spec next_down size.
Proof.
  split; [intros; apply next_down_even|]. split; [intros; now apply next_down_odd|].
  intros; reflexivity.
Qed.

(** ** Walking *)

Section Walks.
  Context {A : Type} (visit : nat -> A -> option (A * bool)).

  (** recursive walk of the perfect subtree of height [d] *)
  Fixpoint hwalk (d idx : nat) (st : A) : option A :=
    let* r := visit idx st in
    let (st, accepted) := r in
    if accepted : bool then Some st
    else match d with
         | O => Some st
         | S d => let* st := hwalk d (2 * idx) st in hwalk d (2 * idx + 1) st
         end.

  Lemma heap_loop_walk size d : forall idx stack st,
    inheap size d idx -> length stack + d <= 63 ->
    exists k, k < 2 * 2 ^ d /\
      forall fuel, heap_loop visit size (k + fuel) (idx :: stack) st =
                   let* st := hwalk d idx st in heap_loop visit size fuel stack st.
  Proof.
    induction d as [|d IH]; intros idx stack st Hin Hd.
    - exists 1. split; [cbn; lia|]. intros fuel. cbn [heap_loop hwalk Nat.add].
      destruct (visit idx st) as [[st' [|]]|]; cbn [obind]; auto.
      apply inheap_leaf in Hin. unfold rght_idx, left_idx.
      assert ((2 * idx + 1 <? size) = false) as -> by (apply Nat.ltb_ge; lia).
      assert ((2 * idx <? size) = false) as -> by (apply Nat.ltb_ge; lia). reflexivity.
    - destruct (visit idx st) as [[st' [|]]|] eqn:E.
      + exists 1. split; [pose proof (pow2_ge1 (S d)); lia|]. intros fuel.
        cbn [heap_loop hwalk Nat.add]. rewrite E. reflexivity.
      + pose proof (pow2_ge1 d) as Hp.
        destruct (IH (2 * idx) ((2 * idx + 1) :: stack) st') as (k1 & H1 & E1);
          [now apply inheap_left|cbn [length]; lia|].
        destruct (hwalk d (2 * idx) st') as [st2|] eqn:E2.
        * destruct (IH (2 * idx + 1) stack st2) as (k2 & H2 & E3); [now apply inheap_right|lia|].
          exists (1 + (k1 + k2)). split; [rewrite Nat.pow_succ_r'; lia|].
          intros fuel. cbn [heap_loop hwalk Nat.add]. rewrite E. cbn [obind].
          apply inheap_inner in Hin. unfold rght_idx, left_idx, push, MAX_STACK_SIZE.
          assert ((2 * idx + 1 <? size) = true) as -> by (apply Nat.ltb_lt; lia).
          assert ((2 * idx <? size) = true) as -> by (apply Nat.ltb_lt; lia).
          assert ((length stack <? 64) = true) as -> by (apply Nat.ltb_lt; lia). cbn [obind].
          assert ((length ((2 * idx + 1) :: stack) <? 64) = true) as -> by (apply Nat.ltb_lt; cbn [length]; lia).
          cbn [obind]. replace (k1 + k2 + fuel) with (k1 + (k2 + fuel)) by lia.
          rewrite E1, E2. cbn [obind]. apply E3.
        * exists (1 + k1). split; [rewrite Nat.pow_succ_r'; lia|].
          intros fuel. cbn [heap_loop hwalk Nat.add]. rewrite E. cbn [obind].
          apply inheap_inner in Hin. unfold rght_idx, left_idx, push, MAX_STACK_SIZE.
          assert ((2 * idx + 1 <? size) = true) as -> by (apply Nat.ltb_lt; lia).
          assert ((2 * idx <? size) = true) as -> by (apply Nat.ltb_lt; lia).
          assert ((length stack <? 64) = true) as -> by (apply Nat.ltb_lt; lia). cbn [obind].
          assert ((length ((2 * idx + 1) :: stack) <? 64) = true) as -> by (apply Nat.ltb_lt; cbn [length]; lia).
          cbn [obind]. rewrite E1, E2. reflexivity.
      + exists 1. split; [pose proof (pow2_ge1 (S d)); lia|]. intros fuel.
        cbn [heap_loop hwalk Nat.add]. rewrite E. reflexivity.
  Qed.

  Lemma heap_loop_top k st :
    k <= 63 -> heap_loop visit (2 * 2 ^ k) (2 * 2 ^ k) [1] st = hwalk k 1 st.
  Proof.
    intros Hk. destruct (@heap_loop_walk (2 * 2 ^ k) k 1 [] st (inheap_root k) Hk) as (q & Hq & E).
    replace (2 * 2 ^ k) with (q + (2 * 2 ^ k - q)) at 2 by lia. rewrite E.
    destruct (hwalk k 1 st); auto. cbn [obind]. destruct (2 * 2 ^ k - q); reflexivity.
  Qed.

  (** what the do-while loop does after computing the next index *)
  Definition cont (nd : nat -> option nat) (size fuel : nat) (next : option nat) (st : A) : option A :=
    let* next := next in
    if Nat.eqb next ROOT then Some st else stackless_loop nd visit size fuel next st.

  Lemma stackless_loop_walk nd size d : next_spec nd size -> forall idx st,
    inheap size d idx ->
    exists k, k < 2 * 2 ^ d /\
      forall fuel, stackless_loop nd visit size (k + fuel) idx st =
                   let* st := hwalk d idx st in cont nd size fuel (nd idx) st.
  Proof.
    intros (N1 & N2 & N3). induction d as [|d IH]; intros idx st Hin.
    - exists 1. split; [cbn; lia|]. intros fuel. cbn [stackless_loop hwalk Nat.add].
      destruct (visit idx st) as [[st' [|]]|]; cbn [obind]; auto.
      apply inheap_leaf in Hin. unfold left_idx.
      assert ((2 * idx <? size) = false) as -> by (apply Nat.ltb_ge; lia). reflexivity.
    - destruct (visit idx st) as [[st' [|]]|] eqn:E.
      + exists 1. split; [pose proof (pow2_ge1 (S d)); lia|]. intros fuel.
        cbn [stackless_loop hwalk Nat.add]. rewrite E. reflexivity.
      + pose proof (pow2_ge1 d) as Hp. pose proof (inheap_inner Hin) as Hlt.
        assert (1 <= idx) as Hi by apply Hin.
        destruct (IH (2 * idx) st') as (k1 & H1 & E1); [now apply inheap_left|].
        assert (Hstep : forall fuel, stackless_loop nd visit size (1 + (k1 + fuel)) idx st =
            let* st := hwalk d (2 * idx) st' in stackless_loop nd visit size fuel (2 * idx + 1) st).
        { intros fuel. cbn [stackless_loop Nat.add]. rewrite E. cbn [obind]. unfold left_idx.
          assert ((2 * idx <? size) = true) as -> by (apply Nat.ltb_lt; lia). cbn [obind].
          unfold ROOT. assert ((2 * idx =? 1) = false) as -> by (apply Nat.eqb_neq; lia).
          rewrite E1. destruct (hwalk d (2 * idx) st') as [s2|]; auto. cbn [obind].
          unfold cont. rewrite N1 by lia. cbn [obind]. unfold ROOT.
          assert ((2 * idx + 1 =? 1) = false) as -> by (apply Nat.eqb_neq; lia). reflexivity. }
        assert (Hw : hwalk (S d) idx st = let* st := hwalk d (2 * idx) st' in hwalk d (2 * idx + 1) st).
        { cbn [hwalk]. rewrite E. reflexivity. }
        rewrite Hw.
        destruct (hwalk d (2 * idx) st') as [st2|] eqn:E2.
        * destruct (IH (2 * idx + 1) st2) as (k2 & H2 & E3); [now apply inheap_right|].
          exists (1 + (k1 + k2)). split; [rewrite Nat.pow_succ_r'; lia|].
          intros fuel. replace (1 + (k1 + k2) + fuel) with (1 + (k1 + (k2 + fuel))) by lia.
          rewrite Hstep. cbn [obind]. rewrite E3, N2 by lia. reflexivity.
        * exists (1 + k1). split; [rewrite Nat.pow_succ_r'; lia|].
          intros fuel. replace (1 + k1 + fuel) with (1 + (k1 + fuel)) by lia.
          rewrite Hstep. reflexivity.
      + exists 1. split; [pose proof (pow2_ge1 (S d)); lia|]. intros fuel.
        cbn [stackless_loop hwalk Nat.add]. rewrite E. reflexivity.
  Qed.

  Lemma stackless_loop_top nd k st : next_spec nd (2 * 2 ^ k) ->
    stackless_loop nd visit (2 * 2 ^ k) (2 * 2 ^ k) 1 st = hwalk k 1 st.
  Proof.
    intros Hn.
    destruct (@stackless_loop_walk nd (2 * 2 ^ k) k Hn 1 st (inheap_root k)) as (q & Hq & E).
    replace (2 * 2 ^ k) with (q + (2 * 2 ^ k - q)) at 2 by lia. rewrite E.
    destruct (hwalk k 1 st); auto. cbn [obind]. destruct Hn as (_ & _ & H1).
    rewrite H1 by (pose proof (pow2_ge1 k); lia). reflexivity.
  Qed.
End Walks.

(** ** A heap that holds a tree *)

Section Repr.
  Context {T : Type} (N : NumOps T).
  Notation tree := (tree (T := T)).
  Notation heap := (heap (T := T)).
  Implicit Types (t : tree) (h : heap).


  Lemma repr_pay h idx t : repr h idx t -> rd h idx = Some (Cell (pay t) (node_body t)).
  Proof. destruct t; cbn; [auto|intros (H & _); auto]. Qed.

  Lemma repr_frame h h' t : forall idx,
    (forall j, desc idx j -> rd h' j = rd h j) -> repr h idx t -> repr h' idx t.
  Proof.
    induction t as [p b|p l IHl r IHr]; intros idx H; cbn [repr].
    - intros E. rewrite H; auto. apply desc_refl.
    - intros (E & L & R). split; [rewrite H; auto; apply desc_refl|]. split.
      + apply IHl; auto. intros j Hj. apply H. now apply desc_left.
      + apply IHr; auto. intros j Hj. apply H. now apply desc_right.
  Qed.

  Lemma repr_hwalk {A} (visit : payload (T := T) -> A -> A * bool) h t : forall d idx st,
    perfect d t -> repr h idx t ->
    hwalk (fun i st => let* c := rd h i in Some (visit (c_pay c) st)) d idx st = Some (walk visit t st).
  Proof.
    induction t as [p b|p l IHl r IHr]; intros d idx st Hp Hr; destruct d as [|d]; try contradiction.
    - cbn [hwalk walk pay]. cbn [repr] in Hr. rewrite Hr. cbn [obind c_pay].
      destruct (visit p st) as [st' [|]]; reflexivity.
    - cbn [hwalk walk pay]. destruct Hr as (E & L & R). destruct Hp as [P1 P2].
      rewrite E. cbn [obind c_pay]. destruct (visit p st) as [st' [|]]; auto.
      rewrite IHl by auto. cbn [obind]. now apply IHr.
  Qed.

  Lemma heap_traverse_walk h t k v1 m1 :
    length h = 2 * 2 ^ k -> k <= 63 -> perfect k t -> repr h 1 t ->
    heap_traverse N h v1 m1 = Some (walk (bh_visit N v1 m1) t (vzero N)).
  Proof.
    intros Hl Hk Hp Hr. unfold heap_traverse, push.
    cbn [length]. change (0 <? MAX_STACK_SIZE) with true. cbn [obind]. unfold ROOT.
    rewrite Hl, heap_loop_top by auto. now apply repr_hwalk.
  Qed.

  Lemma stackless_traverse_walk nd h t k v1 m1 :
    length h = 2 * 2 ^ k -> next_spec nd (2 * 2 ^ k) -> perfect k t -> repr h 1 t ->
    stackless_traverse N nd h v1 m1 = Some (walk (bh_visit N v1 m1) t (vzero N)).
  Proof.
    intros Hl Hk Hp Hr. unfold stackless_traverse, ROOT.
    rewrite Hl, stackless_loop_top by auto. now apply repr_hwalk.
  Qed.

  (** ** Building *)

  Variables (count : nat) (y mass : list T) (ratio_sqr : T).
  Variable split : nat -> nat -> list nat -> list nat.
  Hypothesis Hsplit : permuting split.

  (** leaves have radius 0, inner cells hold no body *)
  Definition heap_inv (size : nat) (h : heap) : Prop :=
    length h = size /\
    (forall j c, size <= 2 * j -> rd h j = Some c -> p_rad (c_pay c) = nlit N 0) /\
    (forall j c, 2 * j < size -> rd h j = Some c -> c_body c = None).

  Lemma rd_upd {A} (l : list A) i v j :
    i < length l -> rd (upd l i v) j = if Nat.eqb j i then Some v else rd l j.
  Proof.
    intros H. unfold rd. rewrite upd_nth. apply Nat.ltb_lt in H. rewrite H. reflexivity.
  Qed.

  Lemma heap_inv_upd size h i p b :
    heap_inv size h -> i < size ->
    (size <= 2 * i -> p_rad p = nlit N 0) -> (2 * i < size -> b = None) ->
    heap_inv size (upd h i (Cell p b)).
  Proof.
    intros (L & R & B) Hi H1 H2. split; [now rewrite upd_length|].
    split; intros j c Hj; rewrite rd_upd by lia; destruct (Nat.eqb_spec j i) as [->|]; eauto;
      intros [= <-]; auto.
  Qed.

  Lemma build_p_ok size : forall fuel dim idx inds h t d,
    tbuild N split count y mass ratio_sqr fuel dim idx inds = Some t ->
    length inds = 2 ^ d -> inheap size d idx -> heap_inv size h ->
    exists h', build_p N split count y mass ratio_sqr fuel dim idx inds h = Some h' /\
      heap_inv size h' /\ repr h' idx t /\
      (forall j, ~ desc idx j -> rd h' j = rd h j).
  Proof.
    induction fuel as [|fuel IH]; intros dim idx inds h t d; [discriminate|].
    cbn [tbuild build_p]. destruct (Nat.eqb_spec (length inds) 1) as [E|E].
    - intros Ht Hd Hin Hinv.
      assert (d = 0) as ->.
      { destruct d; auto. rewrite Nat.pow_succ_r' in Hd. pose proof (pow2_ge1 d). lia. }
      destruct (rd inds 0) as [b|]; [|discriminate]. cbn [obind] in *.
      unfold leaf_payload in Ht. unfold heap_leaf.
      destruct (rd3 y count 0 b) as [c|]; [|discriminate]. cbn [obind] in *.
      destruct (rd mass b) as [m|]; [|discriminate]. cbn [obind] in *.
      injection Ht as <-.
      assert (Hlt := inheap_lt Hin). apply inheap_leaf in Hin.
      destruct Hinv as (L & R & B).
      destruct (@rd_some _ h idx) as [old Hold]; [lia|]. rewrite Hold. cbn [obind].
      rewrite wr_ok by lia. rewrite (R idx old) by auto.
      eexists. split; [reflexivity|]. split.
      { apply heap_inv_upd; auto; [split; auto|lia]. }
      split.
      { cbn [repr]. rewrite rd_upd by lia. now rewrite Nat.eqb_refl. }
      intros j Hj. rewrite rd_upd by lia. destruct (Nat.eqb_spec j idx) as [->|]; auto.
      elim Hj. apply desc_refl.
    - intros Ht Hd Hin Hinv.
      destruct d as [|d]; [cbn in Hd; lia|].
      assert (1 <= idx) as Hi by apply Hin.
      rewrite Nat.pow_succ_r' in Hd.
      assert (length inds / 2 = 2 ^ d) as Hh by (rewrite Hd; apply half_even).
      pose proof (Permutation_length (Hsplit idx dim inds)) as HL.
      destruct (tbuild N split count y mass ratio_sqr fuel ((dim + 1) mod SPACE_DIMENSIONS) (2 * idx)
        (firstn (length inds / 2) (split idx dim inds))) as [l|] eqn:El; [|discriminate].
      cbn [obind] in Ht.
      destruct (tbuild N split count y mass ratio_sqr fuel ((dim + 1) mod SPACE_DIMENSIONS) (2 * idx + 1)
        (skipn (length inds / 2) (split idx dim inds))) as [r|] eqn:Er; [|discriminate].
      cbn [obind] in Ht. injection Ht as <-.
      destruct (IH _ _ _ h _ d El) as (h1 & E1 & I1 & R1 & F1);
        [rewrite firstn_length; lia|now apply inheap_left|auto|].
      destruct (IH _ _ _ h1 _ d Er) as (h2 & E2 & I2 & R2 & F2);
        [rewrite skipn_length; lia|now apply inheap_right|auto|].
      unfold left_idx, rght_idx. rewrite E1. cbn [obind]. rewrite E2. cbn [obind].
      assert (R1' : repr h2 (2 * idx) l).
      { eapply repr_frame; [|exact R1]. intros j Hj. apply F2. intros Hj2.
        exact (desc_disj Hi Hj Hj2). }
      unfold heap_update. rewrite (repr_pay _ _ _ R1'). cbn [obind].
      rewrite (repr_pay _ _ _ R2). cbn [obind c_pay].
      pose proof I2 as (L2 & _ & B2).
      pose proof (inheap_lt Hin) as Hlt. pose proof (inheap_inner Hin) as Hlt2.
      destruct (@rd_some _ h2 idx) as [old Hold]; [lia|]. rewrite Hold. cbn [obind].
      rewrite wr_ok by lia. rewrite (B2 idx old) by (auto; lia).
      eexists. split; [reflexivity|]. split.
      { apply heap_inv_upd; auto. lia. }
      split.
      { cbn [repr]. split; [rewrite rd_upd by lia; now rewrite Nat.eqb_refl|].
        split; (eapply repr_frame; [|eassumption]); intros j Hj; rewrite rd_upd by lia;
          destruct (Nat.eqb_spec j idx) as [->|]; auto; apply desc_ge in Hj; lia. }
      intros j Hj. rewrite rd_upd by lia. destruct (Nat.eqb_spec j idx) as [->|].
      { elim Hj. apply desc_refl. }
      rewrite F2, F1; auto; intros Hd'; apply Hj; [now apply desc_left|now apply desc_right].
  Qed.

  (** success means that even the rightmost leaf is in bounds *)
  Lemma build_p_bound : forall fuel dim idx inds h h',
    build_p N split count y mass ratio_sqr fuel dim idx inds h = Some h' ->
    1 <= length inds /\ length h' = length h /\
    (idx + 1) * 2 ^ Nat.log2_up (length inds) <= length h.
  Proof.
    induction fuel as [|fuel IH]; intros dim idx inds h h'; [discriminate|].
    cbn [build_p]. destruct (Nat.eqb_spec (length inds) 1) as [E|E].
    - intros H. destruct (rd inds 0) as [b|]; [|discriminate]. cbn [obind] in H.
      unfold heap_leaf in H. destruct (rd3 y count 0 b); [|discriminate]. cbn [obind] in H.
      destruct (rd mass b); [|discriminate]. cbn [obind] in H.
      destruct (rd h idx) eqn:Er; [|discriminate]. cbn [obind] in H.
      apply wr_some_inv in H. destruct H as [H ->]. rewrite upd_length, E.
      cbn [Nat.log2_up]. change (Nat.log2_up 1) with 0. cbn [Nat.pow]. lia.
    - intros H. unfold left_idx, rght_idx in H.
      pose proof (Permutation_length (Hsplit idx dim inds)) as HL.
      destruct (build_p N split count y mass ratio_sqr fuel ((dim + 1) mod SPACE_DIMENSIONS) (2 * idx)
        (firstn (length inds / 2) (split idx dim inds)) h) as [h1|] eqn:E1; [|discriminate].
      cbn [obind] in H.
      destruct (build_p N split count y mass ratio_sqr fuel ((dim + 1) mod SPACE_DIMENSIONS) (2 * idx + 1)
        (skipn (length inds / 2) (split idx dim inds)) h1) as [h2|] eqn:E2; [|discriminate].
      cbn [obind] in H. apply IH in E1. apply IH in E2.
      destruct E1 as (A1 & A2 & A3). destruct E2 as (B1 & B2 & B3).
      rewrite firstn_length in *. rewrite skipn_length in *. rewrite HL in *.
      assert (2 <= length inds) by lia.
      unfold heap_update in H. destruct (rd h2 (2 * idx)); [|discriminate]. cbn [obind] in H.
      destruct (rd h2 (2 * idx + 1)); [|discriminate]. cbn [obind] in H.
      destruct (rd h2 idx); [|discriminate]. cbn [obind] in H.
      apply wr_some_inv in H. destruct H as [_ ->]. rewrite upd_length.
      split; [lia|]. split; [lia|]. rewrite log2_up_half by lia. rewrite Nat.pow_succ_r'.
      rewrite A2 in B3. nia.
  Qed.
End Repr.
