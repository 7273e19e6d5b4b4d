(** What one device of a Barnes-Hut engine does in one evaluation. *)
From Coq Require Import ZArith NArith List Arith Bool Lia Permutation.
From Verif Require Import Num Arr ArrLemmas LemEngine ModelVertex ModelForce ModelEngine ModelTree ModelHeap ModelBH SpecTree
  SpecHeap LemTree LemHeap LemHeap2 LemBH LemNext ModelParallel SpecPar LemParallel SpecGpu LemGpu ModelGpu ModelGpuForce
  ModelGpuOps PropGpuForce ModelGpuBH LemGpuTr LemGpuWalk LemGpuBHForce LemGpuBHUpdate.
Import ListNotations.
Set Implicit Arguments.

(** ** Arithmetic *)
Lemma pow2_divisor k : forall B q, B * q = 2 ^ k -> exists b, B = 2 ^ b /\ b <= k.
Proof.
  induction k as [|k IH]; intros B q E.
  - cbn in E. exists 0. apply Nat.eq_mul_1 in E. cbn. lia.
  - rewrite Nat.pow_succ_r' in E. destruct (Nat.Even_or_Odd B) as [[B' HB]|[B' HB]].
    + subst B. destruct (IH B' q) as (b & -> & Hb); [nia|]. exists (S b). rewrite Nat.pow_succ_r'. lia.
    + destruct (Nat.Even_or_Odd q) as [[q' Hq]|[q' Hq]]; [|subst; nia].
      subst q. destruct (IH B q') as (b & Hb & Hk); [nia|]. exists b. lia.
Qed.
Lemma pow2_mod a b : a <= b -> 2 ^ b mod 2 ^ a = 0.
Proof.
  intros H. replace b with ((b - a) + a) by lia. rewrite Nat.pow_add_r. apply Nat.mod_mul, Nat.pow_nonzero. lia.
Qed.
Lemma pow2_half j : 2 ^ S j / 2 = 2 ^ j.
Proof. rewrite Nat.pow_succ_r'. apply half_even. Qed.

(** ** The tree of a memory *)
Section Frame.
  Context {T : Type} (tex : bool).
  Let lay := if tex then texture else plain.
  Lemma mrd_hi (y f y' f' : list T) tree a i : 2 <= a -> mrd (bh_memory y f tree) a i = mrd (bh_memory y' f' tree) a i.
  Proof. destruct a as [|[|a]]; [lia|lia|reflexivity]. Qed.
  Lemma own_hi idx a i : own tex idx a i = true -> 2 <= a.
  Proof. unfold own. rewrite andb_true_iff, Nat.leb_le. tauto. Qed.
  Lemma dheap_swap (y f y' f' : list T) tree h size :
    dheap lay (bh_memory y f tree) h size -> dheap lay (bh_memory y' f' tree) h size.
  Proof.
    intros H i Hi. destruct (H i Hi) as (c & Ec & A). exists c. split; auto.
    eapply (@at5_frame T tex); [|exact A]. intros a j O. apply own_hi in O. now apply mrd_hi.
  Qed.
  Lemma full_swap (y f y' f' : list T) tree idx p :
    full tex (bh_memory y f tree) idx p -> full tex (bh_memory y' f' tree) idx p.
  Proof. apply full_frame. intros a j O. apply own_hi in O. now apply mrd_hi. Qed.

  Lemma split_memory (m : mem T) y f tree : shape m = shape (bh_memory y f tree) ->
    (forall a i, a < 2 -> mrd m a i = mrd (bh_memory y f tree) a i) -> m = bh_memory y f (skipn 2 m).
  Proof.
    intros HS H. destruct m as [|a [|b r]]; try (unfold shape in HS; cbn in HS; discriminate).
    cbn [skipn]. unfold bh_memory. f_equal; [|f_equal].
    - apply list_ext. intros i. exact (H 0 i ltac:(lia)).
    - apply list_ext. intros i. exact (H 1 i ltac:(lia)).
  Qed.
End Frame.

(** ** Rebuilding the heap, cell by cell *)
Lemma heap_rebuild_done {T} (N : NumOps T) k y ratio h t h' :
  heap_inv N (2 * 2 ^ k) h -> perfect k t -> repr h 1 t ->
  6 * 2 ^ k <= length y -> (forall b, In b (bodies t) -> b < 2 ^ k) ->
  heap_rebuild N (2 ^ k) y ratio h = Some h' ->
  (forall j, 2 ^ k <= j < 2 * 2 ^ k -> leaf_done (2 ^ k) y h h' j) /\
  (forall j, 1 <= j < 2 ^ k -> inner_done N (nmul N ratio ratio) h h' j).
Proof.
  intros (L & R & B) Hp Hr Hy Hb. unfold heap_rebuild.
  assert (Hbody : forall j, 2 ^ k <= j < 2 * 2 ^ k -> exists c b v,
     rd h j = Some c /\ c_body c = Some b /\ rd3 y (2 ^ k) 0 b = Some v).
  { intros j Hj. destruct (nth_error (leaves t) (j - 2 ^ k)) as [[p b]|] eqn:E.
    - pose proof (@repr_leaves T h t k 1 _ p b Hp Hr E) as Hc.
      replace (1 * 2 ^ k + (j - 2 ^ k)) with j in Hc by lia.
      exists (ModelHeap.Cell p (Some b)), b, (cv N y (2 ^ k) 0 b). repeat split; auto.
      apply rd3_cv; try lia. apply Hb. rewrite <- leaves_bodies.
      apply nth_error_In in E. change b with (snd (p, b)). now apply in_map.
    - apply nth_error_None in E. rewrite (leaves_length _ _ Hp) in E. lia. }
  destruct (@rebuild_leaves T (2 ^ k) y h L Hbody) as (h1 & E1 & L1 & F1 & D1).
  rewrite E1. cbn [obind].
  destruct (@rebuild_levels_ok T N (nmul N ratio ratio) k h h1 (2 ^ k) (2 * 2 ^ k))
    as (h2 & E' & L' & F' & D'); auto.
  { apply pow_gt_lin. }
  rewrite E'. intros [= <-]. split; auto.
  intros j Hj. destruct (D1 j Hj) as (c & b & v & G1 & G2 & G3 & G4).
  exists c, b, v. repeat split; auto. rewrite F' by lia. exact G4.
Qed.

Section Device.
  Context {T : Type} (U : NumOps T) (e : bh_engine) (k D block q : nat) (ratio : T).
  Let n := 2 ^ k.
  Let tex := match e with BCudaTex _ => true | _ => false end.
  Let lay := if tex then texture else plain.
  Hypothesis Hk : 6 <= k.
  Hypothesis Hblock : 0 < block.
  Hypothesis HD : 0 < D.
  Hypothesis Hq : n = D * (block * q).
  Hypothesis Hmerge : forall rs l r, gmerge U rs l r = merge U rs l r.

  Lemma layout_eq : layout_of e = lay.
  Proof. unfold lay, tex. destruct e; reflexivity. Qed.
  Lemma n_pos : 0 < n.
  Proof. apply pow2_ge1. Qed.
  Lemma n_64 : n = 64 * 2 ^ (k - 6).
  Proof. unfold n. change 64 with (2 ^ 6). rewrite <- Nat.pow_add_r. f_equal. lia. Qed.

  (** *** Launches *)
  Lemma leaf_round_eq body_n :
    leaf_round (T := T) e n block body_n = Some (map (k_leaf lay n body_n) (seq 0 n)).
  Proof.
    unfold leaf_round. rewrite layout_eq. destruct (kind_of e).
    - unfold cuda_kernel, cuda_launched. assert (n / 64 * 64 = n) as ->; [|reflexivity].
      pose proof n_64 as E. rewrite E, (Nat.mul_comm 64), Nat.div_mul by discriminate. reflexivity.
    - unfold opencl_kernel. assert (n mod block = 0) as ->; [|reflexivity].
      rewrite Hq. replace (D * (block * q)) with (D * q * block) by ring. apply Nat.mod_mul. lia.
  Qed.
  Lemma node_round_eq L : L = 0 \/ (exists j, j < k /\ L = 2 ^ j) ->
    exists G, L <= G /\
      node_round U e block ratio L = Some (map (k_node U lay L (nmul U ratio ratio)) (seq 0 G)).
  Proof.
    intros HL. unfold node_round. rewrite layout_eq. destruct (kind_of e).
    - eexists. split; [|reflexivity]. destruct HL as [->|(j & Hj & ->)]; [lia|].
      destruct (le_lt_dec 6 j) as [H6|H6].
      + replace j with (6 + (j - 6)) by lia. rewrite Nat.pow_add_r. change (2 ^ 6) with 64.
        rewrite (Nat.mul_comm 64), Nat.div_mul by discriminate. lia.
      + assert (2 ^ j <= 2 ^ 5) by (apply Nat.pow_le_mono_r; lia). change (2 ^ 5) with 32 in *. lia.
    - exists (Nat.max L block). split; [lia|]. unfold opencl_kernel.
      assert (Nat.max L block mod block = 0) as ->; [|reflexivity].
      destruct (@pow2_divisor k block (D * q)) as (b & -> & Hb); [fold n; rewrite Hq; ring|].
      destruct HL as [->|(j & Hj & ->)]; [apply Nat.mod_same, Nat.pow_nonzero; lia|].
      destruct (le_lt_dec b j) as [Hle|Hlt].
      + rewrite Nat.max_l by (apply Nat.pow_le_mono_r; lia). now apply pow2_mod.
      + rewrite Nat.max_r by (apply Nat.pow_le_mono_r; lia). apply Nat.mod_same, Nat.pow_nonzero. lia.
  Qed.

  (** *** Refreshing the tree *)
  Section Rebuilt.
    Variables (h h' : heap (T := T)).
    Hypothesis HI : forall j, 1 <= j < n -> inner_done U (nmul U ratio ratio) h h' j.
    Definition upto (L : nat) (m : mem T) : Prop :=
      forall idx, L <= idx < 2 * n -> exists c, rd h' idx = Some c /\ full tex m idx (c_pay c).

    Lemma node_rounds_ok j : j <= k -> forall fuel, j < fuel ->
      exists rs, node_rounds U e block ratio fuel (2 ^ j) = Some rs /\
        forall m, (forall idx, 1 <= idx < 2 * n -> exists p, full tex m idx p) -> upto (2 ^ j) m ->
          every_round rs m (fun m' => shape m' = shape m /\
            (forall a i, a < 2 -> mrd m' a i = mrd m a i) /\ upto 1 m').
    Proof.
      induction j as [|j IH]; intros Hj [|fuel] Hf; try lia.
      - destruct (@node_round_eq 0 (or_introl eq_refl)) as (G & HG & E).
        exists [map (k_node U lay 0 (nmul U ratio ratio)) (seq 0 G)].
        split. { change (2 ^ 0) with 1. cbn [node_rounds]. change (1 / 2) with 0. rewrite E. cbn [obind].
                 destruct fuel; reflexivity. }
        intros m HF HU. cbn [every_round]. change (2 ^ 0) with 1 in HU.
        eapply schedule_weaken; [|apply (@node_round_ok T U tex m 0 G (nmul U ratio ratio)
          (fun _ => Pay (vzero U) (nlit U 0) (nlit U 0) (vzero U) (vzero U))); try (intros; lia); lia].
        cbv beta. intros m' (S & Ho & _).
        assert (Ho' : forall a i, mrd m' a i = mrd m a i) by (intros; apply Ho; intros; lia).
        split; auto. split; auto. intros idx Hidx. destruct (HU idx Hidx) as (c & Ec & Fc). exists c. split; auto.
        eapply full_frame; [|exact Fc]. auto.
      - assert (Hpos : exists z, 2 ^ S j = S z).
        { exists (2 ^ S j - 1). pose proof (pow2_ge1 (S j)). lia. }
        destruct Hpos as [z Hz].
        destruct (@node_round_eq (2 ^ j)) as (G & HG & E). { right. exists j. split; [lia|reflexivity]. }
        destruct (IH ltac:(lia) fuel ltac:(lia)) as (rs & Ers & Hrs).
        exists (map (k_node U lay (2 ^ j) (nmul U ratio ratio)) (seq 0 G) :: rs).
        split. { rewrite Hz. cbn [node_rounds]. rewrite <- Hz, pow2_half, E. cbn [obind]. now rewrite Ers. }
        intros m HF HU. cbn [every_round].
        assert (Hjn : 2 * 2 ^ j <= n). { unfold n. rewrite <- Nat.pow_succ_r'. apply Nat.pow_le_mono_r; lia. }
        pose proof (pow2_ge1 j) as H1. rewrite Nat.pow_succ_r' in HU.
        set (qq := fun idx => match rd h' idx with Some c => c_pay c | None => Pay (vzero U) (nlit U 0) (nlit U 0) (vzero U) (vzero U) end).
        assert (Hqq : forall idx, 2 * 2 ^ j <= idx < 2 * n -> full tex m idx (qq idx)).
        { intros idx Hidx. destruct (HU idx Hidx) as (c & Ec & Fc). unfold qq. now rewrite Ec. }
        eapply schedule_weaken; [|apply (@node_round_ok T U tex m (2 ^ j) G (nmul U ratio ratio) qq HG)].
        + cbv beta. intros m' (S & Ho & Hn).
          assert (HF' : forall idx, 1 <= idx < 2 * n -> exists p, full tex m' idx p).
          { intros idx Hidx. destruct (HF idx Hidx) as [p Hp]. eapply full_shape; [|exact Hp]. auto. }
          assert (HU' : upto (2 ^ j) m').
          { intros idx Hidx. destruct (le_lt_dec (2 * 2 ^ j) idx) as [Hge|Hlt].
            - destruct (HU idx ltac:(lia)) as (c & Ec & Fc). exists c. split; auto.
              eapply full_frame; [|exact Fc]. intros a i O. apply Ho. intros idx' Hi'.
              destruct (own tex idx' a i) eqn:O'; auto. apply (own_unique _ _ _ _ _ O) in O'. lia.
            - destruct (HI (j := idx) ltac:(lia)) as (c & l & r & G1 & G2 & G3 & G4).
              eexists. split; [exact G4|]. cbn [c_pay]. specialize (Hn idx ltac:(lia)).
              rewrite Hmerge in Hn. unfold qq in Hn. rewrite G2, G3 in Hn. exact Hn. }
          eapply round_weaken; [|apply (Hrs m' HF' HU')]. cbv beta.
          intros m2 (S2 & L2 & U2). split; [congruence|]. split; auto.
          intros a i Ha. rewrite L2 by auto. apply Ho. intros idx Hidx. now apply own_low.
        + intros idx Hidx. apply HF. lia.
        + intros idx Hidx. apply Hqq. lia.
    Qed.
  End Rebuilt.

  Lemma update_rounds_ok (h h' : heap (T := T)) (y f : list T) (tree : mem T) t body_n :
    heap_inv U (2 * n) h -> perfect k t -> repr h 1 t -> (forall b, In b (bodies t) -> b < n) ->
    body_n = map (@c_body T) h ->
    length y = 6 * n -> heap_rebuild U n y ratio h = Some h' ->
    exists rs, update_rounds U e n block ratio body_n = Some rs /\
      (dheap lay (bh_memory y f tree) h (2 * n) ->
       (forall idx, 1 <= idx < 2 * n -> exists p, full tex (bh_memory y f tree) idx p) ->
       every_round rs (bh_memory y f tree) (fun m => exists tree', m = bh_memory y f tree' /\
         dheap lay (bh_memory y f tree') h' (2 * n) /\
         (forall idx, 1 <= idx < 2 * n -> exists p, full tex (bh_memory y f tree') idx p))).
  Proof.
    intros Hinv Hp Hr Hb Ebn Ly Eh.
    destruct (@heap_rebuild_done T U k y ratio h t h' Hinv Hp Hr ltac:(fold n; lia) Hb Eh) as [HL HI].
    fold n in HL, HI. pose proof n_pos as Hn.
    destruct (@node_rounds_ok h h' HI k (le_n k) n (pow_gt_lin k)) as (rs & Ers & Hrs).
    eexists. split.
    { unfold update_rounds. rewrite leaf_round_eq. cbn [obind]. fold n in Ers. rewrite Ers. reflexivity. }
    intros HDh HF. cbn [every_round].
    assert (Hbody : forall i, i < n -> exists c b, rd h (n + i) = Some c /\ c_body c = Some b /\ b < n /\
              rd body_n (n + i) = Some (Some b)).
    { intros i Hi. destruct (HL (n + i) ltac:(lia)) as (c & b & v & G1 & G2 & G3 & G4).
      exists c, b. split; auto. split; auto. split.
      - destruct (nth_error (leaves t) i) as [[p b']|] eqn:E.
        + pose proof (@repr_leaves T h t k 1 _ p b' Hp Hr E) as Hc.
          replace (1 * 2 ^ k + i) with (n + i) in Hc by (unfold n; lia). rewrite Hc in G1. injection G1 as <-.
          cbn [c_body] in G2. injection G2 as <-. apply Hb. rewrite <- leaves_bodies.
          apply nth_error_In in E. change b' with (snd (p, b')). now apply in_map.
        + apply nth_error_None in E. rewrite (leaves_length _ _ Hp) in E. fold n in E. lia.
      - rewrite Ebn. unfold rd in *. rewrite nth_error_map, G1. cbn. now rewrite G2. }
    eapply schedule_weaken; [|apply (@leaf_round_ok T U tex n y body_n (bh_memory y f tree) Ly Hn)].
    - cbv beta. intros m1 (S1 & Lo & Hleaf).
      assert (HF1 : forall idx, 1 <= idx < 2 * n -> exists p, full tex m1 idx p).
      { intros idx Hidx. destruct (HF idx Hidx) as [p Fp]. eapply full_shape; [|exact Fp]. auto. }
      assert (HU : upto h' n m1).
      { intros idx Hidx. destruct (HL idx Hidx) as (c & b & v & G1 & G2 & G3 & G4).
        eexists. split; [exact G4|]. cbn [c_pay].
        destruct (Hbody (idx - n) ltac:(lia)) as (c2 & b2 & X1 & X2 & X3 & X4).
        replace (n + (idx - n)) with idx in * by lia. rewrite G1 in X1. injection X1 as <-.
        rewrite G2 in X2. injection X2 as <-.
        destruct (HDh idx ltac:(lia)) as (c3 & Y1 & Y2). rewrite G1 in Y1. injection Y1 as <-.
        specialize (Hleaf (idx - n) b (c_pay c) ltac:(lia)). replace (n + (idx - n)) with idx in Hleaf by lia.
        specialize (Hleaf X4 Y2). rewrite (rd3_cv U) in G3 by lia. injection G3 as <-. exact Hleaf. }
      eapply round_weaken; [|apply (Hrs m1 HF1 HU)]. cbv beta. intros m2 (S2 & L2 & U2).
      assert (Em : m2 = bh_memory y f (skipn 2 m2)).
      { apply split_memory with tree; [congruence|]. intros a i Ha. rewrite L2, Lo by auto. reflexivity. }
      exists (skipn 2 m2). split; auto. rewrite <- Em. split.
      + intros idx Hidx. destruct (U2 idx Hidx) as (c & Ec & [F5 _]). eauto.
      + intros idx Hidx. destruct (U2 idx Hidx) as (c & Ec & Fc). eauto.
    - intros j Hj. apply mrd_y. lia.
    - intros i Hi. destruct (Hbody i Hi) as (c & b & _ & _ & X & Y). eauto.
    - intros idx Hidx. apply HF. lia.
  Qed.

  (** *** The forces *)
  Definition who (t : tree (T := T)) (j : nat) : nat := if is_cycle e then j else nth j (bodies t) 0.

  Lemma lay_ok : lay_not_f lay.
  Proof. unfold lay. destruct tex; [apply texture_not_f|apply plain_not_f]. Qed.

  Definition dds := n / D.
  Lemma dds_eq : dds = block * q.
  Proof. unfold dds. rewrite Hq, Nat.mul_comm. apply Nat.div_mul. lia. Qed.

  Lemma device_next size : (N.of_nat size < 2 ^ 32)%N -> next_spec next_down_device size.
  Proof.
    intros H. destruct (gcc_next_spec size H) as (A & B & C).
    assert (G : forall i, next_down_device i = next_down_gcc_nat i).
    { intros i. unfold next_down_device, next_down_gcc_nat. now rewrite next_down_cuda_gcc. }
    split; [|split]; intros; rewrite ?G; auto.
  Qed.
  Lemma walk_of_fits : k <= 30 -> walk_fits (walk_of e) k.
  Proof.
    intros Hk30. assert (Hb : (N.of_nat (2 * 2 ^ k) < 2 ^ 32)%N).
    { apply N.le_lt_trans with (2 ^ N.of_nat 31)%N.
      - rewrite <- Nat.pow_succ_r'. rewrite Nat2N.inj_pow. apply N.pow_le_mono_r; [discriminate|]. lia.
      - reflexivity. }
    assert (Hd := device_next _ Hb).
    unfold walk_of. destruct e as [c y [|] [|]| |[|]]; cbn [walk_fits]; auto; try lia.
    apply next_down_spec.
  Qed.

  Lemma force_round_eq body_n dev : dev < D ->
    force_round U e D n block body_n dev =
    Some (map (fun i => (if is_cycle e then k_tree_bh U lay n (length body_n) (walk_of e)
                         else k_heap_bh U lay n (length body_n) body_n (walk_of e)) (dev * dds + i)) (seq 0 dds)).
  Proof.
    intros Hd. unfold force_round, block_kernel. rewrite layout_eq. fold dds.
    destruct (kind_of e).
    - assert (dds / block * block = dds) as ->; [|reflexivity].
      pose proof dds_eq as E. rewrite E, (Nat.mul_comm block q), Nat.div_mul by lia. reflexivity.
    - unfold opencl_kernel. assert (dds mod block = 0) as ->; [|reflexivity].
      rewrite dds_eq, Nat.mul_comm. apply Nat.mod_mul. lia.
  Qed.

  Lemma force_device_ok (h : heap (T := T)) (y f : list T) (tree : mem T) t body_n dev : k <= 30 ->
    perfect k t -> repr h 1 t -> length h = 2 * n -> Permutation (bodies t) (seq 0 n) ->
    (forall p b, In (p, b) (leaves t) -> p_center p = cv U y n 0 b) ->
    body_n = map (@c_body T) h ->
    length y = 6 * n -> length f = 6 * n -> dev < D ->
    dheap lay (bh_memory y f tree) h (2 * n) ->
    exists r, force_round U e D n block body_n dev = Some r /\
      every_schedule r (bh_memory y f tree) (fun m => exists f', m = bh_memory y f' tree /\ length f' = 6 * n /\
        (forall j r, dev * dds <= j < dev * dds + dds -> r < 6 ->
           nth_error f' (r * n + who t j) =
           Some (fval U n y (who t j) (walk_result U (cv U y n 0 (who t j)) (walk_of e) t) r)) /\
        (forall b r, b < n -> r < 6 -> (forall j, dev * dds <= j < dev * dds + dds -> who t j <> b) ->
           nth_error f' (r * n + b) = nth_error f (r * n + b))).
  Proof.
    intros Hk30 Hp Hr Lh HB HC Ebn Ly Lf Hd HDh. pose proof n_pos as Hn.
    rewrite force_round_eq by auto. eexists. split; [reflexivity|].
    assert (Hdn : dev * dds + dds <= n). { rewrite dds_eq, Hq. nia. }
    assert (Lbn : length body_n = 2 * n) by (rewrite Ebn, map_length; auto).
    assert (LB : length (bodies t) = n) by (apply Permutation_length in HB; rewrite seq_length in HB; auto).
    assert (NB : NoDup (bodies t)) by (eapply Permutation_NoDup; [symmetry; exact HB|apply seq_NoDup]).
    assert (Hwho : forall j, j < n -> who t j < n).
    { intros j Hj. unfold who. destruct (is_cycle e); auto.
      assert (In (nth j (bodies t) 0) (seq 0 n)) as Hin.
      { eapply Permutation_in; [exact HB|]. apply nth_In. lia. } apply in_seq in Hin. lia. }
    assert (Hleaf : forall j, j < n -> exists p, rd h (n + j) = Some (ModelHeap.Cell p (Some (nth j (bodies t) 0))) /\
      p_center p = cv U y n 0 (nth j (bodies t) 0)).
    { intros j Hj. destruct (nth_error (leaves t) j) as [[p b]|] eqn:E.
      - pose proof (@repr_leaves T h t k 1 _ p b Hp Hr E) as Hc.
        assert (Eb : nth j (bodies t) 0 = b).
        { rewrite <- leaves_bodies. apply nth_error_nth. now rewrite nth_error_map, E. }
        rewrite Eb. exists p. replace (1 * 2 ^ k + j) with (n + j) in Hc by (unfold n; lia). split; auto.
        apply HC. eapply nth_error_In; eauto.
      - apply nth_error_None in E. rewrite (leaves_length _ _ Hp) in E. fold n in E. lia. }
    apply (@force_schedules T U n Hn y f tree (dev * dds) dds
      (if is_cycle e then k_tree_bh U lay n (length body_n) (walk_of e)
       else k_heap_bh U lay n (length body_n) body_n (walk_of e)) (who t)
      (fun j => walk_result U (cv U y n 0 (who t j)) (walk_of e) t)); auto.
    - intros j Hj. apply Hwho. lia.
    - intros i j Hi Hj. unfold who. destruct (is_cycle e); auto. intros E.
      apply (proj1 (NoDup_nth (bodies t) 0) NB) in E; lia.
    - intros j Hj. unfold who. destruct (is_cycle e).
      + unfold k_tree_bh. cbn [fps].
        split; [reflexivity|]. intros x. split; [reflexivity|]. intros x2. split; [reflexivity|]. intros x3.
        apply fps_bh_walk; [apply lay_ok|]. intros r. apply fps_store; auto. lia.
      + unfold k_heap_bh, ld_body, ROOT. replace (j + (n - 1 + 1)) with (n + j) by lia.
        destruct (Hleaf j ltac:(lia)) as (p & Ep & _).
        assert (rd body_n (n + j) = Some (Some (nth j (bodies t) 0))) as ->.
        { rewrite Ebn. unfold rd in *. now rewrite nth_error_map, Ep. }
        unfold ld. destruct (lay_ok (n + j)) as (X & Y & Z & _). cbn [fps].
        split; [now apply not_f_true|]. intros x. split; [now apply not_f_true|]. intros x2.
        split; [now apply not_f_true|]. intros x3.
        apply fps_bh_walk; [apply lay_ok|]. intros r. apply fps_store; auto.
        specialize (Hwho j ltac:(lia)). unfold who in Hwho.
        assert (In (nth j (bodies t) 0) (seq 0 n)) as Hin.
        { eapply Permutation_in; [exact HB|]. apply nth_In. lia. } apply in_seq in Hin. lia.
    - intros j Hj. rewrite Lbn. assert (Hfit := walk_of_fits Hk30).
      unfold who. destruct (is_cycle e).
      + unfold k_tree_bh. assert (Y : forall i, i < 6 * n -> mrd (bh_memory y f tree) aY i = Some (nth i y (nlit U 0))).
        { intros i Hi. apply mrd_y. lia. }
        rewrite (tr_rd _ _ _ _ (Y j ltac:(lia))), (tr_rd _ _ _ _ (Y (n + j) ltac:(lia))),
          (tr_rd _ _ _ _ (Y (2 * n + j) ltac:(lia))).
        rewrite (@bh_walk_ok T U lay (bh_memory y f tree) h (2 * n) _ HDh (walk_of e) t k); auto.
        unfold cv. rewrite Nat.mul_0_l, Nat.mul_1_l. reflexivity.
      + unfold k_heap_bh, ld_body, ROOT. replace (j + (n - 1 + 1)) with (n + j) by lia.
        destruct (Hleaf j ltac:(lia)) as (p & Ep & Ec).
        assert (rd body_n (n + j) = Some (Some (nth j (bodies t) 0))) as ->.
        { rewrite Ebn. unfold rd in *. now rewrite nth_error_map, Ep. }
        destruct (HDh (n + j) ltac:(lia)) as (c & Ec2 & (X & Y & Z & _)). rewrite Ep in Ec2. injection Ec2 as <-.
        cbn [c_pay] in X, Y, Z. unfold mrd2 in *. unfold ld.
        rewrite (tr_rd _ _ _ _ X), (tr_rd _ _ _ _ Y), (tr_rd _ _ _ _ Z).
        rewrite (@bh_walk_ok T U lay (bh_memory y f tree) h (2 * n) _ HDh (walk_of e) t k); auto.
        rewrite <- Ec. destruct (p_center p). reflexivity.
  Qed.
End Device.
