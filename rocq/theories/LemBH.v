(** The Barnes-Hut engines: cycle and nested traversals, sequences of calls. *)
From Coq Require Import ZArith NArith List Arith Lia Permutation.
From Verif Require Import Num Arr ArrLemmas ModelVertex ModelForce ModelEngine ModelTree ModelHeap
  ModelBH SpecTree SpecHeap LemEngine LemTree LemHeap LemHeap2.
Import ListNotations.
Set Implicit Arguments.

Section BH.
  Context {T : Type} (N : NumOps T).
  Notation tree := (tree (T := T)).
  Notation heap := (heap (T := T)).
  Implicit Types (t : tree) (h : heap).

  Lemma update_f_ok n y i tf m f :
    i < n -> 6 * n <= length y -> 6 * n <= length f ->
    update_f N n y i tf m f = Some (upd3 (upd3 f n 0 i (cv N y n 3 i)) n 3 i (vdivs N tf m)).
  Proof.
    intros Hi Hy Hf. unfold update_f. rewrite (rd3_cv N) by lia. cbn [obind].
    rewrite wr3_upd3 by lia. cbn [obind]. rewrite wr3_upd3 by (rewrite ?upd3_length; lia).
    reflexivity.
  Qed.

  Lemma bh_cycle_cells (trav : vec3 T -> T -> option (vec3 T)) (F : nat -> vec3 T) n mass y f :
    6 * n <= length y -> n <= length mass -> 6 * n <= length f ->
    (forall i, i < n -> trav (cv N y n 0 i) (nth i mass (nlit N 0)) = Some (F i)) ->
    exists f', bh_cycle N trav n mass y f = Some f' /\
      deriv_cells n (cv N y n 3) (fun i => vdivs N (F i) (nth i mass (nlit N 0))) f f'.
  Proof.
    intros Hy Hm Hf HF. unfold bh_cycle. apply body_writer; auto.
    intros i g Hi Hg. rewrite (rd3_cv N) by lia. cbn [obind].
    rewrite (rd_nth mass (nlit N 0)) by lia. cbn [obind]. rewrite HF by auto. cbn [obind].
    unfold update_f. rewrite (rd3_cv N) by lia. reflexivity.
  Qed.

  (** visiting bodies in any order, each at most once *)
  Lemma vfold_cells (trav : vec3 T -> T -> option (vec3 T)) (F : nat -> vec3 T) n mass y f :
    6 * n <= length y -> n <= length mass -> 6 * n <= length f ->
    (forall i, i < n -> trav (cv N y n 0 i) (nth i mass (nlit N 0)) = Some (F i)) ->
    forall l : list (payload (T := T) * nat),
    NoDup (map snd l) ->
    (forall p b, In (p, b) l -> b < n /\ p_center p = cv N y n 0 b /\ p_mass p = nth b mass (nlit N 0)) ->
    exists f', vfold (node_visitor N trav n mass y) l f = Some f' /\
      length f' = length f /\
      (forall i, i < n -> In i (map snd l) ->
         holds f' n 0 i (cv N y n 3 i) /\ holds f' n 3 i (vdivs N (F i) (nth i mass (nlit N 0)))) /\
      (forall q, 6 * n <= q -> nth_error f' q = nth_error f q).
  Proof.
    intros Hy Hm Hf HF l. induction l as [|[p b] l IH] using rev_ind; intros Hnd Hl.
    - exists f. split; [reflexivity|]. split; auto. split; auto. intros i _ [].
    - rewrite map_app in Hnd. cbn [map snd] in Hnd.
      apply NoDup_remove in Hnd. rewrite app_nil_r in Hnd. destruct Hnd as [Hnd Hnin].
      destruct IH as (f1 & E1 & L1 & C1 & O1); auto.
      { intros p' b' Hin. apply Hl. apply in_or_app. auto. }
      destruct (Hl p b) as (Hb & Hc & Hpm); [apply in_or_app; right; left; auto|].
      rewrite vfold_app, E1. cbn [obind]. rewrite vfold_cons. unfold node_visitor at 1.
      rewrite Hc, Hpm, HF by auto. cbn [obind].
      rewrite (rd_nth mass (nlit N 0)) by lia. cbn [obind].
      rewrite update_f_ok by lia. cbn [obind]. eexists. split; [reflexivity|].
      split; [now rewrite !upd3_length|]. split.
      + intros i Hi Hin. rewrite map_app in Hin. apply in_app_or in Hin.
        destruct (Nat.eq_dec i b) as [->|Hne].
        * split; apply holds_upd3; rewrite ?upd3_length; auto; try lia;
            rewrite Nat.eqb_refl; simpl; auto.
          apply holds_upd3; auto; try lia. rewrite Nat.eqb_refl. reflexivity.
        * destruct Hin as [Hin|[Heq|[]]]; [|cbn in Heq; congruence].
          destruct (C1 i Hi Hin) as [H1 H2].
          assert (Nat.eqb b i = false) as He by (apply Nat.eqb_neq; lia).
          split; apply holds_upd3; rewrite ?upd3_length; auto; try lia; rewrite He; simpl;
            apply holds_upd3; auto; try lia; rewrite He; simpl; auto.
      + intros q Hq. rewrite !upd3_nth_out by lia. auto.
  Qed.

  Lemma vfold_deriv (trav : vec3 T -> T -> option (vec3 T)) (F : nat -> vec3 T) n mass y f
    (l : list (payload (T := T) * nat)) :
    6 * n <= length y -> n <= length mass -> 6 * n <= length f ->
    (forall i, i < n -> trav (cv N y n 0 i) (nth i mass (nlit N 0)) = Some (F i)) ->
    Permutation (map snd l) (seq 0 n) ->
    (forall p b, In (p, b) l -> p_center p = cv N y n 0 b /\ p_mass p = nth b mass (nlit N 0)) ->
    exists f', vfold (node_visitor N trav n mass y) l f = Some f' /\
      deriv_cells n (cv N y n 3) (fun i => vdivs N (F i) (nth i mass (nlit N 0))) f f'.
  Proof.
    intros Hy Hm Hf HF HP Hl.
    destruct (@vfold_cells trav F n mass y f Hy Hm Hf HF l) as (f' & E & L & C & O).
    - eapply Permutation_NoDup; [symmetry; exact HP|apply seq_NoDup].
    - intros p b Hin. destruct (Hl p b Hin). split; auto.
      assert (In b (seq 0 n)) as H'.
      { eapply Permutation_in; [exact HP|]. change b with (snd (p, b)). now apply in_map. }
      apply in_seq in H'. lia.
    - exists f'. split; auto. split; auto. split; auto.
      intros i Hi. apply C; auto. eapply Permutation_in; [symmetry; exact HP|].
      apply in_seq. lia.
  Qed.

  (** ** Nested traversal of the pointer tree *)

  Section Nested.
    Context {A : Type} (visit : option nat -> payload (T := T) -> A -> option A).

    Fixpoint tvisit (t : tree) (st : A) : option A :=
      if nltb N (nlit N 0) (p_rad (pay t)) then
        match t with
        | Leaf _ _ => Some st
        | Node _ l r => let* st := tvisit r st in tvisit l st
        end
      else visit (node_body t) (pay t) st.

    Lemma tree_visit_walk t : forall stack st,
      length stack + depth t <= 63 ->
      exists k, k <= tree_nodes t /\
        forall fuel, tree_visit N visit (k + fuel) (t :: stack) st =
                     let* st := tvisit t st in tree_visit N visit fuel stack st.
    Proof.
      induction t as [p b|p l IHl r IHr]; intros stack st Hd.
      - exists 1. split; [simpl; lia|]. intros fuel. cbn [tree_visit tvisit Nat.add pay].
        destruct (nltb N (nlit N 0) (p_rad p)); reflexivity.
      - destruct (nltb N (nlit N 0) (p_rad p)) eqn:E.
        + cbn [depth] in Hd.
          destruct (IHr (l :: stack) st) as (k1 & H1 & E1); [cbn [length]; lia|].
          assert (Hs : forall fuel, tree_visit N visit (1 + (k1 + fuel)) (Node p l r :: stack) st =
                    let* st := tvisit r st in tree_visit N visit fuel (l :: stack) st).
          { intros fuel. cbn [tree_visit Nat.add pay]. rewrite E.
            unfold push, MAX_STACK_SIZE.
            assert ((length stack <? 64) = true) as -> by (apply Nat.ltb_lt; lia). cbn [obind].
            assert ((length (l :: stack) <? 64) = true) as -> by (apply Nat.ltb_lt; cbn [length]; lia).
            cbn [obind]. apply E1. }
          assert (Hw : tvisit (Node p l r) st = let* st := tvisit r st in tvisit l st).
          { cbn [tvisit pay]. now rewrite E. }
          rewrite Hw. destruct (tvisit r st) as [st1|] eqn:Er.
          * destruct (IHl stack st1) as (k2 & H2 & E2); [lia|].
            exists (1 + (k1 + k2)). split; [cbn [tree_nodes]; lia|]. intros fuel.
            replace (1 + (k1 + k2) + fuel) with (1 + (k1 + (k2 + fuel))) by lia.
            rewrite Hs. cbn [obind]. apply E2.
          * exists (1 + k1). split; [cbn [tree_nodes]; lia|]. intros fuel.
            replace (1 + k1 + fuel) with (1 + (k1 + fuel)) by lia. now rewrite Hs.
        + exists 1. split; [simpl; lia|]. intros fuel. cbn [tree_visit tvisit Nat.add pay].
          rewrite E. reflexivity.
    Qed.

    Lemma tree_visit_top t st :
      depth t <= 63 -> tree_visit N visit (tree_nodes t) [t] st = tvisit t st.
    Proof.
      intros Hd. destruct (@tree_visit_walk t [] st Hd) as (k & Hk & E).
      replace (tree_nodes t) with (k + (tree_nodes t - k)) by lia. rewrite E.
      destruct (tvisit t st); auto. cbn [obind]. destruct (tree_nodes t - k); reflexivity.
    Qed.

    Lemma tvisit_leaves t : forall st,
      (forall s, subtree s t -> inner s -> nltb N (nlit N 0) (p_rad (pay s)) = true) ->
      (forall p b, In (p, b) (leaves t) -> nltb N (nlit N 0) (p_rad p) = false) ->
      tvisit t st = vfold visit (rev (leaves t)) st.
    Proof.
      induction t as [p b|p l IHl r IHr]; intros st Hi Hl.
      - cbn [tvisit pay]. rewrite (Hl p b) by (left; auto). cbn [leaves rev app node_body].
        rewrite vfold_cons. now destruct (visit (Some b) p st).
      - assert (E : nltb N (nlit N 0) (p_rad p) = true).
        { apply (Hi (Node p l r)); [constructor|now exists p, l, r]. }
        cbn [tvisit pay]. rewrite E.
        cbn [leaves]. rewrite rev_app_distr, vfold_app.
        rewrite IHr.
        + destruct (vfold visit (rev (leaves r)) st); auto. cbn [obind]. apply IHl.
          * intros s Hs. apply Hi. now apply sub_left.
          * intros p' b' Hin. apply Hl with b'. apply in_or_app. auto.
        + intros s Hs. apply Hi. now apply sub_right.
        + intros p' b' Hin. apply Hl with b'. apply in_or_app. auto.
    Qed.

    (** an inner node without a positive radius reaches the visitor with no body number *)
    Lemma tvisit_fails t : forall st s,
      subtree s t -> inner s -> nltb N (nlit N 0) (p_rad (pay s)) = false ->
      (forall p st, visit None p st = None) -> tvisit t st = None.
    Proof.
      induction t as [p b|p l IHl r IHr]; intros st s Hs Hi Hr Hv.
      - inversion Hs; subst. destruct Hi as (? & ? & ? & Hi). discriminate.
      - cbn [tvisit pay]. destruct (nltb N (nlit N 0) (p_rad p)) eqn:E; [|apply Hv].
        inversion Hs; subst.
        + cbn [pay] in Hr. congruence.
        + destruct (tvisit r st); auto. cbn [obind]. eapply IHl; eauto.
        + erewrite IHr; eauto.
    Qed.
  End Nested.

  (** ** Facts about built trees *)

  Lemma wf_leaves n y mass rs t : tree_wf N n y mass rs t ->
    forall p b, In (p, b) (leaves t) -> leaf_payload N n y mass b = Some p.
  Proof.
    induction t as [p0 b0|p0 l IHl r IHr]; cbn [tree_wf leaves].
    - intros H p b [[= <- <-]|[]]. auto.
    - intros (_ & H1 & H2) p b Hin. apply in_app_or in Hin. destruct Hin; eauto.
  Qed.

  Lemma wf_leaf_inv n y mass b p : 6 * n <= length y -> n <= length mass -> b < n ->
    leaf_payload N n y mass b = Some p ->
    p = Pay (cv N y n 0 b) (nth b mass (nlit N 0)) (nlit N 0) (cv N y n 0 b) (cv N y n 0 b).
  Proof. intros Hy Hm Hb. rewrite leaf_payload_ok by auto. congruence. Qed.

  Lemma trebuild_shape n y rs t : forall t', trebuild N n y rs t = Some t' ->
    bodies t' = bodies t /\ depth t' = depth t /\ (forall d, perfect d t -> perfect d t').
  Proof.
    induction t as [p b|p l IHl r IHr]; intros t' H; cbn [trebuild] in H.
    - destruct (rd3 y n 0 b); [|discriminate]. injection H as <-.
      split; [reflexivity|]. split; [reflexivity|]. intros [|d]; auto.
    - destruct (trebuild N n y rs l) as [l'|]; [|discriminate]. cbn [obind] in H.
      destruct (trebuild N n y rs r) as [r'|]; [|discriminate]. cbn [obind] in H.
      injection H as <-. destruct (IHl _ eq_refl) as (B1 & D1 & P1).
      destruct (IHr _ eq_refl) as (B2 & D2 & P2). cbn [bodies depth].
      split; [congruence|]. split; [congruence|].
      intros [|d]; cbn [perfect]; [auto|]. intros [? ?]. auto.
  Qed.

  (** masses and leaf radii of a tree are those of [mass] *)
  Definition masses_ok (n : nat) (mass : list T) (t : tree) : Prop :=
    forall p b, In (p, b) (leaves t) -> b < n /\ rd mass b = Some (p_mass p) /\ p_rad p = nlit N 0.

  Lemma trebuild_wf n y mass rs t : 6 * n <= length y -> masses_ok n mass t ->
    exists t', trebuild N n y rs t = Some t' /\ tree_wf N n y mass rs t' /\ masses_ok n mass t'.
  Proof.
    intros Hy. induction t as [p b|p l IHl r IHr]; intros Hm; cbn [trebuild].
    - destruct (Hm p b) as (Hb & Hrd & Hr); [left; auto|].
      rewrite (rd3_cv N) by lia. cbn [obind]. eexists. split; [reflexivity|].
      split.
      + cbn [tree_wf]. unfold leaf_payload. rewrite (rd3_cv N) by lia. cbn [obind].
        rewrite Hrd. cbn [obind]. now rewrite Hr.
      + intros p' b' [[= <- <-]|[]]. auto.
    - destruct IHl as (l' & El & Wl & Ml).
      { intros p' b' Hin. apply Hm. apply in_or_app. auto. }
      destruct IHr as (r' & Er & Wr & Mr).
      { intros p' b' Hin. apply Hm. apply in_or_app. auto. }
      rewrite El, Er. cbn [obind]. eexists. split; [reflexivity|]. split; [cbn; auto|].
      intros p' b' Hin. cbn [leaves] in Hin. apply in_app_or in Hin. destruct Hin; eauto.
  Qed.

  Lemma wf_masses n y mass rs t : 6 * n <= length y -> n <= length mass ->
    (forall b, In b (bodies t) -> b < n) -> tree_wf N n y mass rs t -> masses_ok n mass t.
  Proof.
    intros Hy Hm Hb W p b Hin.
    assert (b < n) as Hbn.
    { apply Hb. rewrite <- leaves_bodies. change b with (snd (p, b)). now apply in_map. }
    pose proof (wf_leaves _ _ _ _ _ W _ _ Hin) as E. apply wf_leaf_inv in E; auto. subst p.
    split; auto. split; [apply rd_nth; lia|reflexivity].
  Qed.

  (** ** Sequences of calls *)

  (** the tree and heap kept by two engines agree *)
  Definition same_state (k : nat) (mass : list T) (tree0 : option tree) (h0 : heap) : Prop :=
    match tree0 with
    | None => h0 = []
    | Some t => heap_inv N (2 * 2 ^ k) h0 /\ perfect k t /\ repr h0 1 t /\
                Permutation (bodies t) (seq 0 (2 ^ k)) /\ masses_ok (2 ^ k) mass t
    end.

  (** what every engine computes from a tree *)
  Definition bh_force (t : tree) (v1 : vec3 T) (m1 : T) : vec3 T :=
    walk (bh_visit N v1 m1) t (vzero N).

  Lemma perfect_depth d (t : tree) : perfect d t -> depth t = d.
  Proof.
    revert d. induction t as [p b|p l IHl r IHr]; intros [|d]; cbn; try contradiction; auto.
    intros [H1 H2]. rewrite (IHl d), (IHr d) by auto. lia.
  Qed.

  Definition get_tree split ratio rate step n mass y (tree0 : option tree) : option tree :=
    match tree0 with
    | None => tree_build N split n y mass ratio
    | Some t => if build_now rate step false then tree_build N split n y mass ratio
                else tree_rebuild N n y ratio t
    end.
  Definition get_heap split ratio rate step n mass y (h0 : heap) : option heap :=
    if build_now rate step (Nat.eqb (length h0) 0)
    then heap_build N split n y mass ratio h0 else heap_rebuild N n y ratio h0.

  Lemma get_same k split ratio rate step mass y tree0 h0 :
    permuting split -> 6 * 2 ^ k <= length y -> 2 ^ k <= length mass ->
    same_state k mass tree0 h0 ->
    exists t h, get_tree split ratio rate step (2 ^ k) mass y tree0 = Some t /\
      get_heap split ratio rate step (2 ^ k) mass y h0 = Some h /\
      same_state k mass (Some t) h /\ tree_wf N (2 ^ k) y mass (nmul N ratio ratio) t.
  Proof.
    intros Hs Hy Hm HS. pose proof (pow2_ge1 k) as H1.
    assert (HB : heap_state N (2 ^ k) h0 -> exists t h,
      tree_build N split (2 ^ k) y mass ratio = Some t /\
      heap_build N split (2 ^ k) y mass ratio h0 = Some h /\
      same_state k mass (Some t) h /\ tree_wf N (2 ^ k) y mass (nmul N ratio ratio) t).
    { intros H0. destruct (@tree_build_ok T N split (2 ^ k) y mass ratio Hs H1 Hy Hm)
        as (t & E & P & W & D & F).
      destruct (@heap_build_ok T N split k y mass ratio h0 t Hs H0 E) as (h & Eh & I & R).
      exists t, h. split; auto. split; auto. split; auto. cbn [same_state].
      split; auto. split; auto. split; auto. split; auto.
      eapply wf_masses; eauto. intros b Hb.
      eapply Permutation_in in Hb; [|exact P]. apply in_seq in Hb. lia. }
    destruct tree0 as [t0|]; cbn [same_state] in HS.
    - destruct HS as (I & P & R & B & M). unfold get_tree, get_heap.
      assert (Hl : length h0 = 2 * 2 ^ k) by apply I.
      assert ((length h0 =? 0) = false) as -> by (apply Nat.eqb_neq; lia).
      destruct (build_now rate step false).
      + apply HB. right. auto.
      + destruct (@heap_rebuild_ok T N k y ratio h0 t0 I P R Hy) as (h & t & Eh & Et & I' & P' & R').
        { intros b Hb. eapply Permutation_in in Hb; [|exact B]. apply in_seq in Hb. lia. }
        exists t, h. split; auto. split; auto.
        destruct (@trebuild_wf (2 ^ k) y mass (nmul N ratio ratio) t0 Hy M) as (t'' & E'' & W & M').
        unfold tree_rebuild in Et. rewrite E'' in Et. injection Et as ->.
        destruct (trebuild_shape _ _ _ _ E'') as (Bt & _ & _).
        split; auto. cbn [same_state]. rewrite Bt. auto.
    - subst h0. unfold get_tree, get_heap, build_now. cbn [length Nat.eqb].
      rewrite Bool.orb_true_r. cbn [orb]. apply HB. left. auto.
  Qed.

  Lemma traverse_tree k t v1 m1 : k <= 63 -> perfect k t ->
    tree_traverse N t v1 m1 = Some (bh_force t v1 m1).
  Proof.
    intros Hk Hp. unfold tree_traverse, bh_force, push. cbn [length].
    change (0 <? MAX_STACK_SIZE) with true. cbn [obind]. apply stack_loop_top.
    rewrite (perfect_depth _ _ Hp). auto.
  Qed.

  Lemma cycle_result t n mass y f trav :
    6 * n <= length y -> n <= length mass -> 6 * n <= length f ->
    (forall v m, trav v m = Some (bh_force t v m)) ->
    exists f', bh_cycle N trav n mass y f = Some f' /\
      deriv_cells n (cv N y n 3)
        (fun i => vdivs N (bh_force t (cv N y n 0 i) (nth i mass (nlit N 0))) (nth i mass (nlit N 0))) f f'.
  Proof. intros. apply bh_cycle_cells; auto. Qed.

  (** heap engines: both traversal types give the cycle result *)
  Lemma heap_step k trav split ratio tt rate step mass y f tree0 h0 :
    (forall h t v1 m1, length h = 2 * 2 ^ k -> perfect k t -> repr h 1 t ->
       trav h v1 m1 = Some (bh_force t v1 m1)) ->
    permuting split -> 6 * 2 ^ k <= length y -> 2 ^ k <= length mass -> 6 * 2 ^ k <= length f ->
    same_state k mass tree0 h0 ->
    exists t h f', get_tree split ratio rate step (2 ^ k) mass y tree0 = Some t /\
      bh_heap_fcompute N trav split ratio tt rate step (2 ^ k) mass y f h0 = Some (f', h) /\
      same_state k mass (Some t) h /\
      deriv_cells (2 ^ k) (cv N y (2 ^ k) 3)
        (fun i => vdivs N (bh_force t (cv N y (2 ^ k) 0 i) (nth i mass (nlit N 0))) (nth i mass (nlit N 0)))
        f f'.
  Proof.
    intros HT Hs Hy Hm Hf HS.
    destruct (@get_same k split ratio rate step mass y tree0 h0 Hs Hy Hm HS)
      as (t & h & Et & Eh & SS & W).
    exists t, h. pose proof SS as (I & P & R & B & M). assert (Hl : length h = 2 * 2 ^ k) by apply I.
    assert (HT' : forall v m, trav h v m = Some (bh_force t v m)) by (intros; apply HT; auto).
    unfold bh_heap_fcompute. unfold get_heap in Eh. rewrite Eh. cbn [obind].
    destruct tt.
    - destruct (@cycle_result t (2 ^ k) mass y f (trav h) Hy Hm Hf HT') as (f' & Ef & C).
      rewrite Ef. exists f'. auto.
    - rewrite (@heap_visit_leaves _ _ _ h t k f Hl P R).
      destruct (@vfold_deriv (trav h) (fun i => bh_force t (cv N y (2 ^ k) 0 i) (nth i mass (nlit N 0)))
        (2 ^ k) mass y f (leaves t) Hy Hm Hf) as (f' & Ef & C).
      + auto.
      + now rewrite leaves_bodies.
      + intros p b Hin. pose proof (wf_leaves _ _ _ _ _ W _ _ Hin) as E.
        apply wf_leaf_inv in E; auto; [subst p; auto|]. apply M in Hin. apply Hin.
      + rewrite Ef. exists f'. auto.
  Qed.

  Lemma tree_step k split ratio rate step mass y f tree0 h0 :
    k <= 63 ->
    permuting split -> 6 * 2 ^ k <= length y -> 2 ^ k <= length mass -> 6 * 2 ^ k <= length f ->
    same_state k mass tree0 h0 ->
    exists t f', get_tree split ratio rate step (2 ^ k) mass y tree0 = Some t /\
      bh_tree_fcompute N split ratio ett_cycle rate step (2 ^ k) mass y f tree0 = Some (f', Some t) /\
      deriv_cells (2 ^ k) (cv N y (2 ^ k) 3)
        (fun i => vdivs N (bh_force t (cv N y (2 ^ k) 0 i) (nth i mass (nlit N 0))) (nth i mass (nlit N 0)))
        f f'.
  Proof.
    intros Hk Hs Hy Hm Hf HS.
    destruct (@get_same k split ratio rate step mass y tree0 h0 Hs Hy Hm HS)
      as (t & h & Et & Eh & SS & W).
    exists t. pose proof SS as (I & P & R & B & M).
    unfold bh_tree_fcompute. unfold get_tree in Et. rewrite Et. cbn [obind].
    destruct (@cycle_result t (2 ^ k) mass y f (tree_traverse N t) Hy Hm Hf) as (f' & Ef & C).
    { intros v m. now apply traverse_tree with k. }
    rewrite Ef. exists f'. auto.
  Qed.

  Lemma run_same k trav ratio tt rate mass : forall calls tree0 h0,
    k <= 63 ->
    (forall h t v1 m1, length h = 2 * 2 ^ k -> perfect k t -> repr h 1 t ->
       trav h v1 m1 = Some (bh_force t v1 m1)) ->
    2 ^ k <= length mass -> Forall (good_call (2 ^ k)) calls -> same_state k mass tree0 h0 ->
    exists fs, run_tree N ratio ett_cycle rate (2 ^ k) mass calls tree0 = Some fs /\
               run_heap N trav ratio tt rate (2 ^ k) mass calls h0 = Some fs.
  Proof.
    intros calls. induction calls as [|c calls IH]; intros tree0 h0 Hk HT Hm HF HS.
    - exists []. auto.
    - inversion HF as [|? ? (Hs & Hy & Hf) HF']; subst.
      destruct (@heap_step k trav (bc_split c) ratio tt rate (bc_step c) mass (bc_y c) (bc_f c) tree0 h0
        HT Hs Hy Hm Hf HS) as (t & h & f' & Et & Eh & SS & C).
      destruct (@tree_step k (bc_split c) ratio rate (bc_step c) mass (bc_y c) (bc_f c) tree0 h0
        Hk Hs Hy Hm Hf HS) as (t2 & f2 & Et2 & Eh2 & C2).
      rewrite Et in Et2. injection Et2 as <-.
      assert (f2 = f') as -> by (eapply deriv_cells_unique; eauto).
      destruct (IH (Some t) h Hk HT Hm HF' SS) as (fs & E1 & E2).
      exists (f' :: fs). cbn [run_tree run_heap]. rewrite Eh, Eh2. cbn [obind fst snd].
      rewrite E1, E2. auto.
  Qed.
End BH.
