(** Memory safety of the factory's engines and solvers *)
From Coq Require Import Bool Ascii String List ZArith Arith NArith Lia Permutation.
From Verif Require Import Num Arr ArrLemmas ModelVertex ModelForce ModelSum ModelEngine ModelBlock ModelAH ModelTree ModelHeap ModelBH
  ModelText ModelData ModelButcher ModelFeagin ModelExtrap ModelSolverBase ModelSolver ModelArgs ModelObject
  LemEngine LemBlock LemAH LemForce LemOk SpecTree SpecSolver SpecSafe LemBH LemHeap LemNext LemTreeProp LemArgs LemSafe.
Import ListNotations.
Set Implicit Arguments.

(** ** the tables *)
Definition table_wfb {T : Type} (t : table T) : bool :=
  (bt_steps t <=? length (bt_a t)) &&
  forallb (fun i => match nth_error (bt_a t) i with
                    | Some row => (if bt_implicit t then bt_steps t else i) <=? length row
                    | None => false
                    end) (seq 0 (bt_steps t)) &&
  (bt_steps t <=? length (bt_b2 t)) && (bt_steps t <=? length (bt_c t)) &&
  (negb (bt_embedded t) || (bt_steps t <=? length (bt_b1 t))) && (1 <=? bt_steps t).
Lemma table_wfb_ok T (t : table T) : table_wfb t = true -> table_wf t /\ 0 < bt_steps t.
Proof.
  unfold table_wfb. rewrite !Bool.andb_true_iff, !Nat.leb_le. intros (((((A & B) & C) & D) & E) & F).
  split; [|lia]. split; auto. split.
  - intros i row Hi X. rewrite forallb_forall in B. specialize (B i). rewrite X in B.
    apply Nat.leb_le, B, in_seq. lia.
  - split; auto. split; auto. intros X. rewrite X in E. now apply Nat.leb_le in E.
Qed.

Section Created.
  Context {T : Type} (U : NumOps T) (X : TextOps T).
  Definition made (s : @solver T) : Prop :=
    fresh s /\ (rank_fits s -> solver_ok s) /\ (evaluates s \/ idle s) /\
    (forall p b, s = SButcher p b -> table_wf (rp_table p)) /\
    (forall p st b k, s = SAdams p st b k -> solver_ok st /\ fresh st).
  Lemma made_table p : table_wfb (rp_table p) = true -> made (SButcher p None).
  Proof.
    intros H. apply table_wfb_ok in H. destruct H as [A B]. split; [reflexivity|].
    cbn [rank_fits solver_ok evaluates idle]. split; auto. split; auto. split.
    - intros q b E. injection E as <- _. exact A.
    - intros; discriminate.
  Qed.
  Lemma made_plain s : match s with SEuler b => b = None | SMidpoint b => b = None | SStetter b => b = None
    | SRk4 b => b = None | STrapeze _ b => b = None | SBs _ b => b = None | _ => False end -> made s.
  Proof.
    destruct s; try tauto; intros ->; unfold made; cbn [fresh rank_fits solver_ok evaluates idle];
      repeat split; auto; try (intros; discriminate). destruct (bp_max_level p); [right; auto|left; lia].
  Qed.
  Lemma adams_loop fuel : forall m, value m "solver" [] = chars "adams" ->
    value m "starter_solver" (chars "euler") = chars "adams" -> create_solver U X fuel m = None.
  Proof.
    induction fuel as [|fuel IH]; intros m A B; [reflexivity|].
    cbn [create_solver]. cbv zeta. rewrite A. change (text_eqb (chars "adams") (chars "adams")) with true. cbv iota.
    rewrite IH; [reflexivity| |].
    - unfold value. rewrite lookup_assign, text_eqb_refl. exact B.
    - unfold value. rewrite lookup_assign. exact B.
  Qed.
  Lemma create_solver_made fuel : forall m c, create_solver U X fuel m = Some (Some c) -> made (cr_solver c) /\
    (value m "solver" [] <> chars "adams" -> solver_ok (cr_solver c)).
  Proof.
    induction fuel as [|fuel IH]; intros m c E; [discriminate|].
    pose proof E as E0. cbn [create_solver] in E. cbv zeta in E.
    match type of E with obind ?x _ = _ => destruct x as [[s|]|] eqn:Es; cbn [obind] in E; try discriminate end.
    injection E as <-. cbn [cr_solver].
    destruct (text_eqb (value m "solver" []) (chars "adams")) eqn:A.
    - destruct (text_eqb_spec (value m "solver" []) (chars "adams")) as [A'|]; [|discriminate]. split; [|tauto].
      destruct (create_solver U X fuel _) as [[c|]|] eqn:Ec; cbn [obind] in Es; try discriminate.
      injection Es as <-. destruct (IH _ _ Ec) as [(F & _) O].
      assert (O' : solver_ok (cr_solver c)).
      { apply O. intros Y. rewrite adams_loop in Ec; [discriminate|exact Y|].
        unfold value in *. rewrite lookup_assign in Y |- *. rewrite text_eqb_refl in Y. exact Y. }
      unfold made. cbn [fresh rank_fits solver_ok evaluates idle]. split; auto. split; auto. split; auto.
      split; intros; try discriminate. injection H as <- <- <- <-. auto.
    - assert (M : made s).
      { repeat match type of Es with (if ?b then _ else _) = _ => destruct b end; try discriminate;
          injection Es as <-; first [apply made_plain; reflexivity|apply made_table; vm_compute; reflexivity]. }
      split; auto. intros _. destruct M as (_ & M & _). apply M.
      repeat match type of Es with (if ?b then _ else _) = _ => destruct b end; try discriminate;
        injection Es as <-; exact I.
  Qed.
End Created.

(** ** the engines *)
Section Engines.
  Context {T : Type} (U : NumOps T) (n : nat) (mass : list T)
          (split : nat -> T -> list T -> nat -> nat -> list nat -> list nat).
  Hypothesis Hn : 1 <= n.
  Hypothesis Hn2 : (N.of_nat n < 2 ^ 31)%N.
  Hypothesis Hm : length mass = n.
  Hypothesis Hs : forall step t y, permuting (split step t y).
  Notation ps := (6 * n).
  Notation oef := (object_ef U n mass split).
  (** after at least one evaluation *)
  Definition warm (o : engine_object (T := T)) (q : @object_state T) : Prop :=
    match o, q with
    | EAh _ _ _, QAh s => ah_ok n s
    | EBhTree _ _ _, QTree t => tree_state U n mass t
    | EBhHeap _ _ _, QHeap h | EBhHeapStackless _ _ _, QHeap h =>
        exists k t, n = 2 ^ k /\ same_state U k mass t h
    | EAh _ _ _, _ | EBhTree _ _ _, _ | EBhHeap _ _ _, _ | EBhHeapStackless _ _ _, _ => False
    | _, _ => True
    end.
  Lemma n_30 k : n = 2 ^ k -> k <= 30.
  Proof.
    intros En. rewrite En in Hn2. rewrite Nat2N.inj_pow in Hn2. change (N.of_nat 2) with 2%N in Hn2.
    apply N.pow_lt_mono_r_iff in Hn2; lia.
  Qed.
  Lemma n_63 : n <= 2 ^ 63.
  Proof.
    assert (X : (N.of_nat n <= N.of_nat (2 ^ 63))%N).
    { rewrite Nat2N.inj_pow. change (N.of_nat 2 ^ N.of_nat 63)%N with (2 ^ 63)%N. lia. }
    revert X. generalize (2 ^ 63). intros z X. lia.
  Qed.
  Lemma block_len (y f : list T) : length y = ps -> length f = ps -> n mod 64 = 0 ->
    exists f', block_fcompute U n mass y f = Some f' /\ length f' = ps.
  Proof.
    intros Hy Hf Hz. unfold block_fcompute, NBODY_DATA_BLOCK_SIZE.
    assert (En : n = (n / 64 * 64)%nat). { pose proof (Nat.div_mod n 64 ltac:(lia)). lia. }
    destruct (@blocked_cells T U 64 ltac:(lia) (n / 64) y mass f) as (f' & E & C & _);
      rewrite <- ?En; try lia.
    rewrite <- En in E. exists f'. split; auto. lia.
  Qed.
  Lemma object_safe o q step t y f : warm o q \/ q = object_start o /\ engine_fits n step o ->
    ~ nested_tree o -> (forall rate d m, o = EAh rate d m -> (0 < rate)%N) -> (o = EBlock -> n mod 64 = 0) ->
    length y = ps -> length f = ps ->
    exists q' f', oef o q step t y f = Some (q', f') /\ warm o q' /\ length f' = ps.
  Proof.
    intros HW HN HR HB Hy Hf. destruct o as [rate d m| | | |ratio tv rate|ratio tv rate|ratio tv rate].
    - assert (exists s, q = QAh s /\ (ah_ok n s \/ step mod N.to_nat rate = 0)) as (s & -> & Z).
      { destruct HW as [W|[-> W]].
        - destruct q; cbn [warm] in W; try tauto. eauto.
        - exists ah_init. split; auto. right. destruct W as [W1 W2].
          apply (f_equal N.to_nat) in W2. rewrite N2Nat.inj_mod, Nat2N.id in W2 by lia. exact W2. }
      pose proof (HR _ _ _ eq_refl) as R0. cbn [object_ef].
      unfold ah_fcompute. replace (N.to_nat rate =? 0) with false by (symmetry; apply Nat.eqb_neq; lia).
      destruct (Nat.eqb_spec (step mod N.to_nat rate) 0) as [E0|E0].
      + destruct (@ah_full_ok T U d m n y mass f s) as (f' & s' & E & C & HF); try lia.
        rewrite E. cbn [obind]. exists (QAh s'), f'. split; auto. split; [eapply ah_filled_ok; eauto|].
        destruct C as (C & _). lia.
      + destruct Z as [Z|Z]; [|contradiction].
        destruct (@ah_sparse_ok T U n y mass f s) as (f' & E & C); try lia; auto.
        rewrite E. cbn [obind]. exists (QAh s), f'. split; auto. split; auto. destruct C as (C & _). lia.
    - cbn [object_ef]. destruct (@block_len y f Hy Hf (HB eq_refl)) as (f' & E & C).
      rewrite E. exists q, f'. split; auto. split; [destruct q; exact I|]. exact C.
    - cbn [object_ef]. destruct (@simple_fcompute_cells T U n y mass f) as (f' & E & C); try lia.
      rewrite E. exists q, f'. split; auto. split; [destruct q; exact I|]. destruct C as (C & _). lia.
    - cbn [object_ef]. destruct (@simple_fcompute_cells T U n y mass f) as (f' & E & C); try lia.
      rewrite E. exists q, f'. split; auto. split; [destruct q; exact I|]. destruct C as (C & _). lia.
    - assert (exists s, q = QTree s /\ tree_state U n mass s) as (s & -> & Z).
      { destruct HW as [W|[-> W]].
        - destruct q; cbn [warm] in W; try tauto. eauto.
        - exists None. split; auto. exact I. }
      cbn [object_ef]. destruct tv; [|exfalso; apply HN; exact I].
      pose proof n_63 as P63.
      destruct (@tree_fcompute_any T U (split step t y) ratio (N.to_nat rate) step n mass y f s (Hs step t y) Hn P63)
        as (t' & f' & _ & St & _ & C & E & _); try lia; auto.
      rewrite E. cbn [obind]. exists (QTree (Some t')), f'. split; auto. split; auto. destruct C as (C & _). lia.
    - assert (exists h, q = QHeap h /\ exists k s, n = 2 ^ k /\ same_state U k mass s h) as (h & -> & k & s & En & Z).
      { destruct HW as [W|[-> W]].
        - destruct q; cbn [warm] in W; try tauto. eauto.
        - exists []. split; auto. destruct W as (k & En). exists k, None. split; auto. reflexivity. }
      pose proof (n_30 _ En) as K.
      cbn [object_ef]. rewrite En in Hy, Hf, Hm.
      destruct (@heap_step T U k (heap_traverse U) (split step t y) ratio tv (N.to_nat rate) step mass y f s h)
        as (t' & h' & f' & _ & E & SS & C); try lia; auto.
      { intros h1 t1 v1 m1 Hl Hp Hr. apply (heap_traverse_walk U h1 t1 v1 m1 Hl); auto. lia. }
      rewrite <- En in E. rewrite E. cbn [obind]. exists (QHeap h'), f'. split; auto. split; [cbn [warm]; eauto|].
      destruct C as (C & _). lia.
    - assert (exists h, q = QHeap h /\ exists k s, n = 2 ^ k /\ same_state U k mass s h) as (h & -> & k & s & En & Z).
      { destruct HW as [W|[-> W]].
        - destruct q; cbn [warm] in W; try tauto. eauto.
        - exists []. split; auto. destruct W as (k & En). exists k, None. split; auto. reflexivity. }
      pose proof (n_30 _ En) as K.
      cbn [object_ef]. rewrite En in Hy, Hf, Hm.
      destruct (@heap_step T U k (stackless_traverse U next_down_gcc_nat) (split step t y) ratio tv (N.to_nat rate) step
        mass y f s h) as (t' & h' & f' & _ & E & SS & C); try lia; auto.
      { intros h1 t1 v1 m1 Hl Hp Hr.
        refine (@stackless_traverse_walk T U next_down_gcc_nat h1 t1 k v1 m1 Hl (@gcc_next_spec _ _) Hp Hr).
        rewrite Nat2N.inj_mul, Nat2N.inj_pow. change (N.of_nat 2) with 2%N.
        rewrite <- N.pow_succ_r'. apply N.pow_lt_mono_r; lia. }
      rewrite <- En in E. rewrite E. cbn [obind]. exists (QHeap h'), f'. split; auto. split; [cbn [warm]; eauto|].
      destruct C as (C & _). lia.
  Qed.
  Lemma object_crash o step t y f : ~ engine_fits n step o -> ~ nested_tree o -> length y = ps -> length f = ps ->
    oef o (object_start o) step t y f = None.
  Proof.
    intros HF HN Hy Hf. destruct o as [rate d m| | | |ratio tv rate|ratio tv rate|ratio tv rate];
      cbn [engine_fits object_start object_ef nested_tree] in *; try tauto.
    - unfold ah_fcompute. destruct (Nat.eqb_spec (N.to_nat rate) 0) as [Z|Z]; [reflexivity|].
      destruct (Nat.eqb_spec (step mod N.to_nat rate) 0) as [Z2|Z2].
      + exfalso. apply HF. split; [lia|]. apply N2Nat.inj. rewrite N2Nat.inj_mod, Nat2N.id by lia. exact Z2.
      + rewrite ah_sparse_fresh by lia. reflexivity.
    - destruct (block_fcompute U n mass y f) as [f'|] eqn:E; [|reflexivity]. exfalso. apply HF.
      apply (@block_safe_iff T U n mass y f Hy Hm Hf). eauto.
    - destruct tv; tauto.
    - unfold bh_heap_fcompute, build_now. cbn [length Nat.eqb]. rewrite Bool.orb_true_r. cbn [orb].
      destruct (heap_build U (split step t y) n y mass ratio []) as [h|] eqn:E; [|reflexivity].
      exfalso. apply HF. apply (proj1 (@heap_build_iff T U (split step t y) n y mass ratio (Hs step t y) ltac:(lia) ltac:(lia))).
      eauto.
    - unfold bh_heap_fcompute, build_now. cbn [length Nat.eqb]. rewrite Bool.orb_true_r. cbn [orb].
      destruct (heap_build U (split step t y) n y mass ratio []) as [h|] eqn:E; [|reflexivity].
      exfalso. apply HF. apply (proj1 (@heap_build_iff T U (split step t y) n y mass ratio (Hs step t y) ltac:(lia) ltac:(lia))).
      eauto.
  Qed.

  (** ** whole runs *)
  Variable garbage : nat -> list T.
  Hypothesis Hgarb : forall k, length (garbage k) = ps.
  Notation run o s dts y t step := (advise_all U ps (oef o) garbage dts s (object_engine o y t step)).

  Lemma run_safe o s dts y t step : made s -> rank_fits s -> ~ nested_tree o -> engine_fits n step o \/ idle s ->
    length y = ps -> exists r, run o s dts y t step = Some r /\ length (e_y (snd r)) = ps.
  Proof.
    intros (F & O & V & W & A) HR HN HF Hy. apply ok_exists.
    assert (P : 0 < ps) by lia.
    destruct V as [V|V].
    - destruct HF as [HF|HF].
      + apply (@all_fresh T _ U ps (oef o) garbage (fun k q => q = object_start o /\ engine_fits n k o) (warm o)); auto.
        intros q k t' y' f' HQ Hy' Hf'. apply object_safe; auto.
        * intros rate d m ->. apply HF.
        * intros ->. exact HF.
      + exfalso. destruct s; try tauto. cbn [idle evaluates] in *. lia.
    - destruct s; try tauto. cbn [fresh idle] in *. rewrite F.
      apply idle_all; auto. intros b X. discriminate.
  Qed.
  Lemma run_crash o s dt dts y t step : made s -> ~ nested_tree o -> length y = ps ->
    ~ (rank_fits s /\ (engine_fits n step o \/ idle s)) -> run o s (dt :: dts) y t step = None.
  Proof.
    intros (F & O & V & W & A) HN Hy HC. assert (P : 0 < ps) by lia.
    assert (RD : rank_fits s \/ ~ rank_fits s).
    { destruct s; cbn [rank_fits]; auto. lia. }
    destruct RD as [HR|HR].
    - assert (HE : evaluates s) by (destruct V as [V|V]; [auto|exfalso; apply HC; auto]).
      apply (@advise_c T _ U ps (oef o) garbage (object_start o) step); auto; [|split; auto].
      intros t' y' f' Hy' Hf'. apply object_crash; auto.
    - destruct s as [| | | | | | |p st b k]; cbn [rank_fits] in HR; try tauto.
      cbn [advise_all advise]. destruct (Nat.eqb_spec (ap_rank p) 0) as [Z|Z]; [reflexivity|].
      assert (E : rd (adams_rows U) (ap_rank p) = None).
      { unfold rd. apply nth_error_None. cbn [adams_rows length]. lia. }
      rewrite E. reflexivity.
  Qed.
End Engines.

Lemma pow2_dec n : (exists k, n = 2 ^ k) \/ ~ exists k, n = 2 ^ k.
Proof.
  destruct (Nat.eq_dec n (2 ^ Nat.log2 n)) as [E|E]; [left; eauto|].
  right. intros (k & ->). apply E. now rewrite Nat.log2_pow2 by lia.
Qed.
