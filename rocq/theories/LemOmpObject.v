(** Every parallel loop in the life of an engine. *)
From Coq Require Import ZArith List Arith NArith Lia Bool Permutation.
From Verif Require Import Num Arr ArrLemmas ModelVertex ModelForce ModelEngine
  ModelParallel ModelBlock ModelAH ModelTree ModelHeap ModelBH ModelArgs ModelObject ModelOmpForce SpecTree SpecHeap SpecPar
  SpecOmp SpecSafe LemEngine LemParallel LemOmp LemTree LemHeap LemHeap2 LemBH LemObject LemOmpForce.
Import ListNotations.
Set Implicit Arguments.

Section O.
  Context {T : Type} (U : NumOps T) (n : nat) (mass : list T)
          (split : nat -> T -> list T -> nat -> nat -> list nat -> list nat).
  Hypothesis Hn : 1 <= n.
  Hypothesis Hn2 : (N.of_nat n < 2 ^ 31)%N.
  Hypothesis Hm : length mass = n.
  Hypothesis Hs : forall step t y, permuting (split step t y).
  Notation ps := (6 * n).

  Lemma leaf_bodies_tree k (h : heap (T := T)) (t : tree (T := T)) : length h = 2 * 2 ^ k -> perfect k t -> repr h 1 t ->
    leaf_bodies h = map Some (bodies t).
  Proof.
    intros Hl Hp Hr. unfold leaf_bodies. rewrite Hl, half_even.
    pose proof (leaves_length _ _ Hp) as HL. pose proof (leaves_bodies t) as HB.
    apply nth_error_ext.
    - rewrite !map_length, skipn_length, Hl, <- HB, map_length. lia.
    - intros i Hi. rewrite map_length, skipn_length, Hl in Hi.
      rewrite !nth_error_map, nth_error_skipn', <- HB, nth_error_map.
      destruct (nth_error (leaves t) i) as [[p b]|] eqn:E.
      + pose proof (@repr_leaves T h t k 1 i p b Hp Hr E) as R. rewrite Nat.mul_1_l in R.
        unfold rd in R. rewrite R. reflexivity.
      + apply nth_error_None in E. lia.
  Qed.

  Lemma leaf_bodies_nodup k t h : same_state U k mass (Some t) h -> NoDup (leaf_bodies h).
  Proof.
    intros (I & P & R & B & _). rewrite (@leaf_bodies_tree k h t); auto; [|apply I].
    apply FinFun.Injective_map_NoDup; [intros a b; congruence|].
    eapply Permutation_NoDup; [symmetry; exact B|apply seq_NoDup].
  Qed.

  Lemma bh_inv trav spl ratio tv rate step y f (h0 : heap (T := T)) f' h :
    bh_heap_fcompute U trav spl ratio tv rate step n mass y f h0 = Some (f', h) ->
    NoDup (leaf_bodies h) ->
    match tv with
    | ett_cycle => every_schedule (omp_bh_loop U (trav h) n) [f; y; mass] (fun m => m = [f'; y; mass])
    | ett_nested_tree => every_schedule (omp_visit_loop U (trav h) h n) [f; y; mass] (fun m => m = [f'; y; mass])
    end.
  Proof.
    unfold bh_heap_fcompute. intros E HN.
    match type of E with obind ?x _ = _ => destruct x as [h1|]; cbn [obind] in E; [|discriminate] end.
    match type of E with obind ?x _ = _ => destruct x as [f1|] eqn:Ef; cbn [obind] in E; [|discriminate] end.
    injection E as -> ->. destruct tv.
    - now apply bh_loop_ok.
    - now apply visit_loop_ok.
  Qed.

  Lemma call_ok o q step t y f : warm U n mass o q \/ q = object_start o /\ engine_fits n step o ->
    ~ nested_tree o -> (forall rate d m, o = EAh rate d m -> (0 < rate)%N) -> (o = EBlock -> n mod 64 = 0) ->
    length y = ps -> length f = ps ->
    exists q' f', object_ef U n mass split o q step t y f = Some (q', f') /\ warm U n mass o q' /\ length f' = ps /\
      loop_leaves U n mass o q step y f q' f'.
  Proof.
    intros HW HN HR HB Hy Hf.
    destruct (@object_safe T U n mass split Hn Hn2 Hm Hs o q step t y f HW HN HR HB Hy Hf) as (q' & f' & E & W & L).
    exists q', f'. split; auto. split; auto. split; auto.
    destruct o as [rate d m| | | |ratio tv rate|ratio tv rate|ratio tv rate].
    - destruct q as [|s| |]; cbn [object_ef] in E; try discriminate.
      match type of E with obind ?x _ = _ => destruct x as [[f1 s1]|] eqn:Ef; cbn [obind] in E; [|discriminate] end.
      injection E as <- <-. cbn [loop_leaves]. unfold ah_fcompute in Ef.
      pose proof (HR _ _ _ eq_refl) as R0.
      replace (N.to_nat rate =? 0) with false in Ef by (symmetry; apply Nat.eqb_neq; lia).
      destruct (step mod N.to_nat rate =? 0).
      + eapply full_loop_ok; eauto.
      + destruct (ah_sparse U n mass y f s) as [f2|] eqn:E2; cbn [obind] in Ef; [|discriminate].
        injection Ef as -> ->. eapply sparse_loop_ok; eauto.
    - cbn [object_ef] in E. destruct (block_fcompute U n mass y f) as [f1|] eqn:Ef; [|discriminate].
      injection E as <- <-. cbn [loop_leaves]. unfold block_fcompute in Ef.
      apply (@block_loop_ok T U y mass NBODY_DATA_BLOCK_SIZE (Nat.lt_0_succ 63) n f f1 (HB eq_refl) Ef).
    - cbn [object_ef] in E. destruct (simple_fcompute U n mass y f) as [f1|] eqn:Ef; [|discriminate].
      injection E as <- <-. cbn [loop_leaves].
      destruct (@omp_fcompute_ok T U 0 1 2 n [f; y; mass] f y mass) as (f2 & E2 & S2 & _);
        try reflexivity; try discriminate; try lia.
      rewrite Ef in E2. injection E2 as <-. exact S2.
    - exact I.
    - destruct tv; [|exact I]. destruct q as [| |s|]; cbn [object_ef] in E; try discriminate.
      match type of E with obind ?x _ = _ => destruct x as [[f1 s1]|] eqn:Ef; cbn [obind] in E; [|discriminate] end.
      injection E as <- <-. unfold bh_tree_fcompute in Ef.
      match type of Ef with obind ?x _ = _ => destruct x as [t1|]; cbn [obind] in Ef; [|discriminate] end.
      match type of Ef with obind ?x _ = _ => destruct x as [f2|] eqn:E2; cbn [obind] in Ef; [|discriminate] end.
      injection Ef as -> <-. cbn [loop_leaves]. now apply bh_loop_ok.
    - destruct q as [| | |h]; cbn [object_ef] in E; try discriminate.
      match type of E with obind ?x _ = _ => destruct x as [[f1 h1]|] eqn:Ef; cbn [obind] in E; [|discriminate] end.
      injection E as <- <-. cbn [loop_leaves].
      apply (bh_inv (heap_traverse U) _ _ _ _ _ _ _ _ Ef).
      destruct W as (k & [t1|] & En & SS); [eapply leaf_bodies_nodup; eauto|].
      cbn [same_state] in SS. subst h1. apply NoDup_nil.
    - destruct q as [| | |h]; cbn [object_ef] in E; try discriminate.
      match type of E with obind ?x _ = _ => destruct x as [[f1 h1]|] eqn:Ef; cbn [obind] in E; [|discriminate] end.
      injection E as <- <-. cbn [loop_leaves].
      apply (bh_inv (stackless_traverse U next_down_gcc_nat) _ _ _ _ _ _ _ _ Ef).
      destruct W as (k & [t1|] & En & SS); [eapply leaf_bodies_nodup; eauto|].
      cbn [same_state] in SS. subst h1. apply NoDup_nil.
  Qed.

  Lemma calls_ok o : ~ nested_tree o -> (forall rate d m, o = EAh rate d m -> (0 < rate)%N) -> (o = EBlock -> n mod 64 = 0) ->
    forall calls q,
    warm U n mass o q \/ q = object_start o /\ (forall c l, calls = c :: l -> engine_fits n (fst (fst (fst c))) o) ->
    (forall step t y f, In (step, t, y, f) calls -> length y = ps /\ length f = ps) ->
    every_call U n mass split o q calls.
  Proof.
    intros HN HR HB. induction calls as [|[[[step t] y] f] calls IH]; intros q HW HL; cbn [every_call]; [exact I|].
    destruct (HL step t y f (or_introl eq_refl)) as [Ly Lf].
    destruct (@call_ok o q step t y f) as (q' & f' & E & W & L & LL); auto.
    { destruct HW as [HW|[-> HW]]; auto. right. split; auto. apply (HW _ _ eq_refl). }
    exists q', f'. split; auto. split; auto. apply IH; auto.
    intros s' t' y' f2 Hin. apply (HL s' t' y' f2). now right.
  Qed.
End O.
