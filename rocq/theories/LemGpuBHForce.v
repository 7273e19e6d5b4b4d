(** The force kernels of the Barnes-Hut engines: which cells of [f] the threads write. *)
From Coq Require Import ZArith NArith List Arith Bool Lia Permutation.
From Verif Require Import Num Arr ArrLemmas LemEngine ModelVertex ModelForce ModelEngine ModelTree ModelHeap SpecTree
  SpecHeap LemTree LemHeap LemHeap2 ModelParallel SpecPar LemParallel SpecGpu LemGpu ModelGpuForce ModelGpuBH LemGpuTr
  LemGpuWalk.
Import ListNotations.
Set Implicit Arguments.

Lemma shape_nth {T} (m m' : mem T) a : shape m = shape m' -> length (nth a m []) = length (nth a m' []).
Proof.
  intros S. transitivity (nth a (shape m) 0); [|rewrite S]; unfold shape;
    rewrite (map_nth (@length T) _ [] a); reflexivity.
Qed.

Section Store.
  Context {T : Type} (U : NumOps T) (n : nat).
  Hypothesis Hn : 0 < n.

  (** row [r] of the derivative of body [b] *)
  Definition fval (y : list T) (b : nat) (res : vec3 T) (r : nat) : T :=
    match r with
    | 0 | 1 | 2 => nth ((r + 3) * n + b) y (nlit U 0)
    | 3 => vx res
    | 4 => vy res
    | _ => vz res
    end.
  Definition fwrites (y : list T) (b : nat) (res : vec3 T) : list ((nat * nat) * T) :=
    map (fun r => ((aF, r * n + b), fval y b res r)) (seq 0 6).
  (** the cells of body [b] in [f] *)
  Definition Wf (b : nat) : region := fun a i => (a =? aF) && (i mod n =? b).

  Lemma Wf_cell b r : b < n -> Wf b aF (r * n + b) = true.
  Proof.
    intros Hb. unfold Wf. rewrite Nat.eqb_refl. cbn [andb]. apply Nat.eqb_eq.
    rewrite Nat.add_comm, Nat.mod_add by lia. now apply Nat.mod_small.
  Qed.

  Lemma fps_store b res : b < n -> fps not_f (Wf b) (bh_store (T := T) n b res).
  Proof.
    intros Hb. unfold bh_store. cbn [fps].
    assert (H0 : Wf b aF b = true) by exact (Wf_cell 0 Hb).
    assert (H1 : Wf b aF (n + b) = true) by (replace (n + b) with (1 * n + b) by lia; now apply Wf_cell).
    repeat (first [exact I | split; [first [reflexivity|exact H0|exact H1|now apply Wf_cell]|intros; cbn [fps]]]).
  Qed.

  Lemma mrd_y (y f : list T) tree i : i < length y -> mrd (bh_memory y f tree) aY i = Some (nth i y (nlit U 0)).
  Proof.
    intros H. unfold mrd, bh_memory, rd. cbn [List.nth_error aY obind].
    now rewrite (nth_error_nth' y (nlit U 0)) by auto.
  Qed.
  Lemma mrd_f (y f : list T) tree i : mrd (bh_memory y f tree) aF i = nth_error f i.
  Proof. reflexivity. Qed.

  Lemma tr_store y f tree b res : b < n -> length y = 6 * n -> length f = 6 * n ->
    tr (bh_memory y f tree) (bh_store n b res) = Some (fwrites y b res).
  Proof.
    intros Hb Ly Lf. set (m := bh_memory y f tree).
    assert (Y : forall i, i < 6 * n -> mrd m aY i = Some (nth i y (nlit U 0))).
    { intros i Hi. apply mrd_y. lia. }
    assert (F : forall i, i < 6 * n -> mrd m aF i = Some (nth i f (nlit U 0))).
    { intros i Hi. unfold m. rewrite mrd_f. apply nth_error_nth'. lia. }
    unfold bh_store. cbn [tr]. rewrite !Y, !F by nia.
    unfold fwrites. cbn [seq map fval Nat.add Nat.mul]. rewrite !Nat.add_0_r. reflexivity.
  Qed.

  Lemma fwrites_nodup y b res : NoDup (map fst (fwrites y b res)).
  Proof.
    unfold fwrites. rewrite map_map. apply FinFun.Injective_map_NoDup; [|apply seq_NoDup].
    intros r r' [= E]. nia.
  Qed.
  Lemma fwrites_in y b res r : r < 6 -> In ((aF, r * n + b), fval y b res r) (fwrites y b res).
  Proof. intros H. unfold fwrites. apply (in_map (fun r => ((aF, r * n + b), fval y b res r))). apply in_seq. lia. Qed.
  Lemma fwrites_inv y b res a i : In (a, i) (map fst (fwrites y b res)) -> a = aF /\ exists r, r < 6 /\ i = r * n + b.
  Proof.
    unfold fwrites. rewrite map_map. intros H. apply in_map_iff in H. destruct H as (r & [= <- <-] & Hr).
    apply in_seq in Hr. split; auto. exists r. split; auto. lia.
  Qed.

  Section Round.
    Variables (y f : list T) (tree : mem T) (off cnt : nat) (P : nat -> prog T) (who : nat -> nat)
      (res : nat -> vec3 T).
    Hypothesis Ly : length y = 6 * n.
    Hypothesis Lf : length f = 6 * n.
    Hypothesis Hwho : forall j, off <= j < off + cnt -> who j < n.
    Hypothesis Hinj : forall i j, off <= i < off + cnt -> off <= j < off + cnt -> who i = who j -> i = j.
    Hypothesis HP : forall j, off <= j < off + cnt -> fps not_f (Wf (who j)) (P j).
    Hypothesis HT : forall j, off <= j < off + cnt ->
      tr (bh_memory y f tree) (P j) = tr (bh_memory y f tree) (bh_store n (who j) (res j)).

    Lemma force_schedules :
      every_schedule (map (fun i => P (off + i)) (seq 0 cnt)) (bh_memory y f tree) (fun m =>
        exists f', m = bh_memory y f' tree /\ length f' = 6 * n /\
          (forall j r, off <= j < off + cnt -> r < 6 ->
             nth_error f' (r * n + who j) = Some (fval y (who j) (res j) r)) /\
          (forall b r, b < n -> r < 6 -> (forall j, off <= j < off + cnt -> who j <> b) ->
             nth_error f' (r * n + b) = nth_error f (r * n + b))).
    Proof.
      set (m0 := bh_memory y f tree).
      assert (HI : forall i, In i (seq 0 cnt) -> off <= off + i < off + cnt).
      { intros i Hi. apply in_seq in Hi. lia. }
      eapply schedule_weaken; [|apply (@tr_schedules T nat 0 (seq 0 cnt) (fun i => P (off + i)) (fun _ => not_f)
        (fun i => Wf (who (off + i))) m0 (fun i => fwrites y (who (off + i)) (res (off + i))))].
      - cbv beta. intros m (S & Hw & Ho).
        assert (Ho' : forall a i, a <> aF -> mrd m a i = mrd m0 a i).
        { intros a i Ha. apply Ho. intros c _ X. apply fwrites_inv in X. tauto. }
        assert (Em : m = bh_memory y (nth 1 m []) tree).
        { assert (Hs : forall a, length (nth a m []) = length (nth a m0 [])).
          { intros a. now apply shape_nth. }
          apply (f_equal (@length nat)) in S as SL. unfold shape in SL. rewrite !map_length in SL.
          apply mem_ext.
          - unfold shape in *. rewrite S. unfold m0, bh_memory. cbn [map]. do 2 f_equal.
            specialize (Hs 1). symmetry. etransitivity; [exact Hs|]. reflexivity.
          - intros a i. destruct (Nat.eq_dec a aF) as [->|Ha].
            + rewrite mrd_f. unfold mrd, rd. rewrite (nth_error_nth' m []); [reflexivity|].
              unfold m0, bh_memory in SL. cbn [length] in SL. unfold mem in *. unfold aF. lia.
            + rewrite Ho' by auto. unfold m0. unfold mrd, rd. destruct a as [|[|a]]; auto. now elim Ha. }
        exists (nth 1 m []). split; auto.
        assert (Lf' : length (nth 1 m []) = 6 * n).
        { assert (Hs : length (nth 1 m []) = length (nth 1 m0 [])).
          { now apply shape_nth. }
          etransitivity; [exact Hs|exact Lf]. }
        split; auto. split.
        + intros j r Hj Hr.
          specialize (Hw (j - off) aF (r * n + who j) (fval y (who j) (res j) r)).
          replace (off + (j - off)) with j in Hw by lia. rewrite <- (mrd_f y _ tree), <- Em.
          apply Hw; [apply in_seq; lia|now apply fwrites_in].
        + intros b r Hb Hr Hno. rewrite <- (mrd_f y _ tree), <- Em, <- (mrd_f y f tree).
          apply Ho. intros c Hc X. apply fwrites_inv in X. destruct X as (_ & r' & Hr' & E).
          apply (Hno (off + c)); [auto|]. specialize (Hwho (HI _ Hc)).
          assert (r = r' /\ b = who (off + c)); [|lia].
          apply (@block_unique r r' b (who (off + c)) n); auto.
      - intros i Hi. apply HP. auto.
      - intros c a i _ H. unfold not_f in H. unfold Wf. destruct (Nat.eqb_spec a aF); [discriminate|reflexivity].
      - intros j k c c' a i Hne Hj Hk HW.
        unfold Wf in *. apply andb_true_iff in HW. destruct HW as [Ha Hi]. apply Nat.eqb_eq in Ha, Hi. subst a.
        split; [reflexivity|]. rewrite Nat.eqb_refl. cbn [andb]. apply Nat.eqb_neq. intros E. rewrite E in Hi.
        assert (Bj : j < cnt). { rewrite <- (seq_length cnt 0). apply nth_error_Some. congruence. }
        assert (Bk : k < cnt). { rewrite <- (seq_length cnt 0). apply nth_error_Some. congruence. }
        rewrite (nth_error_nth' (seq 0 cnt) 0), seq_nth in Hj by (rewrite ?seq_length; auto).
        rewrite (nth_error_nth' (seq 0 cnt) 0), seq_nth in Hk by (rewrite ?seq_length; auto).
        injection Hj as <-. injection Hk as <-. cbn [Nat.add] in Hi.
        symmetry in Hi. apply Hinj in Hi; lia.
      - intros c Hc. unfold m0. rewrite HT by auto. apply tr_store; auto.
      - intros c _. apply fwrites_nodup.
    Qed.
  End Round.
End Store.
