(** Ahmad-Cohen engine. *)
From Coq Require Import ZArith Reals List Arith Lia Lra Bool.
From Verif Require Import Num Arr ArrLemmas SpecPhys RLemmas ModelVertex ModelForce ModelEngine
  ModelAH LemEngine LemPhys.
Import ListNotations.
Set Implicit Arguments.

Section Gen.
  Context {T : Type} (N : NumOps T).
  Implicit Types p f g y mass : list T.
  Variables (max_dist min_force : T).
  Let d0 := nlit N 0.

  Definition pf (n : nat) y mass i j : vec3 T :=
    force N (cv N y n 0 i) (cv N y n 0 j) (nth i mass d0) (nth j mass d0).
  Definition adjb (n : nat) y mass i j : bool :=
    is_adjacent N max_dist min_force (cv N y n 0 i) (cv N y n 0 j) (pf n y mass i j).

  (** neighbours found, and the force of the others *)
  Definition adj_of (n : nat) y mass i (js : list nat) : list nat :=
    filter (fun j => negb (Nat.eqb i j) && adjb n y mass i j) js.
  Definition univ_of (n : nat) y mass i (js : list nat) : vec3 T :=
    fold_left (fun t j => vadd N t (pf n y mass i j))
      (filter (fun j => negb (Nat.eqb i j) && negb (adjb n y mass i j)) js) (vzero N).

  Lemma full_pairs_ok n y mass i k :
    i < n -> k <= n -> 6 * n <= length y -> n <= length mass ->
    for_ k 0 (ah_full_pair N max_dist min_force n y mass i (cv N y n 0 i))
      (vzero N, vzero N, []) =
    Some (univ_of n y mass i (seq 0 k),
          fold_left (fun t j => if Nat.eqb i j then t else vadd N t (pf n y mass i j)) (seq 0 k)
            (vzero N),
          adj_of n y mass i (seq 0 k)).
  Proof.
    intros Hi Hk Hy Hm. induction k as [|k IH]; auto.
    rewrite for_succ, IH by lia. cbn [Nat.add].
    rewrite seq_S. cbn [Nat.add]. unfold univ_of, adj_of.
    rewrite !filter_app, !fold_left_app. unfold ah_full_pair. cbn [filter fold_left].
    destruct (Nat.eqb_spec i k) as [->|Hne]; cbn [negb andb fold_left].
    - now rewrite app_nil_r.
    - rewrite (rd3_cv N) by lia. cbn [obind].
      rewrite (rd_nth mass (i:=i) d0) by lia. cbn [obind].
      rewrite (rd_nth mass (i:=k) d0) by lia. cbn [obind].
      fold (pf n y mass i k). fold (adjb n y mass i k).
      destruct (adjb n y mass i k); cbn [negb fold_left]; try rewrite app_nil_r; reflexivity.
  Qed.

  Definition ah_ok (n : nat) (s : ah_state T) : Prop :=
    length (ah_univerce s) = n /\ length (ah_adjacent s) = n /\
    (forall i l, nth_error (ah_adjacent s) i = Some l -> Forall (fun j => j < n) l).

  Definition ah_filled (n : nat) y mass (s : ah_state T) : Prop :=
    length (ah_univerce s) = n /\ length (ah_adjacent s) = n /\
    (forall i, i < n -> nth_error (ah_univerce s) i = Some (univ_of n y mass i (seq 0 n)) /\
                        nth_error (ah_adjacent s) i = Some (adj_of n y mass i (seq 0 n))).

  Lemma ah_filled_ok n y mass s : ah_filled n y mass s -> ah_ok n s.
  Proof.
    intros (H1 & H2 & H3). split; auto. split; auto. intros i l Hl.
    assert (i < n). { rewrite <- H2. apply nth_error_Some. congruence. }
    destruct (H3 i H) as [_ E]. rewrite E in Hl. injection Hl as <-.
    unfold adj_of. rewrite Forall_forall. intros j Hj. apply filter_In in Hj.
    destruct Hj as [Hj _]. apply in_seq in Hj. lia.
  Qed.

  Lemma ah_full_ok n y mass f s :
    6 * n <= length y -> n <= length mass -> 6 * n <= length f ->
    exists f' s', ah_full N max_dist min_force n mass y f s = Some (f', s') /\
      deriv_cells n (cv N y n 3) (fun i => vdivs N (acc_fold N n y mass i) (nth i mass d0)) f f' /\
      ah_filled n y mass s'.
  Proof.
    intros Hy Hm Hf. unfold ah_full.
    set (V := cv N y n 3). set (A := fun i => vdivs N (acc_fold N n y mass i) (nth i mass d0)).
    pose (P := fun k (st : list T * ah_state T) =>
      let (g, s) := st in
      length g = length f /\
      (forall i, i < k -> holds g n 0 i (V i) /\ holds g n 3 i (A i)) /\
      (forall q, 6 * n <= q -> nth_error g q = nth_error f q) /\
      length (ah_univerce s) = n /\ length (ah_adjacent s) = n /\
      (forall i, i < k -> nth_error (ah_univerce s) i = Some (univ_of n y mass i (seq 0 n)) /\
                        nth_error (ah_adjacent s) i = Some (adj_of n y mass i (seq 0 n))) /\
      (forall i, k <= i < n -> nth_error (ah_adjacent s) i = Some [])).
    match goal with |- context [for_ n 0 ?body ?s0] =>
      destruct (@for_inv _ P n 0 body s0) as (st & E & HP) end.
    - unfold P. cbn [ah_univerce ah_adjacent]. rewrite !repeat_length.
      repeat split; auto; try (intros; lia).
      intros i Hi. apply nth_error_repeat. lia.
    - intros k [g s0] Hk (Hg & Hc & Ho & Lu & La & Hua & He).
      cbn [ah_full_body]. unfold ah_full_body.
      rewrite (rd3_cv N) by lia. cbn [obind].
      unfold rd at 1. rewrite He by lia. cbn [obind].
      rewrite full_pairs_ok by lia. cbn [obind].
      rewrite (rd3_cv N) by lia. cbn [obind].
      rewrite wr3_upd3 by lia. cbn [obind].
      rewrite (rd_nth mass (i:=k) d0) by lia. cbn [obind].
      rewrite wr3_upd3 by (rewrite ?upd3_length; lia). cbn [obind].
      rewrite wr_ok by lia. cbn [obind]. rewrite wr_ok by lia. cbn [obind].
      eexists. split; [reflexivity|]. unfold P. cbn [ah_univerce ah_adjacent].
      rewrite !upd3_length, !upd_length.
      split; [auto|]. split.
      { intros i Hi. destruct (Nat.eq_dec i k) as [->|Hne].
        - split; apply holds_upd3; rewrite ?upd3_length; auto; try lia;
          rewrite Nat.eqb_refl; simpl; auto.
          apply holds_upd3; auto; try lia. rewrite Nat.eqb_refl. reflexivity.
        - destruct (Hc i ltac:(lia)) as [H1 H2].
          assert (Nat.eqb k i = false) as Hf' by (apply Nat.eqb_neq; lia).
          split; apply holds_upd3; rewrite ?upd3_length; auto; try lia; rewrite Hf'; simpl;
          apply holds_upd3; auto; try lia; rewrite Hf'; simpl; auto. }
      split; [intros q Hq; rewrite !upd3_nth_out by lia; auto|].
      split; [auto|]. split; [auto|]. split.
      { intros i Hi. rewrite !upd_nth, Lu, La.
        destruct (Nat.eqb_spec i k) as [->|Hne]; [|apply Hua; lia].
        replace (k <? n) with true by (symmetry; apply Nat.ltb_lt; lia). auto. }
      intros i Hi. rewrite upd_nth_other by lia. apply He. lia.
    - destruct st as [f' s']. destruct HP as (H1 & H2 & H3 & H4 & H5 & H6 & _).
      exists f', s'. split; auto. split; [split; auto|]. split; auto.
  Qed.

  (** sparse recompute from any well-formed neighbour data *)
  Definition sparse_force (n : nat) y mass (s : ah_state T) i : vec3 T :=
    fold_left (fun t j => vadd N t (pf n y mass i j)) (nth i (ah_adjacent s) [])
      (nth i (ah_univerce s) (vzero N)).

  Lemma ah_sparse_ok n y mass f s :
    6 * n <= length y -> n <= length mass -> 6 * n <= length f -> ah_ok n s ->
    exists f', ah_sparse N n mass y f s = Some f' /\
      deriv_cells n (cv N y n 3) (fun i => vdivs N (sparse_force n y mass s i) (nth i mass d0)) f f'.
  Proof.
    intros Hy Hm Hf (Lu & La & Hadj). apply body_writer; auto.
    intros i g Hi Hg. unfold ah_sparse_body.
    rewrite (rd3_cv N) by lia. cbn [obind].
    rewrite (rd_nth (ah_univerce s) (vzero N)) by lia. cbn [obind].
    rewrite (rd_nth (ah_adjacent s) []) by lia. cbn [obind].
    set (adj := nth i (ah_adjacent s) []).
    assert (HF : Forall (fun j => j < n) adj).
    { apply (Hadj i). unfold adj. apply nth_error_nth'. lia. }
    assert (E : for_ (length adj) 0 (ah_sparse_pair N n y mass i (cv N y n 0 i) adj)
        (nth i (ah_univerce s) (vzero N)) = Some (sparse_force n y mass s i)).
    { unfold sparse_force. fold adj.
      assert (G : forall k, k <= length adj ->
        for_ k 0 (ah_sparse_pair N n y mass i (cv N y n 0 i) adj)
          (nth i (ah_univerce s) (vzero N)) =
        Some (fold_left (fun t j => vadd N t (pf n y mass i j)) (firstn k adj)
                (nth i (ah_univerce s) (vzero N)))).
      { induction k as [|k IH]; intros Hk; auto.
        rewrite for_succ, IH by lia. cbn [Nat.add]. unfold ah_sparse_pair.
        assert (Hj : nth k adj 0 < n).
        { rewrite Forall_forall in HF. apply HF. apply nth_In. lia. }
        rewrite (rd_nth adj 0) by lia. cbn [obind].
        rewrite (rd3_cv N) by lia. cbn [obind].
        rewrite (rd_nth mass (i:=i) d0) by lia. cbn [obind].
        rewrite (rd_nth mass (i:=nth k adj 0) d0) by lia. cbn [obind].
        fold (pf n y mass i (nth k adj 0)).
        assert (S1 : firstn (S k) adj = firstn k adj ++ [nth k adj 0]).
        { clear - Hk. revert k Hk. induction adj as [|a l IH]; intros [|k] Hk; simpl in *; try lia; auto.
          f_equal. apply IH. lia. }
        rewrite S1, fold_left_app. reflexivity. }
      rewrite G by lia. now rewrite firstn_all. }
    rewrite E. cbn [obind].
    rewrite (rd3_cv N) by lia. cbn [obind].
    rewrite (rd_nth mass (i:=i) d0) by lia.
    destruct (wr3 g n 0 i (cv N y n 3 i)); reflexivity.
  Qed.

  (** a sparse recompute of a fresh engine fails for every non-empty system *)
  Lemma ah_sparse_fresh n y mass f :
    0 < n -> ah_sparse N n mass y f ah_init = None.
  Proof.
    intros Hn. destruct n as [|n]; [lia|]. unfold ah_sparse. cbn [for_].
    unfold ah_sparse_body. destruct (rd3 y (S n) 0 0); reflexivity.
  Qed.

  Lemma ah_run_ok rate n mass calls s :
    0 < rate -> n <= length mass ->
    Forall (fun c => 6 * n <= length (c_y c) /\ 6 * n <= length (c_f c)) calls ->
    (ah_ok n s \/ match calls with [] => True | c :: _ => c_step c mod rate = 0 end) ->
    exists r, ah_run N max_dist min_force rate n mass calls s = Some r.
  Proof.
    intros Hr Hm. revert s. induction calls as [|c calls IH]; intros s HF Hs; simpl; eauto.
    inversion_clear HF as [|? ? [Hy Hf] HF'].
    assert (exists f' s', ah_fcompute N max_dist min_force rate (c_step c) n mass (c_y c) (c_f c) s
              = Some (f', s') /\ ah_ok n s') as (f' & s' & E & Hok).
    { unfold ah_fcompute. replace (rate =? 0) with false by (symmetry; apply Nat.eqb_neq; lia).
      destruct (Nat.eqb_spec (c_step c mod rate) 0) as [E0|E0].
      - destruct (@ah_full_ok n (c_y c) mass (c_f c) s) as (f' & s' & E & _ & HF); auto.
        exists f', s'. split; auto. eapply ah_filled_ok; eauto.
      - destruct Hs as [Hs|Hs]; [|contradiction].
        destruct (@ah_sparse_ok n (c_y c) mass (c_f c) s) as (f' & E & _); auto.
        rewrite E. cbn [obind]. eauto. }
    rewrite E. cbn [obind snd fst].
    destruct (IH s' HF' (or_introl Hok)) as [r Er]. rewrite Er. cbn [obind]. eauto.
  Qed.

  Lemma ah_run_fresh_bad rate n mass c calls :
    0 < n -> c_step c mod rate <> 0 -> ah_run N max_dist min_force rate n mass (c :: calls) ah_init = None.
  Proof.
    intros Hn Hc. simpl. unfold ah_fcompute. destruct (rate =? 0); auto.
    replace (c_step c mod rate =? 0) with false by (symmetry; now apply Nat.eqb_neq).
    rewrite ah_sparse_fresh by auto. reflexivity.
  Qed.
End Gen.

Local Open Scope R_scope.

Lemma fold_vadd_comm mind (g : nat -> vec3 R) l a :
  fold_left (fun t j => vadd (Rops mind) t (g j)) l a =
  vadd (Rops mind) a (fold_left (fun t j => vadd (Rops mind) t (g j)) l (vzero (Rops mind))).
Proof.
  revert a. induction l as [|j l IH]; intros a; simpl.
  - unfold vadd, vzero. simpl. destruct a; simpl. f_equal; ring.
  - rewrite IH. rewrite (IH (vadd _ (vzero _) (g j))). unfold vadd, vzero. simpl. f_equal; ring.
Qed.

Lemma split_sum mind (g : nat -> vec3 R) (i : nat) (b : nat -> bool) l :
  fold_left (fun t j => vadd (Rops mind) t (g j))
    (filter (fun j => negb (Nat.eqb i j) && b j) l)
    (fold_left (fun t j => vadd (Rops mind) t (g j))
      (filter (fun j => negb (Nat.eqb i j) && negb (b j)) l) (vzero (Rops mind))) =
  fold_left (fun t j => if Nat.eqb i j then t else vadd (Rops mind) t (g j)) l (vzero (Rops mind)).
Proof.
  induction l as [|j l IH] using rev_ind; auto.
  rewrite !filter_app, !fold_left_app. cbn [filter fold_left].
  destruct (Nat.eqb i j); cbn [negb andb fold_left]; auto.
  destruct (b j); cbn [negb fold_left].
  - now rewrite IH.
  - rewrite fold_vadd_comm. rewrite fold_vadd_comm in IH. rewrite <- IH.
    unfold vadd. simpl. f_equal; ring.
Qed.

Lemma sparse_force_filled mind D F n y mass s i :
  (i < n)%nat -> ah_filled (Rops mind) D F n y mass s ->
  sparse_force (Rops mind) n y mass s i = acc_fold (Rops mind) n y mass i.
Proof.
  intros Hi (Hu & Ha & H). destruct (H i Hi) as [E1 E2]. unfold sparse_force.
  apply nth_error_nth with (d := vzero (Rops mind)) in E1.
  apply nth_error_nth with (d := []) in E2. rewrite E1, E2.
  unfold univ_of, adj_of, acc_fold. apply (split_sum mind (pf (Rops mind) n y mass i) i).
Qed.

Lemma ah_full_rhs mind D F n mass y f s :
  0 < mind -> length y = (6 * n)%nat -> length mass = n -> length f = (6 * n)%nat ->
  (forall i, (i < n)%nat -> nth i mass 0 <> 0) ->
  exists f' s', ah_full (Rops mind) D F n mass y f s = Some (f', s') /\
    newton_rhs mind n mass y f' /\
    (forall g, length g = (6 * n)%nat -> ah_sparse (Rops mind) n mass y g s' = Some f').
Proof.
  intros Hd Hy Hm Hf Hnz.
  destruct (@ah_full_ok R (Rops mind) D F n y mass f s) as (f' & s' & E & C & HF); try lia.
  assert (HR : newton_rhs mind n mass y f').
  { eapply deriv_cells_rhs with (A := nacc_vec mind n mass y); eauto.
    eapply deriv_cells_ext; [| |exact C]; auto.
    intros i Hi. simpl. apply acc_fold_div_R. auto. }
  exists f', s'. split; auto. split; auto.
  intros g Hg.
  destruct (@ah_sparse_ok R (Rops mind) n y mass g s') as (f2 & E2 & C2); try lia.
  { eapply ah_filled_ok; eauto. }
  rewrite E2. f_equal. eapply newton_rhs_unique; [|exact HR].
  eapply deriv_cells_rhs with (A := nacc_vec mind n mass y); eauto.
  eapply deriv_cells_ext; [| |exact C2]; auto.
  intros i Hi. simpl. erewrite sparse_force_filled by eauto. apply acc_fold_div_R. auto.
Qed.
