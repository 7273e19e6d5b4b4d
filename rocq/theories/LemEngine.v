(** Generic facts about the structure-of-arrays state vector and the per-body loops. *)
From Coq Require Import ZArith List Arith Lia.
From Verif Require Import Num Arr ArrLemmas ModelVertex ModelForce ModelEngine.
Import ListNotations.
Set Implicit Arguments.

Section Gen.
  Context {T : Type} (N : NumOps T).
  Implicit Types p f g y mass : list T.

  (** vector [off..off+2] of body [i], with a default outside *)
  Definition cv (p : list T) (n off i : nat) : vec3 T :=
    V3 (nth (off * n + i) p (nlit N 0)) (nth ((off + 1) * n + i) p (nlit N 0))
       (nth ((off + 2) * n + i) p (nlit N 0)).

  Lemma rd3_cv p n off i :
    i < n -> off <= 3 -> 6 * n <= length p -> rd3 p n off i = Some (cv p n off i).
  Proof.
    intros Hi Ho Hl. unfold rd3, cv.
    assert (forall k, k < 6 -> k * n + i < length p).
    { intros k Hk. pose proof (@soa_bound n k 6 i Hi Hk). lia. }
    rewrite (rd_nth p (i:=off * n + i) (nlit N 0)) by (apply H; lia).
    rewrite (rd_nth p (i:=(off + 1) * n + i) (nlit N 0)) by (apply H; lia).
    rewrite (rd_nth p (i:=(off + 2) * n + i) (nlit N 0)) by (apply H; lia).
    reflexivity.
  Qed.

  Lemma rd3_out p n off i : length p <= (off + 2) * n + i -> rd3 p n off i = None.
  Proof.
    intros H. unfold rd3. destruct (rd p (off * n + i)); auto. simpl.
    destruct (rd p ((off + 1) * n + i)); auto. simpl. now rewrite rd_none.
  Qed.

  Definition upd3 (p : list T) (n off i : nat) (v : vec3 T) : list T :=
    upd (upd (upd p (off * n + i) (vx v)) ((off + 1) * n + i) (vy v)) ((off + 2) * n + i) (vz v).

  Lemma upd3_length p n off i v : length (upd3 p n off i v) = length p.
  Proof. unfold upd3. now rewrite !upd_length. Qed.

  Lemma wr3_upd3 p n off i v :
    i < n -> off <= 3 -> 6 * n <= length p -> wr3 p n off i v = Some (upd3 p n off i v).
  Proof.
    intros Hi Ho Hl. unfold wr3, upd3.
    assert (forall k, k < 6 -> k * n + i < length p).
    { intros k Hk. pose proof (@soa_bound n k 6 i Hi Hk). lia. }
    rewrite wr_ok by (apply H; lia). cbn [obind].
    rewrite wr_ok by (rewrite upd_length; apply H; lia). cbn [obind].
    rewrite wr_ok by (rewrite !upd_length; apply H; lia). reflexivity.
  Qed.

  Lemma upd3_nth p n off i v k j :
    i < n -> j < n -> off <= 3 -> k < 6 -> 6 * n <= length p ->
    nth_error (upd3 p n off i v) (k * n + j) =
      if (Nat.eqb j i && Nat.eqb k off)%bool then Some (vx v)
      else if (Nat.eqb j i && Nat.eqb k (off + 1))%bool then Some (vy v)
      else if (Nat.eqb j i && Nat.eqb k (off + 2))%bool then Some (vz v)
      else nth_error p (k * n + j).
  Proof.
    intros Hi Hj Ho Hk Hl. unfold upd3.
    assert (HB : forall k, k < 6 -> k * n + i < length p).
    { intros k' Hk'. pose proof (@soa_bound n k' 6 i Hi Hk'). lia. }
    assert (HE : forall a, Nat.eqb (k * n + j) (a * n + i) = (Nat.eqb j i && Nat.eqb k a)%bool).
    { intros a. destruct (Nat.eqb_spec (k * n + j) (a * n + i)) as [E|E].
      - apply soa_inj in E; auto. destruct E as [-> ->]. now rewrite !Nat.eqb_refl.
      - destruct (Nat.eqb_spec j i) as [->|]; auto. destruct (Nat.eqb_spec k a) as [->|]; auto; now elim E. }
    rewrite !upd_nth, !HE, !upd_length.
    assert (HL : forall a, a < 6 -> Nat.ltb (a * n + i) (length p) = true).
    { intros a Ha. apply Nat.ltb_lt. auto. }
    rewrite !HL by lia.
    destruct (Nat.eqb_spec j i); simpl; auto.
    destruct (Nat.eqb_spec k (off + 2)), (Nat.eqb_spec k (off + 1)), (Nat.eqb_spec k off);
      simpl; auto; lia.
  Qed.

  Lemma upd3_nth_out p n off i v q :
    i < n -> off <= 3 -> 6 * n <= q -> nth_error (upd3 p n off i v) q = nth_error p q.
  Proof.
    intros Hi Ho Hq. unfold upd3.
    assert (HB : forall k, k < 6 -> k * n + i < 6 * n) by (intros; now apply soa_bound).
    rewrite !upd_nth_other; auto.
    - specialize (HB off). lia.
    - specialize (HB (off + 1)). lia.
    - specialize (HB (off + 2)). lia.
  Qed.

  (** the three cells of vector [off] of body [i] hold [v] *)
  Definition holds (p : list T) (n off i : nat) (v : vec3 T) : Prop :=
    nth_error p (off * n + i) = Some (vx v) /\
    nth_error p ((off + 1) * n + i) = Some (vy v) /\
    nth_error p ((off + 2) * n + i) = Some (vz v).

  Lemma holds_rd3 p n off i v : holds p n off i v <-> rd3 p n off i = Some v.
  Proof.
    unfold holds, rd3, rd. split.
    - intros (-> & -> & ->). destruct v; reflexivity.
    - destruct (nth_error p (off * n + i)); [|discriminate].
      destruct (nth_error p ((off + 1) * n + i)); [|discriminate].
      destruct (nth_error p ((off + 2) * n + i)); [|discriminate]. simpl.
      intros [= <-]. auto.
  Qed.

  Lemma holds_cv p n off i v : holds p n off i v -> cv p n off i = v.
  Proof.
    unfold holds, cv. intros (H1 & H2 & H3).
    apply nth_error_nth with (d := nlit N 0) in H1, H2, H3.
    rewrite H1, H2, H3. destruct v; reflexivity.
  Qed.

  (** [f'] is [f] with velocity [V i] and acceleration [A i] stored for each body [i] *)
  Definition deriv_cells (n : nat) (V A : nat -> vec3 T) (f f' : list T) : Prop :=
    length f' = length f /\
    (forall i, i < n -> holds f' n 0 i (V i) /\ holds f' n 3 i (A i)) /\
    (forall q, 6 * n <= q -> nth_error f' q = nth_error f q).

  Lemma holds_upd3 p n off off' i v j w :
    i < n -> j < n -> 6 * n <= length p ->
    (off = 0 \/ off = 3) -> (off' = 0 \/ off' = 3) ->
    (if (Nat.eqb i j && Nat.eqb off off')%bool then w = v else holds p n off' j w) ->
    holds (upd3 p n off i v) n off' j w.
  Proof.
    intros Hi Hj Hl Ho Ho' H. unfold holds.
    rewrite !upd3_nth by (auto; lia). rewrite (Nat.eqb_sym j i).
    destruct (Nat.eqb_spec i j) as [->|]; simpl in *; [|exact H].
    destruct Ho as [-> | ->], Ho' as [-> | ->]; simpl in *; subst; auto; exact H.
  Qed.

  Lemma body_writer (V A : nat -> vec3 T) n body f :
    6 * n <= length f ->
    (forall i g, i < n -> length g = length f ->
       body i g = let* g := wr3 g n 0 i (V i) in wr3 g n 3 i (A i)) ->
    exists f', for_ n 0 body f = Some f' /\ deriv_cells n V A f f'.
  Proof.
    intros Hl Hb.
    pose (P := fun k g => length g = length f /\
      (forall i, i < k -> holds g n 0 i (V i) /\ holds g n 3 i (A i)) /\
      (forall q, 6 * n <= q -> nth_error g q = nth_error f q)).
    destruct (@for_inv _ P n 0 body f) as (f' & E & HP).
    - split; [auto|]. split; [intros; lia|auto].
    - intros k g Hk (Hg & Hc & Ho).
      exists (upd3 (upd3 g n 0 k (V k)) n 3 k (A k)). split.
      + rewrite Hb by (auto; lia). rewrite wr3_upd3 by lia. cbn [obind].
        rewrite wr3_upd3 by (rewrite ?upd3_length; lia). reflexivity.
      + split; [now rewrite !upd3_length|]. split.
        * intros i Hi. destruct (Nat.eq_dec i k) as [->|Hne].
          -- split; apply holds_upd3; rewrite ?upd3_length; auto; try lia;
             rewrite Nat.eqb_refl; simpl; auto.
             apply holds_upd3; auto; try lia. rewrite Nat.eqb_refl. reflexivity.
          -- destruct (Hc i ltac:(lia)) as [H1 H2].
             assert (Nat.eqb k i = false) as He by (apply Nat.eqb_neq; lia).
             split; apply holds_upd3; rewrite ?upd3_length; auto; try lia; rewrite He; simpl;
             apply holds_upd3; auto; try lia; rewrite He; simpl; auto.
        * intros q Hq. rewrite !upd3_nth_out by lia. auto.
    - exists f'. split; auto.
  Qed.

  (** the direct sum, as the loops compute it *)
  Definition acc_fold (n : nat) (y mass : list T) (i : nat) : vec3 T :=
    fold_left
      (fun tf j => if Nat.eqb i j then tf
                   else vadd N tf (force N (cv y n 0 i) (cv y n 0 j)
                                     (nth i mass (nlit N 0)) (nth j mass (nlit N 0))))
      (seq 0 n) (vzero N).

  Lemma total_force_fold n y mass i :
    i < n -> 6 * n <= length y -> n <= length mass ->
    total_force N n y mass i (cv y n 0 i) = Some (acc_fold n y mass i).
  Proof.
    intros Hi Hy Hm. unfold total_force, acc_fold.
    erewrite for_fold; [reflexivity|].
    intros k s Hk. unfold pair_loop_body. destruct (Nat.eqb i k); auto.
    rewrite rd3_cv by lia. cbn [obind].
    rewrite (rd_nth mass (nlit N 0)) by lia. cbn [obind].
    rewrite (rd_nth mass (nlit N 0)) by lia. reflexivity.
  Qed.

  Lemma simple_fcompute_cells n y mass f :
    6 * n <= length y -> n <= length mass -> 6 * n <= length f ->
    exists f', simple_fcompute N n mass y f = Some f' /\
      deriv_cells n (cv y n 3)
        (fun i => vdivs N (acc_fold n y mass i) (nth i mass (nlit N 0))) f f'.
  Proof.
    intros Hy Hm Hf. apply body_writer; auto.
    intros i g Hi Hg. unfold fcompute_body.
    rewrite rd3_cv by lia. cbn [obind]. rewrite total_force_fold by auto. cbn [obind].
    rewrite rd3_cv by lia. cbn [obind].
    rewrite (rd_nth mass (i:=i) (nlit N 0)) by lia.
    destruct (wr3 g n 0 i (cv y n 3 i)); reflexivity.
  Qed.

  (** two result vectors of exactly the right length with the same cells are equal *)
  Lemma deriv_cells_unique n V A f f1 f2 :
    deriv_cells n V A f f1 -> deriv_cells n V A f f2 -> f1 = f2.
  Proof.
    intros (L1 & C1 & O1) (L2 & C2 & O2). apply nth_error_ext; [congruence|].
    intros q Hq. destruct (Nat.lt_ge_cases q (6 * n)) as [Hlt|Hge].
    - destruct (soa_split _ _ Hlt) as (k & i & Hk & Hi & ->).
      destruct (C1 i Hi) as [(A1 & A2 & A3) (A4 & A5 & A6)].
      destruct (C2 i Hi) as [(B1 & B2 & B3) (B4 & B5 & B6)].
      do 6 (destruct k as [|k]; [simpl in *; congruence|]). lia.
    - now rewrite O1, O2.
  Qed.

  Lemma deriv_cells_ext n V V' A A' f f' :
    (forall i, i < n -> V i = V' i) -> (forall i, i < n -> A i = A' i) ->
    deriv_cells n V A f f' -> deriv_cells n V' A' f f'.
  Proof.
    intros HV HA (L & C & O). split; auto. split; auto.
    intros i Hi. rewrite <- HV, <- HA by auto. auto.
  Qed.
End Gen.
