(** Block engine: refinement to the direct sum and memory safety. *)
From Coq Require Import ZArith Reals List Arith Lia Lra.
From Verif Require Import Num Arr ArrLemmas SpecPhys RLemmas ModelVertex ModelForce ModelEngine
  ModelBlock LemEngine LemPhys.
Import ListNotations.
Set Implicit Arguments.

Section Gen.
  Context {T : Type} (N : NumOps T).
  Implicit Types p f g y mass : list T.
  Variable block : nat.
  Hypothesis Hblock : 0 < block.

  Lemma load_pos_ok count y n1 :
    6 * count <= length y -> n1 + block <= count ->
    block_load_pos block count y n1 = Some (map (fun b => cv N y count 0 (b + n1)) (seq 0 block)).
  Proof.
    intros Hy Hn. unfold block_load_pos. apply for_collect.
    intros b Hb. apply (rd3_cv N); lia.
  Qed.

  Lemma load_mass_ok mass n2 :
    n2 + block <= length mass ->
    block_load_mass block mass n2 = Some (map (fun b => nth (n2 + b) mass (nlit N 0)) (seq 0 block)).
  Proof.
    intros Hm. unfold block_load_mass. apply for_collect.
    intros b Hb. apply rd_nth. lia.
  Qed.

  (** accumulated interaction with the bodies listed in [js] *)
  Definition bfold (v1 : vec3 T) (P : nat -> vec3 T) (M : nat -> T) (js : list nat) (t : vec3 T)
    : vec3 T := fold_left (fun t j => block_pair N v1 (P j) (M j) t) js t.

  Lemma block_pairs_ok (P1 P2 : nat -> vec3 T) (M2 : nat -> T) (F : nat -> vec3 T) :
    block_pairs N block (map P1 (seq 0 block)) (map P2 (seq 0 block)) (map M2 (seq 0 block))
      (map F (seq 0 block)) =
    Some (map (fun b => bfold (P1 b) P2 M2 (seq 0 block) (F b)) (seq 0 block)).
  Proof.
    unfold block_pairs.
    pose (G := fun b => bfold (P1 b) P2 M2 (seq 0 block) (F b)).
    pose (P := fun k (tf : list (vec3 T)) =>
      tf = map (fun b => if b <? k then G b else F b) (seq 0 block)).
    match goal with |- for_ _ _ ?body _ = _ =>
      destruct (@for_inv _ P block 0 body (map F (seq 0 block))) as (tf' & E & HP) end.
    - unfold P. apply map_ext. intros b. reflexivity.
    - intros k tf Hk ->.
      (* inner loop *)
      pose (Q := fun q (tf : list (vec3 T)) =>
        tf = map (fun b => if b =? k then bfold (P1 k) P2 M2 (seq 0 q) (F k)
                           else if b <? k then G b else F b) (seq 0 block)).
      match goal with |- exists _, for_ _ _ ?body ?s = _ /\ _ =>
        destruct (@for_inv _ Q block 0 body s) as (t2 & E2 & HQ) end.
      + unfold Q. apply map_ext_in. intros b Hb.
        destruct (Nat.eqb_spec b k) as [->|]; auto. now rewrite Nat.ltb_irrefl.
      + intros q t Hq ->.
        rewrite !rd_map by lia. cbn [obind]. rewrite Nat.eqb_refl.
        eexists. split.
        * rewrite wr_ok by (rewrite map_length, seq_length; lia). reflexivity.
        * unfold Q. apply nth_error_ext; [now rewrite upd_length, !map_length|].
          rewrite upd_length, map_length, seq_length. intros j Hj.
          rewrite upd_nth. rewrite map_length, seq_length.
          rewrite !nth_map by lia.
          destruct (Nat.eqb_spec j k) as [->|Hne].
          -- replace (k <? block) with true by (symmetry; apply Nat.ltb_lt; lia).
             f_equal. unfold bfold. rewrite seq_S, fold_left_app. reflexivity.
          -- reflexivity.
      + exists t2. split; auto. rewrite HQ. unfold P. apply map_ext_in. intros b Hb.
        simpl. destruct (Nat.eqb_spec b k) as [->|Hne].
        * replace (k <? S k) with true by (symmetry; apply Nat.ltb_lt; lia). reflexivity.
        * destruct (Nat.ltb_spec b k), (Nat.ltb_spec b (S k)); auto; lia.
    - rewrite E, HP. f_equal. apply map_ext_in. intros b Hb. apply in_seq in Hb.
      simpl. replace (b <? block) with true by (symmetry; apply Nat.ltb_lt; lia). reflexivity.
  Qed.

  Lemma block_count_mul q : block_count block (q * block) = q.
  Proof.
    unfold block_count. rewrite Nat.add_comm, Nat.div_add by lia.
    rewrite Nat.div_small by lia. reflexivity.
  Qed.

  Lemma bfold_app v1 P M l1 l2 t : bfold v1 P M (l1 ++ l2) t = bfold v1 P M l2 (bfold v1 P M l1 t).
  Proof. unfold bfold. apply fold_left_app. Qed.

  Lemma bfold_shift v1 P M a n t :
    bfold v1 (fun b => P (b + a)) (fun b => M (a + b)) (seq 0 n) t = bfold v1 P M (seq a n) t.
  Proof.
    unfold bfold. rewrite (seq_shift_map a n), fold_left_map.
    revert t. generalize (seq 0 n). induction l as [|b l IH]; intros t; simpl; auto.
    rewrite (Nat.add_comm b a). apply IH.
  Qed.

  Definition bacc (count : nat) y mass (i : nat) : vec3 T :=
    bfold (cv N y count 0 i) (cv N y count 0) (fun j => nth j mass (nlit N 0)) (seq 0 count) (vzero N).

  (** the accumulator of one outer iteration *)
  Lemma block_acc_ok q y mass n1 :
    6 * (q * block) <= length y -> q * block <= length mass ->
    for_step q 0 block
      (fun n2 tf =>
         let* q2 := block_load_pos block (q * block) y n2 in
         let* m2 := block_load_mass block mass n2 in
         block_pairs N block (map (fun b => cv N y (q * block) 0 (b + n1)) (seq 0 block)) q2 m2 tf)
      (repeat (vzero N) block) =
    Some (map (fun b => bacc (q * block) y mass (b + n1)) (seq 0 block)).
  Proof.
    intros Hy Hm. rewrite for_step_for.
    pose (P := fun k (tf : list (vec3 T)) => tf =
      map (fun b => bfold (cv N y (q * block) 0 (b + n1)) (cv N y (q * block) 0)
                      (fun j => nth j mass (nlit N 0)) (seq 0 (k * block)) (vzero N)) (seq 0 block)).
    match goal with |- for_ _ _ ?body ?s = _ =>
      destruct (@for_inv _ P q 0 body s) as (t & E & HP) end.
    - unfold P. simpl. apply nth_error_ext.
      + now rewrite repeat_length, map_length, seq_length.
      + rewrite repeat_length. intros i Hi.
        rewrite nth_map by lia. rewrite nth_error_repeat by lia. reflexivity.
    - intros k tf Hk ->.
      assert (Hkb : k * block + block <= q * block).
      { replace (k * block + block) with (S k * block) by (simpl; lia).
        apply Nat.mul_le_mono_r. lia. }
      rewrite load_pos_ok by (simpl; lia). cbn [obind].
      rewrite load_mass_ok by (simpl; lia). cbn [obind].
      rewrite block_pairs_ok. eexists. split; [reflexivity|].
      unfold P. apply map_ext. intros b.
      rewrite (@bfold_shift (cv N y (q * block) 0 (b + n1)) (cv N y (q * block) 0)
               (fun j => nth j mass (nlit N 0))).
      rewrite <- bfold_app. simpl. rewrite <- seq_app.
      replace (block + k * block) with (k * block + block) by lia. reflexivity.
    - rewrite E, HP. reflexivity.
  Qed.

  Lemma for_blocks St (body : nat -> St -> option St) q s :
    for_ q 0 (fun k s => for_ block 0 (fun b => body (b + k * block)) s) s =
    for_ (q * block) 0 body s.
  Proof.
    revert s. induction q as [|q IH]; intros s; auto.
    rewrite for_succ, IH. replace (S q * block) with (q * block + block) by (simpl; lia).
    rewrite for_app. destruct (for_ (q * block) 0 body s) as [s'|]; auto.
    simpl. generalize (q * block). clear. intros a.
    assert (G : forall n c st, for_ n c (fun b => body (b + a)) st = for_ n (c + a) body st).
    { induction n as [|n IH]; intros c st; simpl; auto. destruct (body (c + a) st); auto.
      apply IH. }
    apply G.
  Qed.

  Theorem blocked_cells q y mass f :
    6 * (q * block) <= length y -> q * block <= length mass -> 6 * (q * block) <= length f ->
    exists f', blocked_fcompute N block (q * block) mass y f = Some f' /\
      deriv_cells (q * block) (cv N y (q * block) 3) (bacc (q * block) y mass) f f'.
  Proof.
    intros Hy Hm Hf. unfold blocked_fcompute. rewrite block_count_mul, for_step_for.
    pose (W := fun i g => let* g := wr3 g (q * block) 0 i (cv N y (q * block) 3 i) in
                          wr3 g (q * block) 3 i (bacc (q * block) y mass i)).
    rewrite (@for_ext _ q 0 _ (fun k s => for_ block 0 (fun b => W (b + k * block)) s)).
    - rewrite for_blocks. apply body_writer; auto.
    - intros k g Hk. unfold block_body. cbn [Nat.add].
      assert (Hkb : k * block + block <= q * block).
      { replace (k * block + block) with (S k * block) by (simpl; lia).
        apply Nat.mul_le_mono_r. lia. }
      rewrite load_pos_ok by lia. cbn [obind].
      rewrite block_count_mul, block_acc_ok by auto. cbn [obind].
      apply for_ext. intros b h Hb. unfold W.
      rewrite (rd3_cv N) by lia. cbn [obind].
      rewrite rd_map by lia. destruct (wr3 h _ _ _ _); reflexivity.
  Qed.

  (** any other count: the first partial block reads or writes past the end *)
  Theorem blocked_oob count y mass f :
    length y = 6 * count -> count mod block <> 0 ->
    blocked_fcompute N block count mass y f = None.
  Proof.
    intros Hy Hmod. unfold blocked_fcompute.
    set (q := count / block).
    assert (Hc : count = block * q + count mod block) by (apply Nat.div_mod; lia).
    assert (Hr : count mod block < block) by (apply Nat.mod_upper_bound; lia).
    assert (Hq : block_count block count = S q).
    { unfold block_count. rewrite Hc at 1.
      replace (block * q + count mod block + (block - 1))
        with ((count mod block - 1) + S q * block) by (simpl; lia).
      rewrite Nat.div_add by lia. rewrite Nat.div_small by lia. lia. }
    rewrite Hq, for_step_for.
    assert (Hnone : forall g, block_body N block count mass y (0 + q * block) g = None).
    { intros g. unfold block_body.
      destruct (block_load_pos block count y (0 + q * block)) as [p1|]; auto.
      cbn [obind].
      assert (forall tf (h : list T), for_ block 0
        (fun b1 f0 => let* v := rd3 y count 3 (b1 + (0 + q * block)) in
           let* f1 := wr3 f0 count 0 (b1 + (0 + q * block)) v in
           let* t := rd tf b1 in wr3 f1 count 3 (b1 + (0 + q * block)) t) h = None).
      { intros tf h. apply for_fail with (P := fun _ _ => True) (k0 := count mod block); auto; try lia.
        - intros k s Hk _.
          match goal with |- ?X = None \/ _ => destruct X; eauto end.
        - intros s _. rewrite rd3_out; auto. rewrite Hy. lia. }
      match goal with |- obind ?X _ = _ => destruct X; auto end. cbn [obind]. apply H. }
    rewrite for_succ. destruct (for_ q 0 _ f); auto.
  Qed.
End Gen.

Local Open Scope R_scope.

Lemma bfold_R mind v1 (P : nat -> vec3 R) M n t :
  bfold (Rops mind) v1 P M (seq 0 n) t =
  vadd (Rops mind) t (vsumR n (fun j =>
    let w := M j / soft_cube mind (vd2 v1 (P j)) in
    V3 (- ((vx v1 - vx (P j)) * w)) (- ((vy v1 - vy (P j)) * w)) (- ((vz v1 - vz (P j)) * w)))).
Proof.
  induction n as [|n IH].
  - unfold bfold, vsumR, vadd. simpl. destruct t; simpl. f_equal; ring.
  - unfold bfold in *. rewrite seq_S, fold_left_app, IH. simpl.
    unfold vsumR, vadd, block_pair. simpl.
    change ((vx v1 - vx (P n)) * (vx v1 - vx (P n)) + (vy v1 - vy (P n)) * (vy v1 - vy (P n)) +
          (vz v1 - vz (P n)) * (vz v1 - vz (P n))) with (vd2 v1 (P n)).
    assert (E : (if (if Rlt_dec (vd2 v1 (P n)) mind then true else false) then mind
                 else vd2 v1 (P n)) = Rmax mind (vd2 v1 (P n))).
    { destruct (Rlt_dec (vd2 v1 (P n)) mind); [rewrite Rmax_left|rewrite Rmax_right]; lra. }
    rewrite E. unfold soft_cube. rewrite (Rmult_comm (sqrt _)). f_equal; ring.
Qed.

Lemma bacc_R mind n mass y i :
  bacc (Rops mind) n y mass i = nacc_vec mind n mass y i.
Proof.
  unfold bacc. rewrite bfold_R. unfold nacc_vec, newton_acc, vadd, vsumR. simpl.
  assert (G : forall k F, (forall j, F j = - ((comp y n k i - comp y n k j) *
        (nth j mass 0 / soft_cube mind (dist2 (comp y n 0) (comp y n 1) (comp y n 2) i j)))) ->
      0 + rsum n F = - rsum n (fun j => if Nat.eqb i j then 0
         else nth j mass 0 * (comp y n k i - comp y n k j) /
            soft_cube mind (dist2 (comp y n 0) (comp y n 1) (comp y n 2) i j))).
  { intros k F HF. rewrite <- rsum_opp, Rplus_0_l. apply rsum_ext. intros j _. rewrite HF.
    destruct (Nat.eqb_spec i j) as [->|]; [|unfold Rdiv; ring].
    unfold Rminus. rewrite Rplus_opp_r. unfold Rdiv. ring. }
  f_equal; apply G; reflexivity.
Qed.

Lemma block_rhs mind q mass y f :
  let n := (q * 64)%nat in
  length y = (6 * n)%nat -> length mass = n -> length f = (6 * n)%nat ->
  exists f', block_fcompute (Rops mind) n mass y f = Some f' /\ newton_rhs mind n mass y f'.
Proof.
  intros n Hy Hm Hf. unfold block_fcompute.
  destruct (@blocked_cells R (Rops mind) 64 ltac:(lia) q y mass f) as (f' & E & C);
    try (fold n; lia).
  exists f'. split; auto. eapply deriv_cells_rhs; [exact Hf| | |exact C]; auto.
  intros i Hi. apply bacc_R.
Qed.
