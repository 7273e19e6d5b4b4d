(** The kernels that refresh a device's copy of the tree. *)
From Coq Require Import ZArith NArith List Arith Bool Lia Permutation.
From Verif Require Import Num Arr ArrLemmas LemEngine ModelVertex ModelForce ModelEngine ModelTree ModelHeap SpecTree
  SpecHeap LemTree LemHeap LemHeap2 ModelParallel SpecPar LemParallel SpecGpu LemGpu ModelGpuForce ModelGpuBH LemGpuTr
  LemGpuWalk LemGpuBHForce.
Import ListNotations.
Set Implicit Arguments.

Section Update.
  Context {T : Type} (U : NumOps T) (tex : bool).
  Let lay := if tex then texture else plain.

  (** the bounding box of a node *)
  Definition at6 (m : mem T) (idx : nat) (p : payload (T := T)) : Prop :=
    mrd m nX idx = Some (vx (p_bmin p)) /\ mrd m nY idx = Some (vy (p_bmin p)) /\ mrd m nZ idx = Some (vz (p_bmin p)) /\
    mrd m xX idx = Some (vx (p_bmax p)) /\ mrd m xY idx = Some (vy (p_bmax p)) /\ mrd m xZ idx = Some (vz (p_bmax p)).
  Definition full (m : mem T) (idx : nat) (p : payload (T := T)) : Prop := at5 lay m idx p /\ at6 m idx p.

  (** the cells of node [idx] *)
  Definition own (idx : nat) : region :=
    fun a i => (2 <=? a) && ((if tex && (a =? tX) then i / 4 else i) =? idx).

  Lemma quarter i c : c < 4 -> (4 * i + c) / 4 = i.
  Proof. intros H. symmetry. apply Nat.div_unique with c; lia. Qed.
  Lemma quarter0 i : (4 * i) / 4 = i.
  Proof. rewrite <- (Nat.add_0_r (4 * i)). apply quarter. lia. Qed.

  Lemma own_unique idx idx' a i : own idx a i = true -> own idx' a i = true -> idx = idx'.
  Proof. unfold own. rewrite !andb_true_iff, !Nat.eqb_eq. intuition congruence. Qed.
  Lemma own_lay idx : own idx (fst (at_x lay idx)) (snd (at_x lay idx)) = true /\
    own idx (fst (at_y lay idx)) (snd (at_y lay idx)) = true /\
    own idx (fst (at_z lay idx)) (snd (at_z lay idx)) = true /\
    own idx (fst (at_r lay idx)) (snd (at_r lay idx)) = true.
  Proof.
    unfold own, lay. destruct tex.
    - change texture with (Layout (fun i => (tX, 4 * i)) (fun i => (tX, 4 * i + 1)) (fun i => (tX, 4 * i + 2)) (fun i => (tX, 4 * i + 3))).
      cbn [at_x at_y at_z at_r fst snd]. rewrite Nat.eqb_refl. cbn [andb].
      rewrite quarter0, !quarter by lia. rewrite Nat.eqb_refl. repeat split; reflexivity.
    - cbn [plain at_x at_y at_z at_r fst snd andb]. rewrite Nat.eqb_refl. repeat split; reflexivity.
  Qed.
  Lemma own_arr idx a : 3 <= a -> own idx a idx = true.
  Proof.
    intros Ha. unfold own. rewrite (proj2 (Nat.leb_le 2 a)) by lia. cbn [andb].
    destruct tex; cbn [andb]; [|apply Nat.eqb_refl].
    destruct (Nat.eqb_spec a tX) as [->|]; [cbv in Ha; lia|apply Nat.eqb_refl].
  Qed.
  Lemma own_low idx a i : a < 2 -> own idx a i = false.
  Proof. intros Ha. unfold own. rewrite (proj2 (Nat.leb_gt 2 a)) by lia. reflexivity. Qed.

  (** what happens to other nodes does not matter *)
  Lemma full_frame m m' idx p : (forall a i, own idx a i = true -> mrd m' a i = mrd m a i) -> full m idx p -> full m' idx p.
  Proof.
    intros H [(X & Y & Z & R & M) (A1 & A2 & A3 & B1 & B2 & B3)]. unfold mrd2 in *.
    destruct (own_lay idx) as (OX & OY & OZ & OR). split; unfold at5, at6, mrd2; rewrite !H; auto 10;
      first [apply own_arr; cbv; lia | tauto].
  Qed.
  Lemma at5_frame (m m' : mem T) idx p : (forall a i, own idx a i = true -> mrd m' a i = mrd m a i) ->
    at5 lay m idx p -> at5 lay m' idx p.
  Proof.
    intros H (X & Y & Z & R & M). unfold mrd2 in *.
    destruct (own_lay idx) as (OX & OY & OZ & OR). unfold at5, mrd2. rewrite !H; auto. apply own_arr. cbv; lia.
  Qed.
  Lemma full_shape (m m' : mem T) idx p : shape m = shape m' -> full m idx p -> exists p', full m' idx p'.
  Proof.
    intros S [(X & Y & Z & R & M) (A1 & A2 & A3 & B1 & B2 & B3)]. unfold mrd2 in *.
    destruct (shape_some _ _ S _ _ X) as [x X']. destruct (shape_some _ _ S _ _ Y) as [y Y'].
    destruct (shape_some _ _ S _ _ Z) as [z Z']. destruct (shape_some _ _ S _ _ R) as [r R'].
    destruct (shape_some _ _ S _ _ M) as [w M'].
    destruct (shape_some _ _ S _ _ A1) as [a1 A1']. destruct (shape_some _ _ S _ _ A2) as [a2 A2'].
    destruct (shape_some _ _ S _ _ A3) as [a3 A3']. destruct (shape_some _ _ S _ _ B1) as [b1 B1'].
    destruct (shape_some _ _ S _ _ B2) as [b2 B2']. destruct (shape_some _ _ S _ _ B3) as [b3 B3'].
    exists (Pay (V3 x y z) w r (V3 a1 a2 a3) (V3 b1 b2 b3)). repeat split; assumption.
  Qed.

  (** ** Leaves *)
  Definition leaf_writes (idx : nat) (v : vec3 T) : list ((nat * nat) * T) :=
    [ (at_x lay idx, vx v); ((xX, idx), vx v); ((nX, idx), vx v);
      (at_y lay idx, vy v); ((xY, idx), vy v); ((nY, idx), vy v);
      (at_z lay idx, vz v); ((xZ, idx), vz v); ((nZ, idx), vz v) ].

  Lemma pair_eta {A B} (x : A * B) : (fst x, snd x) = x.
  Proof. now destruct x. Qed.

  Lemma leaf_nodup idx v : NoDup (map fst (leaf_writes idx v)).
  Proof.
    unfold leaf_writes, lay. destruct tex.
    - cbn [map fst texture at_x at_y at_z]. unfold tX, xX, xY, xZ, nX, nY, nZ.
      repeat constructor; cbn [In]; intuition (try congruence);
        match goal with H : (_, _) = (_, _) |- _ => injection H; lia end.
    - cbn [map fst plain at_x at_y at_z]. unfold tX, tY, tZ, xX, xY, xZ, nX, nY, nZ.
      repeat constructor; cbn [In]; intuition congruence.
  Qed.

  Lemma leaf_not_r idx v : ~ In (at_r lay idx) (map fst (leaf_writes idx v)).
  Proof.
    unfold leaf_writes, lay. destruct tex.
    - cbn [map fst texture at_x at_y at_z at_r In]. unfold tX, xX, xY, xZ, nX, nY, nZ.
      intros X. repeat (destruct X as [X|X]; [first [discriminate X | injection X; lia]|]). destruct X.
    - cbn [map fst plain at_x at_y at_z at_r In]. unfold tX, tY, tZ, tR, xX, xY, xZ, nX, nY, nZ.
      intros X. repeat (destruct X as [X|X]; [discriminate X|]). destruct X.
  Qed.
  Lemma leaf_not_m idx v j : ~ In (tM, j) (map fst (leaf_writes idx v)).
  Proof.
    unfold leaf_writes, lay. destruct tex.
    - cbn [map fst texture at_x at_y at_z at_r In]. unfold tM, tX, xX, xY, xZ, nX, nY, nZ.
      intros X. repeat (destruct X as [X|X]; [discriminate X|]). destruct X.
    - cbn [map fst plain at_x at_y at_z at_r In]. unfold tM, tX, tY, tZ, tR, xX, xY, xZ, nX, nY, nZ.
      intros X. repeat (destruct X as [X|X]; [discriminate X|]). destruct X.
  Qed.

  Variables (n : nat) (y f : list T) (body_n : list (option nat)).
  Definition posv (b : nat) : vec3 T := cv U y n 0 b.
  Definition ld_region : region := fun a _ => a =? aY.

  Lemma fps_leaf i : fps ld_region (own (n + i)) (k_leaf (T := T) lay n body_n i) \/
    ~ (exists b, rd body_n (n + i) = Some (Some b)) \/ n = 0.
  Proof.
    destruct n as [|n'] eqn:En; [auto|].
    destruct (rd body_n (S n' + i)) as [[b|]|] eqn:E; [|right; left; intros [b H]; discriminate|right; left; intros [b H]; discriminate].
    left. unfold k_leaf, ld_body, ROOT. replace (i + (S n' - 1 + 1)) with (S n' + i) by lia. rewrite E.
    destruct (own_lay (S n' + i)) as (OX & OY & OZ & OR). unfold st. cbn [fps].
    repeat (first [exact I | split; [first [reflexivity|assumption|apply own_arr; cbv; lia]|intros; cbn [fps]]]).
  Qed.

  Lemma tr_leaf m i b p : i < n -> rd body_n (n + i) = Some (Some b) -> b < n ->
    (forall j, j < 6 * n -> mrd m aY j = Some (nth j y (nlit U 0))) -> full m (n + i) p ->
    tr m (k_leaf lay n body_n i) = Some (leaf_writes (n + i) (posv b)).
  Proof.
    intros Hi E Hb Y [(X5 & Y5 & Z5 & R5 & M5) (A1 & A2 & A3 & B1 & B2 & B3)]. unfold mrd2 in *.
    unfold k_leaf, ld_body, ROOT. replace (i + (n - 1 + 1)) with (n + i) by lia. rewrite E. unfold st. cbn [tr].
    rewrite !Y by nia. rewrite X5, Y5, Z5, A1, A2, A3, B1, B2, B3.
    unfold leaf_writes, posv, cv. cbn [vx vy vz]. rewrite !pair_eta. reflexivity.
  Qed.

  Lemma leaf_round_ok m : length y = 6 * n -> 0 < n ->
    (forall j, j < 6 * n -> mrd m aY j = Some (nth j y (nlit U 0))) ->
    (forall i, i < n -> exists b, rd body_n (n + i) = Some (Some b) /\ b < n) ->
    (forall idx, n <= idx < 2 * n -> exists p, full m idx p) ->
    every_schedule (map (k_leaf lay n body_n) (seq 0 n)) m (fun m' =>
      shape m' = shape m /\
      (forall a i, a < 2 -> mrd m' a i = mrd m a i) /\
      (forall i b p, i < n -> rd body_n (n + i) = Some (Some b) -> at5 lay m (n + i) p ->
         full m' (n + i) (Pay (posv b) (p_mass p) (p_rad p) (posv b) (posv b)))).
  Proof.
    intros Ly' Hn HY HB HF.
    set (bo := fun i => match rd body_n (n + i) with Some (Some b) => b | _ => 0 end).
    assert (HB' : forall i, i < n -> rd body_n (n + i) = Some (Some (bo i)) /\ bo i < n).
    { intros i Hi. unfold bo. destruct (HB i Hi) as (b & -> & Hb). auto. }
    eapply schedule_weaken; [|apply (@tr_schedules T nat 0 (seq 0 n) (k_leaf lay n body_n) (fun _ => ld_region)
      (fun i => own (n + i)) m (fun i => leaf_writes (n + i) (posv (bo i))))].
    - cbv beta. intros m' (S & Hw & Ho). split; auto. split.
      + intros a i Ha. apply Ho. intros c Hc X. apply in_seq in Hc.
        assert (O : own (n + c) a i = true).
        { destruct (HB' c ltac:(lia)) as [E Hb]. destruct (HF (n + c) ltac:(lia)) as [p Hp].
          destruct (fps_leaf c) as [HS|[HS|HS]]; [|destruct HS; eauto|lia].
          refine (@tr_in_W T _ _ _ _ m HS _ a i X). eapply tr_leaf; eauto. lia. }
        rewrite own_low in O by auto. discriminate.
      + intros i b p Hi E (X5 & Y5 & Z5 & R5 & M5).
        destruct (HB' i Hi) as [E' Hb]. rewrite E in E'. injection E' as ->. set (b := bo i) in *.
        assert (W : forall a j v, In ((a, j), v) (leaf_writes (n + i) (posv b)) -> mrd m' a j = Some v).
        { intros a j v Hin. apply (Hw i); auto. apply in_seq. lia. }
        assert (Rr : mrd2 m' (at_r lay (n + i)) = Some (p_rad p)).
        { rewrite <- R5. unfold mrd2. apply Ho. intros c Hc X. apply in_seq in Hc.
          destruct (Nat.eq_dec c i) as [->|Hne].
          - rewrite pair_eta in X. eapply leaf_not_r; exact X.
          - assert (O : own (n + c) (fst (at_r lay (n + i))) (snd (at_r lay (n + i))) = true).
            { destruct (HB' c ltac:(lia)) as [Ec Hc']. destruct (HF (n + c) ltac:(lia)) as [p' Hp'].
              destruct (fps_leaf c) as [HS|[HS|HS]]; [|destruct HS; eauto|lia].
              refine (@tr_in_W T _ _ _ _ m HS _ _ _ X). eapply tr_leaf; eauto. lia. }
            destruct (own_lay (n + i)) as (_ & _ & _ & OR). apply (own_unique _ _ _ _ OR) in O. lia. }
        assert (Mm : mrd m' tM (n + i) = Some (p_mass p)).
        { rewrite <- M5. apply Ho. intros c Hc X. apply in_seq in Hc.
          eapply leaf_not_m; exact X. }
        unfold leaf_writes in W.
        split; [|unfold at6; cbn [p_bmin p_bmax]; repeat split; apply W; cbn [In]; tauto].
        unfold at5. cbn [p_center p_rad p_mass]. split; [|split; [|split; [|split]]]; auto;
          unfold mrd2; apply W; rewrite pair_eta; cbn [In]; tauto.
    - intros i Hi. apply in_seq in Hi. destruct (HB' i ltac:(lia)) as [E Hb].
      destruct (fps_leaf i) as [HS|[HS|HS]]; [exact HS|destruct HS; eauto|lia].
    - intros c a i _ H. unfold ld_region in H. apply Nat.eqb_eq in H. subst a. apply own_low. cbv; lia.
    - intros j k c c' a i Hne Hj Hk HW.
      assert (Bj : j < n). { rewrite <- (seq_length n 0). apply nth_error_Some. congruence. }
      assert (Bk : k < n). { rewrite <- (seq_length n 0). apply nth_error_Some. congruence. }
      rewrite (nth_error_nth' (seq 0 n) 0), seq_nth in Hj by (rewrite ?seq_length; auto).
      rewrite (nth_error_nth' (seq 0 n) 0), seq_nth in Hk by (rewrite ?seq_length; auto).
      injection Hj as <-. injection Hk as <-. cbn [Nat.add] in *. split.
      + unfold ld_region. apply Nat.eqb_neq. intros ->. rewrite own_low in HW by (cbv; lia). discriminate.
      + destruct (own (n + k) a i) eqn:E; auto. apply (own_unique _ _ _ _ HW) in E. lia.
    - intros i Hi. apply in_seq in Hi. destruct (HB' i ltac:(lia)) as [E Hb]. destruct (HF (n + i) ltac:(lia)) as [p Hp].
      eapply tr_leaf; eauto. lia.
    - intros c _. apply leaf_nodup.
  Qed.

  (** ** Inner nodes *)
  (** what a thread makes of the two children *)
  Definition gmerge (ratio_sqr : T) (l r : payload (T := T)) : payload :=
    let mass := nadd U (p_mass l) (p_mass r) in
    let mc f := ndiv U (nadd U (nmul U (f (p_center l)) (p_mass l)) (nmul U (f (p_center r)) (p_mass r))) mass in
    let c := V3 (mc (@vx T)) (mc (@vy T)) (mc (@vz T)) in
    let bmin := vmin U (p_bmin l) (p_bmin r) in
    let bmax := vmax U (p_bmax l) (p_bmax r) in
    let mid := V3 (ndiv U (nadd U (vx bmin) (vx bmax)) (nlit U 2))
                  (ndiv U (nadd U (vy bmin) (vy bmax)) (nlit U 2))
                  (ndiv U (nadd U (vz bmin) (vz bmax)) (nlit U 2)) in
    let rr := nadd U (ndiv U (gpu_distance U bmin bmax) (nlit U 2)) (gpu_distance U mid c) in
    Pay c mass (nmul U (nmul U rr rr) ratio_sqr) bmin bmax.

  Definition node_writes (idx : nat) (p : payload (T := T)) : list ((nat * nat) * T) :=
    [ ((tM, idx), p_mass p);
      (at_x lay idx, vx (p_center p)); (at_y lay idx, vy (p_center p)); (at_z lay idx, vz (p_center p));
      ((nX, idx), vx (p_bmin p)); ((nY, idx), vy (p_bmin p)); ((nZ, idx), vz (p_bmin p));
      ((xX, idx), vx (p_bmax p)); ((xY, idx), vy (p_bmax p)); ((xZ, idx), vz (p_bmax p));
      (at_r lay idx, p_rad p) ].

  Lemma node_nodup idx p : NoDup (map fst (node_writes idx p)).
  Proof.
    unfold node_writes, lay. destruct tex.
    - cbn [map fst texture at_x at_y at_z at_r]. unfold tM, tX, xX, xY, xZ, nX, nY, nZ.
      repeat constructor; cbn [In]; intuition (try congruence);
        match goal with H : (_, _) = (_, _) |- _ => injection H; lia end.
    - cbn [map fst plain at_x at_y at_z at_r]. unfold tM, tX, tY, tZ, tR, xX, xY, xZ, nX, nY, nZ.
      repeat constructor; cbn [In]; intuition congruence.
  Qed.

  Lemma tr_child m i p k : full m i p ->
    tr m (ld_child lay i k) = tr m (k (p_center p) (p_mass p) (p_bmin p) (p_bmax p)).
  Proof.
    intros [(X & Y & Z & R & M) (A1 & A2 & A3 & B1 & B2 & B3)]. unfold mrd2 in *. unfold ld_child, ld.
    rewrite (tr_rd _ _ _ _ M), (tr_rd _ _ _ _ X), (tr_rd _ _ _ _ Y), (tr_rd _ _ _ _ Z),
      (tr_rd _ _ _ _ A1), (tr_rd _ _ _ _ A2), (tr_rd _ _ _ _ A3),
      (tr_rd _ _ _ _ B1), (tr_rd _ _ _ _ B2), (tr_rd _ _ _ _ B3).
    destruct (p_center p), (p_bmin p), (p_bmax p). reflexivity.
  Qed.
  Lemma fps_child R W i (k : vec3 T -> T -> vec3 T -> vec3 T -> prog T) : (forall a j, own i a j = true -> R a j = true) ->
    (forall a b c d, fps R W (k a b c d)) -> fps R W (ld_child lay i k).
  Proof.
    intros HR Hk. unfold ld_child, ld. destruct (own_lay i) as (OX & OY & OZ & OR). cbn [fps].
    repeat (first [apply Hk | split; [apply HR; first [assumption|apply own_arr; cbv; lia]|intros; cbn [fps]]]).
  Qed.

  Definition node_region (L i : nat) : region :=
    fun a j => (i <? L) && (own (left_idx (i + L)) a j || own (rght_idx (i + L)) a j).
  Definition node_own (L i : nat) : region := fun a j => (i <? L) && own (i + L) a j.

  Lemma fps_node_kernel L rs i : fps (node_region L i) (node_own L i) (k_node U lay L rs i).
  Proof.
    unfold k_node. destruct (Nat.leb_spec (2 * L) (i + L)) as [H|H]; [exact I|].
    assert (Hi : (i <? L) = true) by (apply Nat.ltb_lt; lia).
    apply fps_child.
    { intros a j Hj. unfold node_region. rewrite Hi, Hj. reflexivity. }
    intros. apply fps_child.
    { intros a' j Hj. unfold node_region. rewrite Hi, Hj, orb_true_r. reflexivity. }
    intros. unfold st. cbn [fps]. unfold node_own. rewrite Hi. cbn [andb].
    destruct (own_lay (i + L)) as (OX & OY & OZ & OR).
    repeat (first [exact I | split; [first [assumption|apply own_arr; cbv; lia]|]]).
  Qed.

  Lemma tr_node_kernel m L rs i pl pr p : i < L -> full m (2 * (i + L)) pl -> full m (2 * (i + L) + 1) pr ->
    full m (i + L) p -> tr m (k_node U lay L rs i) = Some (node_writes (i + L) (gmerge rs pl pr)).
  Proof.
    intros Hi Fl Fr [(X & Y & Z & R & M) (A1 & A2 & A3 & B1 & B2 & B3)]. unfold mrd2 in *. unfold k_node.
    destruct (Nat.leb_spec (2 * L) (i + L)) as [H|H]; [lia|]. unfold left_idx, rght_idx.
    rewrite (tr_child _ Fl), (tr_child _ Fr). unfold st. cbn [tr].
    rewrite X, Y, Z, R, M, A1, A2, A3, B1, B2, B3.
    unfold node_writes. cbn [gmerge p_mass p_center p_rad p_bmin p_bmax vx vy vz]. rewrite !pair_eta. reflexivity.
  Qed.

  Lemma node_round_ok m L G rs (q : nat -> payload (T := T)) : L <= G ->
    (forall idx, L <= idx < 2 * L -> exists p, full m idx p) ->
    (forall idx, 2 * L <= idx < 4 * L -> full m idx (q idx)) ->
    every_schedule (map (k_node U lay L rs) (seq 0 G)) m (fun m' =>
      shape m' = shape m /\
      (forall a i, (forall idx, L <= idx < 2 * L -> own idx a i = false) -> mrd m' a i = mrd m a i) /\
      (forall idx, L <= idx < 2 * L -> full m' idx (gmerge rs (q (2 * idx)) (q (2 * idx + 1))))).
  Proof.
    intros HG HF HC.
    eapply schedule_weaken; [|apply (@tr_schedules T nat 0 (seq 0 G) (k_node U lay L rs) (node_region L)
      (node_own L) m (fun i => if i <? L then node_writes (i + L) (gmerge rs (q (2 * (i + L))) (q (2 * (i + L) + 1))) else []))].
    - cbv beta. intros m' (S & Hw & Ho). split; auto. split.
      + intros a j Hno. apply Ho. intros c Hc X. destruct (Nat.ltb_spec c L) as [Hl|Hl]; [|destruct X].
        destruct (HF (c + L) ltac:(lia)) as [p Hp].
        assert (O : node_own L c a j = true).
        { refine (@tr_in_W T _ _ _ _ m (fps_node_kernel L rs c) _ a j X).
          eapply tr_node_kernel; eauto; apply HC; lia. }
        unfold node_own in O. apply andb_true_iff in O. destruct O as [_ O]. rewrite Hno in O by lia. discriminate.
      + intros idx Hidx. set (p := gmerge rs (q (2 * idx)) (q (2 * idx + 1))).
        assert (W : forall a j v, In ((a, j), v) (node_writes idx p) -> mrd m' a j = Some v).
        { intros a j v Hin. apply (Hw (idx - L)); [apply in_seq; lia|].
          assert ((idx - L <? L) = true) as -> by (apply Nat.ltb_lt; lia).
          replace (idx - L + L) with idx by lia. exact Hin. }
        unfold node_writes in W.
        split; [|unfold at6; repeat split; apply W; cbn [In]; tauto].
        unfold at5. split; [|split; [|split; [|split]]]; unfold mrd2; apply W; rewrite ?pair_eta; cbn [In]; tauto.
    - intros i _. apply fps_node_kernel.
    - intros c a i _ H. unfold node_region, node_own in *. apply andb_true_iff in H. destruct H as [Hc H].
      rewrite Hc. cbn [andb]. apply Nat.ltb_lt in Hc. destruct (own (c + L) a i) eqn:E; auto.
      unfold left_idx, rght_idx in H.
      apply orb_true_iff in H. destruct H as [H|H]; apply (own_unique _ _ _ _ E) in H; lia.
    - intros j k c c' a i Hne Hj Hk HW.
      assert (Bj : j < G). { rewrite <- (seq_length G 0). apply nth_error_Some. congruence. }
      assert (Bk : k < G). { rewrite <- (seq_length G 0). apply nth_error_Some. congruence. }
      rewrite (nth_error_nth' (seq 0 G) 0), seq_nth in Hj by (rewrite ?seq_length; auto).
      rewrite (nth_error_nth' (seq 0 G) 0), seq_nth in Hk by (rewrite ?seq_length; auto).
      injection Hj as <-. injection Hk as <-. cbn [Nat.add] in *.
      unfold node_own, node_region in *. apply andb_true_iff in HW. destruct HW as [Hj O]. apply Nat.ltb_lt in Hj.
      destruct (Nat.ltb_spec k L) as [Hk|Hk]; cbn [andb]; auto. split.
      + unfold left_idx, rght_idx. apply orb_false_iff.
        split; destruct (own _ a i) eqn:E at 1; auto; apply (own_unique _ _ _ _ O) in E; lia.
      + destruct (own (k + L) a i) eqn:E; auto. apply (own_unique _ _ _ _ O) in E. lia.
    - intros i _. destruct (Nat.ltb_spec i L) as [Hi|Hi].
      + destruct (HF (i + L) ltac:(lia)) as [p Hp]. eapply tr_node_kernel; eauto; apply HC; lia.
      + unfold k_node. destruct (Nat.leb_spec (2 * L) (i + L)); [reflexivity|lia].
    - intros c _. destruct (c <? L); [apply node_nodup|constructor].
  Qed.
End Update.
