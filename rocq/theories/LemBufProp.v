(** Corollaries in the shape of the property statements C10-C16. *)
From Coq Require Import ZArith Reals List Arith Lia Lra SpecFloat Permutation.
From Verif Require Import Num Arr ArrLemmas SpecPhys SpecEngine RLemmas ModelVertex
  ModelForce ModelSum ModelEngine ModelParallel LemEngine LemBuffers LemMisc LemStat LemSpec.
Import ListNotations.
Set Implicit Arguments.

Section G.
  Context {T : Type} (N : NumOps T).

  Lemma init_get_data n (vrt vel : list (vec3 T)) (mass gm gy : list T) vrt0 vel0 :
    length vrt = n -> length vel = n -> length mass = n -> length gm = n ->
    length gy = problem_size n -> length vrt0 = n -> length vel0 = n ->
    exists y, engine_init n vrt vel mass gm gy = Some (mass, y) /\
      length y = problem_size n /\
      (forall i r v, nth_error vrt i = Some r -> nth_error vel i = Some v ->
         stored n 0 i y r /\ stored n 3 i y v) /\
      engine_get_data n y vrt0 vel0 = Some (vrt, vel).
  Proof.
    intros L1 L2 L3 L4 L5 L6 L7. unfold problem_size in *.
    destruct (@init_ok T n vrt vel mass gm gy L1 L2 L3 L4 L5) as (y & E & L & H).
    exists y. split; auto. split; auto. split.
    - intros i r v Hr Hv. assert (i < n) by (rewrite <- L1; apply nth_error_Some; congruence).
      destruct (H i H0) as [A B]. split; apply stored_rd3; congruence.
    - apply get_data_ok; auto.
  Qed.

  Lemma copy_elementwise n (a b : list T) :
    n <= length a -> n <= length b ->
    exists a', copy_buffer n a b = Some a' /\
      length a' = length a /\
      forall j, nth_error a' j = nth_error (if Nat.ltb j n then b else a) j.
  Proof.
    intros H1 H2. destruct (copy_cells N _ _ H1 H2) as (a' & E & L & C). exists a'. split; auto.
    split; auto. intros j. rewrite C. destruct (Nat.ltb_spec j n); auto.
    symmetry. apply nth_error_nth'. lia.
  Qed.

  Lemma fill_elementwise (a : list T) v : fill_buffer a v = Some (repeat v (length a)).
  Proof.
    destruct (fill_cells a v) as (a' & E & L & C). rewrite E. f_equal.
    apply nth_error_ext; [now rewrite repeat_length|]. intros j Hj.
    rewrite C. rewrite L in Hj. rewrite nth_error_repeat by auto.
    now destruct (Nat.ltb_spec j (length a)); [|lia].
  Qed.

  Lemma fmadd_inplace_elementwise n (a b : list T) c d :
    n <= length a -> n <= length b ->
    exists a', fmadd_inplace N n a b c = Some a' /\
      elementwise n (fun j => nadd N (nth j a d) (nmul N (nth j b d) c)) a a'.
  Proof.
    intros H1 H2. destruct (fmadd_inplace_cells N _ _ c H1 H2) as (a' & E & C). exists a'.
    split; auto. eapply elementwise_ext; [|exact C]. intros j Hj. cbn beta.
    f_equal; [|f_equal]; apply nth_indep; lia.
  Qed.

  Lemma fmadd_elementwise n (a b c : list T) w d :
    n <= length a -> n <= length b -> n <= length c ->
    exists a', fmadd N n a b c w = Some a' /\
      elementwise n (fun j => nadd N (nth j b d) (nmul N (nth j c d) w)) a a'.
  Proof.
    intros H1 H2 H3. destruct (fmadd_cells N _ _ _ w H1 H2 H3) as (a' & E & C). exists a'.
    split; auto. eapply elementwise_ext; [|exact C]. intros j Hj. cbn beta.
    f_equal; [|f_equal]; apply nth_indep; lia.
  Qed.
End G.

Local Open Scope R_scope.

Lemma fmaddn_inplace_R mind n a bs c m :
  (n <= length a)%nat -> (m <= length c)%nat -> (m <= length bs)%nat ->
  (forall k, (k < m)%nat -> (n <= length (nth k bs []))%nat) ->
  exists a', fmaddn_inplace (Rops mind) n a bs c m = Some a' /\
    elementwise n (fun j => nth j a 0 + weighted m c bs j) a a'.
Proof.
  intros H1 H2 H3 H4. destruct (fmaddn_inplace_cells (Rops mind) a bs c H1 H2 H3 H4) as (a' & E & C).
  exists a'. split; auto. eapply elementwise_ext; [|exact C]. intros j Hj. cbn beta.
  now rewrite wfold_R.
Qed.

Lemma fmaddn_corr_R mind n a corr bs c m :
  (n <= length a)%nat -> (n <= length corr)%nat -> (m <= length c)%nat -> (m <= length bs)%nat ->
  (forall k, (k < m)%nat -> (n <= length (nth k bs []))%nat) ->
  exists a' corr', fmaddn_corr (Rops mind) n a corr bs c m = Some (a', corr') /\
    length a' = length a /\ length corr' = length corr /\
    (forall j, (j < n)%nat ->
       nth j a' 0 - nth j corr' 0 = nth j a 0 - nth j corr 0 + weighted m c bs j /\
       (some_weight m c -> nth j corr' 0 = 0)) /\
    (~ some_weight m c -> a' = a /\ corr' = corr) /\
    (forall j, (n <= j)%nat -> nth_error a' j = nth_error a j /\ nth_error corr' j = nth_error corr j).
Proof.
  intros H1 H2 H3 H4 H5.
  destruct (fmaddn_corr_cells (Rops mind) a corr bs c H1 H2 H3 H4 H5) as (a' & corr' & E & [L1 C1] & [L2 C2]).
  cbn [nlit Rops] in C1, C2.
  exists a', corr'. split; auto. split; auto. split; auto.
  pose proof (fun j => @kfold_R mind c bs m j (nth j a 0) (nth j corr 0) H3 H4) as K.
  assert (A : forall j, (j < n)%nat ->
     nth j a' 0 = fst (kfold (Rops mind) (terms c bs m) j (nth j a 0, nth j corr 0)) /\
     nth j corr' 0 = snd (kfold (Rops mind) (terms c bs m) j (nth j a 0, nth j corr 0))).
  { intros j Hj. split.
    - apply nth_error_nth with (d := 0). rewrite C1. now destruct (Nat.ltb_spec j n); [|lia].
    - apply nth_error_nth with (d := 0). rewrite C2. now destruct (Nat.ltb_spec j n); [|lia]. }
  split; [|split].
  - intros j Hj. destruct (A j Hj) as [-> ->]. destruct (K j) as (K1 & K2 & _). split; auto.
  - intros Hw.
    assert (Z : forall k, (k < m)%nat -> nth k c 0 = 0).
    { intros k Hk. destruct (Req_EM_T (nth k c 0) 0); auto. exfalso. apply Hw. now exists k. }
    split; apply nth_error_ext; try lia; intros j Hj; rewrite ?C1, ?C2;
      destruct (Nat.ltb_spec j n) as [Hlt|]; auto; destruct (K j) as (_ & _ & K3);
      rewrite K3 by auto; cbn [fst snd]; symmetry; apply nth_error_nth'; lia.
  - intros j Hj. rewrite C1, C2. now destruct (Nat.ltb_spec j n); [lia|].
Qed.

Lemma fmaddn_some_R mind n a b cs d m :
  (n <= length a)%nat -> (n <= length b)%nat -> (m <= length d)%nat -> (m <= length cs)%nat ->
  (forall k, (k < m)%nat -> (n <= length (nth k cs []))%nat) ->
  exists a', fmaddn (Rops mind) n a (Some b) cs d m = Some a' /\
    (some_weight m d -> elementwise n (fun j => nth j b 0 + weighted m d cs j) a a') /\
    (~ some_weight m d -> a' = a).
Proof.
  intros H1 H2 H3 H4 H5.
  destruct (fmaddn_base_cells (Rops mind) _ _ _ d H1 H2 H3 H4 H5) as (a' & E & C).
  exists a'. split; auto. pose proof (@any_weight_R mind d m H3) as W.
  destruct (any_weight (Rops mind) d m).
  - split.
    + intros _. eapply elementwise_ext; [|exact C]. intros j Hj. cbn beta. now rewrite wfold_R.
    + intros H. exfalso. apply H. now apply W.
  - split; auto. intros H. apply W in H. discriminate.
Qed.

Lemma fmaddn_none_R mind n a cs d m :
  (n = length a)%nat -> (m <= length d)%nat -> (m <= length cs)%nat ->
  (forall k, (k < m)%nat -> (n <= length (nth k cs []))%nat) ->
  exists a', fmaddn (Rops mind) n a None cs d m = Some a' /\
    elementwise n (fun j => weighted m d cs j) a a'.
Proof.
  intros H1 H3 H4 H5.
  destruct (fmaddn_null_cells (Rops mind) a _ d (Nat.eq_le_incl _ _ H1) H3 H4 H5) as (a' & E & L & C).
  exists a'. split; auto. split; [rewrite L; apply repeat_length|].
  intros j. rewrite C. destruct (Nat.ltb_spec j n) as [Hj|Hj].
  - rewrite wfold_R by auto. f_equal. cbn. lra.
  - rewrite (proj2 (nth_error_None _ _)) by (rewrite repeat_length; lia).
    symmetry. apply nth_error_None. lia.
Qed.

(** maximum *)
Lemma fmaxabs_R mind (a : list R) : a <> [] ->
  exists m, fmaxabs (Rops mind) (length a) a = Some m /\
    (exists v, In v a /\ m = Rabs v) /\ forall v, In v a -> Rabs v <= m.
Proof.
  intros Ha. assert (L : (0 < length a)%nat) by (destruct a; [congruence|cbn; lia]).
  rewrite (fmaxabs_fold (Rops mind) a) by lia. eexists. split; [reflexivity|].
  rewrite firstn_all. set (x := nabs (Rops mind) (nth 0 a (nlit (Rops mind) 0))).
  destruct (@fold_max_ok R (Rops mind) (fun _ => True)) with (x := x) (l := map (nabs (Rops mind)) a)
    as [(I & X & M) _]; auto.
  - intros v _. apply nltb_R_false. lra.
  - intros u v w _ _ _. rewrite !nltb_R. lra.
  - intros u v _ _. rewrite !nltb_R_false. lra.
  - apply Forall_forall. auto.
  - set (r := fold_left _ _ _) in *. split.
    + assert (In r (map (nabs (Rops mind)) a)) as Hin.
      { destruct I as [->|I]; auto. apply in_map. apply nth_In. lia. }
      apply in_map_iff in Hin. destruct Hin as (v & E & Hv). exists v. split; auto.
    + intros v Hv. specialize (M (Rabs v) (in_map (nabs (Rops mind)) a v Hv)).
      apply nltb_R_false in M. lra.
Qed.

Lemma omp_fmaxabs_R mind (a : list R) lowest parts :
  a <> [] -> lowest <= 0 -> Permutation (concat parts) (seq 0 (length a)) ->
  omp_fmaxabs (Rops mind) a lowest parts = fmaxabs (Rops mind) (length a) a.
Proof.
  intros Ha Hl Hp. assert (L : (0 < length a)%nat) by (destruct a; [congruence|cbn; lia]).
  destruct (@omp_fmaxabs_max R (Rops mind) (fun _ => True)) with (a := a) (lowest := lowest)
    (parts := parts) as (r & -> & ->); auto.
  - intros v _. apply nltb_R_false. lra.
  - intros u v w _ _ _. rewrite !nltb_R. lra.
  - intros u v _ _. rewrite !nltb_R_false. lra.
  - apply Forall_forall. intros v _. split; auto. apply nltb_R_false. cbn.
    pose proof (Rabs_pos v). lra.
Qed.

Lemma SFabs_ok x : x <> S754_nan -> f_ok (SFabs x).
Proof. intros H. destruct x; cbn; split; congruence. Qed.

Lemma omp_fmaxabs_F (a : list spec_float) lowest parts :
  a <> [] -> Forall (fun v => v <> S754_nan) a ->
  (lowest = S754_infinity true \/ exists m e, lowest = S754_finite true m e) ->
  Permutation (concat parts) (seq 0 (length a)) ->
  omp_fmaxabs Fops a lowest parts = fmaxabs Fops (length a) a.
Proof.
  intros Ha Hn Hl Hp. assert (L : (0 < length a)%nat) by (destruct a; [congruence|cbn; lia]).
  destruct (@omp_fmaxabs_max spec_float Fops f_ok) with (a := a) (lowest := lowest)
    (parts := parts) as (r & -> & ->); auto.
  - exact SFcmp_irr.
  - exact SFcmp_trans.
  - exact SFcmp_total.
  - destruct Hl as [->|(m & e & ->)]; split; discriminate.
  - rewrite Forall_forall in *. intros v Hv. split; [now apply SFabs_ok, Hn|].
    specialize (Hn v Hv). cbn [nltb nabs Fops]. unfold SFltb.
    destruct Hl as [->|(m & e & ->)]; destruct v; cbn; congruence.
Qed.

Lemma clamp_R mind n b y : 0 <= b -> length y = (6 * n)%nat ->
  exists y', engine_clamp (Rops mind) n b y = Some y' /\ length y' = length y /\
    (forall j, (j < 3 * n)%nat ->
       (exists k : Z, nth j y' 0 = nth j y 0 + IZR k * (2 * b)) /\
       (- b <= nth j y 0 <= b -> nth j y' 0 = nth j y 0) /\
       (- (3 * b) <= nth j y 0 <= 3 * b -> - b <= nth j y' 0 <= b)) /\
    (forall j, (3 * n <= j)%nat -> nth_error y' j = nth_error y j) /\
    ((forall j, (j < 3 * n)%nat -> - (3 * b) <= nth j y 0 <= 3 * b) ->
       engine_clamp (Rops mind) n b y' = Some y').
Proof.
  intros Hb Hy. destruct (@clamp_cells R (Rops mind) n y b) as (y' & E & L & C); [lia|].
  assert (A : forall j, (j < 3 * n)%nat -> nth j y' 0 = clamp_coord (Rops mind) b (nth j y 0)).
  { intros j Hj. apply nth_error_nth with (d := 0). rewrite C. now destruct (Nat.ltb_spec j (3 * n)); [|lia]. }
  exists y'. split; auto. split; auto.
  assert (P : forall j, (j < 3 * n)%nat ->
       (exists k : Z, nth j y' 0 = nth j y 0 + IZR k * (2 * b)) /\
       (- b <= nth j y 0 <= b -> nth j y' 0 = nth j y 0) /\
       (- (3 * b) <= nth j y 0 <= 3 * b -> - b <= nth j y' 0 <= b)).
  { intros j Hj. rewrite A by auto. apply clamp_coord_R; auto. }
  split; auto. split.
  - intros j Hj. rewrite C. now destruct (Nat.ltb_spec j (3 * n)); [lia|].
  - intros H. destruct (@clamp_cells R (Rops mind) n y' b) as (y2 & E2 & L2 & C2); [lia|].
    rewrite E2. f_equal. apply nth_error_ext; auto. intros j Hj. rewrite C2.
    destruct (Nat.ltb_spec j (3 * n)) as [Hlt|]; auto.
    rewrite (nth_error_nth' y' 0) by lia. f_equal.
    destruct (P j Hlt) as (_ & _ & P3). specialize (P3 (H j Hlt)).
    destruct (clamp_coord_R mind (nth j y' 0) Hb) as (_ & Q & _). apply Q. lra.
Qed.

Local Open Scope nat_scope.

Lemma create_buffers_all_or_nothing outcome base count live :
  (forall x, In x live -> x < base) ->
  let r := create_buffers outcome base count live in
  ((forall j, j < count -> outcome j = true) /\ length (fst r) = count /\ NoDup (fst r) /\
     (forall x, In x (fst r) -> ~ In x live) /\
     (forall x, In x (snd r) <-> In x live \/ In x (fst r)))
  \/ ((exists j, j < count /\ outcome j = false) /\ fst r = [] /\
      forall x, In x (snd r) <-> In x live).
Proof.
  intros H r. unfold r, create_buffers.
  destruct (@create_loop_spec outcome base count 0 [] live live) as [(A1 & A2 & A3 & A4 & A5)|(A1 & A2 & A3)];
    auto.
  - intros x; cbn; tauto.
  - intros x [].
  - constructor.
  - left. split; [intros; apply A1; lia|]. split; auto. split; auto. split; auto.
    intros x Hx Hl. specialize (A4 x Hx). specialize (H x Hl). lia.
  - right. destruct A1 as (j & Hj & Ej). split; [exists j; split; auto; lia|]. auto.
Qed.
