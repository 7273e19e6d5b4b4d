(** Evaluations of the Barnes-Hut engines on all devices. *)
From Coq Require Import Reals ZArith NArith List Arith Bool Lia Permutation Lra.
From Verif Require Import Num Arr ArrLemmas LemEngine RLemmas LemBufR SpecPhys ModelVertex ModelForce ModelEngine ModelTree
  ModelHeap ModelBH SpecTree SpecHeap LemTree LemHeap LemHeap2 LemBH LemNext ModelParallel SpecPar LemParallel SpecGpu LemGpu
  ModelGpu ModelGpuForce LemGpuHost ModelGpuOps PropGpu PropGpuForce LemGpuRun ModelGpuBH LemGpuTr LemGpuWalk LemGpuBHForce
  LemGpuBHUpdate LemGpuBHStep LemGpuBHReal SpecGpuBH.
Import ListNotations.
Set Implicit Arguments.

(** ** Copies *)
Section Copies.
  Context {T : Type}.
  Lemma mrd_some (m : mem T) a i : a < length m -> mrd m a i = nth_error (nth a m []) i.
  Proof. intros H. unfold mrd, rd. unfold mem in *. rewrite (nth_error_nth' m []) by auto. reflexivity. Qed.
  Lemma buffers_nth (m : mem T) D size dev : buffers m D size -> dev < D -> length (nth dev m []) = size.
  Proof. intros [L F] H. apply (proj1 (Forall_forall _ _) F). apply nth_In. unfold mem in *. lia. Qed.

  Lemma all_copies (m : mem T) D size (F : list T) : buffers m D size -> length F = size ->
    (forall dev i, dev < D -> i < size -> mrd m dev i = nth_error F i) -> m = repeat F D.
  Proof.
    intros B LF H. assert (L : length m = D) by apply B. apply list_ext. intros dev.
    destruct (le_lt_dec D dev) as [Hge|Hlt].
    - rewrite (proj2 (nth_error_None m dev)), (proj2 (nth_error_None (repeat F D) dev)); auto.
      + rewrite repeat_length. auto.
      + unfold mem in *. lia.
    - unfold mem in *. rewrite (nth_error_nth' m []), nth_error_repeat by lia. f_equal.
      apply list_ext. intros i. rewrite <- mrd_some by (unfold mem; lia).
      destruct (le_lt_dec size i) as [Hi|Hi]; [|now apply H].
      rewrite mrd_some by (unfold mem; lia).
      rewrite (proj2 (nth_error_None F i)) by lia. apply nth_error_None.
      rewrite (@buffers_nth m D size dev B Hlt). auto.
  Qed.
  Lemma nth_repeat_in (x d : list T) D dev : dev < D -> nth dev (repeat x D) d = x.
  Proof. intros H. apply nth_error_nth. now apply nth_error_repeat. Qed.

  (** the exchanges, with nothing assumed but the shape *)
  Variables (kind : engine_kind) (d count : nat).
  Let D := 2 ^ d.
  Lemma devs_pos : 0 < D.
  Proof. apply pow2_ge1. Qed.
  Lemma sync_y_all (m : mem T) : buffers m D (6 * count) ->
    run_sync_y kind D count m (fun m' => buffers m' D (6 * count) /\
      forall dev i, dev < D -> i < D * (6 * count / D) -> mrd m' dev i = mrd m (i / (6 * count / D)) i).
  Proof.
    intros B. unfold run_sync_y, problem_size. pose proof devs_pos. destruct (Nat.ltb_spec 1 D) as [H1|H1].
    - destruct kind as [|[|]].
      + apply (@C56_y T d (6 * count) m B).
      + apply (@C56_y T d (6 * count) m B).
      + intros host Lh. destruct (@host_sync_y_ok T m D (6 * count) host devs_pos B ltac:(lia)) as (m' & E & B' & X).
        exists m'. auto.
    - split; auto. intros dev i Hd Hi. assert (dev = 0) by lia. subst dev.
      assert (D = 1) as E1 by lia. rewrite E1, Nat.div_1_r in *. rewrite Nat.div_small by lia. reflexivity.
  Qed.
  Lemma sync_f_all (m : mem T) : buffers m D (6 * count) ->
    run_sync_f kind D count m (fun m' => buffers m' D (6 * count) /\
      forall dev r c, dev < D -> r < 6 -> c < D * (6 * count / D / 6) ->
        mrd m' dev (r * (6 * count / 6) + c) = mrd m (c / (6 * count / D / 6)) (r * (6 * count / 6) + c)).
  Proof.
    intros B. unfold run_sync_f, problem_size. pose proof devs_pos. destruct (Nat.ltb_spec 1 D) as [H1|H1].
    - destruct kind as [|[|]].
      + apply (@C56_f T d (6 * count) m B).
      + apply (@C56_f T d (6 * count) m B).
      + intros host Lh. destruct (@host_sync_f_ok T m D (6 * count) host devs_pos B ltac:(lia)) as (m' & E & B' & X).
        exists m'. auto.
    - split; auto. intros dev r c Hd Hr Hc. assert (dev = 0) by lia. subst dev.
      assert (D = 1) as E1 by lia. rewrite E1, Nat.div_1_r in *. rewrite (Nat.div_small c) by lia. reflexivity.
  Qed.
  Lemma run_sync_y_mono (m : mem T) (g g' : mem T -> Prop) : (forall m', g m' -> g' m') ->
    run_sync_y kind D count m g -> run_sync_y kind D count m g'.
  Proof.
    intros H. unfold run_sync_y. destruct (1 <? D); auto. destruct kind as [|[|]].
    - apply round_weaken; auto.
    - apply round_weaken; auto.
    - intros X host Lh. destruct (X host Lh) as (ys & E & G). eauto.
  Qed.
  Lemma run_sync_f_mono (m : mem T) (g g' : mem T -> Prop) : (forall m', g m' -> g' m') ->
    run_sync_f kind D count m g -> run_sync_f kind D count m g'.
  Proof.
    intros H. unfold run_sync_f. destruct (1 <? D); auto. destruct kind as [|[|]].
    - apply round_weaken; auto.
    - apply round_weaken; auto.
    - intros X host Lh. destruct (X host Lh) as (ys & E & G). eauto.
  Qed.

End Copies.

(** filling one buffer *)
Section Fill.
  Context {T : Type}.
  Lemma fill_schedules (f : list T) v : every_schedule (map (omp_fill 0 v) (seq 0 (length f))) [f]
    (fun m => m = [repeat v (length f)]).
  Proof.
    set (W := fun (i : nat) (a j : nat) => (a =? 0) && (j =? i)).
    eapply schedule_weaken; [|apply (@tr_schedules T nat 0 (seq 0 (length f)) (omp_fill 0 v) (fun _ _ _ => false) W [f]
      (fun i => [((0, i), v)]))].
    - cbv beta. intros m (S & Hw & Ho). apply mem_ext.
      + rewrite S. unfold shape. cbn [map]. now rewrite repeat_length.
      + intros a i. destruct a as [|a].
        * destruct (le_lt_dec (length f) i) as [Hi|Hi].
          -- rewrite Ho.
             ++ unfold mrd, rd. cbn [obind List.nth_error].
                rewrite (proj2 (nth_error_None f i)), (proj2 (nth_error_None (repeat v (length f)) i)); auto.
                now rewrite repeat_length.
             ++ intros c Hc [X|[]]. cbn [fst] in X. injection X as ->. apply in_seq in Hc. lia.
          -- rewrite (Hw i 0 i v); [|apply in_seq; lia|left; auto].
             unfold mrd, rd. cbn [obind List.nth_error]. now rewrite nth_error_repeat.
        * rewrite Ho; [unfold mrd, rd; destruct a; reflexivity|].
          intros c Hc [X|[]]. discriminate X.
    - intros c _. split; [|exact I]. unfold W. cbn [andb Nat.eqb]. now rewrite Nat.eqb_refl.
    - intros; discriminate.
    - intros j k c c' a i Hne Hj Hk HW. split; auto. unfold W in *. apply andb_true_iff in HW. destruct HW as [Ha Hi].
      rewrite Ha. cbn [andb]. apply Nat.eqb_eq in Hi. subst i. apply Nat.eqb_neq. intros ->.
      apply Hne. eapply (proj1 (NoDup_nth_error (seq 0 (length f))) (seq_NoDup _ _)).
      + apply nth_error_Some. congruence.
      + congruence.
    - intros c Hc. apply in_seq in Hc. unfold omp_fill. cbn [tr].
      unfold mrd, rd. cbn [obind List.nth_error]. rewrite (nth_error_nth' f v) by lia. reflexivity.
    - intros c _. repeat constructor. intros [].
  Qed.
End Fill.

(** ** Uploading a tree *)
Section Upload.
  Context {T : Type} (e : bh_engine).
  Let tex := match e with BCudaTex _ => true | _ => false end.
  Let lay := if tex then texture else plain.

  Lemma quads A B (a b c d : A -> B) (l : list A) : forall i x, nth_error l i = Some x ->
    nth_error (flat_map (fun p => [a p; b p; c p; d p]) l) (4 * i) = Some (a x) /\
    nth_error (flat_map (fun p => [a p; b p; c p; d p]) l) (4 * i + 1) = Some (b x) /\
    nth_error (flat_map (fun p => [a p; b p; c p; d p]) l) (4 * i + 2) = Some (c x) /\
    nth_error (flat_map (fun p => [a p; b p; c p; d p]) l) (4 * i + 3) = Some (d x).
  Proof.
    induction l as [|y l IH]; intros [|i] x H; try discriminate.
    - injection H as ->. cbn. auto.
    - destruct (IH i x H) as (E1 & E2 & E3 & E4). replace (4 * S i) with (4 + 4 * i) by lia.
      cbn [flat_map app]. cbn [Nat.add] in *. auto.
  Qed.

  Lemma upload_dheap (h : heap (T := T)) y f tree size : length h = size ->
    dheap lay (bh_memory y f (upload e h tree)) h size.
  Proof.
    intros L i Hi. destruct (rd h i) as [c|] eqn:Ec; [|apply nth_error_None in Ec; lia].
    exists c. split; auto. unfold at5, mrd2, lay, tex.
    assert (Ep : nth_error (map (@c_pay T) h) i = Some (c_pay c)) by (rewrite nth_error_map; unfold rd in Ec; now rewrite Ec).
    assert (G : forall g : payload (T := T) -> T, nth_error (map g (map (@c_pay T) h)) i = Some (g (c_pay c))).
    { intros g. rewrite nth_error_map, Ep. reflexivity. }
    destruct (quads (fun p => vx (p_center p)) (fun p => vy (p_center p)) (fun p => vz (p_center p)) (@p_rad T) _ _ Ep)
      as (E1 & E2 & E3 & E4).
    destruct e; unfold upload, bh_memory, mrd, rd;
      cbn [at_x at_y at_z at_r plain texture fst snd List.nth_error obind tX tY tZ tR tM];
      repeat split; auto; apply G.
  Qed.
  Lemma nth_error_skipn {A} (l : list A) : forall k i, nth_error (skipn k l) i = nth_error l (k + i).
  Proof. induction l as [|x l IH]; intros [|k] i; cbn [skipn Nat.add]; auto; destruct i; auto. apply IH. apply IH. Qed.
  Lemma upload_box (h : heap (T := T)) y f tree idx p :
    at6 (bh_memory y f tree) idx p -> at6 (bh_memory y f (upload e h tree)) idx p.
  Proof.
    assert (G : forall a i, 7 <= a -> mrd (bh_memory y f (upload e h tree)) a i = mrd (bh_memory y f tree) a i).
    { intros a i Ha. unfold mrd, bh_memory. replace a with (S (S (5 + (a - 7)))) by lia.
      assert (E : nth_error (upload e h tree) (5 + (a - 7)) = nth_error tree (5 + (a - 7))).
      { unfold mem in *. rewrite <- (nth_error_skipn tree 5). unfold upload. destruct e; reflexivity. }
      unfold rd. cbn [List.nth_error]. unfold mem in *. rewrite E. reflexivity. }
    intros (A1 & A2 & A3 & B1 & B2 & B3). unfold at6. rewrite !G by (cbv; lia). auto 10.
  Qed.
End Upload.

Lemma rsum_pick D i x : i < D -> rsum D (fun j => if i =? j then x else 0%R) = x.
Proof.
  intros H. transitivity (rsum D (fun j => (if j =? i then 1 else 0) * x)%R); [|exact (rsum_indicator (fun _ => x) H)].
  apply rsum_ext. intros j _.
  rewrite (Nat.eqb_sym i j). destruct (j =? i); lra.
Qed.

(** ** One evaluation *)
Section Run.
  Variable mind : R.
  Notation U := (Rops mind).
  Variables (e : bh_engine) (d k block q rate : nat) (mass : list R) (ratio : R).
  Let n := 2 ^ k.
  Let D := 2 ^ d.
  Let tex := match e with BCudaTex _ => true | _ => false end.
  Let lay := if tex then texture else plain.
  Hypothesis Hk : 6 <= k.
  Hypothesis Hk30 : k <= 30.
  Hypothesis Hblock : 0 < block.
  Hypothesis Hq : n = D * (block * q).
  Hypothesis Lmass : length mass = n.
  Hypothesis Hmass : forall i, i < n -> nth i mass 0%R <> 0%R.

  Lemma HD : 0 < D. Proof. apply pow2_ge1. Qed.
  Lemma Hn : 0 < n. Proof. apply pow2_ge1. Qed.
  Lemma s64 : n = 64 * 2 ^ (k - 6). Proof. exact (@n_64 k D block q Hk Hblock HD Hq). Qed.
  Lemma dd : dds k D = block * q. Proof. apply (@dds_eq k D block q Hk Hblock HD Hq). Qed.
  Lemma ndd : n = D * dds k D. Proof. rewrite dd. exact Hq. Qed.
  Lemma dpos : 0 < dds k D. Proof. pose proof ndd. pose proof Hn. destruct (dds k D); lia. Qed.
  Lemma size_D : 6 * n / D = 6 * dds k D.
  Proof. rewrite ndd at 1. replace (6 * (D * dds k D)) with (6 * dds k D * D) by ring. apply Nat.div_mul. pose proof HD. lia. Qed.
  Lemma six a : 6 * a / 6 = a.
  Proof. rewrite Nat.mul_comm. apply Nat.div_mul. lia. Qed.
  Lemma alloc : alloc_cells (6 * n) = 6 * n.
  Proof.
    unfold alloc_cells. pose proof s64. assert (P : 1 <= 2 ^ (k - 6)) by apply pow2_ge1.
    assert ((6 * n - 1) / 64 = 6 * 2 ^ (k - 6) - 1) as ->; [|lia].
    symmetry. apply Nat.div_unique with 63; lia.
  Qed.
  Lemma blk : (6 * n) mod block = 0.
  Proof. rewrite Hq. replace (6 * (D * (block * q))) with (6 * D * q * block) by ring. apply Nat.mod_mul. lia. Qed.

  Ltac facts := pose proof HD as F_D; pose proof Hn as F_n; pose proof dpos as F_d; pose proof ndd as F_nd.

  Definition Inv (tree0 : option (tree (T := R))) (s : bh_state (T := R)) : Prop :=
    length (s_trees s) = D /\
    (forall dev idx, dev < D -> 1 <= idx < 2 * n -> exists p, at6 (bh_memory [] [] (nth dev (s_trees s) [])) idx p) /\
    match tree0 with
    | None => s_heap s = []
    | Some t => exists h, same_state U k mass (Some t) h /\ heap_inv U (2 * n) (s_heap s) /\
        map (@c_body R) (s_heap s) = map (@c_body R) h /\
        forall dev, dev < D -> dheap lay (bh_memory [] [] (nth dev (s_trees s) [])) h (2 * n)
    end.

  Lemma at6_swap y f y' f' (tree : mem R) idx p : at6 (bh_memory y f tree) idx p -> at6 (bh_memory y' f' tree) idx p.
  Proof. intros H. exact H. Qed.

  Lemma readable (y f : list R) (tree : mem R) (h : heap (T := R)) :
    (forall idx, 1 <= idx < 2 * n -> exists p, at6 (bh_memory [] [] tree) idx p) ->
    dheap lay (bh_memory [] [] tree) h (2 * n) ->
    forall idx, 1 <= idx < 2 * n -> exists p, full tex (bh_memory y f tree) idx p.
  Proof.
    facts.
    intros H6 H5 idx Hidx. destruct (H6 idx Hidx) as (p & P6). apply (dheap_swap tex y f) in H5.
    destruct (H5 idx Hidx) as (c & _ & P5).
    exists (Pay (p_center (c_pay c)) (p_mass (c_pay c)) (p_rad (c_pay c)) (p_bmin p) (p_bmax p)).
    split; [exact P5|exact P6].
  Qed.

  (** *** The tree *)
  Lemma read_y (y host : list R) : length y = 6 * n -> length host = 6 * n ->
    gpu_read_buffer (repeat y D) host = Some y.
  Proof.
    facts.
    intros Ly Lh.
    assert (B : buffers (repeat y D) D (6 * n)).
    { split; [apply repeat_length|]. apply Forall_forall. intros x Hx. apply repeat_spec in Hx. now subst. }
    destruct (@read_ok R (repeat y D) D (6 * n) host HD B ltac:(lia)) as (h & E & L & H).
    rewrite E. f_equal. apply list_ext. intros i. specialize (H i). rewrite size_D in H.
    unfold rd in H. rewrite H. destruct (Nat.ltb_spec i (D * (6 * dds k D))) as [Hi|Hi].
    - assert (i / (6 * dds k D) < D) by (apply Nat.div_lt_upper_bound; lia).
      rewrite mrd_some by (rewrite repeat_length; auto). now rewrite nth_repeat_in.
    - rewrite (proj2 (nth_error_None host i)), (proj2 (nth_error_None y i)); auto; lia.
  Qed.

  Lemma rebuild_bodies h h' t y : heap_inv U (2 * n) h -> heap_inv U (2 * n) h' -> perfect k t -> repr h 1 t ->
    6 * n <= length y -> (forall b, In b (bodies t) -> b < n) ->
    heap_rebuild U n y ratio h = Some h' -> map (@c_body R) h' = map (@c_body R) h.
  Proof.
    facts.
    intros I1 I2 Hp Hr Ly Hb E.
    destruct (@heap_rebuild_done R U k y ratio h t h' I1 Hp Hr Ly Hb E) as [HL _]. fold n in HL.
    apply list_ext. intros j. rewrite !nth_error_map.
    destruct I1 as (L1 & _ & B1). destruct I2 as (L2 & _ & B2).
    destruct (le_lt_dec (2 * n) j) as [Hj|Hj].
    - rewrite (proj2 (nth_error_None h j)), (proj2 (nth_error_None h' j)); auto; lia.
    - destruct (nth_error h j) as [c|] eqn:E1; [|apply nth_error_None in E1; lia].
      destruct (nth_error h' j) as [c'|] eqn:E2; [|apply nth_error_None in E2; lia].
      cbn [option_map]. f_equal. destruct (le_lt_dec n j) as [Hj2|Hj2].
      + destruct (HL j ltac:(lia)) as (c0 & b & v & G1 & G2 & G3 & G4). unfold rd in G1, G4.
        rewrite E1 in G1. injection G1 as <-. rewrite E2 in G4. injection G4 as ->. reflexivity.
      + rewrite (B1 j c ltac:(lia) E1), (B2 j c' ltac:(lia) E2). reflexivity.
  Qed.

  Lemma tree_phase split step (y : list R) (fs : mem R) tree0 s : permuting split -> length y = 6 * n ->
    Inv tree0 s ->
    exists t, get_tree U split ratio rate step n mass y tree0 = Some t /\
      tree_wf U n y mass (ratio * ratio)%R t /\
      forall good : bh_state -> Prop, (forall s', Inv (Some t) s' -> good s') ->
        (if build_now rate step (length (s_heap s) =? 0)
         then run_build U e n mass ratio split (repeat y D) s
         else run_update U e D n block ratio (repeat y D) fs s) good.
  Proof.
    facts.
    intros Hs Ly (LT & H6 & HI).
    assert (X : exists h, same_state U k mass tree0 h /\ (length (s_heap s) =? 0) = (length h =? 0) /\
      heap_state U n (s_heap s) /\
      (length h <> 0 -> map (@c_body R) (s_heap s) = map (@c_body R) h /\ heap_inv U (2 * n) (s_heap s) /\
         forall dev, dev < D -> dheap lay (bh_memory [] [] (nth dev (s_trees s) [])) h (2 * n))).
    { destruct tree0 as [t0|].
      - destruct HI as (h & S1 & I1 & M & Dh). exists h. split; auto. split.
        + apply (f_equal (@length _)) in M. rewrite !map_length in M. now rewrite M.
        + split; [right; auto|]. auto.
      - exists []. split; [reflexivity|]. rewrite HI. split; auto. split; [left; auto|]. intros []. reflexivity. }
    clear HI. destruct X as (h0 & S0 & E0 & HS & HX).
    destruct (@get_same R U k split ratio rate step mass y tree0 h0 Hs ltac:(fold n; lia) ltac:(fold n; lia) S0)
      as (t & h & Et & Eh & SS & W). fold n in Et, Eh, W.
    exists t. split; auto. split; auto. intros good Hgood. rewrite E0. unfold get_heap in Eh.
    destruct (build_now rate step (length h0 =? 0)) eqn:EB.
    - (* a new tree *)
      assert (Et' : tree_build U split n y mass ratio = Some t).
      { destruct tree0 as [t0|]; cbn [get_tree] in Et; auto.
        assert (length h0 =? 0 = false) as Z.
        { apply Nat.eqb_neq. destruct S0 as ((L & _) & _). fold n in L. lia. }
        rewrite Z in EB. now rewrite EB in Et. }
      intros host Lh. unfold problem_size in Lh.
      destruct (@heap_build_ok R U split k y mass ratio (s_heap s) t Hs HS Et') as (h1 & E1 & I1 & R1). fold n in E1, I1.
      exists y, h1. split; [now apply read_y|]. split; auto. apply Hgood.
      assert (Nd : forall dev, dev < D -> nth dev (map (upload e h1) (s_trees s)) [] = upload e h1 (nth dev (s_trees s) [])).
      { intros dev Hd. apply nth_error_nth. rewrite nth_error_map. unfold mem in *.
        rewrite (nth_error_nth' (s_trees s) []) by (eapply Nat.lt_le_trans; [exact Hd|]; rewrite <- LT; apply Nat.le_refl). reflexivity. }
      split; [|split].
      + cbn [s_trees]. now rewrite map_length.
      + cbn [s_trees]. intros dev idx Hd Hi. rewrite Nd by auto. destruct (H6 dev idx Hd Hi) as (p & P).
        exists p. now apply upload_box.
      + exists h1. cbn [s_heap s_trees]. split; [|split; [exact I1|split; [reflexivity|]]].
        * destruct SS as (_ & P & _ & B & M). split; [exact I1|]. auto.
        * intros dev Hd. rewrite Nd by auto. apply upload_dheap. apply I1.
    - (* the old tree with new positions *)
      assert (Nz : length h0 <> 0).
      { intros Z. rewrite Z in EB. unfold build_now in EB. rewrite !orb_true_r in EB. discriminate EB. }
      destruct (HX Nz) as (M & I0 & Dh). clear HX.
      destruct tree0 as [t0|]; [|cbn in S0; subst h0; exfalso; apply Nz; reflexivity].
      destruct S0 as (Ih & P0 & R0 & B0 & M0).
      assert (Hb : forall b, In b (bodies t0) -> b < n).
      { intros b Hin. apply (Permutation_in _ B0) in Hin. apply in_seq in Hin. fold n in Hin. lia. }
      destruct SS as (Ih' & P' & R' & B' & M').
      pose proof (@rebuild_bodies h0 h t0 y Ih Ih' P0 R0 ltac:(lia) Hb Eh) as MB.
      unfold run_update.
      destruct (@update_rounds_ok R U e k D block q ratio Hk Hblock HD Hq (gmerge_R mind) h0 h y [] [] t0
        (map (@c_body R) (s_heap s)) Ih P0 R0 Hb M Ly Eh) as (rs & Ers & _). fold n in Ers.
      apply all_some_intro with (g := fun _ => rs); [intros; exact Ers|].
      assert (Em : map (fun dev => (nth dev (map (fun _ : nat => rs) (seq 0 D)) [],
                 bh_memory (nth dev (repeat y D) []) (nth dev fs []) (nth dev (s_trees s) []))) (seq 0 D) =
               map (fun dev => (rs, bh_memory y (nth dev fs []) (nth dev (s_trees s) []))) (seq 0 D)).
      { apply map_ext_in. intros dev Hin. apply in_seq in Hin. rewrite nth_repeat_in by lia. f_equal.
        apply nth_error_nth. rewrite nth_error_map, (nth_error_nth' _ 0) by (rewrite seq_length; lia). reflexivity. }
      rewrite Em. clear Em.
      apply every_device_map with (Q := fun dev m => exists tree', m = bh_memory y (nth dev fs []) tree' /\
         dheap lay (bh_memory y (nth dev fs []) tree') h (2 * n) /\
         (forall idx, 1 <= idx < 2 * n -> exists p, full tex (bh_memory y (nth dev fs []) tree') idx p)).
      + intros dev Hin. apply in_seq in Hin.
        destruct (@update_rounds_ok R U e k D block q ratio Hk Hblock HD Hq (gmerge_R mind) h0 h y (nth dev fs [])
          (nth dev (s_trees s) []) t0
          (map (@c_body R) (s_heap s)) Ih P0 R0 Hb M Ly Eh) as (rs' & Ers' & Hrun). fold n in Ers'.
        rewrite Ers in Ers'. injection Ers' as <-. apply Hrun.
        * eapply dheap_swap. apply Dh. lia.
        * apply (@readable y (nth dev fs []) (nth dev (s_trees s) []) h0).
          -- intros idx Hi. apply H6; auto. lia.
          -- apply Dh. lia.
      + intros ds HQ. apply Forall2_seq in HQ. destruct HQ as [Lds HQ]. apply Hgood.
        assert (Nd : forall dev, dev < D -> exists tree', nth dev (s_trees (BHState (s_heap s) (map (skipn 2) ds))) [] = tree' /\
          dheap lay (bh_memory [] [] tree') h (2 * n) /\
          (forall idx, 1 <= idx < 2 * n -> exists p, full tex (bh_memory [] [] tree') idx p)).
        { intros dev Hd. destruct (nth_error ds dev) as [m|] eqn:Em; [|apply nth_error_None in Em; lia].
          destruct (HQ dev m Em) as (tree' & -> & Dt & Ft). exists tree'. split.
          - apply nth_error_nth. cbn [s_trees]. unfold mem in *. etransitivity; [apply nth_error_map|]. rewrite Em. reflexivity.
          - split; [eapply dheap_swap; exact Dt|]. intros idx Hi. destruct (Ft idx Hi) as (p & P). exists p.
            eapply full_swap; exact P. }
        split; [|split].
        * cbn [s_trees]. now rewrite map_length.
        * intros dev idx Hd Hi. destruct (Nd dev Hd) as (tree' & -> & _ & Ft).
          destruct (Ft idx Hi) as (p & P). exists p. apply P.
        * exists h. cbn [s_heap]. split; [|split; [exact I0|split; [congruence|]]].
          -- split; [exact Ih'|]. auto.
          -- intros dev Hd. destruct (Nd dev Hd) as (tree' & -> & Dt & _). exact Dt.
  Qed.

  (** *** The force *)
  Lemma clear_ok (fs : mem R) (good : mem R -> Prop) : buffers fs D (6 * n) ->
    good (if is_cycle e then fs else repeat (repeat 0%R (6 * n)) D) ->
    run_clear U e D n block fs good.
  Proof.
    facts. intros B Hg. unfold run_clear. destruct (is_cycle e); auto.
    unfold run_kernels.
    assert (E : forall dev, device_rounds U (kind_of e) D n block (OFill 0 (nlit U 0)) dev =
      Some [map (omp_fill 0 0%R) (seq 0 (6 * n))]).
    { intros dev. unfold device_rounds, problem_size. destruct (kind_of e); auto.
      unfold opencl_kernel. rewrite alloc, blk. reflexivity. }
    apply all_some_intro with (g := fun _ => [map (omp_fill 0 0%R) (seq 0 (6 * n))]); [auto|].
    assert (LF : length fs = D) by apply B.
    match goal with |- every_device (combine (map ?g _) ?ms) _ =>
      assert (Lm : length ms = D) by (etransitivity; [apply map_length|exact LF]);
      pose proof (@combine_map_nth D HD _ _ g ms [] Lm) as Ec end.
    match type of Ec with ?l = _ => match goal with |- every_device ?l' _ => change l' with l end end.
    rewrite Ec.
    apply every_device_map with (Q := fun _ m => m = [repeat 0%R (6 * n)]).
    - intros dev Hin. apply in_seq in Hin. cbn [every_round].
      match goal with |- every_schedule _ ?x _ => assert (x = [nth dev fs []]) as -> end.
      { apply nth_error_nth. etransitivity; [apply nth_error_map|]. unfold mem in *.
        rewrite (nth_error_nth' fs []) by lia. reflexivity. }
      pose proof (@buffers_nth R fs D (6 * n) dev B ltac:(lia)) as Ln.
      pose proof (fill_schedules (nth dev fs []) 0%R) as FS. rewrite Ln in FS. exact FS.
    - intros l HQ. apply Forall2_seq in HQ. destruct HQ as [Ll HQ].
      match goal with |- good ?x => assert (x = repeat (repeat 0%R (6 * n)) D) as ->; auto end.
      apply list_ext. intros i. etransitivity; [apply nth_error_map|].
      match goal with |- option_map ?g _ = ?r => change (option_map g (@nth_error (mem R) l i) = r) end.
      destruct (@nth_error (mem R) l i) as [m|] eqn:Em.
      + rewrite (HQ i m Em). cbn [option_map nth]. symmetry. apply nth_error_repeat.
        unfold mem in *. rewrite <- Ll. apply nth_error_Some. congruence.
      + symmetry. apply nth_error_None in Em. apply nth_error_None. rewrite repeat_length. unfold mem in *. lia.
  Qed.

  (** the place of a body in the order of the threads *)
  Definition place (t : tree (T := R)) (b : nat) : nat :=
    match find (fun j => who e t j =? b) (seq 0 n) with Some j => j | None => 0 end.
  Lemma who_inj (t : tree (T := R)) i j : Permutation (bodies t) (seq 0 n) -> i < n -> j < n -> who e t i = who e t j -> i = j.
  Proof.
    intros HB Hi Hj. unfold who. destruct (is_cycle e); auto. intros E.
    assert (LB : length (bodies t) = n) by (apply Permutation_length in HB; rewrite seq_length in HB; auto).
    assert (NB : NoDup (bodies t)) by (eapply Permutation_NoDup; [symmetry; exact HB|apply seq_NoDup]).
    apply (proj1 (NoDup_nth (bodies t) 0) NB) in E; lia.
  Qed.
  Lemma place_ok (t : tree (T := R)) b : Permutation (bodies t) (seq 0 n) -> b < n -> place t b < n /\ who e t (place t b) = b.
  Proof.
    intros HB Hb. unfold place. destruct (find _ (seq 0 n)) as [j|] eqn:E.
    - apply find_some in E. destruct E as [Hin E]. apply in_seq in Hin. apply Nat.eqb_eq in E. split; [lia|auto].
    - exfalso. assert (X : exists j, j < n /\ who e t j = b).
      { unfold who. destruct (is_cycle e); [eauto|].
        assert (In b (bodies t)) as Hin by (eapply Permutation_in; [symmetry; exact HB|apply in_seq; lia]).
        destruct (In_nth _ _ 0 Hin) as (j & Hj & Ej). exists j. split; auto.
        apply Permutation_length in HB. rewrite seq_length in HB. lia. }
      destruct X as (j & Hj & Ej). pose proof (find_none _ _ E j ltac:(apply in_seq; lia)) as Z. cbv beta in Z.
      rewrite Ej, Nat.eqb_refl in Z. discriminate Z.
  Qed.
  Lemma place_unique (t : tree (T := R)) b j : Permutation (bodies t) (seq 0 n) -> b < n -> j < n -> who e t j = b -> j = place t b.
  Proof.
    intros HB Hb Hj E. destruct (@place_ok t b HB Hb) as [P1 P2]. apply (@who_inj t); auto. congruence.
  Qed.
  Lemma segment j dev : dev * dds k D <= j < dev * dds k D + dds k D <-> j / dds k D = dev.
  Proof.
    facts. split; intros H.
    - symmetry. apply Nat.div_unique with (j - dev * dds k D); lia.
    - subst dev. pose proof (Nat.div_mod j (dds k D) ltac:(lia)). pose proof (Nat.mod_upper_bound j (dds k D) ltac:(lia)). nia.
  Qed.

  Definition cell_of (t : tree (T := R)) (y : list R) (b r : nat) : R :=
    fval U n y b (walk_result U (cv U y n 0 b) (walk_of e) t) r.

  Lemma force_phase (good : list (mem R) -> Prop) t (y : list R) (fs : mem R) s : Inv (Some t) s -> length y = 6 * n ->
    tree_wf U n y mass (ratio * ratio)%R t -> buffers fs D (6 * n) ->
    (forall fs', buffers fs' D (6 * n) ->
      (forall dev b r, dev < D -> b < n -> r < 6 ->
         mrd fs' dev (r * n + b) = if place t b / dds k D =? dev then Some (cell_of t y b r) else mrd fs dev (r * n + b)) ->
      forall ds, map (fun m => nth aF m []) ds = fs' -> map (skipn 2) ds = s_trees s ->
        map (fun m => nth aY m []) ds = repeat y D -> good ds) ->
    all_some D (force_round U e D n block (map (@c_body R) (s_heap s))) (fun rs =>
      every_device (map (fun dev => ([nth dev rs []],
         bh_memory (nth dev (repeat y D) []) (nth dev fs []) (nth dev (s_trees s) []))) (seq 0 D)) good).
  Proof.
    facts. intros (LT & _ & h & (Ih & P & R1 & B & M) & I0 & Mb & Dh) Ly W BF Hgood.
    assert (HC : forall p b, In (p, b) (leaves t) -> p_center p = cv U y n 0 b).
    { intros p b Hin. destruct (M p b Hin) as (Hb & _ & _).
      pose proof (@wf_leaves R U n y mass _ t W p b Hin) as Hl.
      apply (@wf_leaf_inv R U n y mass b p ltac:(lia) ltac:(lia) Hb) in Hl. rewrite Hl. reflexivity. }
    assert (X : forall dev, exists r, dev < D -> force_round U e D n block (map (@c_body R) (s_heap s)) dev = Some r /\
      every_schedule r (bh_memory y (nth dev fs []) (nth dev (s_trees s) []))
        (fun m => exists f', m = bh_memory y f' (nth dev (s_trees s) []) /\ length f' = 6 * n /\
          (forall j r, dev * dds k D <= j < dev * dds k D + dds k D -> r < 6 ->
             nth_error f' (r * n + who e t j) = Some (cell_of t y (who e t j) r)) /\
          (forall b r, b < n -> r < 6 -> (forall j, dev * dds k D <= j < dev * dds k D + dds k D -> who e t j <> b) ->
             nth_error f' (r * n + b) = nth_error (nth dev fs []) (r * n + b)))).
    { intros dev. destruct (le_lt_dec D dev) as [Hd|Hd]; [exists []; lia|].
      destruct (@force_device_ok R U e k D block q Hk Hblock HD Hq h y (nth dev fs []) (nth dev (s_trees s) []) t
        (map (@c_body R) (s_heap s)) dev Hk30 P R1 (proj1 Ih) B HC Mb Ly (@buffers_nth R fs D (6 * n) dev BF Hd) Hd
        (@dheap_swap R tex [] [] y (nth dev fs []) _ h _ (Dh dev Hd))) as (r & Er & Hr).
      exists r. intros _. split; [exact Er|exact Hr]. }
    pose (g := fun dev => match force_round U e D n block (map (@c_body R) (s_heap s)) dev with Some r => r | None => [] end).
    apply all_some_intro with (g := g).
    { intros dev Hd. unfold g. destruct (X dev) as (r & Hr). destruct (Hr Hd) as [-> _]. reflexivity. }
    assert (Em : map (fun dev => ([nth dev (map g (seq 0 D)) []],
               bh_memory (nth dev (repeat y D) []) (nth dev fs []) (nth dev (s_trees s) []))) (seq 0 D) =
             map (fun dev => ([g dev], bh_memory y (nth dev fs []) (nth dev (s_trees s) []))) (seq 0 D)).
    { apply map_ext_in. intros dev Hin. apply in_seq in Hin. rewrite nth_repeat_in by lia. f_equal. f_equal.
      apply nth_error_nth. rewrite nth_error_map, (nth_error_nth' _ 0) by (rewrite seq_length; lia). rewrite seq_nth by lia.
      reflexivity. }
    rewrite Em. clear Em.
    apply every_device_map with (Q := fun dev m => exists f', m = bh_memory y f' (nth dev (s_trees s) []) /\
       length f' = 6 * n /\
          (forall j r, dev * dds k D <= j < dev * dds k D + dds k D -> r < 6 ->
             nth_error f' (r * n + who e t j) = Some (cell_of t y (who e t j) r)) /\
          (forall b r, b < n -> r < 6 -> (forall j, dev * dds k D <= j < dev * dds k D + dds k D -> who e t j <> b) ->
             nth_error f' (r * n + b) = nth_error (nth dev fs []) (r * n + b))).
    { intros dev Hin. apply in_seq in Hin. destruct (X dev) as (r & Hr). destruct (Hr ltac:(lia)) as [E1 E2].
      cbn [every_round]. unfold g. rewrite E1. exact E2. }
    intros ds HQ. apply Forall2_seq in HQ. destruct HQ as [Lds HQ].
    assert (Ls : length (map (fun m : mem R => nth aF m []) ds) = D) by now rewrite map_length.
    assert (Nd : forall dev, dev < D -> exists f', nth_error ds dev = Some (bh_memory y f' (nth dev (s_trees s) [])) /\
       length f' = 6 * n /\ nth dev (map (fun m : mem R => nth aF m []) ds) [] = f' /\
          (forall j r, dev * dds k D <= j < dev * dds k D + dds k D -> r < 6 ->
             nth_error f' (r * n + who e t j) = Some (cell_of t y (who e t j) r)) /\
          (forall b r, b < n -> r < 6 -> (forall j, dev * dds k D <= j < dev * dds k D + dds k D -> who e t j <> b) ->
             nth_error f' (r * n + b) = nth_error (nth dev fs []) (r * n + b))).
    { intros dev Hd. destruct (nth_error ds dev) as [m|] eqn:Em; [|apply nth_error_None in Em; lia].
      destruct (HQ dev m Em) as (f' & -> & L' & H1 & H2). exists f'. repeat split; auto.
      apply nth_error_nth. etransitivity; [apply nth_error_map|]. rewrite Em. reflexivity. }
    eapply Hgood with (ds := ds); [| |reflexivity| |].
    - split; [exact Ls|]. apply Forall_forall. intros x Hx. apply In_nth_error in Hx. destruct Hx as (dev & Hx).
      assert (Hd : dev < D).
      { rewrite <- Ls. apply nth_error_Some. intros Z. pose proof (eq_trans (eq_sym Hx) Z) as Z2. discriminate Z2. }
      destruct (Nd dev Hd) as (f' & E1 & L' & E2 & _). apply nth_error_nth with (d := []) in Hx. rewrite <- L', <- E2, <- Hx. reflexivity.
    - intros dev b r Hd Hb Hr. rewrite mrd_some by (unfold mem in *; lia).
      destruct (Nd dev Hd) as (f' & E1 & L' & E2 & H1 & H2).
      match goal with |- nth_error ?x _ = _ => replace x with f' end.
      destruct (@place_ok t b B Hb) as [P1 P2]. destruct (Nat.eqb_spec (place t b / dds k D) dev) as [Ed|Ed].
      + apply segment in Ed. specialize (H1 (place t b) r Ed Hr). rewrite P2 in H1. exact H1.
      + rewrite H2; auto.
        * rewrite mrd_some; auto. destruct BF as [-> _]. auto.
        * intros j Hj Ej. apply Ed. apply segment in Hj. rewrite <- Hj. f_equal. symmetry.
          apply place_unique; auto. rewrite F_nd. apply segment in Hj. nia.
    - apply list_ext. intros dev. etransitivity; [apply nth_error_map|].
      match goal with |- option_map ?g _ = ?r => change (option_map g (@nth_error (mem R) ds dev) = r) end.
      destruct (le_lt_dec D dev) as [Hd|Hd].
      + rewrite (proj2 (nth_error_None ds dev)) by lia. cbn [option_map]. symmetry. apply nth_error_None. unfold mem in *. lia.
      + destruct (Nd dev Hd) as (f' & E1 & _). rewrite E1. cbn [option_map]. unfold bh_memory. cbn [skipn].
        symmetry. apply nth_error_nth'. unfold mem in *. lia.
    - apply list_ext. intros dev. etransitivity; [apply nth_error_map|].
      match goal with |- option_map ?g _ = ?r => change (option_map g (@nth_error (mem R) ds dev) = r) end.
      destruct (le_lt_dec D dev) as [Hd|Hd].
      + rewrite (proj2 (nth_error_None ds dev)) by lia. cbn [option_map]. symmetry. apply nth_error_None.
        rewrite repeat_length. lia.
      + destruct (Nd dev Hd) as (f' & E1 & _). rewrite E1. symmetry. now apply nth_error_repeat.
  Qed.

  (** *** Bringing the parts together *)
  Lemma by_cells (m : mem R) (F : list R) : buffers m D (6 * n) -> length F = 6 * n ->
    (forall dev b r, dev < D -> b < n -> r < 6 -> mrd m dev (r * n + b) = nth_error F (r * n + b)) -> m = repeat F D.
  Proof.
    intros B L H. apply (@all_copies R m D (6 * n) F B L). intros dev i Hd Hi.
    destruct (soa_split _ _ Hi) as (r & b & Hr & Hb & ->). auto.
  Qed.

  Lemma join_ok (good : mem R -> Prop) t y (fs fs' : mem R) F : Permutation (bodies t) (seq 0 n) ->
    buffers fs' D (6 * n) -> (is_cycle e = false -> fs = repeat (repeat 0%R (6 * n)) D) ->
    (forall dev b r, dev < D -> b < n -> r < 6 ->
       mrd fs' dev (r * n + b) = if place t b / dds k D =? dev then Some (cell_of t y b r) else mrd fs dev (r * n + b)) ->
    length F = 6 * n -> (forall b r, b < n -> r < 6 -> nth_error F (r * n + b) = Some (cell_of t y b r)) ->
    good (repeat F D) -> run_join U e D n block fs' good.
  Proof.
    facts. intros HB B Hz Hc LF HF Hg. unfold run_join.
    assert (Hpos : forall b, b < n -> place t b / dds k D < D).
    { intros b Hb. destruct (@place_ok t b HB Hb) as [P1 _]. apply Nat.div_lt_upper_bound; lia. }
    destruct (is_cycle e) eqn:Ecy.
    - assert (Hid : forall b, b < n -> place t b = b).
      { intros b Hb. symmetry. apply place_unique; auto. unfold who. now rewrite Ecy. }
      eapply run_sync_f_mono; [|apply sync_f_all; exact B]. fold D. cbv beta. intros m' [B' H'].
      rewrite (@by_cells m' F B' LF); auto. intros dev b r Hd Hb Hr.
      rewrite size_D, !six in H'. rewrite H' by (auto; lia).
      rewrite Hc, Hid by (auto; rewrite <- (Hid b Hb) at 1; auto).
      now rewrite Nat.eqb_refl, HF.
    - specialize (Hz eq_refl). subst fs.
      set (f := fun dev i => if place t (i mod n) / dds k D =? dev then cell_of t y (i mod n) (i / n) else 0%R).
      assert (Hmod : forall r b, b < n -> (r * n + b) mod n = b /\ (r * n + b) / n = r).
      { intros r b Hb. split; symmetry; [apply Nat.mod_unique with r|apply Nat.div_unique with b]; lia. }
      assert (Hf : forall dev i, dev < D -> i < 6 * n -> mrd fs' dev i = Some (f dev i)).
      { intros dev i Hd Hi. destruct (soa_split _ _ Hi) as (r & b & Hr & Hb & ->). rewrite Hc by auto.
        unfold f. destruct (Hmod r b Hb) as [-> ->]. destruct (_ =? dev); auto.
        rewrite mrd_some by (rewrite repeat_length; auto). rewrite nth_repeat_in by auto. now apply nth_error_repeat. }
      assert (Hs : forall r b, b < n -> r < 6 -> rsum D (fun q => f q (r * n + b)) = cell_of t y b r).
      { intros r b Hb Hr. unfold f. destruct (Hmod r b Hb) as [-> ->]. apply rsum_pick. auto. }
      assert (Hsum : forall f_sync : mem R, buffers f_sync D (6 * n) ->
        every_round (sum_loop U D D (6 * n) (6 * n) 1) (fs' ++ f_sync) (fun m => good (firstn D m))).
      { intros f_sync Bs.
        assert (LA : length fs' = D) by apply B. assert (LS : length f_sync = D) by apply Bs.
        eapply round_weaken; [|apply (@C56_sum mind d (6 * n) (6 * n) (fs' ++ f_sync) f)]; auto; fold D.
        - cbv beta. intros m [Bm Hm]. assert (Lm : length m = 2 * D) by apply Bm.
          rewrite (@by_cells (firstn D m) F); auto.
          + split; [rewrite firstn_length; unfold mem in *; lia|]. apply Forall_forall. intros x Hx.
            apply (proj1 (Forall_forall _ _) (proj2 Bm)). rewrite <- (firstn_skipn D m). apply in_or_app. auto.
          + intros dev b r Hd Hb Hr.
            assert (mrd (firstn D m) dev (r * n + b) = mrd m dev (r * n + b)) as ->.
            { unfold mrd, rd. unfold mem in *. rewrite <- (firstn_skipn D m) at 2. rewrite nth_error_app1; auto.
              rewrite firstn_length. lia. }
            rewrite Hm by (auto; nia). assert (Hlt : r * n + b < 6 * n) by nia.
            apply Nat.ltb_lt in Hlt. rewrite Hlt, Hs, HF; auto.
        - split; [rewrite app_length; unfold mem in *; lia|]. apply Forall_app. split; [apply B|apply Bs].
        - intros dev i Hd Hi. rewrite <- (Hf dev i Hd Hi). unfold mrd, rd. unfold mem in *.
          rewrite nth_error_app1 by lia. reflexivity. }
      unfold problem_size. destruct (Nat.ltb_spec 1 D) as [H1|H1].
      + destruct (kind_of e) as [|[|]].
        * intros f_sync Bs. unfold cuda_sync_sum.
          destruct (C56_sum_covers (6 * n)) as [_ ->]; [auto|].
          rewrite s64. replace (6 * (64 * 2 ^ (k - 6))) with (6 * 2 ^ (k - 6) * 64) by ring. apply Nat.mod_mul. lia.
        * intros f_sync Bs. split; [rewrite blk; reflexivity|]. apply Hsum. exact Bs.
        * destruct (@C56_host_sum mind D (6 * n) fs' f HD B Hf) as (m' & E & B' & H'). exists m'. split; auto.
          rewrite (@by_cells m' F B' LF); auto. intros dev b r Hd Hb Hr. rewrite H', Hs, HF by (auto; nia). reflexivity.
      + rewrite (@by_cells fs' F B LF); auto. intros dev b r Hd Hb Hr. rewrite Hc by auto.
        pose proof (Hpos b Hb). assert (place t b / dds k D = dev) as -> by lia. now rewrite Nat.eqb_refl, HF.
  Qed.

  (** *** The evaluation *)
  Lemma step_ok (c : gcall (T := R)) tree0 h0 : good_gcall D n c -> same_state U k mass tree0 h0 ->
    exists out t' h', bh_tree_fcompute U (gc_split c) ratio ett_cycle rate (gc_step c) n mass (gc_y c)
        (nth 0 (gc_fs c) []) tree0 = Some (out, Some t') /\
      same_state U k mass (Some t') h' /\
      forall s (good : bh_state -> mem R -> mem R -> Prop), Inv tree0 s ->
        (forall s', Inv (Some t') s' -> good s' (repeat (gc_y c) D) (repeat out D)) ->
        bh_fcompute U e D n block mass ratio (gc_split c) rate (gc_step c) s (gc_ys c) (gc_fs c) good.
  Proof.
    facts. intros (Hs & Ly & BY & BF & HY) S0.
    pose proof (@buffers_nth R (gc_fs c) D (6 * n) 0 BF HD) as L0.
    destruct (@tree_step R U k (gc_split c) ratio rate (gc_step c) mass (gc_y c) (nth 0 (gc_fs c) []) tree0 h0
      ltac:(lia) Hs ltac:(fold n; lia) ltac:(fold n; lia) ltac:(fold n; lia) S0) as (t & out & Et' & Eo & LO & CO & _).
    fold n in Et', Eo, LO, CO.
    destruct (@get_same R U k (gc_split c) ratio rate (gc_step c) mass (gc_y c) tree0 h0 Hs ltac:(fold n; lia)
      ltac:(fold n; lia) S0) as (t2 & h' & Et2 & _ & S' & _). fold n in Et2. rewrite Et' in Et2. injection Et2 as <-.
    exists out, t, h'. split; [exact Eo|]. split; [exact S'|]. intros s good HI Hgood.
    destruct (@tree_phase (gc_split c) (gc_step c) (gc_y c) (gc_fs c) tree0 s Hs Ly HI) as (t2 & Et & W & Hrun).
    rewrite Et in Et'. injection Et' as ->.
    unfold bh_fcompute.
    eapply run_sync_y_mono; [|apply sync_y_all; exact BY]. fold D. cbv beta. intros ys [BY' HY'].
    assert (ys = repeat (gc_y c) D) as ->.
    { apply (@all_copies R ys D (6 * n)); auto. intros dev i Hd Hi. rewrite HY'; auto. rewrite size_D. lia. }
    clear BY' HY'. apply Hrun. intros s' HI'.
    assert (HB : Permutation (bodies t) (seq 0 n)).
    { destruct HI' as (_ & _ & h & (_ & _ & _ & B & _) & _). exact B. }
    apply clear_ok; auto.
    assert (BZ : buffers (if is_cycle e then gc_fs c else repeat (repeat 0%R (6 * n)) D) D (6 * n)).
    { destruct (is_cycle e); auto. split; [apply repeat_length|]. apply Forall_forall. intros x Hx.
      apply repeat_spec in Hx. subst x. apply repeat_length. }
    apply (@force_phase _ t (gc_y c) _ s' HI' Ly W BZ). intros fs' BF' Hc ds Ef Etr Ey.
    rewrite Ef, Etr, Ey.
    apply (@join_ok _ t (gc_y c) (if is_cycle e then gc_fs c else repeat (repeat 0%R (6 * n)) D) fs' out HB BF').
    - intros ->. reflexivity.
    - exact Hc.
    - rewrite LO. exact L0.
    - intros b r Hb Hr. unfold cell_of. rewrite (@walk_result_R mind (walk_of e) _ (nth b mass 0%R) t (Hmass Hb)).
      destruct (CO b Hb) as [(A1 & A2 & A3) (A4 & A5 & A6)].
      do 6 (destruct r as [|r]; [assumption|]). lia.
    - assert (BHState (s_heap s') (s_trees s') = s') as -> by (destruct s'; reflexivity). auto.
  Qed.
End Run.

(** ** Sequences of evaluations *)
Lemma bh_run_ok mind e d k block q rate mass ratio : 6 <= k -> k <= 30 -> 0 < block -> 2 ^ k = 2 ^ d * (block * q) ->
  length mass = 2 ^ k -> (forall i, i < 2 ^ k -> nth i mass 0%R <> 0%R) ->
  forall calls tree0 h0, Forall (good_gcall (2 ^ d) (2 ^ k)) calls -> same_state (Rops mind) k mass tree0 h0 ->
  exists outs, run_tree (Rops mind) ratio ett_cycle rate (2 ^ k) mass (map (@cpu_call R) calls) tree0 = Some outs /\
    forall s, Inv mind e d k mass tree0 s ->
      gpu_bh_run (Rops mind) e (2 ^ d) (2 ^ k) block mass ratio rate calls outs s.
Proof.
  intros Hk Hk30 Hb Hq Lm Hm. induction calls as [|c calls IH]; intros tree0 h0 HF HS.
  - exists []. split; [reflexivity|]. intros; exact I.
  - inversion HF as [|? ? Hc HF']; subst.
    destruct (@step_ok mind e d k block q rate mass ratio Hk Hk30 Hb Hq Lm Hm c tree0 h0 Hc HS)
      as (out & t' & h' & E & HS' & Hrun).
    destruct (IH (Some t') h' HF' HS') as (outs & E2 & H2). exists (out :: outs). split.
    + cbn [map run_tree cpu_call bc_split bc_step bc_y bc_f]. rewrite E. cbn [obind snd fst]. rewrite E2. reflexivity.
    + intros s HI. cbn [gpu_bh_run]. apply Hrun; auto.
Qed.

Lemma new_inv mind e d k mass s : new_engine (2 ^ d) (2 ^ k) s -> Inv mind e d k mass None s.
Proof.
  intros (E & L & HF). split; [exact L|]. split; [|exact E]. intros dev idx Hd Hi.
  assert (HB : buffers (skipn 5 (nth dev (s_trees s) [])) 6 (2 * 2 ^ k)).
  { apply (proj1 (Forall_forall _ _) HF). apply nth_In. unfold mem in *. lia. }
  destruct HB as [L6 F6]. set (tree := nth dev (s_trees s) []) in *.
  assert (X : forall a, a < 6 -> exists x, mrd (bh_memory [] [] tree) (7 + a) idx = Some x).
  { intros a Ha. unfold mrd, bh_memory. replace (7 + a) with (S (S (5 + a))) by lia. unfold rd. cbn [List.nth_error].
    unfold mem in *. rewrite <- (nth_error_skipn tree 5). rewrite (nth_error_nth' _ []) by lia. cbn [obind].
    assert (length (nth a (skipn 5 tree) []) = 2 * 2 ^ k) as Ln.
    { apply (proj1 (Forall_forall _ _) F6). apply nth_In. lia. }
    rewrite (nth_error_nth' _ 0%R) by lia. eauto. }
  destruct (X 0 ltac:(lia)) as (a0 & X0). destruct (X 1 ltac:(lia)) as (a1 & X1). destruct (X 2 ltac:(lia)) as (a2 & X2).
  destruct (X 3 ltac:(lia)) as (a3 & X3). destruct (X 4 ltac:(lia)) as (a4 & X4). destruct (X 5 ltac:(lia)) as (a5 & X5).
  exists (Pay (V3 0%R 0%R 0%R) 0%R 0%R (V3 a0 a1 a2) (V3 a3 a4 a5)).
  unfold at6. cbn [p_bmin p_bmax vx vy vz]. repeat split; assumption.
Qed.
