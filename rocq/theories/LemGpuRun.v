(** Whole clients on several devices. *)
From Coq Require Import ZArith Reals List Arith Lia Lra Bool.
From Verif Require Import Num Arr ArrLemmas LemEngine ModelEngine LemBuffers RLemmas ModelParallel SpecPar
  LemParallel LemOmp ModelGpu SpecGpu LemGpu LemGpuHost ModelGpuForce LemGpuForce PropGpu PropGpuForce
  ModelGpuOps SpecGpuOps LemGpuOps.
Import ListNotations.
Set Implicit Arguments.

Section Lift.
  Context {T : Type}.
  Variables (D size : nat).
  Hypothesis HD : 0 < D.

  Lemma combine_map_nth {A B} (g : nat -> A) (ms : list B) (d : B) : length ms = D ->
    combine (map g (seq 0 D)) ms = map (fun k => (g k, nth k ms d)) (seq 0 D).
  Proof.
    intros L. apply list_ext. intros k. destruct (le_lt_dec D k).
    - rewrite (proj2 (nth_error_None _ k)), (proj2 (nth_error_None _ k)); auto.
      + rewrite map_length, seq_length; lia.
      + rewrite combine_length, map_length, seq_length; lia.
    - rewrite nth_error_map, (nth_error_nth' (seq 0 D) 0), seq_nth by (rewrite ?seq_length; auto).
      cbn [option_map Nat.add].
      assert (G : forall (l : list A) (l' : list B) k x y, nth_error l k = Some x -> nth_error l' k = Some y ->
        nth_error (combine l l') k = Some (x, y)).
      { clear. induction l as [|a l IH]; intros [|b l'] [|k] x y; simpl; try discriminate.
        - now intros [= ->] [= ->].
        - apply IH. }
      apply G.
      + now rewrite nth_error_map, (nth_error_nth' (seq 0 D) 0), seq_nth by (rewrite ?seq_length; auto).
      + apply nth_error_nth'. lia.
  Qed.

  Lemma all_some_intro {A} (f : nat -> option A) (g : nat -> A) (good : list A -> Prop) :
    (forall dev, dev < D -> f dev = Some (g dev)) -> good (map g (seq 0 D)) -> all_some D f good.
  Proof.
    intros H HG. exists (map g (seq 0 D)). split; [now rewrite map_length, seq_length|]. split; auto.
    intros dev Hd. rewrite H by auto.
    now rewrite nth_error_map, (nth_error_nth' (seq 0 D) 0), seq_nth by (rewrite ?seq_length; auto).
  Qed.

  Lemma run_kernels_ok (rounds : nat -> option (list (list (prog T)))) (ms : list (mem T)) (s s' : mem T) :
    assembled D size ms s ->
    (forall dev, dev < D -> exists rs, rounds dev = Some rs /\
      forall m, holds_part D size dev m s -> every_round rs m (fun m' => holds_part D size dev m' s')) ->
    run_kernels D rounds ms (fun ms' => assembled D size ms' s').
  Proof.
    intros [L H] Hr. unfold run_kernels.
    set (g := fun dev => match rounds dev with Some rs => rs | None => [] end).
    apply all_some_intro with (g := g).
    - intros dev Hd. unfold g. destruct (Hr dev Hd) as (rs & -> & _). reflexivity.
    - rewrite (combine_map_nth g (ms : list (mem T)) [] L).
      apply every_device_map with (Q := fun dev m => holds_part D size dev m s').
      + intros dev Hd. apply in_seq in Hd. destruct (Hr dev ltac:(lia)) as (rs & E & Hrs).
        unfold g. rewrite E. apply Hrs. apply H. lia.
      + intros l Hl. apply Forall2_seq in Hl. destruct Hl as [L' Hl]. split; auto.
        intros dev Hd. destruct (nth_error l dev) as [m|] eqn:E; [|apply nth_error_None in E; lia].
        rewrite (nth_error_nth _ _ _ E). now apply Hl.
  Qed.
End Lift.

Lemma every_device_weaken_len {T} devs (g g' : list (mem T) -> Prop) :
  (forall ms, length ms = length devs -> g ms -> g' ms) -> every_device devs g -> every_device devs g'.
Proof.
  revert g g'. induction devs as [|[rs m] devs IH]; intros g g' H; cbn [every_device]; auto.
  apply round_weaken. intros m'. apply IH. intros ms L. apply H. simpl. now rewrite L.
Qed.

Section Run.
  Context {T : Type} (U : NumOps T) (kind : engine_kind) (d block q q' : nat).
  Let D := 2 ^ d.
  Let count := D * (block * q).
  Let size := problem_size count.
  Variable mass : list T.
  Hypothesis Hblock : 0 < block.
  Hypothesis Hq' : count = D * (64 * q').
  Hypothesis Hcount : 0 < count.
  Hypothesis Hmass : length mass = count.
  Let w := size / D.
  Local Notation d0 := (nlit U 0).

  Lemma D_pos : 0 < D.
  Proof. pose proof (Nat.pow_nonzero 2 d). unfold D. lia. Qed.
  Lemma Dw : D * w = size.
  Proof. exact (@w_D D count block q q' D_pos Hblock eq_refl Hq' Hcount). Qed.
  Lemma w_pos : 0 < w.
  Proof. pose proof Dw. assert (0 < size) by (unfold size, problem_size; lia). nia. Qed.

  Lemma own_of i : i < size -> i / w < D /\ (i / w) * w <= i < (i / w) * w + w.
  Proof.
    intros Hi. pose proof w_pos. pose proof Dw. split.
    - apply Nat.div_lt_upper_bound; lia.
    - pose proof (Nat.div_mod i w ltac:(lia)). pose proof (Nat.mod_upper_bound i w ltac:(lia)). lia.
  Qed.

  Lemma assembled_bufs ms s a x : assembled D size ms s -> rd s a = Some x ->
    let bufs := map (fun m : mem T => nth a m []) ms in
    buffers bufs D size /\
    (forall dev, dev < D -> exists xm, rd (nth dev ms []) a = Some xm /\ nth dev bufs [] = xm /\ length xm = size /\
       forall i, dev * w <= i < dev * w + w -> nth_error xm i = nth_error x i) /\
    (forall i, i < size -> mrd bufs (i / w) i = nth_error x i).
  Proof.
    intros [L H] Ea bufs.
    assert (G : forall dev, dev < D -> exists xm, rd (nth dev ms []) a = Some xm /\ nth dev bufs [] = xm /\ length xm = size /\
       forall i, dev * w <= i < dev * w + w -> nth_error xm i = nth_error x i).
    { intros dev Hd. destruct (@part_get T D count block q q' D_pos Hblock eq_refl Hq' Hcount dev (nth dev ms []) s a x (H dev Hd) Ea) as (xm & E1 & E2 & E3).
      exists xm. repeat match goal with |- _ /\ _ => split end; auto.
      unfold bufs. rewrite nth_indep with (d' := nth a (@nil (list T)) []) by (rewrite map_length, L; auto).
      rewrite (map_nth (fun m : mem T => nth a m []) ms [] dev). unfold rd in E1. apply (nth_error_nth _ _ [] E1). }
    split; [|split; auto].
    - split; [unfold bufs; now rewrite map_length|]. apply Forall_forall. intros b Hb.
      apply In_nth with (d := []) in Hb. destruct Hb as (k & Hk & <-). unfold bufs in Hk. rewrite map_length in Hk.
      destruct (G k ltac:(lia)) as (xm & _ & -> & E & _). exact E.
    - intros i Hi. destruct (own_of Hi) as [Hd Ho]. destruct (G (i / w) Hd) as (xm & _ & E1 & E2 & E3).
      unfold mrd, rd. rewrite (nth_error_nth' bufs []) by (unfold bufs; rewrite map_length; lia).
      cbn [obind]. unfold mem in E1. rewrite E1. apply E3. exact Ho.
  Qed.

  Lemma assembled_read ms s a x host : assembled D size ms s -> rd s a = Some x -> length x = size ->
    length host = size -> gpu_read_buffer (map (fun m : mem T => nth a m []) ms) host = Some x.
  Proof.
    intros HA Ea Lx Lh. destruct (@assembled_bufs _ _ _ _ HA Ea) as (B & _ & G).
    destruct (@read_ok T _ D size host D_pos B ltac:(lia)) as (h & E & Lh' & Hh). rewrite E. f_equal.
    apply list_ext. intros i. specialize (Hh i). unfold rd in Hh. fold w in Hh. rewrite Dw in Hh. rewrite Hh.
    destruct (Nat.ltb_spec i size).
    - now apply G.
    - rewrite (proj2 (nth_error_None host i)), (proj2 (nth_error_None x i)); auto; lia.
  Qed.

  Lemma put_ok (ms : list (mem T)) (s : mem T) a x' bufs : assembled D size ms s -> a < length s -> length x' = size ->
    buffers bufs D size ->
    (forall dev i, dev < D -> dev * w <= i < dev * w + w -> nth_error (nth dev bufs []) i = nth_error x' i) ->
    assembled D size (put a bufs ms) (upd s a x').
  Proof.
    intros [L H] Ha Lx B Hb. unfold put.
    assert (Lc : length (combine bufs ms) = D) by (rewrite combine_length, (proj1 B), L; apply Nat.min_id).
    split; [now rewrite map_length|]. intros dev Hd.
    set (g := fun bm : list T * mem T => match wr (snd bm) a (fst bm) with Some m => m | None => snd bm end).
    assert (E : nth dev (map g (combine bufs ms)) [] = upd (nth dev ms []) a (nth dev bufs [])).
    { rewrite (nth_indep (map g (combine bufs ms)) [] (g ([], []))) by (rewrite map_length; lia).
      rewrite map_nth. rewrite combine_nth by (transitivity D; [exact (proj1 B) | symmetry; exact L]). unfold g. cbn [fst snd].
      rewrite wr_ok; auto. destruct (H dev Hd) as [[Lm _] _]. unfold mem in *. lia. }
    assert (X : holds_part D size dev (upd (nth dev ms []) a (nth dev bufs [])) (upd s a x')).
    { apply (@part_upd T D count block q q' D_pos Hblock eq_refl Hq' Hcount); auto.
      destruct (buffers_get B Hd) as (b & Eb & Lb). unfold rd in Eb. now rewrite (nth_error_nth _ _ [] Eb). }
    rewrite <- E in X. exact X.
  Qed.

  Lemma host_copy_ok (ms : list (mem T)) (s : mem T) a b s' : assembled D size ms s -> buffers s (length s) size ->
    cpu_op U count (fun _ _ => None) (OCopy a b) s = Some s' ->
    host_copy count a b ms (fun ms' => assembled D size ms' s').
  Proof.
    intros HA Bs. cbn [cpu_op]. fold size.
    destruct (rd s a) as [x|] eqn:Ea; [|discriminate]. cbn [obind].
    destruct (rd s b) as [y|] eqn:Eb; [|discriminate]. cbn [obind].
    assert (Lx := @get_len T count s (length s) _ _ Bs Ea). assert (Ly := @get_len T count s (length s) _ _ Bs Eb). fold size in Lx, Ly.
    destruct (@copy_cells T U size x y) as (x' & E & Lx' & Hx'); try lia. rewrite E. cbn [obind].
    intros Hw. apply wr_some_inv in Hw. destruct Hw as [Ha ->].
    intros host Lh. exists y. destruct (@assembled_bufs _ _ _ _ HA Ea) as (B & _ & _).
    destruct (@write_ok T _ D size y B ltac:(lia)) as (bufs & E1 & B1 & H1). exists bufs.
    split; [now apply assembled_read with (s := s)|]. split; [exact E1|].
    apply put_ok; auto; try lia. intros dev i Hd Hi.
    assert (Hi' : i < size). { rewrite <- Dw. nia. }
    rewrite Hx'. assert (Hlt := Hi'). apply Nat.ltb_lt in Hlt. rewrite Hlt.
    rewrite <- (nth_error_nth' y d0) by lia.
    specialize (H1 dev i Hd Hi'). unfold mrd in H1.
    destruct (buffers_get B1 Hd) as (bd & Ebd & _). rewrite Ebd in H1. cbn [obind] in H1.
    unfold rd in Ebd, H1. rewrite (nth_error_nth _ _ [] Ebd). exact H1.
  Qed.

  (** the force *)
  Definition force_agrees (force : list T -> list T -> option (list T)) : Prop :=
    forall x v v', length x = size -> length v = size -> force x v = Some v' ->
      length v' = size /\
      forall i, i < size -> nth_error v' i =
        Some (kernel_rhs U block count (D * q) (fun i => nth i x d0) (fun i => nth i mass d0) i).

  Lemma sync_y_mono m (g g' : mem T -> Prop) : (forall m', g m' -> g' m') ->
    run_sync_y kind D count m g -> run_sync_y kind D count m g'.
  Proof.
    intros H. unfold run_sync_y. destruct (1 <? D); auto. destruct kind as [|[|]].
    - apply round_weaken; auto.
    - apply round_weaken; auto.
    - intros X host Lh. destruct (X host Lh) as (ys & E & G). eauto.
  Qed.
  Lemma sync_f_mono m (g g' : mem T -> Prop) : (forall m', g m' -> g' m') ->
    run_sync_f kind D count m g -> run_sync_f kind D count m g'.
  Proof.
    intros H. unfold run_sync_f. destruct (1 <? D); auto. destruct kind as [|[|]].
    - apply round_weaken; auto.
    - apply round_weaken; auto.
    - intros X host Lh. destruct (X host Lh) as (ys & E & G). eauto.
  Qed.
  Lemma sync_y_ok (m : mem T) : buffers m D size -> run_sync_y kind D count m (fun m' => buffers m' D size /\
    forall dev i, dev < D -> i < D * (size / D) -> mrd m' dev i = mrd m (i / (size / D)) i).
  Proof.
    intros B. unfold run_sync_y. fold size. destruct (Nat.ltb_spec 1 D) as [H1|H1].
    - destruct kind as [|[|]].
      + apply (@C56_y T d size m B).
      + apply (@C56_y T d size m B).
      + intros host Lh. destruct (@host_sync_y_ok T m D size host D_pos B ltac:(lia)) as (m' & E & B' & H).
        exists m'. split; auto.
    - split; auto. intros dev i Hd Hi. pose proof D_pos. assert (dev = 0) by lia. subst dev.
      f_equal. symmetry. apply Nat.div_small. assert (D = 1) by lia. nia.
  Qed.
  Lemma sync_f_ok (m : mem T) : buffers m D size -> run_sync_f kind D count m (fun m' => buffers m' D size /\
    forall dev r c, dev < D -> r < 6 -> c < D * (size / D / 6) ->
      mrd m' dev (r * (size / 6) + c) = mrd m (c / (size / D / 6)) (r * (size / 6) + c)).
  Proof.
    intros B. unfold run_sync_f. fold size. destruct (Nat.ltb_spec 1 D) as [H1|H1].
    - destruct kind as [|[|]].
      + apply (@C56_f T d size m B).
      + apply (@C56_f T d size m B).
      + intros host Lh. destruct (@host_sync_f_ok T m D size host D_pos B ltac:(lia)) as (m' & E & B' & H).
        exists m'. split; auto.
    - split; auto. intros dev r c Hd Hr Hc. pose proof D_pos. assert (dev = 0) by lia. subst dev.
      f_equal. symmetry. apply Nat.div_small. assert (D = 1) by lia. nia.
  Qed.

  Lemma fcompute_ok force y f (ms : list (mem T)) (s : mem T) s' : force_agrees force -> y <> f ->
    assembled D size ms s -> buffers s (length s) size ->
    cpu_op U count force (OFcompute y f) s = Some s' ->
    buffers s' (length s) size /\
    run_fcompute U kind D count block mass y f ms (fun ms' => assembled D size ms' s').
  Proof.
    intros HF Hne HA Bs. cbn [cpu_op].
    destruct (rd s y) as [x|] eqn:Ex; [|discriminate]. cbn [obind].
    destruct (rd s f) as [v|] eqn:Ev; [|discriminate]. cbn [obind].
    destruct (force x v) as [v'|] eqn:Ef; [|discriminate]. cbn [obind].
    intros Hw. apply wr_some_inv in Hw. destruct Hw as [Hf ->].
    assert (Lx := @get_len T count s (length s) _ _ Bs Ex). assert (Lv := @get_len T count s (length s) _ _ Bs Ev). fold size in Lx, Lv.
    destruct (HF x v v' Lx Lv Ef) as [Lv' Hv'].
    split; [apply buffers_upd; auto|].
    intros scratch HS.
    set (g := fun dev => match force_kernels U kind D count block dev with Some rs => rs | None => [] end).
    assert (Hg : forall dev, force_kernels U kind D count block dev = Some (g dev)).
    { intros dev. unfold g, force_kernels. destruct kind; auto.
      now rewrite (@opencl_launch T U d block q dev Hblock : opencl_device U count block D dev = _). }
    destruct (@assembled_bufs _ _ _ _ HA Ex) as (BY & _ & GY). destruct (@assembled_bufs _ _ _ _ HA Ev) as (BF & GF & _).
    set (ys := map (fun m : mem T => nth y m []) ms) in *. set (fs := map (fun m : mem T => nth f m []) ms) in *.
    assert (M : run_sync_y kind D count ys (fun ys' =>
      every_device (map (fun dev => (g dev,
        device_memory (nth dev ys' []) (nth dev fs []) mass (scratch dev))) (seq 0 D))
      (fun ds =>
        (forall m, In m ds -> nth aY m [] = x) /\
        run_sync_f kind D count (map (fun m => nth aF m []) ds) (fun fs' =>
          buffers fs' D (6 * count) /\
          forall dev i, dev < D -> i < 6 * count ->
            nth_error (nth dev fs' []) i = Some (kernel_rhs U block count (D * q) (fun i => nth i x d0) (fun i => nth i mass d0) i))))).
    { apply (@multi_gen T U d block q mass x d0 Hblock Hmass Lx
        (run_sync_y kind D count) (run_sync_f kind D count) g ys fs scratch
        sync_y_mono sync_f_mono sync_y_ok sync_f_ok BY BF HS).
      - exact GY.
      - intros dev mb Hd H1 H2 H3. unfold g, force_kernels. destruct kind.
        + now apply cuda_devs.
        + rewrite (@opencl_launch T U d block q dev Hblock : opencl_device U count block D dev = _).
          now apply opencl_devs_ok. }
    unfold run_fcompute. fold ys. eapply sync_y_mono; [|exact M]. clear M.
    intros ys' M. cbv beta. apply all_some_intro with (g := g); [intros; apply Hg|].
    assert (EQ : map (fun dev => (nth dev (map g (seq 0 D)) [],
        device_memory (nth dev ys' []) (nth f (nth dev ms []) []) mass (scratch dev))) (seq 0 D) =
      map (fun dev => (g dev, device_memory (nth dev ys' []) (nth dev fs []) mass (scratch dev))) (seq 0 D)).
    { apply map_ext_in. intros dev Hd. apply in_seq in Hd. f_equal.
      - erewrite nth_indep with (d' := g 0) by (rewrite map_length, seq_length; lia).
        rewrite map_nth, seq_nth by lia. reflexivity.
      - f_equal. destruct (GF dev ltac:(lia)) as (xm & E1 & E2 & _). rewrite E2. unfold rd in E1.
        now apply nth_error_nth. }
    rewrite EQ. eapply every_device_weaken_len; [|exact M]. rewrite map_length, seq_length.
    intros ds Lds [HY HS']. cbv beta. eapply sync_f_mono; [|exact HS'].
    intros fs' [BF' HF']. cbv beta.
    assert (HA1 : assembled D size (put y (map (fun m => nth aY m []) ds) ms) s).
    { rewrite <- (@upd_self T s y x Ex) at 1. apply put_ok; auto.
      - eapply rd_bound; eauto.
      - split; [now rewrite map_length|]. apply Forall_forall. intros b Hb. apply in_map_iff in Hb.
        destruct Hb as (m & <- & Hm). now rewrite HY.
      - intros dev i Hd Hi.
        assert (Hdl : dev < length ds) by (rewrite Lds; exact Hd).
        erewrite nth_indep with (d' := (fun m : mem T => nth aY m []) []) by (now rewrite map_length).
        rewrite (map_nth (fun m : mem T => nth aY m [])), HY; auto. now apply nth_In. }
    apply put_ok; auto. intros dev i Hd Hi. assert (i < size) by (rewrite <- Dw; nia).
    rewrite HF', Hv'; auto.
  Qed.
End Run.
