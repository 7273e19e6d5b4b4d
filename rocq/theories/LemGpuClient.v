(** A client of several devices sees what a client of one processor sees. *)
From Coq Require Import ZArith Reals List Arith Lia Lra Bool.
From Verif Require Import Num Arr ArrLemmas LemEngine ModelEngine LemBuffers RLemmas LemBufProp ModelParallel SpecPar
  LemParallel LemOmp ModelGpu SpecGpu LemGpu LemGpuHost ModelGpuForce LemGpuForce PropGpu PropGpuForce
  ModelGpuOps SpecGpuOps LemGpuOps LemGpuRun LemGpuMax.
Import ListNotations.
Set Implicit Arguments.

Section Client.
  Context {T : Type} (U : NumOps T) (kind : engine_kind) (d block q q' : nat).
  Let D := 2 ^ d.
  Let count := D * (block * q).
  Let size := problem_size count.
  Variable mass : list T.
  Hypothesis Hblock : 0 < block.
  Hypothesis Hq' : count = D * (64 * q').
  Hypothesis Hcount : 0 < count.
  Hypothesis Hmass : length mass = count.
  Variable force : list T -> list T -> option (list T).
  Hypothesis Hforce : force_agrees U d block q mass force.

  Lemma all_some_mono A (f : nat -> option A) (g g' : list A -> Prop) :
    (forall l, g l -> g' l) -> all_some D f g -> all_some D f g'.
  Proof. intros H (l & L & E & G). exists l. auto. Qed.

  Lemma run_op_mono o ms (g g' : list (mem T) -> Prop) : (forall ms, g ms -> g' ms) ->
    run_op U kind D count block mass o ms g -> run_op U kind D count block mass o ms g'.
  Proof.
    intros H.
    assert (K : run_kernels D (device_rounds U kind D count block o) ms g ->
                run_kernels D (device_rounds U kind D count block o) ms g').
    { apply all_some_mono. intros rs. apply every_device_weaken. auto. }
    assert (HC : forall a b, host_copy count a b ms g -> host_copy count a b ms g').
    { intros a b X host Lh. destruct (X host Lh) as (h & bufs & E1 & E2 & E3). exists h, bufs. auto. }
    destruct o; unfold run_op; try (destruct kind as [|[|]]; now auto).
    intros X scratch HS. specialize (X scratch HS). eapply sync_y_mono; [|exact X].
    intros ys. apply all_some_mono. intros rs. apply every_device_weaken. intros ds.
    apply sync_f_mono. auto.
  Qed.

  Lemma run_max_mono a ms (g g' : T -> Prop) : (forall r, g r -> g' r) ->
    run_max U kind D count block a ms g -> run_max U kind D count block a ms g'.
  Proof.
    intros H. unfold run_max. destruct kind.
    - unfold cuda_fmaxabs. destruct (_ =? 0); auto. apply all_some_mono. intros l (r & E & G). eauto.
    - intros X out host Bo Lh. specialize (X out host Bo Lh). eapply all_some_mono; [|exact X].
      intros rs. apply every_device_weaken. intros ds (h & r & E1 & E2 & E3). exists h, r. auto.
  Qed.
  Lemma gpu_run_mono p : forall ms (g g' : list (mem T) -> Prop), (forall ms, g ms -> g' ms) ->
    gpu_run U kind D count block mass p ms g -> gpu_run U kind D count block mass p ms g'.
  Proof.
    induction p as [|o k IH|a k IH|a k IH]; intros ms g g' H; cbn [gpu_run]; auto.
    - apply run_op_mono. intros ms'. apply IH. exact H.
    - apply run_max_mono. intros r. apply IH. exact H.
    - intros X host Lh. destruct (X host Lh) as (h & E & G). exists h. split; auto. eapply IH; eauto.
  Qed.

  Lemma run_op_ok o ms s s' : op_ok o -> assembled D size ms s -> buffers s (length s) size ->
    cpu_op U count force o s = Some s' ->
    buffers s' (length s) size /\
    run_op U kind D count block mass o ms (fun ms' => assembled D size ms' s').
  Proof.
    intros Hok HA Bs E.
    assert (HD : 0 < D) by (pose proof (Nat.pow_nonzero 2 d); unfold D; lia).
    assert (K : kernel_op o -> buffers s' (length s) size /\
      run_kernels D (device_rounds U kind D count block o) ms (fun ms' => assembled D size ms' s')).
    { intros Ko. destruct (@all_served T U kind D count block q q' HD Hblock eq_refl Hq' Hcount force o s s' Ko Hok Bs E)
        as [B' Hs]. split; auto. apply (@run_kernels_ok T D size HD _ ms s s' HA Hs). }
    destruct o; try (split; [apply K; exact I|]; unfold run_op; destruct kind as [|[|]]; apply K; exact I).
    - split; [apply K; exact I|]. unfold run_op. destruct kind as [|[|]]; try (apply K; exact I).
      apply (@host_copy_ok T U d block q q' mass Hblock Hq' Hcount Hmass ms s a b s'); auto.
    - apply (@fcompute_ok T U kind d block q q' mass Hblock Hq' Hcount Hmass force y f ms s s'); auto.
  Qed.

  Lemma assembled_self (s : mem T) : buffers s (length s) size -> assembled D size (repeat s D) s.
  Proof.
    intros B. split; [apply repeat_length|]. intros dev Hd.
    assert (E : nth dev (repeat s D) [] = s).
    { apply nth_error_nth. apply nth_error_repeat. exact Hd. }
    unfold mem in *. rewrite E. split; auto.
  Qed.

  Lemma cpu_run_bufs p : forall s s', client_ok p -> buffers s (length s) size ->
    cpu_run U count force p s = Some s' -> buffers s' (length s) size.
  Proof.
    induction p as [|o k IH|a k IH|a k IH]; intros s s' Hok Bs; cbn [cpu_run].
    - now intros [= <-].
    - destruct Hok as [Ho Hok]. destruct (cpu_op U count force o s) as [s1|] eqn:E1; [|discriminate].
      cbn [obind]. intros E. destruct (@run_op_ok o (repeat s D) s s1 Ho (assembled_self Bs) Bs E1) as [B1 _].
      assert (L1 : length s1 = length s) by apply B1. rewrite <- L1. apply IH; auto. now rewrite L1.
    - destruct (rd s a) as [x|] eqn:Ea; [|discriminate]. cbn [obind].
      destruct (fmaxabs U (problem_size count) x) as [r|]; [|discriminate]. cbn [obind]. apply IH; auto.
    - destruct (rd s a) as [x|] eqn:Ea; [|discriminate]. cbn [obind]. apply IH; auto.
  Qed.

  Variable maxes : bool.
  Hypothesis Hmax : maxes = true ->
    forall ms s a x r (good : T -> Prop), assembled D size ms s -> buffers s (length s) size ->
    rd s a = Some x -> fmaxabs U size x = Some r -> good r -> run_max U kind D count block a ms good.

  Lemma client_run p ms s s' : client_ok p -> (maxes = false -> no_max p) ->
    assembled D size ms s -> buffers s (length s) size ->
    cpu_run U count force p s = Some s' ->
    gpu_run U kind D count block mass p ms (fun ms' => assembled D size ms' s').
  Proof.
    revert ms s. induction p as [|o k IH|a k IH|a k IH]; intros ms s Hok Hnm HA Bs; cbn [cpu_run gpu_run].
    - now intros [= <-].
    - destruct Hok as [Ho Hok]. destruct (cpu_op U count force o s) as [s1|] eqn:E1; [|discriminate].
      cbn [obind]. intros E. destruct (@run_op_ok o ms s s1 Ho HA Bs E1) as [B1 R1].
      assert (L1 : length s1 = length s) by apply B1.
      eapply run_op_mono; [|exact R1]. intros ms1 HA1. cbv beta. apply IH with (s := s1); auto. now rewrite L1.
    - fold size. destruct (rd s a) as [x|] eqn:Ea; [|discriminate]. cbn [obind].
      destruct (fmaxabs U size x) as [r|] eqn:Er; [|discriminate]. cbn [obind]. intros E.
      destruct maxes eqn:Em.
      + eapply Hmax; eauto. apply IH with (s := s); auto. discriminate.
      + destruct (Hnm eq_refl).
    - destruct (rd s a) as [x|] eqn:Ea; [|discriminate]. cbn [obind]. intros E host Lh.
      assert (Lx := @get_len T count s (length s) a x Bs Ea).
      exists x. split.
      + apply (@assembled_read T d block q q' mass Hblock Hq' Hcount Hmass ms s a x host); auto.
      + apply IH with (s := s); auto. intros Hm. apply (Hnm Hm).
  Qed.
End Client.
