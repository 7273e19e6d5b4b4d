(** C70: a solver that runs on several devices gets the state it would have got from one
    processor. *)
From Coq Require Import ZArith Reals List Arith Lia Lra Bool.
From Verif Require Import Num Arr ArrLemmas LemEngine ModelEngine ModelForce LemBuffers RLemmas LemBufProp
  SpecPhys PropForce ModelParallel SpecPar LemParallel LemOmp ModelGpu SpecGpu LemGpu LemGpuHost
  ModelGpuForce LemGpuForce PropGpu PropGpuForce ModelGpuOps SpecGpuOps LemGpuOps LemGpuRun LemGpuMax
  LemGpuClient ModelSolverBase ModelSolver.
Import ListNotations.
Set Implicit Arguments.

(** Any arithmetic: [force] is whatever gives the numbers of the device kernels ([kernel_rhs]: the
    forces summed block by block).  The number of bodies is a multiple of the number of devices
    (a power of two) times the block of the force kernel, and times 64, the block of the others. *)
Theorem C70_clients : forall (T : Type) (U : NumOps T) (kind : engine_kind) (d block q q' : nat)
  (mass : list T) (force : list T -> list T -> option (list T)) (p : client T)
  (ms : list (mem T)) (s s' : mem T),
  let D := 2 ^ d in let count := D * (block * q) in let size := 6 * count in
  0 < block -> 0 < count -> count = D * (64 * q') -> length mass = count ->
  (forall x v v', length x = size -> length v = size -> force x v = Some v' ->
     length v' = size /\
     forall i, i < size -> nth_error v' i =
       Some (kernel_rhs U block count (D * q) (fun i => nth i x (nlit U 0)) (fun i => nth i mass (nlit U 0)) i)) ->
  client_ok p -> no_max p ->
  assembled D size ms s -> buffers s (length s) size ->
  cpu_run U count force p s = Some s' ->
  gpu_run U kind D count block mass p ms (fun ms' => assembled D size ms' s').
Proof.
  intros T U kind d block q q' mass force p ms s s' D count size Hb Hc Hq' Hm Hf Hok Hnm HA Bs E.
  apply (@client_run T U kind d block q q' mass Hb Hq' Hc Hm force Hf false) with (s := s); auto.
  discriminate.
Qed.
Print Assumptions C70_clients.

Lemma newton_unique mind n mass v f f' :
  newton_rhs mind n mass v f -> newton_rhs mind n mass v f' -> f = f'.
Proof.
  intros [L1 H1] [L2 H2]. apply list_ext. intros i.
  destruct (Nat.lt_ge_cases i (6 * n)) as [Hi|Hi].
  - assert (Hn : 0 < n) by lia.
    pose proof (Nat.div_mod i n ltac:(lia)). pose proof (Nat.mod_upper_bound i n ltac:(lia)).
    assert (i / n < 6) by (apply Nat.div_lt_upper_bound; lia).
    destruct (Nat.lt_ge_cases (i / n) 3) as [Hk|Hk].
    + destruct (H1 (i mod n) (i / n)) as [A _]; try lia. destruct (H2 (i mod n) (i / n)) as [B _]; try lia.
      replace (i / n * n + i mod n) with i in A, B by lia. congruence.
    + destruct (H1 (i mod n) (i / n - 3)) as [_ A]; try lia. destruct (H2 (i mod n) (i / n - 3)) as [_ B]; try lia.
      replace ((i / n - 3 + 3) * n + i mod n) with i in A, B by nia. congruence.
  - rewrite (proj2 (nth_error_None f i)), (proj2 (nth_error_None f' i)); auto; lia.
Qed.

Lemma simple_agrees mind d block q (mass : list R) : (0 < mind)%R -> 0 < block ->
  let count := 2 ^ d * (block * q) in
  length mass = count -> (forall i, i < count -> nth i mass 0%R <> 0%R) ->
  force_agrees (Rops mind) d block q mass (simple_fcompute (Rops mind) count mass).
Proof.
  intros Hmind Hb count Lm Hm x v v' Lx Lv E. unfold problem_size in *. fold count in Lx, Lv |- *.
  destruct (@C04_newtonian_rhs mind count mass x v Hmind Lx Lm Lv Hm) as (f & Ef & HN).
  rewrite Ef in E. injection E as <-.
  set (g := kernel_rhs (Rops mind) block count (2 ^ d * q) (fun i => nth i x 0%R) (fun i => nth i mass 0%R)).
  assert (HK : newton_rhs mind count mass x (map g (seq 0 (6 * count)))).
  { apply rhs_R with (B := block) (q := 2 ^ d * q).
    - unfold count. ring.
    - now rewrite map_length, seq_length.
    - intros i Hi. rewrite nth_error_map, (nth_error_nth' _ 0) by (now rewrite seq_length).
      rewrite seq_nth by auto. reflexivity. }
  rewrite (newton_unique HN HK). split; [now rewrite map_length, seq_length|].
  intros i Hi. rewrite nth_error_map, (nth_error_nth' _ 0) by (now rewrite seq_length).
  rewrite seq_nth by auto. reflexivity.
Qed.

(** Exact arithmetic: the reference engine's own [fcompute] and [fmaxabs].  The OpenCL [fmaxabs]
    needs an even number of blocks. *)
Theorem C70_clients_exact : forall (mind : R) (kind : engine_kind) (d block q q' : nat)
  (mass : list R) (p : client R) (ms : list (mem R)) (s s' : mem R),
  let D := 2 ^ d in let count := D * (block * q) in let size := 6 * count in
  (0 < mind)%R -> 0 < block -> 0 < count -> count = D * (64 * q') ->
  (kind <> Cuda -> Nat.even (D * q) = true) ->
  length mass = count -> (forall i, i < count -> nth i mass 0%R <> 0%R) ->
  client_ok p ->
  assembled D size ms s -> buffers s (length s) size ->
  cpu_run (Rops mind) count (simple_fcompute (Rops mind) count mass) p s = Some s' ->
  gpu_run (Rops mind) kind D count block mass p ms (fun ms' => assembled D size ms' s').
Proof.
  intros mind kind d block q q' mass p ms s s' D count size Hmind Hb Hc Hq' He Lm Hm Hok HA Bs E.
  apply (@client_run R (Rops mind) kind d block q q' mass Hb Hq' Hc Lm
    (simple_fcompute (Rops mind) count mass) (@simple_agrees mind d block q mass Hmind Hb Lm Hm) true) with (s := s); auto.
  - intros _ ms0 s0 a x r good. apply (@max_ok mind kind d block q q' mass Hb Hq' Hc Lm He).
  - discriminate.
Qed.
Print Assumptions C70_clients_exact.

(** ** A solver as a client: the midpoint method, for any sequence of steps *)
Section Midpoint.
  Context {T : Type} (U : NumOps T) (count : nat) (force : list T -> list T -> option (list T))
    (garbage : nat -> list T).

  Lemma midpoint_client_run dts : forall s e s' e',
    midpoint_steps U count force garbage dts s e = Some (s', e') ->
    cpu_run U count force (midpoint_client U dts) [e_y e; mp_k1 s; mp_k2 s; mp_tmp s] =
    Some [e_y e'; mp_k1 s'; mp_k2 s'; mp_tmp s'].
  Proof.
    induction dts as [|dt r IH]; intros s e s' e'; cbn [midpoint_steps midpoint_client cpu_run].
    - now intros [= <- <-].
    - destruct e as [y t st pv nb], s as [k1 k2 tmp].
      unfold midpoint_advise, eng_fcompute. cbn [e_y e_time e_step e_priv e_nbuf mp_k1 mp_k2 mp_tmp].
      cbn [cpu_op rd nth_error obind].
      destruct (force y k1) as [k1'|]; cbn [obind fst snd]; [|discriminate].
      cbn [wr obind rd nth_error]. cbn [e_y e_time e_step e_priv e_nbuf].
      destruct (fmadd U (problem_size count) tmp y k1' (ndiv U dt (nlit U 2))) as [tmp'|]; cbn [obind]; [|discriminate].
      cbn [wr obind rd nth_error]. cbn [e_y e_time e_step e_priv e_nbuf].
      destruct (force tmp' k2) as [k2'|]; cbn [obind fst snd]; [|discriminate].
      cbn [wr obind rd nth_error]. cbn [e_y e_time e_step e_priv e_nbuf].
      destruct (fmadd_inplace U (problem_size count) y k2' dt) as [y'|]; cbn [obind]; [|discriminate].
      cbn [wr obind rd nth_error]. intros H. apply (IH _ _ _ _ H).
  Qed.
End Midpoint.

Lemma midpoint_client_ok T (U : NumOps T) dts : client_ok (midpoint_client U dts) /\ no_max (midpoint_client U dts).
  Proof. induction dts as [|dt r IH]; cbn; intuition lia. Qed.

Lemma midpoint_total mind n mass garbage dts : (0 < mind)%R -> length mass = n ->
  (forall i, i < n -> nth i mass 0%R <> 0%R) -> forall s e,
  buffers [e_y e; mp_k1 s; mp_k2 s; mp_tmp s] 4 (6 * n) ->
  exists s' e', midpoint_steps (Rops mind) n (simple_fcompute (Rops mind) n mass) garbage dts s e = Some (s', e').
Proof.
  intros Hmind Lm Hm. unfold buffers. induction dts as [|dt r IH]; intros s e [_ B]; cbn [midpoint_steps]; eauto.
  destruct e as [y t st pv nb], s as [k1 k2 tmp]. cbn [e_y mp_k1 mp_k2 mp_tmp] in B.
  apply Forall_forall with (x := y) in B as L0; [|simpl; tauto].
  apply Forall_forall with (x := k1) in B as L1; [|simpl; tauto].
  apply Forall_forall with (x := k2) in B as L2; [|simpl; tauto].
  apply Forall_forall with (x := tmp) in B as L3; [|simpl; tauto].
  unfold midpoint_advise, eng_fcompute. cbn [e_y e_time e_step e_priv e_nbuf mp_k1 mp_k2 mp_tmp].
  destruct (@C04_newtonian_rhs mind n mass y k1 Hmind L0 Lm L1 Hm) as (k1' & -> & L1' & _).
  cbn [obind fst snd e_y e_time e_step e_priv e_nbuf]. unfold problem_size.
  destruct (@fmadd_cells R (Rops mind) (6 * n) tmp y k1' (ndiv (Rops mind) dt (nlit (Rops mind) 2)))
    as (tmp' & -> & L3' & _); try lia.
  cbn [obind fst snd e_y e_time e_step e_priv e_nbuf]. rewrite L3 in L3'.
  destruct (@C04_newtonian_rhs mind n mass tmp' k2 Hmind L3' Lm L2 Hm) as (k2' & -> & L2' & _).
  cbn [obind fst snd e_y e_time e_step e_priv e_nbuf].
  destruct (@fmadd_inplace_cells R (Rops mind) (6 * n) y k2' dt) as (y' & -> & L0' & _); try lia.
  cbn [obind]. apply IH. split; auto. cbn [advise_time set_y e_y mp_k1 mp_k2 mp_tmp].
  repeat constructor; auto. congruence.
Qed.

(** The state read back from the devices after any sequence of steps is the state of the reference
    engine, whatever the schedules; in particular nothing is refused or out of bounds. *)
Theorem C70_midpoint : forall (mind : R) (kind : engine_kind) (d block q q' : nat)
  (mass : list R) (garbage : nat -> list R) (dts : list R) (ms : list (mem R)) s (e : eng),
  let D := 2 ^ d in let count := D * (block * q) in let size := 6 * count in
  (0 < mind)%R -> 0 < block -> 0 < count -> count = D * (64 * q') ->
  length mass = count -> (forall i, i < count -> nth i mass 0%R <> 0%R) ->
  buffers [e_y e; mp_k1 s; mp_k2 s; mp_tmp s] 4 size ->
  assembled D size ms [e_y e; mp_k1 s; mp_k2 s; mp_tmp s] ->
  exists s' e',
    midpoint_steps (Rops mind) count (simple_fcompute (Rops mind) count mass) garbage dts s e = Some (s', e') /\
    gpu_run (Rops mind) kind D count block mass (midpoint_client (Rops mind) dts) ms
      (fun ms' => forall host, length host = size ->
         gpu_read_buffer (map (fun m => nth 0 m []) ms') host = Some (e_y e')).
Proof.
  intros mind kind d block q q' mass garbage dts ms s e D count size Hmind Hb Hc Hq' Lm Hm Bs HA.
  destruct (@midpoint_total mind count mass garbage dts Hmind Lm Hm s e Bs) as (s' & e' & HS).
  exists s', e'. split; auto.
  assert (HF := @simple_agrees mind d block q mass Hmind Hb Lm Hm).
  apply midpoint_client_run in HS. destruct (@midpoint_client_ok R (Rops mind) dts) as [Hok Hnm].
  eapply gpu_run_mono;
    [|apply (@client_run R (Rops mind) kind d block q q' mass Hb Hq' Hc Lm
        (simple_fcompute (Rops mind) count mass) HF false) with (s := [e_y e; mp_k1 s; mp_k2 s; mp_tmp s])
        (s' := [e_y e'; mp_k1 s'; mp_k2 s'; mp_tmp s'])]; auto; [|discriminate].
  cbv beta. intros ms' HA' host Lh.
  apply (@assembled_read R d block q q' mass Hb Hq' Hc Lm ms' _ 0 (e_y e') host HA'); auto.
  assert (B' := @cpu_run_bufs R (Rops mind) kind d block q q' mass Hb Hq' Hc Lm
    (simple_fcompute (Rops mind) count mass) HF _ _ _ Hok Bs HS).
  destruct B' as [_ B']. now inversion B'.
Qed.
Print Assumptions C70_midpoint.

(** a decision procedure, for the examples *)
Definition cell_eqb (x y : option Z) : bool :=
  match x, y with Some u, Some v => Z.eqb u v | None, None => true | _, _ => false end.
Definition assembled_b (D size : nat) (ms : list (mem Z)) (s : mem Z) : bool :=
  (length ms =? D) &&
  forallb (fun m => (length m =? length s) && forallb (fun b => length b =? size) m) ms &&
  forallb (fun dev => forallb (fun a => forallb (fun i => cell_eqb (mrd (nth dev ms []) a i) (mrd s a i))
    (seq (dev * (size / D)) (size / D))) (seq 0 (length s))) (seq 0 D).
Lemma assembled_by D size ms s : assembled_b D size ms s = true -> assembled D size ms s.
Proof.
  unfold assembled_b. rewrite !andb_true_iff, !forallb_forall, Nat.eqb_eq. intros [[L B] H].
  split; auto. intros dev Hd. split.
  - specialize (B (nth dev ms []) ltac:(apply nth_In; lia)). apply andb_true_iff in B. destruct B as [B1 B2].
    apply Nat.eqb_eq in B1. split; auto. rewrite forallb_forall in B2. apply Forall_forall. intros b Hb.
    apply Nat.eqb_eq. auto.
  - intros a i Ha Hi. specialize (H dev ltac:(apply in_seq; lia)). rewrite forallb_forall in H.
    specialize (H a ltac:(apply in_seq; lia)). rewrite forallb_forall in H. specialize (H i ltac:(apply in_seq; lia)).
    unfold cell_eqb in H. destruct (mrd (nth dev ms []) a i), (mrd s a i); try discriminate; auto.
    apply Z.eqb_eq in H. congruence.
Qed.

(** Two devices with 128 bodies; each holds stale numbers (9) in the other's half. *)
Definition ex_cells (own : bool) : list Z := repeat (if own then 1 else 9)%Z 384 ++ repeat (if own then 9 else 1)%Z 384.
Definition ex_s : mem Z := [repeat 1 768; repeat 2 768]%Z.
Definition ex_s' : mem Z := [repeat 7 768; repeat 7 768]%Z.
Definition ex_ms : list (mem Z) := [[ex_cells true; repeat 2 768]; [ex_cells false; repeat 2 768]]%Z.
Definition ex_client : client Z :=
  Do (OFmaddInplace 0 1 3%Z) (ReadBuffer 0 (fun x => Do (OFill 1 (hd 0%Z x)) Done)).
Example C70_example :
  let D := 2 ^ 1 in let count := D * (64 * 1) in let size := 6 * count in
  assembled D size ex_ms ex_s /\ buffers ex_s (length ex_s) size /\ client_ok ex_client /\ no_max ex_client /\
  cpu_run Zops count (fun _ _ => None) ex_client ex_s = Some ex_s' /\
  forall kind, gpu_run Zops kind D count 64 (repeat 1%Z 128) ex_client ex_ms (fun ms' => assembled D size ms' ex_s').
Proof.
  intros D count size.
  assert (HA : assembled D size ex_ms ex_s).
  { apply assembled_by. vm_compute. reflexivity. }
  assert (HE : cpu_run Zops count (fun _ _ => None) ex_client ex_s = Some ex_s')
    by (vm_compute; reflexivity).
  assert (HB : buffers ex_s (length ex_s) size) by (split; [reflexivity|repeat constructor]).
  assert (Hok : client_ok ex_client /\ no_max ex_client) by (cbn; tauto).
  assert (H0 : 0 < count) by (vm_compute; lia).
  assert (H1 : length (repeat 1%Z 128) = count) by (vm_compute; reflexivity).
  split; [exact HA|]. split; [exact HB|]. split; [apply Hok|]. split; [apply Hok|]. split; [exact HE|].
  intros kind.
  refine (@C70_clients Z Zops kind 1 64 1 1 (repeat 1%Z 128) (fun _ _ => None) ex_client ex_ms ex_s ex_s'
    _ H0 eq_refl H1 _ (proj1 Hok) (proj2 Hok) HA HB HE); [lia|discriminate].
Qed.

(** ** What fails: eleven bodies on one CUDA device.  The kernels are launched for 64 of the 66
    cells; the last two velocities never change. *)
Theorem C70_tail_refuted : exists (count : nat) (s s' : mem Z) (o : gop Z),
  op_ok o /\ buffers s 2 (6 * count) /\ assembled 1 (6 * count) [s] s /\
  cpu_op Zops count (fun _ _ => None) o s = Some s' /\
  forall block mass, ~ run_op Zops Cuda 1 count block mass o [s] (fun ms' => assembled 1 (6 * count) ms' s').
Proof.
  exists 11, [repeat 1 66; repeat 2 66]%Z, [repeat 7 66; repeat 2 66]%Z, (OFmaddInplace 0 1 3%Z).
  split; [exact I|]. split; [split; [reflexivity|repeat constructor]|].
  split; [apply assembled_by; vm_compute; reflexivity|].
  split; [vm_compute; reflexivity|].
  intros block mass (l & L & E & H). specialize (E 0 (Nat.lt_0_1)).
  destruct l as [|rs [|]]; try discriminate. cbn [nth_error] in E. injection E as <-.
  cbn [combine every_device] in H. apply every_round_runs in H. destruct H as (m' & Em & [_ H]).
  specialize (H 0 Nat.lt_0_1). destruct H as [_ H]. specialize (H 0 65).
  vm_compute in Em. injection Em as <-. specialize (H ltac:(simpl; lia)).
  assert (X : 0 * (6 * 11 / 1) <= 65 < (0 + 1) * (6 * 11 / 1)) by (vm_compute; lia).
  specialize (H X). vm_compute in H. discriminate.
Qed.
Print Assumptions C70_tail_refuted.

(** 64 bodies in blocks of 64 on one OpenCL device: [fmaxabs] asks for 6 work items in groups of 4,
    which the run time refuses. *)
Theorem C70_max_refuted : exists (count block : nat) (s : mem Z) (r : Z),
  count mod block = 0 /\ buffers s 1 (6 * count) /\ assembled 1 (6 * count) [s] s /\
  fmaxabs Zops (6 * count) (nth 0 s []) = Some r /\
  forall ctx, ~ run_max Zops (OpenCL ctx) 1 count block 0 [s] (fun _ => True).
Proof.
  exists 64, 64, [repeat 5%Z 384], 5%Z.
  split; [reflexivity|]. split; [split; [reflexivity|repeat constructor]|].
  split; [apply assembled_by; vm_compute; reflexivity|].
  split; [vm_compute; reflexivity|].
  intros ctx H. specialize (H [repeat 0%Z 6] (repeat 0%Z 6)).
  destruct H as (l & L & E & _); [split; [reflexivity|repeat constructor]|reflexivity|].
  specialize (E 0 Nat.lt_0_1). destruct l as [|rs l]; [discriminate|]. vm_compute in E. discriminate.
Qed.
Print Assumptions C70_max_refuted.
