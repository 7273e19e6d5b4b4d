(** C71: the Barnes-Hut engines on the devices. *)
From Coq Require Import Reals ZArith NArith List Arith Bool Lia Lra Permutation.
From Verif Require Import Num Arr ArrLemmas SpecPhys LemEngine ModelVertex ModelForce ModelEngine ModelTree ModelHeap ModelBH
  SpecTree SpecHeap LemHeap LemHeap2 LemTreeProp ModelParallel SpecPar SpecGpu LemGpu ModelGpu LemGpuHost ModelGpuOps ModelGpuBH
  SpecGpuBH LemGpuBHStep LemGpuBHRun PropTree.
From Verif Require Import SpecPhys.
Import ListNotations.

(** Over the reals, sequences of evaluations on the devices (building the tree, refreshing it,
    walking it, exchanging the parts) give what the engine with the tree of pointers gives on the
    CPU, for every Barnes-Hut engine, every schedule and every split. *)
Theorem C71_equals_cpu : forall (mind : R) (e : bh_engine) (d k block q rate : nat) (mass : list R) (ratio : R)
  (calls : list (gcall (T := R))) (s : bh_state),
  let D := 2 ^ d in let n := 2 ^ k in
  6 <= k <= 30 -> 0 < block -> n = D * (block * q) ->
  length mass = n -> (forall i, i < n -> nth i mass 0%R <> 0%R) ->
  Forall (good_gcall D n) calls -> new_engine D n s ->
  exists outs, run_tree (Rops mind) ratio ett_cycle rate n mass (map (@cpu_call R) calls) None = Some outs /\
    gpu_bh_run (Rops mind) e D n block mass ratio rate calls outs s.
Proof.
  intros mind e d k block q rate mass ratio calls s D n [Hk Hk30] Hb Hq Lm Hm HF HN.
  destruct (@bh_run_ok mind e d k block q rate mass ratio Hk Hk30 Hb Hq Lm Hm calls None [] HF eq_refl)
    as (outs & E & H). exists outs. split; [exact E|]. apply H. apply new_inv. exact HN.
Qed.
Print Assumptions C71_equals_cpu.

(** With a large ratio the first evaluation leaves Newton's law in the buffers of every device. *)
Theorem C71_direct_sum : forall (mind : R) (e : bh_engine) (d k block q rate : nat) (mass : list R) (ratio dmin dmax : R)
  (c : gcall (T := R)) (s : bh_state),
  let D := 2 ^ d in let n := 2 ^ k in
  6 <= k <= 30 -> 0 < block -> n = D * (block * q) ->
  length mass = n -> good_gcall D n c -> new_engine D n s ->
  (0 < mind)%R -> (forall i, i < n -> (0 < nth i mass 0)%R) ->
  (1 <= ratio)%R -> (0 < dmin)%R -> (0 <= dmax)%R -> (2 * dmax <= ratio * dmin)%R ->
  (forall a b, a < n -> b < n ->
     (sqd (pos (gc_y c) n a) (pos (gc_y c) n b) <= dmax * dmax)%R /\
     (pos (gc_y c) n a = pos (gc_y c) n b \/ (dmin * dmin <= sqd (pos (gc_y c) n a) (pos (gc_y c) n b))%R)) ->
  exists f, newton_rhs mind n mass (gc_y c) f /\
    gpu_bh_run (Rops mind) e D n block mass ratio rate [c] [f] s.
Proof.
  intros mind e d k block q rate mass ratio dmin dmax c s D n Hk Hb Hq Lm Hc HN Hmd Hp Hr Hd1 Hd2 Hrat Hsep.
  destruct (@C71_equals_cpu mind e d k block q rate mass ratio [c] s Hk Hb Hq Lm) as (outs & E & H).
  - intros i Hi. specialize (Hp i Hi). lra.
  - repeat constructor; apply Hc.
  - exact HN.
  - destruct Hc as (Hs & Ly & BY & BF & HY).
    assert (L0 : length (nth 0 (gc_fs c) []) = 6 * n).
    { apply (@buffers_nth R (gc_fs c) D (6 * n) 0 BF). apply pow2_ge1. }
    destruct (C24_direct_sum mind (gc_split c) n (gc_y c) mass (nth 0 (gc_fs c) []) ratio rate (gc_step c) dmin dmax)
      as (f & t & E1 & Rhs); auto.
    { apply pow2_ge1. } { apply Nat.pow_le_mono_r; lia. }
    exists f. split; [exact Rhs|]. cbn [map run_tree cpu_call bc_split bc_step bc_y bc_f] in E. fold n in E.
    rewrite E1 in E. cbn [obind fst snd] in E. injection E as <-. exact H.
Qed.
Print Assumptions C71_direct_sum.

(** ** An instance: 64 bodies on two devices in blocks of 16, three evaluations, the tree built
    every fifth step; each device has stale numbers outside its half, and [f] is not cleared *)
Definition ex_gy (x : nat) : list R := map (fun i => INR (i * x)) (seq 0 384).
Definition ex_gcall (step x : nat) : gcall (T := R) :=
  GCall step ex_split (ex_gy x)
    [firstn 192 (ex_gy x) ++ repeat 9%R 192; repeat 9%R 192 ++ skipn 192 (ex_gy x)] [repeat 5%R 384; repeat 6%R 384].
Definition ex_gmass : list R := map (fun i => INR (S i)) (seq 0 64).
Definition ex_gstate : bh_state (T := R) := BHState [] [repeat (repeat 3%R 128) 11; repeat (repeat 4%R 128) 11].
Lemma ex_gy_length x : length (ex_gy x) = 384.
Proof. unfold ex_gy. now rewrite map_length, seq_length. Qed.
Lemma ex_gcall_good step x : good_gcall 2 64 (ex_gcall step x).
Proof.
  pose proof (ex_gy_length x) as L.
  assert (L1 : length (firstn 192 (ex_gy x)) = 192) by (rewrite firstn_length, L; reflexivity).
  assert (L2 : length (skipn 192 (ex_gy x)) = 192) by (rewrite skipn_length, L; reflexivity).
  split; [apply ex_permuting|]. split; [exact L|]. cbn [gc_y gc_ys gc_fs ex_gcall]. split; [|split].
  - split; [reflexivity|]. apply Forall_cons; [|apply Forall_cons; [|apply Forall_nil]].
    + rewrite app_length, L1, repeat_length. reflexivity.
    + rewrite app_length, L2, repeat_length. reflexivity.
  - split; [reflexivity|]. repeat constructor.
  - intros i Hi. change (6 * 64 / 2) with 192. change (6 * 64) with 384 in Hi. destruct (le_lt_dec 192 i) as [H|H].
    + assert (i / 192 = 1) as -> by (symmetry; apply Nat.div_unique with (i - 192); lia).
      unfold mrd, rd. cbn [obind nth_error]. rewrite nth_error_app2 by (rewrite repeat_length; auto).
      rewrite repeat_length, nth_error_skipn. f_equal. lia.
    + rewrite Nat.div_small by auto. unfold mrd, rd. cbn [obind nth_error]. rewrite nth_error_app1 by lia.
      rewrite <- (firstn_skipn 192 (ex_gy x)) at 2. rewrite nth_error_app1 by lia. reflexivity.
Qed.
Lemma run_tree_length T (U : NumOps T) ratio tt rate n mass calls : forall s outs,
  run_tree U ratio tt rate n mass calls s = Some outs -> length outs = length calls.
Proof.
  induction calls as [|c calls IH]; intros s outs; cbn [run_tree].
  - intros E. injection E as <-. reflexivity.
  - destruct (bh_tree_fcompute U _ _ _ _ _ _ _ _ _ _) as [[f t]|]; [|discriminate]. cbn [obind fst snd].
    destruct (run_tree U ratio tt rate n mass calls t) as [fs|] eqn:E; [|discriminate]. cbn [obind].
    intros X. injection X as <-. cbn [length]. f_equal. eapply IH. exact E.
Qed.
Example C71_example : forall e, exists outs,
  run_tree (Rops 1) 10%R ett_cycle 5 64 ex_gmass (map (@cpu_call R) [ex_gcall 0 1; ex_gcall 1 2; ex_gcall 5 3]) None = Some outs /\
  length outs = 3 /\
  gpu_bh_run (Rops 1) e 2 64 16 ex_gmass 10%R 5 [ex_gcall 0 1; ex_gcall 1 2; ex_gcall 5 3] outs ex_gstate.
Proof.
  intros e.
  destruct (@C71_equals_cpu 1%R e 1 6 16 2 5 ex_gmass 10%R [ex_gcall 0 1; ex_gcall 1 2; ex_gcall 5 3] ex_gstate)
    as (outs & E & H); [lia|lia|reflexivity|reflexivity| | | |].
  - intros i Hi. unfold ex_gmass. change (2 ^ 6) with 64 in Hi.
    rewrite (nth_indep _ 0%R (INR (S 64))) by (rewrite map_length, seq_length; auto).
    rewrite (map_nth (fun i => INR (S i))). apply not_0_INR. discriminate.
  - repeat constructor; apply ex_gcall_good.
  - split; [reflexivity|]. split; [reflexivity|]. repeat constructor.
  - exists outs. split; [exact E|]. split; [|exact H].
    exact (run_tree_length _ _ _ _ _ _ _ _ _ _ E).
Qed.

(** ** What fails *)
(** 192 bodies fill three blocks of 64, as the dense kernels want them, but no first evaluation
    comes to an end: the build of the heap leaves its bounds (C20). *)
Theorem C71_size_refuted : exists n block q : nat, 0 < block /\ n = block * q /\
  forall T (U : NumOps T) (e : bh_engine) (rate : nat) (mass : list T) (ratio : T) (c : gcall (T := T)) (s : bh_state),
    length mass = n -> good_gcall 1 n c -> new_engine 1 n s ->
    forall outs, ~ gpu_bh_run U e 1 n block mass ratio rate [c] outs s.
Proof.
  exists 192, 64, 3. split; [lia|]. split; [reflexivity|].
  intros T U e rate mass ratio c s Lm (Hs & Ly & BY & BF & HY) (Eh & _) outs H.
  destruct outs as [|out outs]; [exact H|]. cbn [gpu_bh_run] in H. unfold bh_fcompute, run_sync_y in H.
  rewrite Eh in H. unfold build_now in H. cbn [length Nat.eqb Nat.ltb Nat.leb] in H. rewrite orb_true_r in H. cbn [orb] in H.
  destruct (gc_y c) as [|x y] eqn:Ey; [discriminate Ly|].
  destruct (H (repeat x (6 * 192))) as (y' & h & E1 & E2 & _); [apply repeat_length|].
  destruct (@read_ok T (gc_ys c) 1 (6 * 192) (repeat x (6 * 192)) ltac:(lia) BY) as (y2 & E3 & L3 & _);
    [now rewrite repeat_length|].
  rewrite E1 in E3. injection E3 as <-. rewrite repeat_length in L3.
  rewrite Eh in E2.
  destruct (proj1 (C20_heap_bounds_iff T U (gc_split c) 192 y' mass ratio Hs ltac:(lia) ltac:(lia)) (ex_intro _ h E2))
    as (k & Hk).
  destruct (le_lt_dec k 7) as [H7|H7].
  - do 8 (destruct k as [|k]; [discriminate Hk|]). lia.
  - pose proof (Nat.pow_le_mono_r 2 8 k ltac:(lia) ltac:(lia)) as P. rewrite <- Hk in P.
    apply Nat.leb_le in P. discriminate P.
Qed.
Print Assumptions C71_size_refuted.

(** The equality is one of exact arithmetic.  In binary64 the kernels sum accelerations where the
    CPU sums forces and divides by the mass at the end: 64 bodies of mass 3 show the difference. *)
Definition ex_Fgy : list SpecFloat.spec_float :=
  map (fun i => F_of_Z (Z.of_nat (i * i))) (seq 0 64) ++ repeat (F_of_Z 0) 320.
Definition ex_Fgcall : gcall := GCall 0 ex_split ex_Fgy [ex_Fgy] [repeat (F_of_Z 0) 384].
Definition ex_Fgmass : list SpecFloat.spec_float := repeat (F_of_Z 3) 64.
Definition ex_Ftree : mem SpecFloat.spec_float := repeat (repeat (F_of_Z 0) 128) 11.
Definition ex_Fengine : bh_engine := BOpenCL true true false false.
Definition ex_Fheap : heap :=
  match heap_build Fops ex_split 64 ex_Fgy ex_Fgmass (F_of_Z 0) [] with Some h => h | None => [] end.
Definition ex_Fround : list (prog SpecFloat.spec_float) :=
  match force_round Fops ex_Fengine 1 64 64 (map (@c_body _) ex_Fheap) 0 with Some r => r | None => [] end.
Definition ex_Fcell : option SpecFloat.spec_float :=
  let* m := run_rounds [ex_Fround] (bh_memory ex_Fgy (repeat (F_of_Z 0) 384) (upload ex_Fengine ex_Fheap ex_Ftree)) in
  mrd m 1 195.
Definition ex_Fcpu : option SpecFloat.spec_float :=
  let* fs := run_tree Fops (F_of_Z 0) ett_cycle 1 64 ex_Fgmass [cpu_call ex_Fgcall] None in mrd fs 0 195.

Theorem C71_rounding_refuted : exists (e : bh_engine) (d k block q rate : nat) (mass : list SpecFloat.spec_float)
  (ratio : SpecFloat.spec_float) (calls : list gcall) (s : bh_state),
  let D := 2 ^ d in let n := 2 ^ k in
  6 <= k <= 30 /\ 0 < block /\ n = D * (block * q) /\ length mass = n /\
  Forall (good_gcall D n) calls /\ new_engine D n s /\
  forall outs, run_tree Fops ratio ett_cycle rate n mass (map (@cpu_call _) calls) None = Some outs ->
    ~ gpu_bh_run Fops e D n block mass ratio rate calls outs s.
Proof.
  exists ex_Fengine, 0, 6, 64, 1, 1, ex_Fgmass, (F_of_Z 0), [ex_Fgcall], (BHState [] [ex_Ftree]).
  cbv zeta. change (2 ^ 6) with 64. change (2 ^ 0) with 1.
  split; [lia|]. split; [lia|]. split; [reflexivity|]. split; [reflexivity|].
  assert (BY : buffers [ex_Fgy] 1 (6 * 64)) by (split; [reflexivity|repeat constructor]).
  split.
  { apply Forall_cons; [|apply Forall_nil]. split; [apply ex_permuting|]. split; [reflexivity|]. split; [exact BY|].
    split; [split; [reflexivity|repeat constructor]|]. intros i Hi. change (6 * 64 / 1) with 384.
    change (6 * 64) with 384 in Hi. rewrite Nat.div_small by auto. reflexivity. }
  split; [split; [reflexivity|split; [reflexivity|repeat constructor]]|].
  intros outs E H.
  assert (X : ex_Fcell <> ex_Fcpu) by (vm_compute; discriminate).
  apply X. unfold ex_Fcpu. cbn [map] in E. rewrite E. cbn [obind]. clear X.
  destruct outs as [|out outs]; [exact (False_ind _ H)|]. destruct outs as [|]; [|exfalso].
  2:{ apply run_tree_length in E. discriminate E. }
  clear E. cbn [gpu_bh_run gc_split gc_step gc_y gc_ys gc_fs ex_Fgcall] in H.
  unfold bh_fcompute, run_sync_y in H. cbn [s_heap length Nat.eqb Nat.ltb Nat.leb] in H.
  change (build_now 1 0 true) with true in H. cbv iota in H.
  destruct (H (repeat (F_of_Z 0) 384) eq_refl) as (y & h & E1 & E2 & H1). clear H.
  assert (Ey : y = ex_Fgy).
  { change (gpu_read_buffer [ex_Fgy] (repeat (F_of_Z 0) 384) = Some y) in E1.
    assert (gpu_read_buffer [ex_Fgy] (repeat (F_of_Z 0) 384) = Some ex_Fgy) as E3 by (vm_compute; reflexivity).
    rewrite E3 in E1. now injection E1 as <-. }
  subst y. cbn [s_heap s_trees map] in E2, H1.
  assert (Eh : h = ex_Fheap) by (unfold ex_Fheap; now rewrite E2). subst h. clear E1 E2.
  unfold run_clear in H1. cbn [is_cycle ex_Fengine] in H1. destruct H1 as (l & Ll & El & H1). specialize (El 0 Nat.lt_0_1).
  destruct l as [|r [|]]; [discriminate Ll| |discriminate Ll]. cbn [nth_error] in El.
  assert (Er : r = ex_Fround) by (unfold ex_Fround; cbn [s_heap] in El; now rewrite El). subst r. clear El Ll.
  cbn [seq map nth every_device s_heap s_trees] in H1.
  apply every_round_runs in H1. destruct H1 as (m & Em & H1).
  unfold run_join, run_sync_f in H1. cbn [is_cycle ex_Fengine Nat.ltb Nat.leb every_device map] in H1.
  destruct H1 as (_ & H1 & _). unfold ex_Fcell.
  rewrite Em. cbn [obind].
  cbn [repeat] in H1. injection H1 as H1. unfold mrd, rd. cbn [obind nth_error].
  rewrite <- H1. destruct m as [|y [|f m]]; reflexivity.
Qed.
Print Assumptions C71_rounding_refuted.
