(** C74: the parallel loops of the block, Ahmad-Cohen and Barnes-Hut engines *)
From Coq Require Import List ZArith Arith NArith Lia Permutation.
From Verif Require Import Num Arr ModelVertex ModelForce ModelEngine ModelParallel ModelBlock ModelAH ModelTree ModelHeap
  ModelBH ModelArgs ModelObject ModelOmpForce SpecTree SpecPar SpecOmp SpecSafe LemParallel LemOmpForce LemOmpObject.
Import ListNotations.

(** Any engine a command line can make, any sequence of calls of [fcompute] from its construction on: every
    schedule of the parallel loop of every call is finite, has no data race and no access out of bounds, and
    leaves exactly what the loop run in order leaves -- the same result buffer, the same neighbour lists --
    in every arithmetic, so the order in which the threads run never shows in the result. *)
Theorem C74_every_call : forall T (U : NumOps T) n mass split o step t y f calls,
  1 <= n -> (N.of_nat n < 2 ^ 31)%N -> length mass = n -> (forall step t y, permuting (split step t y)) ->
  engine_fits n step o ->
  (forall s' t' y' f', In (s', t', y', f') ((step, t, y, f) :: calls) -> length y' = 6 * n /\ length f' = 6 * n) ->
  every_call U n mass split o (object_start o) ((step, t, y, f) :: calls).
Proof.
  intros T U n mass split o step t y f calls H1 H2 H3 H4 HF HL. apply calls_ok; auto.
  - destruct o as [| | | |? [|] ?| |]; cbn [nested_tree engine_fits] in *; auto.
  - intros rate d m ->. destruct HF as [HF _]. exact HF.
  - intros ->. exact HF.
  - right. split; auto. intros c l [= <- _]. exact HF.
Qed.
Print Assumptions C74_every_call.

(** The loops one by one, on any arrays: if the loop run in order is defined, every schedule leaves its
    result. *)
Theorem C74_block : forall T (U : NumOps T) block n mass y f f',
  0 < block -> n mod block = 0 -> blocked_fcompute U block n mass y f = Some f' ->
  every_schedule (omp_block_loop U block n) [f; y; mass] (fun m => m = [f'; y; mass]).
Proof. intros T U block n mass y f f' H1 H2 E. exact (@block_loop_ok T U y mass block H1 n f f' H2 E). Qed.
Print Assumptions C74_block.

Theorem C74_ah_full : forall T (U : NumOps T) max_dist min_force n mass y f s f' s',
  ah_full U max_dist min_force n mass y f s = Some (f', s') ->
  every_schedule (omp_ah_full_loop U max_dist min_force n)
    (ah_mem f y mass (mkAH (repeat (vzero U) n) (repeat [] n))) (fun m => m = ah_mem f' y mass s').
Proof. intros T U d m n mass y f s f' s' E. eapply full_loop_ok; eauto. Qed.
Print Assumptions C74_ah_full.

Theorem C74_ah_sparse : forall T (U : NumOps T) n mass y f s f',
  ah_sparse U n mass y f s = Some f' ->
  every_schedule (omp_ah_sparse_loop U n) (ah_mem f y mass s) (fun m => m = ah_mem f' y mass s).
Proof. intros T U n mass y f s f' E. eapply sparse_loop_ok; eauto. Qed.
Print Assumptions C74_ah_sparse.

Theorem C74_bh_bodies : forall T (U : NumOps T) traverse n mass y f f',
  bh_cycle U traverse n mass y f = Some f' ->
  every_schedule (omp_bh_loop U traverse n) [f; y; mass] (fun m => m = [f'; y; mass]).
Proof. intros T U tr n mass y f f' E. exact (@bh_loop_ok T U y mass tr n f f' E). Qed.
Print Assumptions C74_bh_bodies.

Theorem C74_heap_leaves : forall T (U : NumOps T) traverse h n mass y f f',
  length mass = n -> NoDup (leaf_bodies h) ->
  heap_visit (node_visitor U traverse n mass y) h f = Some f' ->
  every_schedule (omp_visit_loop U traverse h n) [f; y; mass] (fun m => m = [f'; y; mass]).
Proof. intros T U tr h n mass y f f' Hm HN E. exact (@visit_loop_ok T U y mass tr h n f f' Hm HN E). Qed.
Print Assumptions C74_heap_leaves.

(** The last hypothesis but one is needed: with one body in two leaves two iterations write the same cell
    at the same time. *)
Example C74_needs_distinct :
  let p := (Pay (V3 0 0 0) 1 0 (V3 0 0 0) (V3 0 0 0))%Z in
  let h := [Cell p None; Cell p None; Cell p (Some 0); Cell p (Some 0)]%nat in
  let m := [repeat 0%Z 6; [1; 2; 3; 4; 5; 6]; [1]]%Z in
  heap_visit (node_visitor Zops (fun _ _ => Some (V3 0 0 0)%Z) 1 [1]%Z [1; 2; 3; 4; 5; 6]%Z) h (repeat 0%Z 6) =
    Some [4; 5; 6; 0; 0; 0]%Z /\
  ~ every_schedule (omp_visit_loop Zops (fun _ _ => Some (V3 0 0 0)%Z) h 1) m (fun _ => True).
Proof.
  cbv zeta. split; [vm_compute; reflexivity|]. intros [_ H].
  match type of H with forall ps m, par_run (?l, ?m0) _ -> _ => set (ps0 := l) in H end.
  vm_compute in ps0. subst ps0.
  match type of H with forall ps m, par_run ([PRd _ _ ?k; _], ?m0) _ -> _ =>
    pose (k1 := k); pose (mm := m0) end.
  assert (R : exists p q, par_run ([PRd 2 0 k1; PRd 2 0 k1], mm) ([PWr 0 0 4%Z p; PWr 0 0 4%Z q], mm)).
  { do 2 eexists.
    eapply par_trans; [eapply (par_one []); eapply act_rd; vm_compute; reflexivity|].
    eapply par_trans; [eapply (par_one []); eapply act_rd; vm_compute; reflexivity|].
    eapply par_trans; [eapply (par_one [_]); eapply act_rd; vm_compute; reflexivity|].
    eapply par_trans; [eapply (par_one [_]); eapply act_rd; vm_compute; reflexivity|].
    cbn [app]. vm_compute. apply par_refl. }
  destruct R as (p & q & R). destruct (H _ _ R) as (_ & NR & _).
  eapply (NR 0 1 _ _ 0 0); try reflexivity; try lia; cbn; auto.
Qed.

(** hypotheses are met: the nested traversal of a heap of four bodies, a build and a rebuild *)
Example C74_example : forall t y1 y2 f1 f2,
  length y1 = 24 -> length y2 = 24 -> length f1 = 24 -> length f2 = 24 ->
  every_call Zops 4 [1; 2; 3; 4]%Z (fun _ _ _ _ _ l => rev l) (EBhHeap 10%Z ett_nested_tree 2) (QHeap [])
    [(0, t, y1, f1); (1, t, y2, f2)].
Proof.
  intros t y1 y2 f1 f2 H1 H2 H3 H4.
  apply (C74_every_call Z Zops 4 [1; 2; 3; 4]%Z (fun _ _ _ _ _ l => rev l) (EBhHeap 10%Z ett_nested_tree 2)); auto; try lia.
  - intros s t' z i d l. symmetry. apply Permutation_rev.
  - exists 2. reflexivity.
  - intros s t' y' f' [Q|[Q|[]]]; injection Q; intros; subst; auto.
Qed.
(** ... and an Ahmad-Cohen engine with a full and a sparse evaluation: a schedule of 2 iterations *)
Example C74_example_ah :
  let y := [0; 1; 0; 0; 0; 0; 7; 8; 9; 0; 0; 0]%Z in
  exists f s g, ah_full Zops 2%Z 100%Z 2 [3; 5]%Z y (repeat 0%Z 12) ah_init = Some (f, s) /\
    ah_adjacent s = [[1]; [0]]%nat /\ ah_sparse Zops 2 [3; 5]%Z y (repeat 0%Z 12) s = Some g /\ f = g.
Proof. do 3 eexists. repeat split; vm_compute; reflexivity. Qed.
