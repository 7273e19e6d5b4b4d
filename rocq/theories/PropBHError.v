(** How accurate the Barnes-Hut engines are: C84. *)
From Coq Require Import ZArith NArith Reals List Arith Lia Lra Permutation.
From Verif Require LemNewtonLip LemImplicit LemConv.
From Verif Require Import Num Arr ArrLemmas SpecPhys RLemmas ModelVertex ModelForce ModelEngine
  ModelTree ModelHeap ModelBH SpecTree SpecHeap SpecBHError LemEngine LemPhys LemTree LemHeap LemHeap2 LemNext LemBH
  LemTreeR LemTreeProp LemBHError ModelGpuBH SpecGpuBH LemGpuBHRun PropTree PropGpuBH.
Import ListNotations.
Local Open Scope R_scope.

Lemma Forall2_imp A B (P Q : A -> B -> Prop) : (forall a b, P a b -> Q a b) -> forall l m, Forall2 P l m -> Forall2 Q l m.
Proof. intros H l m F. induction F; constructor; auto. Qed.

Lemma comp_nth f n k i x : nth_error f (k * n + i) = Some x -> comp f n k i = x.
Proof. intros H. unfold comp. now apply nth_error_nth. Qed.

(** from clusters to the derivative of an evaluation *)
Lemma cells_near mind n y mass ratio K t f f' : 0 < mind -> (6 * n <= length y)%nat -> (n <= length mass)%nat ->
  (forall i, (i < n)%nat -> 0 < nth i mass 0) -> 0 <= K ->
  wf mind n y mass ratio t -> Permutation (bodies t) (seq 0 n) ->
  (forall i c, (i < n)%nat -> axis c -> Rabs (psum (group mind (pos y n i) c) (accepted (bh_accept (Rops mind) (pos y n i)) t) -
     lsum (bodies t) (term mind n y mass (pos y n i) c)) <= K * lsum (bodies t) (wgt mind n y mass (pos y n i))) ->
  deriv_cells n (cv (Rops mind) y n 3)
    (fun i => vdivs (Rops mind) (bh_force (Rops mind) t (cv (Rops mind) y n 0 i) (nth i mass (nlit (Rops mind) 0))) (nth i mass (nlit (Rops mind) 0))) f f' ->
  near_newton K mind n mass y f'.
Proof.
  intros Hmd Hy Hm Hpos HK W P HB (_ & HC & _) i k Hi Hk. destruct (HC i Hi) as [(V1 & V2 & V3') (A1 & A2 & A3)].
  pose proof (Hpos i Hi) as Pi. change (nlit (Rops mind) 0) with 0 in *. rewrite (cv_comp mind n y 0 i) in A1, A2, A3.
  change (V3 (comp y n 0 i) (comp y n (0 + 1) i) (comp y n (0 + 2) i)) with (pos y n i) in A1, A2, A3.
  set (B := bh_force (Rops mind) t (pos y n i) (nth i mass 0)) in *.
  assert (G : forall c kk, axis c -> (forall b, c (pos y n b) = comp y n kk b) ->
    Rabs (c B / nth i mass 0 - newton_acc mind n (fun j => nth j mass 0) (comp y n 0) (comp y n 1) (comp y n 2) (comp y n kk) i) <= K * pull_size mind n mass y i).
  { intros c kk Hc Hk'. unfold B, bh_force. rewrite walk_accepted, fold_group by auto.
    assert (Z : c (vzero (Rops mind)) = 0) by (destruct Hc as [->|[->| ->]]; reflexivity).
    rewrite Z. set (S1 := psum (group mind (pos y n i) c) (accepted (bh_accept (Rops mind) (pos y n i)) t)).
    assert (E1 : newton_acc mind n (fun j => nth j mass 0) (comp y n 0) (comp y n 1) (comp y n 2) (comp y n kk) i = - lsum (bodies t) (term mind n y mass (pos y n i) c)).
    { rewrite (lsum_perm _ (seq 0 n)) by auto. rewrite lsum_seq. unfold newton_acc. f_equal. apply rsum_ext. intros b Hb. cbn beta.
      unfold term. rewrite axis_dif, !Hk' by auto. destruct (Nat.eqb_spec i b) as [->|Hne].
      - rewrite Rminus_diag_eq by auto. unfold Rdiv. ring.
      - change (nrm (dif (pos y n i) (pos y n b))) with (dist2 (comp y n 0) (comp y n 1) (comp y n 2) i b). unfold Rdiv. ring. }
    assert (E2 : lsum (bodies t) (wgt mind n y mass (pos y n i)) <= pull_size mind n mass y i).
    { rewrite (lsum_perm _ (seq 0 n)) by auto. rewrite lsum_seq. unfold pull_size. apply LemNewtonLip.rsum_le'. intros b Hb. cbn beta. unfold wgt.
      destruct (Nat.eqb_spec i b) as [->|Hne].
      - destruct (elsewhere n y (pos y n b) b) eqn:Ee; [|lra]. assert (elsewhere n y (pos y n b) b = false) by now apply elsewhere_false. congruence.
      - change (dist2 (comp y n 0) (comp y n 1) (comp y n 2) i b) with (nrm (dif (pos y n i) (pos y n b))). destruct elsewhere; [lra|].
        left. apply Rmult_lt_0_compat; [now apply Hpos|]. apply Rinv_0_lt_compat. apply Rlt_le_trans with mind; auto. apply Rmax_l. }
    rewrite E1. replace ((0 - nth i mass 0 * S1) / nth i mass 0 - - lsum (bodies t) (term mind n y mass (pos y n i) c)) with
      (- (S1 - lsum (bodies t) (term mind n y mass (pos y n i) c))) by (field; lra).
    rewrite Rabs_Ropp. eapply Rle_trans; [now apply HB|]. apply Rmult_le_compat_l; auto. }
  unfold vdivs in A1, A2, A3. cbn [vx vy vz ndiv Rops] in A1, A2, A3.
  do 3 (destruct k as [|k]; [split; [first [exact (comp_nth _ _ _ _ _ V1)|exact (comp_nth _ _ _ _ _ V2)|exact (comp_nth _ _ _ _ _ V3')]|
    first [rewrite (comp_nth _ _ _ _ _ A1 : comp f' n (0 + 3) i = _); apply (G (@vx R)); [now left|reflexivity]
          |rewrite (comp_nth _ _ _ _ _ A2 : comp f' n (1 + 3) i = _); apply (G (@vy R)); [right; now left|reflexivity]
          |rewrite (comp_nth _ _ _ _ _ A3 : comp f' n (2 + 3) i = _); apply (G (@vz R)); [right; now right|reflexivity]]]|]).
  lia.
Qed.

Lemma first_run mind ratio rate n mass : forall calls tree0,
  0 < mind -> (1 <= n)%nat -> (n <= 2 ^ 63)%nat -> (n <= length mass)%nat -> (forall i, (i < n)%nat -> 0 < nth i mass 0) -> 1 <= ratio ->
  0 <= bh_err1 (/ ratio) -> Forall (good_call n) calls ->
  tree_state (Rops mind) n mass tree0 ->
  exists fs, run_tree (Rops mind) ratio ett_cycle rate n mass calls tree0 = Some fs /\
    Forall2 (fun c f => near_newton (bh_err1 (/ ratio)) mind n mass (bc_y c) f) calls fs.
Proof.
  induction calls as [|c calls IH]; intros tree0 Hmd H1 H2 Hm Hpos Hr HK HF HS.
  - exists []. split; [reflexivity|constructor].
  - inversion HF as [|? ? (Hs & Hy & Hf) HF']; subst.
    destruct (@tree_fcompute_any R (Rops mind) (bc_split c) ratio rate (bc_step c) n mass (bc_y c) (bc_f c) tree0
      Hs H1 H2 Hy Hm Hf HS) as (t & f' & Et & St & W & C & Ec & _).
    destruct (IH (Some t) Hmd H1 H2 Hm Hpos Hr HK HF' St) as (fs & E1 & E2).
    exists (f' :: fs). cbn [run_tree]. rewrite Ec. cbn [obind fst snd]. rewrite E1. split; [reflexivity|].
    constructor; [|exact E2]. clear IH H1 H2.
    assert (HW : wf mind n (bc_y c) mass ratio t) by (split; [exact W|]; intros b; apply perm_lt; apply St).
    apply (@cells_near mind n (bc_y c) mass ratio (bh_err1 (/ ratio)) t (bc_f c) f'); auto; [apply St|].
    intros i a Hi Ha. eapply walk_bound; eauto. intros s Ws As. apply (@cluster1 mind n (bc_y c) mass ratio); auto.
Qed.

Lemma second_run mind ratio rate n mass : forall calls tree0,
  0 < mind -> (1 <= n)%nat -> (n <= 2 ^ 63)%nat -> (n <= length mass)%nat -> (forall i, (i < n)%nat -> 0 < nth i mass 0) -> 1 < ratio ->
  0 <= bh_err2 (/ ratio) -> Forall (fun c => good_call n c /\ forall i j, (i < n)%nat -> (j < n)%nat -> i <> j ->
    (1 + / ratio) * (1 + / ratio) * mind <= dist2 (comp (bc_y c) n 0) (comp (bc_y c) n 1) (comp (bc_y c) n 2) i j) calls ->
  tree_state (Rops mind) n mass tree0 ->
  exists fs, run_tree (Rops mind) ratio ett_cycle rate n mass calls tree0 = Some fs /\
    Forall2 (fun c f => near_newton (bh_err2 (/ ratio)) mind n mass (bc_y c) f) calls fs.
Proof.
  induction calls as [|c calls IH]; intros tree0 Hmd H1 H2 Hm Hpos Hr HK HF HS.
  - exists []. split; [reflexivity|constructor].
  - inversion HF as [|? ? ((Hs & Hy & Hf) & Hfar) HF']; subst.
    destruct (@tree_fcompute_any R (Rops mind) (bc_split c) ratio rate (bc_step c) n mass (bc_y c) (bc_f c) tree0
      Hs H1 H2 Hy Hm Hf HS) as (t & f' & Et & St & W & C & Ec & _).
    destruct (IH (Some t) Hmd H1 H2 Hm Hpos Hr HK HF' St) as (fs & E1 & E2).
    exists (f' :: fs). cbn [run_tree]. rewrite Ec. cbn [obind fst snd]. rewrite E1. split; [reflexivity|].
    constructor; [|exact E2]. clear IH H1 H2.
    assert (HW : wf mind n (bc_y c) mass ratio t) by (split; [exact W|]; intros b; apply perm_lt; apply St).
    apply (@cells_near mind n (bc_y c) mass ratio (bh_err2 (/ ratio)) t (bc_f c) f'); auto; [apply St|].
    intros i a Hi Ha. eapply walk_bound; eauto; try lra. intros s Ws As. apply (@cluster2 mind n (bc_y c) mass ratio); auto; try lra.
    intros b Hb Ee. apply (Hfar i b Hi Hb). intros <-.
    assert (elsewhere n (bc_y c) (pos (bc_y c) n i) i = false) by (apply elsewhere_false; reflexivity). congruence.
Qed.

(** ** C84 *)

(** The error of every evaluation of the pointer-tree engine, the tree kept or rebuilt between the evaluations as the rate says:
    at the opening ratio r >= 1 at most 4/r + 5/r^2 + 2/r^3 times the sizes of the attractions. *)
Theorem C84_first_order : forall mind ratio rate n mass calls,
  0 < mind -> (1 <= n)%nat -> (n <= 2 ^ 63)%nat -> (n <= length mass)%nat -> (forall i, (i < n)%nat -> 0 < nth i mass 0) -> 1 <= ratio ->
  Forall (good_call n) calls ->
  exists fs, run_tree (Rops mind) ratio ett_cycle rate n mass calls None = Some fs /\
    Forall2 (fun c f => near_newton (bh_err1 (/ ratio)) mind n mass (bc_y c) f) calls fs.
Proof.
  intros mind ratio rate n mass calls Hmd H1 H2 Hm Hpos Hr HF.
  assert (Px : 0 < / ratio) by (apply Rinv_0_lt_compat; lra).
  apply first_run; try assumption; [|exact I].
  unfold bh_err1. apply Rmult_le_pos; [lra|]. assert (0 <= / ratio * / ratio) by (apply Rmult_le_pos; lra). lra.
Qed.
Print Assumptions C84_first_order.

(** When all pairs are farther apart than 1 + 1/r softening lengths the error is of second order in 1/r. *)
Theorem C84_second_order : forall mind ratio rate n mass calls,
  0 < mind -> (1 <= n)%nat -> (n <= 2 ^ 63)%nat -> (n <= length mass)%nat -> (forall i, (i < n)%nat -> 0 < nth i mass 0) -> 1 < ratio ->
  Forall (fun c => good_call n c /\ forall i j, (i < n)%nat -> (j < n)%nat -> i <> j ->
    (1 + / ratio) * (1 + / ratio) * mind <= dist2 (comp (bc_y c) n 0) (comp (bc_y c) n 1) (comp (bc_y c) n 2) i j) calls ->
  exists fs, run_tree (Rops mind) ratio ett_cycle rate n mass calls None = Some fs /\
    Forall2 (fun c f => near_newton (bh_err2 (/ ratio)) mind n mass (bc_y c) f) calls fs.
Proof.
  intros mind ratio rate n mass calls Hmd H1 H2 Hm Hpos Hr HF.
  assert (Px : 0 < / ratio) by (apply Rinv_0_lt_compat; lra).
  assert (Px1 : / ratio < 1) by (rewrite <- Rinv_1; apply Rinv_lt_contravar; lra).
  apply second_run; try assumption; [|exact I]. apply bh_err2_pos; assumption.
Qed.
Print Assumptions C84_second_order.

(** The same for the nested loops of the tree engine, when no two bodies coincide. *)
Theorem C84_nested : forall mind ratio rate n mass calls,
  0 < mind -> (1 <= n)%nat -> (n <= 2 ^ 63)%nat -> (n <= length mass)%nat -> (forall i, (i < n)%nat -> 0 < nth i mass 0) -> 1 <= ratio ->
  Forall (fun c => good_call n c /\
    forall a b, (a < n)%nat -> (b < n)%nat -> a <> b -> pos (bc_y c) n a <> pos (bc_y c) n b) calls ->
  exists fs, run_tree (Rops mind) ratio ett_nested_tree rate n mass calls None = Some fs /\
    Forall2 (fun c f => near_newton (bh_err1 (/ ratio)) mind n mass (bc_y c) f) calls fs.
Proof.
  intros mind ratio rate n mass calls Hmd H1 H2 Hm Hpos Hr HF.
  assert (HG : Forall (good_call n) calls) by (eapply Forall_impl; [|exact HF]; intros c (Hc & _); exact Hc).
  assert (Hr0 : ratio <> 0) by lra.
  destruct (C84_first_order mind ratio rate n mass calls Hmd H1 H2 Hm Hpos Hr HG) as (fs & E & B).
  destruct (C26_tree_nested_run mind ratio rate n mass calls H1 H2 Hm Hpos Hr0 HF) as (fs' & E1 & E2).
  exists fs. split; [|exact B]. congruence.
Qed.
Print Assumptions C84_nested.

(** The same for the heap engine and for both builds of the stackless heap engine, whatever the shape of the loops, for 2^k bodies. *)
Theorem C84_heap : forall mind k ratio shape rate mass calls,
  0 < mind -> (k <= 63)%nat -> (2 ^ k <= length mass)%nat -> (forall i, (i < 2 ^ k)%nat -> 0 < nth i mass 0) -> 1 <= ratio ->
  Forall (good_call (2 ^ k)) calls ->
  exists fs, run_heap (Rops mind) (heap_traverse (Rops mind)) ratio shape rate (2 ^ k) mass calls [] = Some fs /\
    run_heap (Rops mind) (stackless_traverse (Rops mind) next_down) ratio shape rate (2 ^ k) mass calls [] = Some fs /\
    ((k <= 30)%nat -> run_heap (Rops mind) (stackless_traverse (Rops mind) next_down_gcc_nat) ratio shape rate (2 ^ k) mass calls [] = Some fs) /\
    Forall2 (fun c f => near_newton (bh_err1 (/ ratio)) mind (2 ^ k) mass (bc_y c) f) calls fs.
Proof.
  intros mind k ratio shape rate mass calls Hmd Hk Hm Hpos Hr HF.
  assert (H1 : (1 <= 2 ^ k)%nat) by (pose proof (Nat.pow_nonzero 2 k); lia).
  assert (H2 : (2 ^ k <= 2 ^ 63)%nat) by (apply Nat.pow_le_mono_r; [lia|exact Hk]).
  destruct (C84_first_order mind ratio rate (2 ^ k) mass calls Hmd H1 H2 Hm Hpos Hr HF) as (fs & E & B). clear H2.
  destruct (C19_heap_equals_tree R (Rops mind) k ratio shape rate mass calls Hk Hm HF) as (f1 & A1 & B1).
  destruct (C19_stackless_equals_tree R (Rops mind) k ratio shape rate mass calls Hk Hm HF) as (f2 & A2 & B2).
  exists fs. split; [congruence|]. split; [congruence|]. split; [|exact B].
  intros Hk30. destruct (C19_stackless_gcc_equals_tree R (Rops mind) k ratio shape rate mass calls Hk30 Hm HF) as (f3 & A3 & B3). congruence.
Qed.
Print Assumptions C84_heap.

(** The same for the GPU engines: what every device holds after the evaluations. *)
Theorem C84_gpu : forall (mind : R) (e : bh_engine) (d k block q rate : nat) (mass : list R) (ratio : R)
  (calls : list (gcall (T := R))) (s : bh_state),
  let D := (2 ^ d)%nat in let n := (2 ^ k)%nat in
  0 < mind -> (6 <= k <= 30)%nat -> (0 < block)%nat -> n = (D * (block * q))%nat ->
  length mass = n -> (forall i, (i < n)%nat -> 0 < nth i mass 0) -> 1 <= ratio ->
  Forall (good_gcall D n) calls -> new_engine D n s ->
  exists outs, gpu_bh_run (Rops mind) e D n block mass ratio rate calls outs s /\
    Forall2 (fun c f => near_newton (bh_err1 (/ ratio)) mind n mass (gc_y c) f) calls outs.
Proof.
  intros mind e d k block q rate mass ratio calls s D n Hmd Hk Hb Hq Lm Hpos Hr HF HN.
  assert (H1 : (1 <= n)%nat) by (unfold n; pose proof (Nat.pow_nonzero 2 k); lia).
  assert (H2 : (n <= 2 ^ 63)%nat) by (unfold n; apply Nat.pow_le_mono_r; [lia|destruct Hk; lia]).
  destruct (C71_equals_cpu mind e d k block q rate mass ratio calls s Hk Hb Hq Lm) as (outs & E & H); auto.
  { intros i Hi. specialize (Hpos i Hi). lra. }
  assert (HG : Forall (good_call n) (map (@cpu_call R) calls)).
  { apply Forall_forall. intros c Hc. apply in_map_iff in Hc. destruct Hc as (g & <- & Hg).
    eapply Forall_forall in HF; [|exact Hg]. destruct HF as (Hs & Ly & BY & BF & HY).
    split; [exact Hs|]. cbn [cpu_call bc_y bc_f]. split; [lia|].
    assert (L0 : length (nth 0 (gc_fs g) []) = (6 * n)%nat).
    { apply (@buffers_nth R (gc_fs g) D (6 * n) 0 BF). apply pow2_ge1. }
    lia. }
  destruct (C84_first_order mind ratio rate n mass (map (@cpu_call R) calls) Hmd H1 H2 ltac:(lia) Hpos Hr HG) as (fs & E' & B).
  exists outs. split; [exact H|]. assert (fs = outs) by (fold n in E; congruence). subst fs. clear - B.
  revert outs B. induction calls as [|c calls IH]; intros outs B; cbn [map] in B; inversion B; subst; constructor; auto.
Qed.
Print Assumptions C84_gpu.

(** What such errors do to the total force: Newton's third law holds up to them. *)
Theorem C84_net_force : forall e mind n mass y f,
  (forall i, (i < n)%nat -> 0 < nth i mass 0) -> near_newton e mind n mass y f ->
  forall k, (k < 3)%nat -> Rabs (rsum n (fun i => nth i mass 0 * comp f n (k + 3) i)) <= e * rsum n (fun i => nth i mass 0 * pull_size mind n mass y i).
Proof.
  intros e mind n mass y f Hpos HN k Hk.
  pose proof (newton_net_force mind n (fun j => nth j mass 0) (comp y n 0) (comp y n 1) (comp y n 2) (comp y n k)) as Z.
  rewrite <- (Rminus_0_r (rsum n _)).
  match type of Z with ?z = 0 => replace (rsum n (fun i => nth i mass 0 * comp f n (k + 3) i) - 0) with (rsum n (fun i => nth i mass 0 * comp f n (k + 3) i) - z) by (rewrite Z; reflexivity) end.
  rewrite <- rsum_minus.
  eapply Rle_trans; [apply LemImplicit.rsum_abs|]. rewrite <- rsum_scal. apply LemNewtonLip.rsum_le'.
  intros i Hi. cbn beta. destruct (HN i k Hi Hk) as (_ & B). rewrite <- Rmult_minus_distr_l, Rabs_mult, (Rabs_right (nth i mass 0)) by (apply Rle_ge; left; auto).
  replace (e * (nth i mass 0 * pull_size mind n mass y i)) with (nth i mass 0 * (e * pull_size mind n mass y i)) by ring.
  apply Rmult_le_compat_l; [left; auto|exact B].
Qed.
Print Assumptions C84_net_force.

(** The error goes to zero with growing ratio, uniformly in everything else. *)
Theorem C84_limit : forall eps, 0 < eps -> exists r0, forall mind ratio rate n mass calls,
  r0 <= ratio -> 0 < mind -> (1 <= n)%nat -> (n <= 2 ^ 63)%nat -> (n <= length mass)%nat -> (forall i, (i < n)%nat -> 0 < nth i mass 0) ->
  Forall (good_call n) calls ->
  exists fs, run_tree (Rops mind) ratio ett_cycle rate n mass calls None = Some fs /\
    Forall2 (fun c f => near_newton eps mind n mass (bc_y c) f) calls fs.
Proof.
  intros eps He. exists (Rmax 1 (11 / eps)). intros mind ratio rate n mass calls Hr Hmd H1 H2 Hm Hpos HF.
  pose proof (Rmax_l 1 (11 / eps)). pose proof (Rmax_r 1 (11 / eps)).
  destruct (C84_first_order mind ratio rate n mass calls Hmd H1 H2 Hm Hpos ltac:(lra) HF) as (fs & E & B). clear H1 H2 HF.
  exists fs. split; [exact E|].
  assert (X : bh_err1 (/ ratio) <= eps).
  { assert (P0 : 0 < / ratio) by (apply Rinv_0_lt_compat; lra).
    assert (P1 : / ratio <= 1) by (rewrite <- Rinv_1; apply Rinv_le_contravar; lra).
    assert (P2 : 11 * / ratio <= eps).
    { apply (Rmult_le_reg_r ratio); [lra|]. rewrite Rmult_assoc, Rinv_l, Rmult_1_r by lra.
      apply (Rmult_le_reg_r (/ eps)); [now apply Rinv_0_lt_compat|]. replace (eps * ratio * / eps) with ratio by (field; lra). unfold Rdiv in *. lra. }
    unfold bh_err1. set (x := / ratio) in *. assert (0 <= x * x <= x) by (split; [apply Rmult_le_pos; lra|]; rewrite <- (Rmult_1_r x) at 3; apply Rmult_le_compat_l; lra).
    assert (x * (x * x) <= x * x) by (rewrite <- (Rmult_1_l (x * x)) at 2; apply Rmult_le_compat_r; lra). nra. }
  revert B. apply Forall2_imp. intros c f HN i k Hi Hk. destruct (HN i k Hi Hk) as (V & A). split; [exact V|].
  eapply Rle_trans; [exact A|]. apply Rmult_le_compat_r; [|exact X]. unfold pull_size. apply LemConv.rsum_pos.
  intros j Hj. destruct (Nat.eqb i j); [lra|]. left. apply Rmult_lt_0_compat; [auto|]. apply Rinv_0_lt_compat. eapply Rlt_le_trans; [exact Hmd|apply Rmax_l].
Qed.
Print Assumptions C84_limit.

(** four bodies on a line, two evaluations, the tree kept for the second, the ratio 10 of the command line: errors of at most 45.2 percent, and
    as all pairs are far apart of at most 19 percent *)
Example C84_case : exists f1 f2,
  run_tree (Rops (1 / 2)) 10 ett_cycle 0 4 ex_m [BCall 0 ex_split ex_y (repeat 0 24); BCall 1 ex_split ex_y (repeat 0 24)] None = Some [f1; f2] /\
  near_newton (452 / 1000) (1 / 2) 4 ex_m ex_y f1 /\ near_newton (19 / 100) (1 / 2) 4 ex_m ex_y f2.
Proof.
  set (calls := [BCall 0 ex_split ex_y (repeat 0 24); BCall 1 ex_split ex_y (repeat 0 24)]).
  assert (H4 : (4 <= 2 ^ 63)%nat) by (change 4%nat with (2 ^ 2)%nat; apply Nat.pow_le_mono_r; lia).
  assert (HG : forall c, In c calls -> good_call 4 c).
  { intros c [<-|[<-|[]]]; (split; [exact ex_permuting|]; split; cbn; lia). }
  assert (HF : forall c, In c calls -> forall i j, (i < 4)%nat -> (j < 4)%nat -> i <> j ->
    (1 + / 10) * (1 + / 10) * (1 / 2) <= dist2 (comp (bc_y c) 4 0) (comp (bc_y c) 4 1) (comp (bc_y c) 4 2) i j).
  { intros c Hc i j Hi Hj Hij. assert (Ey : bc_y c = ex_y) by (destruct Hc as [<-|[<-|[]]]; reflexivity). rewrite Ey. unfold dist2, comp, ex_y.
    do 4 (destruct i as [|i]; [do 4 (destruct j as [|j]; [try (exfalso; lia); cbn; lra|]); exfalso; lia|]). exfalso; lia. }
  assert (H1 : (1 <= 4)%nat) by lia. assert (Hm : (4 <= length ex_m)%nat) by (cbn; lia).
  destruct (C84_first_order (1 / 2) 10 0 4 ex_m calls ltac:(lra) H1 H4 Hm ex_pos ltac:(lra)) as (fs & E & B); [now apply Forall_forall|].
  destruct (C84_second_order (1 / 2) 10 0 4 ex_m calls ltac:(lra) H1 H4 Hm ex_pos ltac:(lra)) as (fs' & E' & B');
    [apply Forall_forall; intros c Hc; split; [now apply HG|now apply HF]|].
  rewrite E in E'. injection E' as <-. clear H4. unfold calls in B, B'.
  inversion B as [|? f1 ? fs1 N1 B1]; subst. inversion B1 as [|? f2 ? fs2 N2 B2]; subst. inversion B2; subst.
  inversion B' as [|? ? ? ? _ C1]; subst. inversion C1 as [|? ? ? ? M2 _]; subst. cbn [bc_y] in *.
  assert (Pp : forall i, (i < 4)%nat -> 0 <= pull_size (1 / 2) 4 ex_m ex_y i).
  { intros i Hi. apply LemConv.rsum_pos. intros j Hj. destruct (Nat.eqb i j); [lra|]. left. apply Rmult_lt_0_compat; [now apply ex_pos|].
    apply Rinv_0_lt_compat. eapply Rlt_le_trans; [|apply Rmax_l]. lra. }
  exists f1, f2. split; [exact E|]. split.
  - intros i k Hi Hk. destruct (N1 i k Hi Hk) as (V & A). split; [exact V|]. eapply Rle_trans; [exact A|]. apply Rmult_le_compat_r; [now apply Pp|]. unfold bh_err1. lra.
  - intros i k Hi Hk. destruct (M2 i k Hi Hk) as (V & A). split; [exact V|]. eapply Rle_trans; [exact A|]. apply Rmult_le_compat_r; [now apply Pp|].
    unfold bh_err2. replace (1 - / 10) with (9 / 10) by lra. lra.
Qed.
