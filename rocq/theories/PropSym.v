(** Symmetries of whole simulations: C86. *)
From Coq Require Import ZArith Reals List Arith Lia Lra Permutation.
From Verif Require Import Num Arr ArrLemmas SpecPhys SpecEngine RLemmas ModelSolverBase ModelButcher ModelExtrap ModelForce
  ModelEngine ModelSolver SpecSolver SpecImplicit SpecConv SpecSym LemErase LemPhys LemNewtonLip LemSym LemSymLin LemSymMove PropForce PropGpuOps PropConv.
Import ListNotations.
Set Implicit Arguments.
Local Open Scope R_scope.

(** ** C86 *)

(** A simulation with the engine simple described with the bodies in another order, in other (rotated or mirrored) axes and with
    another origin of time is the same simulation: if a run of any solver, over any history of steps, completes, so does the run
    from the transformed state, and it ends in the transformed state.  Solvers that choose their step or level by the largest
    component of a vector ([adaptive]) are covered for the maps that take axes to axes; all the others for every orthogonal map.
    What the uninitialised buffers hold is transformed alike. *)
Theorem C86_symmetry : forall mind n mass sigma O c garbage garbage' dts s (e e' : @eng R unit) r,
  0 < mind -> (0 < n)%nat -> length mass = n -> (forall i, (i < n)%nat -> nth i mass 0 <> 0) ->
  rearranges n sigma -> orthogonal O -> (adaptive s -> axis_map O) ->
  (forall k, length (garbage k) = (6 * n)%nat /\ garbage' k = moved n sigma O (garbage k)) -> fresh s ->
  length (e_y e) = (6 * n)%nat -> e_y e' = moved n sigma O (e_y e) -> e_time e' = e_time e + c -> e_step e' = e_step e -> e_nbuf e' = e_nbuf e ->
  advise_all (Rops mind) (6 * n) (simple_ef (Rops mind) n mass) garbage dts s e = Some r ->
  exists r', advise_all (Rops mind) (6 * n) (simple_ef (Rops mind) n (remassed n sigma mass)) garbage' dts s e' = Some r' /\
    e_y (snd r') = moved n sigma O (e_y (snd r)) /\ e_time (snd r') = e_time (snd r) + c /\
    e_step (snd r') = e_step (snd r) /\ e_nbuf (snd r') = e_nbuf (snd r).
Proof.
  intros mind n mass sigma O c g g' dts s e e' r Hmd Hn Hm Hnz Hs HO Ha Hg Hf Ly Ey Et Es En Er.
  destruct (@lin_all mind (6 * n) (moved n sigma O)) with (ef1 := simple_ef (Rops mind) n mass)
    (ef2 := simple_ef (Rops mind) n (remassed n sigma mass)) (P := fun _ _ : unit => True) (c := c) (g1 := g) (g2 := g') (dts := dts) (s := s)
    (e1 := e) (e2 := e') (r := r) as (r' & A & B & C & D & _ & F); auto; try lia.
  - intros u _. apply moved_length.
  - intros a u b v w Lu Lv Lw H q Hq. now apply moved_lin.
  - intros p q step t y f _ Ly' Lf. unfold simple_ef.
    destruct (@C04_newtonian_rhs mind n mass y f Hmd Ly' Hm Lf Hnz) as (f1 & -> & H1). cbn [obind].
    destruct (@C04_newtonian_rhs mind n (remassed n sigma mass) (moved n sigma O y) (moved n sigma O f) Hmd) as (f2 & -> & H2).
    + apply moved_length.
    + unfold remassed. now rewrite map_length, seq_length.
    + apply moved_length.
    + intros i Hi. rewrite remassed_nth by auto. apply Hnz. now apply (perm_lt Hs).
    + cbn. split; [exact I|]. split; [apply H1|]. eapply newton_unique; [exact H2|]. now apply moved_newton.
  - intros Had. apply moved_iso; auto.
  - split; auto.
  - exists r'. auto 10.
Qed.
Print Assumptions C86_symmetry.

(** ... in particular the order of the bodies does not matter, whatever the solver *)
Theorem C86_relabel : forall mind n mass sigma garbage garbage' dts s (e e' : @eng R unit) r,
  0 < mind -> (0 < n)%nat -> length mass = n -> (forall i, (i < n)%nat -> nth i mass 0 <> 0) -> rearranges n sigma -> fresh s ->
  let exchanged (u v : list R) := length u = (6 * n)%nat /\ length v = (6 * n)%nat /\
    forall k i, (k < 6)%nat -> (i < n)%nat -> comp v n k i = comp u n k (sigma i) in
  (forall k, exchanged (garbage k) (garbage' k)) -> exchanged (e_y e) (e_y e') ->
  e_time e' = e_time e -> e_step e' = e_step e -> e_nbuf e' = e_nbuf e ->
  advise_all (Rops mind) (6 * n) (simple_ef (Rops mind) n mass) garbage dts s e = Some r ->
  exists r', advise_all (Rops mind) (6 * n) (simple_ef (Rops mind) n (remassed n sigma mass)) garbage' dts s e' = Some r' /\
    forall k i, (k < 6)%nat -> (i < n)%nat -> comp (e_y (snd r')) n k i = comp (e_y (snd r)) n k (sigma i).
Proof.
  intros mind n mass sigma g g' dts s e e' r Hmd Hn Hm Hnz Hs Hf exchanged Hg Hy Et Es En Er.
  set (I3 := fun k l : nat => if Nat.eqb l k then 1 else 0).
  assert (HM : forall u k i, (k < 6)%nat -> (i < n)%nat -> comp (moved n sigma I3 u) n k i = comp u n k (sigma i)).
  { intros u k i Hk Hi. destruct (Nat.lt_ge_cases k 3) as [L|L].
    - rewrite moved_pos by auto. unfold I3. destruct k as [|[|[|k]]]; [| | |lia]; cbn [Nat.eqb]; ring.
    - replace k with ((k - 3) + 3)%nat by lia. rewrite moved_vel by lia. unfold I3.
      destruct k as [|[|[|[|[|[|k]]]]]]; try lia; cbn; ring. }
  assert (HX : forall u v, exchanged u v -> v = moved n sigma I3 u).
  { intros u v (L1 & L2 & H). apply nth_ext with 0 0; [now rewrite moved_length|]. intros q Hq. rewrite L2 in Hq.
    assert (Hn0 : n <> 0%nat) by lia. pose proof (Nat.mod_upper_bound q n Hn0) as Hj.
    assert (Hk : (q / n < 6)%nat) by (apply Nat.div_lt_upper_bound; lia).
    pose proof (HM u _ _ Hk Hj) as X. pose proof (H _ _ Hk Hj) as Y. unfold comp in X at 1, Y at 1.
    replace (q / n * n + q mod n)%nat with q in * by (rewrite (Nat.div_mod q n Hn0) at 1; lia). congruence. }
  destruct (@C86_symmetry mind n mass sigma I3 0 g g' dts s e e' r) as (r' & A & B & _); auto.
  - intros k l Hk Hl. unfold I3. destruct k as [|[|[|k]]], l as [|[|[|l]]]; try lia; cbn [Nat.eqb]; ring.
  - intros _. exists (fun k => k), (fun _ => 1). split; [unfold rearranges; now rewrite map_id|]. intros k Hk. split; [now left|].
    intros l Hl. reflexivity.
  - intros k. split; [apply Hg|]. apply HX. apply Hg.
  - apply Hy.
  - rewrite Et. ring.
  - exists r'. split; [exact A|]. intros k i Hk Hi. rewrite B. now apply HM.
Qed.
Print Assumptions C86_relabel.

(** Two bodies on their circle (mass 4 each), any convergent solver with small steps: the run completes, and with the bodies
    exchanged, in axes turned by the angle with cosine 3/5 and seven time units later it ends in the exchanged and turned state. *)
Definition turn (k l : nat) : R := match k, l with
  | 0%nat, 0%nat => 3/5 | 0%nat, 1%nat => -(4/5) | 1%nat, 0%nat => 4/5 | 1%nat, 1%nat => 3/5 | 2%nat, 2%nat => 1 | _, _ => 0 end.
Example C86_case : forall s, fresh s -> convergent s -> ~ adaptive s -> exists h0, 0 < h0 /\ forall dts, Forall (fun dt => 0 < dt <= h0) dts -> total dts <= 1 ->
  exists r r', advise_all (Rops 1) 12 (simple_ef (Rops 1) 2 [4; 4]) (fun _ => repeat 0 12) dts s (mkEng (circle 0) 0 0 tt 0) = Some r /\
    advise_all (Rops 1) 12 (simple_ef (Rops 1) 2 [4; 4]) (fun _ => repeat 0 12) dts s
      (mkEng (moved 2 (fun i => 1 - i)%nat turn (circle 0)) 7 0 tt 0) = Some r' /\
    e_y (snd r') = moved 2 (fun i => 1 - i)%nat turn (e_y (snd r)).
Proof.
  intros s Hf Hc Hna.
  destruct (@C82_newton 1 2 [4; 4] (fun _ => repeat 0 12) 0 1 circle s) as (C & h0 & HC & Hh & H); auto; try lra; try lia.
  { intros [|[|i]] Hi; cbn; try lra; lia. }
  { apply C82_circle. lra. }
  exists h0. split; [exact Hh|]. intros dts Hd Ht.
  destruct (H (mkEng (circle 0) 0 0 tt 0) dts h0 0) as (r & Er & _); auto; try lra.
  { intros i Hi. rewrite Rminus_diag_eq, Rabs_R0 by reflexivity. lra. }
  destruct (@C86_symmetry 1 2 [4; 4] (fun i => 1 - i)%nat turn 7 (fun _ => repeat 0 12) (fun _ => repeat 0 12) dts s
    (mkEng (circle 0) 0 0 tt 0) (mkEng (moved 2 (fun i => 1 - i)%nat turn (circle 0)) 7 0 tt 0) r) as (r' & A & B & _); auto; try lra; try lia.
  - intros [|[|i]] Hi; cbn; try lra; lia.
  - cbv [rearranges map seq Nat.sub]. apply perm_swap.
  - intros k l Hk Hl. destruct k as [|[|[|k]]], l as [|[|[|l]]]; try lia; cbn [turn Nat.eqb]; lra.
  - intros X. contradiction.
  - intros k. split; [reflexivity|]. cbn. repeat (apply f_equal2; [ring|]). reflexivity.
  - cbn. ring.
  - exists r, r'. auto.
Qed.
