(** Simulations seen from a frame in uniform motion: C88. *)
From Coq Require Import ZArith Reals List Arith Lia Lra.
From Verif Require Import Num Arr SpecPhys SpecEngine RLemmas ModelSolverBase ModelButcher ModelExtrap ModelForce
  ModelEngine ModelSolver SpecSolver SpecSym SpecGalileo LemErase LemSym LemSymRel LemGalileo LemBlock PropForce PropSolver.
Import ListNotations.
Set Implicit Arguments.
Local Open Scope R_scope.

(** ** C88 *)

Lemma galileo_gen mind n mass X V c g dts s (ef : unit -> nat -> R -> list R -> list R -> option (unit * list R)) (e e' : @eng R unit) r r' :
  (0 < n)%nat -> rsum n (fun i => nth i mass 0) <> 0 ->
  (forall p step t y f, length y = (6 * n)%nat -> length f = (6 * n)%nat -> exists f', ef p step t y f = Some (p, f') /\ newton_rhs mind n mass y f') ->
  (forall k, length (g k) = (6 * n)%nat) -> fresh s -> ~ adaptive s ->
  boosted n X V (e_y e) (e_y e') -> e_time e' = e_time e + c -> e_step e' = e_step e -> e_nbuf e' = e_nbuf e ->
  advise_all (Rops mind) (6 * n) ef g dts s e = Some r -> advise_all (Rops mind) (6 * n) ef g dts s e' = Some r' ->
  (forall k, (k < 3)%nat -> rsum n (fun i => nth i mass 0 * comp (e_y (snd r)) n (k + 3) i) = rsum n (fun i => nth i mass 0 * comp (e_y e) n (k + 3) i)) ->
  (forall k, (k < 3)%nat -> rsum n (fun i => nth i mass 0 * comp (e_y (snd r')) n (k + 3) i) = rsum n (fun i => nth i mass 0 * comp (e_y e') n (k + 3) i)) ->
  (forall k, (k < 3)%nat -> rsum n (fun i => nth i mass 0 * comp (e_y (snd r)) n k i) = rsum n (fun i => nth i mass 0 * comp (e_y e) n k i) +
      fold_right Rplus 0 dts * rsum n (fun i => nth i mass 0 * comp (e_y e) n (k + 3) i)) ->
  (forall k, (k < 3)%nat -> rsum n (fun i => nth i mass 0 * comp (e_y (snd r')) n k i) = rsum n (fun i => nth i mass 0 * comp (e_y e') n k i) +
      fold_right Rplus 0 dts * rsum n (fun i => nth i mass 0 * comp (e_y e') n (k + 3) i)) ->
  boosted n (fun k => X k + fold_right Rplus 0 dts * V k) V (e_y (snd r)) (e_y (snd r')) /\
  e_time (snd r') = e_time (snd r) + c /\ e_step (snd r') = e_step (snd r) /\ e_nbuf (snd r') = e_nbuf (snd r).
Proof.
  intros Hn Hmt Hef Hg Hf Ha (Ly & Ly' & HB) Et Es En Er Er' HP HP' HC HC'.
  destruct (@rel_all mind (6 * n) (gW n)) with (ef1 := ef) (ef2 := ef)
    (P := fun _ _ : unit => True) (c := c) (g1 := g) (g2 := g) (dts := dts) (s := s) (e1 := e) (e2 := e') (r := r)
    as (r1 & A & B & C & D & _ & F); auto; try lia.
  - intros u v. apply gW_len.
  - apply gW_refl, repeat_length.
  - intros a u u' b v v' w w' H1 H2 L1 L2 Q1 Q2. exact (gW_comb n a u u' b v v' w w' H1 H2 L1 L2 Q1 Q2).
  - intros p q step t y y' f f' _ Hy Hfv. destruct (gW_len _ _ _ Hy) as [A A'], (gW_len _ _ _ Hfv) as [B B'].
    destruct (Hef p step t y f A B) as (f1 & -> & H1). destruct (Hef q step (t + c) y' f' A' B') as (f2 & -> & H2). cbn. split; [exact I|].
    destruct Hy as (X1 & V1 & Hy). exists V1, (fun _ => 0). eapply boosted_newton; eauto.
  - intros k. now apply gW_refl.
  - intros Had. contradiction.
  - exists X, V. split; auto.
  - rewrite Er' in A. injection A as <-. split; [|split]; auto. clear C D F.
    destruct B as (X1 & V1 & L1 & L1' & B). split; [|split]; auto.
    pose proof (fun k Hk => @shift_sum n (fun i => nth i mass 0) (comp (e_y (snd r)) n k) (comp (e_y (snd r')) n k) (X1 k) (fun i Hi => proj1 (B k i Hk Hi))) as S1.
    pose proof (fun k Hk => @shift_sum n (fun i => nth i mass 0) (comp (e_y (snd r)) n (k + 3)) (comp (e_y (snd r')) n (k + 3)) (V1 k) (fun i Hi => proj2 (B k i Hk Hi))) as S2.
    pose proof (fun k Hk => @shift_sum n (fun i => nth i mass 0) (comp (e_y e) n k) (comp (e_y e') n k) (X k) (fun i Hi => proj1 (HB k i Hk Hi))) as S3.
    pose proof (fun k Hk => @shift_sum n (fun i => nth i mass 0) (comp (e_y e) n (k + 3)) (comp (e_y e') n (k + 3)) (V k) (fun i Hi => proj2 (HB k i Hk Hi))) as S4.
    cbv beta in S1, S2, S3, S4.
    assert (ZV : forall k, (k < 3)%nat -> V1 k = V k).
    { intros k Hk. specialize (HP k Hk). specialize (HP' k Hk). rewrite S2, S4 in HP' by auto.
      apply Rmult_eq_reg_l with (rsum n (fun i => nth i mass 0)); auto. lra. }
    assert (ZX : forall k, (k < 3)%nat -> X1 k = X k + fold_right Rplus 0 dts * V k).
    { intros k Hk. specialize (HC k Hk). specialize (HC' k Hk). rewrite S1, S3, S4 in HC' by auto.
      apply Rmult_eq_reg_l with (rsum n (fun i => nth i mass 0)); auto. lra. }
    intros k i Hk Hi. destruct (B k i Hk Hi) as [B1 B2]. rewrite B1, B2, ZV, ZX by auto. auto.
Qed.

(** A simulation with the engine simple does not depend on the origin of space or on its uniform motion: if every body is displaced
    by [X] and every velocity by [V], a run of any solver of the tree without a step control, over any history of steps of total
    length [T], ends with every body displaced by [X + T V] and every velocity by [V] — exactly, although the truncation errors of
    the two runs are as large as they may be. *)
Theorem C88_galileo : forall mind n mass X V c garbage dts s (e e' : @eng R unit),
  0 < mind -> (0 < n)%nat -> length mass = n -> (forall i, (i < n)%nat -> nth i mass 0 <> 0) -> rsum n (fun i => nth i mass 0) <> 0 ->
  (forall k, length (garbage k) = (6 * n)%nat) -> solver_ok s -> consistent s -> fresh s -> ~ adaptive s ->
  boosted n X V (e_y e) (e_y e') -> e_time e' = e_time e + c -> e_step e' = e_step e -> e_nbuf e' = e_nbuf e ->
  exists r r', advise_all (Rops mind) (6 * n) (simple_ef (Rops mind) n mass) garbage dts s e = Some r /\
    advise_all (Rops mind) (6 * n) (simple_ef (Rops mind) n mass) garbage dts s e' = Some r' /\
    boosted n (fun k => X k + fold_right Rplus 0 dts * V k) V (e_y (snd r)) (e_y (snd r')) /\
    e_time (snd r') = e_time (snd r) + c /\ e_step (snd r') = e_step (snd r) /\ e_nbuf (snd r') = e_nbuf (snd r).
Proof.
  intros mind n mass X V c g dts s e e' Hmd Hn Hm Hnz Hmt Hg Hok Hc Hf Ha HB Et Es En.
  destruct HB as (Ly & Ly' & HB).
  destruct (@C28_momentum_simple mind n mass g dts s e) as (r & Er & HP); auto.
  destruct (@C29_centre_simple mind n mass g dts s e) as (r1 & E1 & HC); auto.
  rewrite Er in E1. injection E1 as <-.
  destruct (@C28_momentum_simple mind n mass g dts s e') as (r' & Er' & HP'); auto.
  destruct (@C29_centre_simple mind n mass g dts s e') as (r1 & E1 & HC'); auto.
  rewrite Er' in E1. injection E1 as <-.
  exists r, r'. split; [exact Er|]. split; [exact Er'|].
  refine (@galileo_gen mind n mass X V c g dts s (simple_ef (Rops mind) n mass) e e' r r' Hn Hmt _ Hg Hf Ha _ Et Es En Er Er' HP HP' HC HC').
  - intros p step t y f A B. unfold simple_ef. destruct (@C04_newtonian_rhs mind n mass y f) as (f1 & -> & H1); auto. exists f1. auto.
  - split; auto.
Qed.
Print Assumptions C88_galileo.

(** ... the same for the engine block, whose force needs neither non-zero masses nor a positive softening *)
Theorem C88_block : forall mind q mass X V c garbage dts s (e e' : @eng R unit),
  let n := (q * 64)%nat in (0 < n)%nat -> length mass = n -> rsum n (fun i => nth i mass 0) <> 0 ->
  (forall k, length (garbage k) = (6 * n)%nat) -> solver_ok s -> consistent s -> fresh s -> ~ adaptive s ->
  boosted n X V (e_y e) (e_y e') -> e_time e' = e_time e + c -> e_step e' = e_step e -> e_nbuf e' = e_nbuf e ->
  exists r r', advise_all (Rops mind) (6 * n) (block_ef (Rops mind) n mass) garbage dts s e = Some r /\
    advise_all (Rops mind) (6 * n) (block_ef (Rops mind) n mass) garbage dts s e' = Some r' /\
    boosted n (fun k => X k + fold_right Rplus 0 dts * V k) V (e_y (snd r)) (e_y (snd r')) /\
    e_time (snd r') = e_time (snd r) + c /\ e_step (snd r') = e_step (snd r) /\ e_nbuf (snd r') = e_nbuf (snd r).
Proof.
  intros mind q mass X V c g dts s e e' n Hn Hm Hmt Hg Hok Hc Hf Ha HB Et Es En.
  destruct HB as (Ly & Ly' & HB).
  destruct (@C28_momentum_block mind q mass g dts s e) as (r & Er & HP); auto.
  destruct (@C29_centre_block mind q mass g dts s e) as (r1 & E1 & HC); auto.
  rewrite Er in E1. injection E1 as <-.
  destruct (@C28_momentum_block mind q mass g dts s e') as (r' & Er' & HP'); auto.
  destruct (@C29_centre_block mind q mass g dts s e') as (r1 & E1 & HC'); auto.
  rewrite Er' in E1. injection E1 as <-.
  exists r, r'. split; [exact Er|]. split; [exact Er'|].
  refine (@galileo_gen mind n mass X V c g dts s (block_ef (Rops mind) n mass) e e' r r' Hn Hmt _ Hg Hf Ha _ Et Es En Er Er' HP HP' HC HC').
  - intros p step t y f A B. unfold block_ef. destruct (@block_rhs mind q mass y f) as (f1 & E & H1); auto. fold n in E. rewrite E. exists f1. auto.
  - split; auto.
Qed.
Print Assumptions C88_block.

(** Two bodies, rk4, three steps, a frame moving with velocity (1, -2, 0) from (5, 0, 7). *)
Example C88_case : exists r r',
  advise_all (Rops (1/100)) 12 (simple_ef (Rops (1/100)) 2 [2; 3]) (fun _ => repeat 7 12) [1/2; 1/4; 1] (SRk4 None)
    (mkEng [0; 1; 0; 2; 0; 3; 1; 0; 0; 0; 0; 0] 0 0 tt 0) = Some r /\
  advise_all (Rops (1/100)) 12 (simple_ef (Rops (1/100)) 2 [2; 3]) (fun _ => repeat 7 12) [1/2; 1/4; 1] (SRk4 None)
    (mkEng [5; 6; 0; 2; 7; 10; 2; 1; -2; -2; 0; 0] 9 0 tt 0) = Some r' /\
  comp (e_y (snd r')) 2 0 1 = comp (e_y (snd r)) 2 0 1 + 27/4 /\ comp (e_y (snd r')) 2 4 0 = comp (e_y (snd r)) 2 4 0 - 2.
Proof.
  destruct (@C88_galileo (1/100) 2 [2; 3] (fun k => match k with 0%nat => 5 | 2%nat => 7 | _ => 0 end)
    (fun k => match k with 0%nat => 1 | 1%nat => -2 | _ => 0 end) 9 (fun _ => repeat 7 12) [1/2; 1/4; 1] (SRk4 None)
    (mkEng [0; 1; 0; 2; 0; 3; 1; 0; 0; 0; 0; 0] 0 0 tt 0) (mkEng [5; 6; 0; 2; 7; 10; 2; 1; -2; -2; 0; 0] 9 0 tt 0))
    as (r & r' & A & B & (_ & _ & H) & _); try lra; try lia; try reflexivity; cbn [solver_ok consistent fresh adaptive]; auto.
  - intros [|[|i]] Hi; cbn; try lra; lia.
  - cbn. lra.
  - split; [reflexivity|]. split; [reflexivity|]. intros k i Hk Hi. unfold comp. cbn [e_y].
    destruct k as [|[|[|k]]], i as [|[|i]]; try lia; cbn; lra.
  - cbn. lra.
  - exists r, r'. split; [exact A|]. split; [exact B|]. destruct (H 0%nat 1%nat) as [X _]; [lia|lia|]. destruct (H 1%nat 0%nat) as [_ Y]; [lia|lia|].
    cbn [fold_right Nat.add] in X, Y. rewrite X, Y. lra.
Qed.
