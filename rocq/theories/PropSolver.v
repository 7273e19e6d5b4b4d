(** Properties of the solvers: C27, C28, C29. *)
From Coq Require Import ZArith Reals List Arith Lia Lra.
From Verif Require Import Num Arr SpecPhys ModelEngine ModelBlock ModelAH ModelSolverBase ModelButcher
  ModelExtrap ModelSolver SpecSolver LemOk LemAH LemSolverTime LemSolverPhys.
Import ListNotations.
Set Implicit Arguments.

(** ** C27: the clock.  Any number type, any engine, any state of the solver; [advise] returning
    [None] is undefined behaviour. *)
Theorem C27_time : forall (T E : Type) (N : NumOps T) ps
    (ef : E -> nat -> T -> list T -> list T -> option (E * list T)) garbage dt s e r,
  advise N ps ef garbage dt s e = Some r ->
  e_time (snd r) = nadd N (e_time e) dt /\
  S (e_step e) <= e_step (snd r) /\
  (~ uses_bs s -> e_step (snd r) = S (e_step e)).
Proof. exact @advise_time_step. Qed.
Print Assumptions C27_time.

(** a whole history of steps *)
Theorem C27_history : forall (T E : Type) (N : NumOps T) ps
    (ef : E -> nat -> T -> list T -> list T -> option (E * list T)) garbage dts s e r,
  advise_all N ps ef garbage dts s e = Some r ->
  e_time (snd r) = fold_left (nadd N) dts (e_time e) /\
  e_step e + length dts <= e_step (snd r) /\
  (~ uses_bs s -> e_step (snd r) = e_step e + length dts).
Proof. exact @advise_all_time. Qed.
Print Assumptions C27_history.

(** Bulirsch-Stoer: one more than the number of substeps of the levels computed; the levels are
    all of them or at least three *)
Theorem C27_bulirsch_stoer_steps : forall (T E : Type) (N : NumOps T) ps
    (ef : E -> nat -> T -> list T -> list T -> option (E * list T)) garbage p dt b e r,
  advise N ps ef garbage dt (SBs p b) e = Some r ->
  exists k, k <= bp_max_level p /\ (k = bp_max_level p \/ 3 <= k) /\
            e_step (snd r) = S (e_step e + nsum k bs_seq).
Proof. exact @bs_step_count. Qed.
Print Assumptions C27_bulirsch_stoer_steps.

(** an engine with constant derivatives *)
Definition flat_force (u : unit) (step : nat) (t : Z) (y f : list Z) : option (unit * list Z) :=
  Some (u, repeat 2%Z (length f)).

(** one step in binary64 with the default parameters: the counter grows by 2 + 4 + 6 + 1 *)
Theorem C27_bulirsch_stoer_steps_refuted :
  let n := nlit Fops in
  exists r,
  advise Fops 2 (fun (u : unit) _ _ _ f => Some (u, repeat (n 2) (length f)))%Z
    (fun _ => [n 0; n 0])%Z (n 48)%Z (SBs (mkBsParams 8 (ndiv Fops (n 1) (n 100000000000)))%Z None)
    (mkEng [n 5; n 7]%Z (n 10)%Z 4 tt 0) = Some r /\
  e_y (snd r) = [n 101; n 103]%Z /\ e_time (snd r) = n 58%Z /\ e_step (snd r) = 17.
Proof. cbv zeta. eexists. split; [vm_compute; reflexivity|]. repeat split; vm_compute; reflexivity. Qed.
Print Assumptions C27_bulirsch_stoer_steps_refuted.

Example C27_example : exists r,
  advise_all Zops 2 flat_force (fun _ => [0; 0]%Z) [6; 2; 4; 8]%Z
    (SAdams (mkAdamsParams 1 true) (SRk4 None) None 0) (mkEng [5; 7]%Z 10%Z 4 tt 0) = Some r /\
  ~ uses_bs (SAdams (mkAdamsParams 1 true) (SRk4 (T := Z) None) None 0) /\
  e_time (snd r) = 30%Z /\ e_step (snd r) = 8.
Proof.
  eexists. split; [vm_compute; reflexivity|]. split; [cbn; tauto|]. split; reflexivity.
Qed.

Local Open Scope R_scope.

(** ** C28: every solver conserves the total momentum, whatever the step lengths, thresholds and
    limits.  The result exists: no solver leaves its arrays or loops for ever. *)
Theorem C28_momentum_simple : forall mind n mass garbage dts s (e : @eng R unit),
  0 < mind -> (0 < n)%nat -> length mass = n -> (forall i, (i < n)%nat -> nth i mass 0 <> 0) ->
  (forall k, length (garbage k) = (6 * n)%nat) -> length (e_y e) = (6 * n)%nat ->
  solver_ok s -> fresh s ->
  exists r, advise_all (Rops mind) (6 * n) (simple_ef (Rops mind) n mass) garbage dts s e = Some r /\
    forall k, (k < 3)%nat ->
      rsum n (fun i => nth i mass 0 * comp (e_y (snd r)) n (k + 3) i) =
      rsum n (fun i => nth i mass 0 * comp (e_y e) n (k + 3) i).
Proof.
  intros mind n mass garbage dts s e H1 H2 H3 H4 H5 H6 H7 H8. apply ok_exists.
  exact (@momentum_kept _ mind n mass _ garbage False (fun _ => True) H2 H5 (@simple_ef_ok mind n mass H1 H3 H4) dts s e H7 H8 I H6).
Qed.
Print Assumptions C28_momentum_simple.

Theorem C28_momentum_block : forall mind q mass garbage dts s (e : @eng R unit),
  let n := (q * 64)%nat in
  (0 < n)%nat -> length mass = n ->
  (forall k, length (garbage k) = (6 * n)%nat) -> length (e_y e) = (6 * n)%nat ->
  solver_ok s -> fresh s ->
  exists r, advise_all (Rops mind) (6 * n) (block_ef (Rops mind) n mass) garbage dts s e = Some r /\
    forall k, (k < 3)%nat ->
      rsum n (fun i => nth i mass 0 * comp (e_y (snd r)) n (k + 3) i) =
      rsum n (fun i => nth i mass 0 * comp (e_y e) n (k + 3) i).
Proof.
  intros mind q mass garbage dts s e n H2 H3 H5 H6 H7 H8. apply ok_exists.
  exact (@momentum_kept _ mind n mass _ garbage False (fun _ => True) H2 H5 (@block_ef_ok mind q mass H3) dts s e H7 H8 I H6).
Qed.
Print Assumptions C28_momentum_block.

(** the Ahmad-Cohen engine, with neighbour lists as stale as its rate makes them *)
Theorem C28_momentum_ah : forall mind D F rate n mass garbage dts s (e : @eng R (ah_state R)) r,
  0 < mind -> (0 < n)%nat -> length mass = n -> (forall i, (i < n)%nat -> nth i mass 0 <> 0) ->
  (forall k, length (garbage k) = (6 * n)%nat) -> length (e_y e) = (6 * n)%nat ->
  solver_ok s -> fresh s -> e_priv e = ah_init ->
  advise_all (Rops mind) (6 * n) (ah_ef (Rops mind) n mass D F rate) garbage dts s e = Some r ->
    forall k, (k < 3)%nat ->
      rsum n (fun i => nth i mass 0 * comp (e_y (snd r)) n (k + 3) i) =
      rsum n (fun i => nth i mass 0 * comp (e_y e) n (k + 3) i).
Proof.
  intros mind D F rate n mass garbage dts s e r H1 H2 H3 H4 H5 H6 H7 H8 H9 E.
  pose proof (@momentum_kept _ mind n mass _ garbage True _ H2 H5 (@ah_ef_ok mind D F rate n mass H1 H2 H3 H4) dts s e H7 H8
    (or_introl H9) H6) as X.
  rewrite E in X. exact X.
Qed.
Print Assumptions C28_momentum_ah.

(** the parameters the factory can give a solver satisfy [solver_ok] *)
Example C28_example : forall p0, In p0 [tab_rk4 Zops; tab_rkf Zops; tab_rkck Zops; tab_rkdp Zops;
    tab_rkdverk Zops; tab_rkgl Zops; tab_rklc Zops] ->
  solver_ok (SButcher (mkRkParams p0 8 8 0%Z 1 true 0%Z) None) /\
  solver_ok (SAdams (mkAdamsParams 5 true) (SButcher (mkRkParams p0 8 8 0%Z 1 true 0%Z) None) None 0).
Proof.
  intros p0 H. assert (W : table_wf p0).
  { cbn [In] in H. repeat destruct H as [<-|H]; try contradiction;
      (split; [cbn; lia|]; split; [|cbn; lia]);
      intros i row Hi E; cbn in Hi;
      (do 14 (destruct i as [|i]; [cbn in E; try discriminate; injection E as <-; cbn; lia|])); lia. }
  cbn [solver_ok rp_table ap_rank]. split; auto. split; auto. lia.
Qed.

(** ** C29: the mass centre moves by the elapsed time times the momentum, for every [consistent]
    solver (and, more than the property asks, for Adams too) *)
Theorem C29_centre_simple : forall mind n mass garbage dts s (e : @eng R unit),
  0 < mind -> (0 < n)%nat -> length mass = n -> (forall i, (i < n)%nat -> nth i mass 0 <> 0) ->
  (forall k, length (garbage k) = (6 * n)%nat) -> length (e_y e) = (6 * n)%nat ->
  solver_ok s -> consistent s -> fresh s ->
  exists r, advise_all (Rops mind) (6 * n) (simple_ef (Rops mind) n mass) garbage dts s e = Some r /\
    forall k, (k < 3)%nat ->
      rsum n (fun i => nth i mass 0 * comp (e_y (snd r)) n k i) =
      rsum n (fun i => nth i mass 0 * comp (e_y e) n k i) +
      fold_right Rplus 0 dts * rsum n (fun i => nth i mass 0 * comp (e_y e) n (k + 3) i).
Proof.
  intros mind n mass garbage dts s e H1 H2 H3 H4 H5 H6 H7 H8 H9. apply ok_exists.
  exact (@centre_uniform _ mind n mass _ garbage False (fun _ => True) H2 H5 (@simple_ef_ok mind n mass H1 H3 H4) dts s e H7 H8 H9 I H6).
Qed.
Print Assumptions C29_centre_simple.

Theorem C29_centre_block : forall mind q mass garbage dts s (e : @eng R unit),
  let n := (q * 64)%nat in
  (0 < n)%nat -> length mass = n ->
  (forall k, length (garbage k) = (6 * n)%nat) -> length (e_y e) = (6 * n)%nat ->
  solver_ok s -> consistent s -> fresh s ->
  exists r, advise_all (Rops mind) (6 * n) (block_ef (Rops mind) n mass) garbage dts s e = Some r /\
    forall k, (k < 3)%nat ->
      rsum n (fun i => nth i mass 0 * comp (e_y (snd r)) n k i) =
      rsum n (fun i => nth i mass 0 * comp (e_y e) n k i) +
      fold_right Rplus 0 dts * rsum n (fun i => nth i mass 0 * comp (e_y e) n (k + 3) i).
Proof.
  intros mind q mass garbage dts s e n H2 H3 H5 H6 H7 H8 H9. apply ok_exists.
  exact (@centre_uniform _ mind n mass _ garbage False (fun _ => True) H2 H5 (@block_ef_ok mind q mass H3) dts s e H7 H8 H9 I H6).
Qed.
Print Assumptions C29_centre_block.

Theorem C29_centre_ah : forall mind D F rate n mass garbage dts s (e : @eng R (ah_state R)) r,
  0 < mind -> (0 < n)%nat -> length mass = n -> (forall i, (i < n)%nat -> nth i mass 0 <> 0) ->
  (forall k, length (garbage k) = (6 * n)%nat) -> length (e_y e) = (6 * n)%nat ->
  solver_ok s -> consistent s -> fresh s -> e_priv e = ah_init ->
  advise_all (Rops mind) (6 * n) (ah_ef (Rops mind) n mass D F rate) garbage dts s e = Some r ->
    forall k, (k < 3)%nat ->
      rsum n (fun i => nth i mass 0 * comp (e_y (snd r)) n k i) =
      rsum n (fun i => nth i mass 0 * comp (e_y e) n k i) +
      fold_right Rplus 0 dts * rsum n (fun i => nth i mass 0 * comp (e_y e) n (k + 3) i).
Proof.
  intros mind D F rate n mass garbage dts s e r H1 H2 H3 H4 H5 H6 H7 H8 H9 H10 E.
  pose proof (@centre_uniform _ mind n mass _ garbage True _ H2 H5 (@ah_ef_ok mind D F rate n mass H1 H2 H3 H4) dts s e H7 H8 H9
    (or_introl H10) H6) as X.
  rewrite E in X. exact X.
Qed.
Print Assumptions C29_centre_ah.

(** the tables with rational coefficients and rkgl are [consistent] with any thresholds, limits and
    any positive number of subdivisions *)
Theorem C29_tables_consistent : forall mind p0 p,
  In p0 [tab_rk4 (Rops mind); tab_rkf (Rops mind); tab_rkck (Rops mind); tab_rkdp (Rops mind);
    tab_rkdverk (Rops mind); tab_rkgl (Rops mind); tab_rklc (Rops mind)] ->
  rp_table p = p0 -> (1 <= rp_subdivisions p)%nat -> consistent (SButcher p None).
Proof.
  intros mind p0 p H <- Hs. cbn [consistent]. remember (rp_table p) as t eqn:Et. clear Et.
  cbn [In] in H.
  Ltac stage j := exists j; split; [cbn; lia|]; cbn; unfold Rdiv; lra.
  repeat destruct H as [<-|H]; try contradiction;
    (split; [cbn; field|]); (split; [exact Hs|]); right; intros i Hi [Hc|Hc]; try discriminate Hc;
    cbn in Hi;
    (do 14 (destruct i as [|i]; [try lia; stage 0%nat || stage 1%nat || stage 2%nat|])); lia.
Qed.
Print Assumptions C29_tables_consistent.

(** two bodies, Adams of rank 3 started by Dormand-Prince, three steps of different lengths *)
Example C29_example : exists r,
  advise_all (Rops (1/100)) 12 (simple_ef (Rops (1/100)) 2 [2; 3]) (fun _ => repeat 7 12)
    [1/2; 1/4; 1]
    (SAdams (mkAdamsParams 3 true)
      (SButcher (mkRkParams (tab_rkdp (Rops (1/100))) 8 8 (1/1000) 1 false (1/10)) None) None 0)
    (mkEng [0; 1; 0; 2; 0; 3; 1; 0; 0; 0; 0; 0] 0 0 tt 0) = Some r /\
  nth 0 (e_y (snd r)) 0 * 2 + nth 1 (e_y (snd r)) 0 * 3 = 3 + 7 / 4 * 2.
Proof.
  destruct (@C29_centre_simple (1/100) 2 [2; 3] (fun _ => repeat 7 12) [1/2; 1/4; 1]
    (SAdams (mkAdamsParams 3 true)
      (SButcher (mkRkParams (tab_rkdp (Rops (1/100))) 8 8 (1/1000) 1 false (1/10)) None) None 0)
    (mkEng [0; 1; 0; 2; 0; 3; 1; 0; 0; 0; 0; 0] 0 0 tt 0)) as (r & E & H); auto; try lra.
  - intros i Hi. destruct i as [|[|i]]; cbn; try lra. lia.
  - split; [cbn; lia|]. split; [cbn; lia|]. split; [|cbn; lia].
    intros i row Hi Er. cbn in Hi. do 7 (destruct i as [|i]; [cbn in Er; injection Er as <-; cbn; lia|]). lia.
  - cbn [consistent]. eapply C29_tables_consistent; [|reflexivity|cbn; lia]. cbn; tauto.
  - cbn. auto.
  - exists r. split; [exact E|]. specialize (H O ltac:(lia)). cbn [rsum] in H. unfold comp in H. cbn in H. lra.
Qed.

(** C02 for the Ahmad-Cohen engine with stale neighbour lists: every result of every run *)
Theorem C02_ah_run_no_net_force : forall mind D F rate n mass calls r,
  0 < mind -> (0 < n)%nat -> length mass = n -> (forall i, (i < n)%nat -> nth i mass 0 <> 0) ->
  Forall (fun c => length (c_y c) = 6 * n /\ length (c_f c) = 6 * n)%nat calls ->
  ah_run (Rops mind) D F rate n mass calls ah_init = Some r ->
  Forall (fun f => forall k, (k < 3)%nat ->
    rsum n (fun i => nth i mass 0 * comp f n (k + 3) i) = 0) (fst r).
Proof.
  intros mind D F rate n mass calls r H1 H2 H3 H4 H5 E. eapply ah_run_net; eauto. left. reflexivity.
Qed.
Print Assumptions C02_ah_run_no_net_force.
