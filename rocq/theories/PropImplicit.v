(** Property C69: the implicit Runge-Kutta solvers. *)
From Coq Require Import ZArith QArith Reals List Arith Lia Lra.
From Verif Require Import Num Arr SpecPhys ModelSolverBase ModelButcher ModelExtrap ModelSolver SpecSolver
  SpecImplicit LemOk LemBufR LemSolver LemRk LemExact LemImplicit LemOrder.
Import ListNotations.
Set Implicit Arguments.
Local Open Scope R_scope.

(** Without subdivision (an embedded estimate is absent or no recursion is allowed) every history of
    non-zero steps gives the states of the textbook sweep: Euler guesses in the first step, the stages
    of the step before afterwards, [rp_refine] Gauss-Seidel sweeps, the row b2. *)
Theorem C69_fixed : forall (E : Type) mind ps (ef : E -> nat -> R -> list R -> list R -> option (E * list R))
    garbage F p (e : @eng R E) dts,
  (0 < ps)%nat -> (forall n, length (garbage n) = ps) ->
  (forall t y, length y = ps -> length (F t y) = ps) ->
  (forall q step t y f, length y = ps -> length f = ps -> ef q step t y f = Some (q, F t y)) ->
  table_wf (rp_table p) -> implicit_rows (rp_table p) ->
  bt_embedded (rp_table p) = false \/ rp_max_recursion p = O ->
  length (e_y e) = ps -> Forall (fun h => h <> 0) dts ->
  exists r, advise_all (Rops mind) ps ef garbage dts (SButcher p None) e = Some r /\
    e_y (snd r) = impl_run ps F (rp_table p) (rp_refine p) (e_time e) (e_y e) None dts.
Proof.
  intros E mind ps ef garbage F p e dts H1 H2 H3 H4 H5 H6 H7 H8 H9. apply ok_exists.
  rewrite Forall_forall in H9.
  apply (@run_i E mind ps ef garbage F H1 H2 H3 H4 p H5 H6 H7 dts None e H9 H8). discriminate.
Qed.
Print Assumptions C69_fixed.

(** With subdivision: the state reached is the composition of the accepted substeps, which tile the
    time without gap or overlap; each was made by [rp_refine] sweeps and its recorded error is the
    largest difference of the two rows. *)
Theorem C69_accepted : forall (E : Type) mind ps (ef : E -> nat -> R -> list R -> list R -> option (E * list R))
    garbage F p (e : @eng R E) dts,
  (0 < ps)%nat -> (forall n, length (garbage n) = ps) ->
  (forall t y, length y = ps -> length (F t y) = ps) ->
  (forall q step t y f, length y = ps -> length f = ps -> ef q step t y f = Some (q, F t y)) ->
  table_wf (rp_table p) -> implicit_rows (rp_table p) -> (1 <= rp_subdivisions p)%nat ->
  length (e_y e) = ps -> Forall (fun h => h <> 0) dts ->
  exists r l, advise_all (Rops mind) ps ef garbage dts (SButcher p None) e = Some r /\
    e_time (snd r) = e_time e + fold_right Rplus 0 dts /\
    covers (e_time e) l (e_time (snd r)) /\
    impl_replay ps F (rp_table p) (rp_refine p) (e_y e) l (e_y (snd r)).
Proof.
  intros E mind ps ef garbage F p e dts H1 H2 H3 H4 H5 H6 H7 H8 H9. rewrite Forall_forall in H9.
  assert (X := @run_replay E mind ps ef garbage F H1 H2 H3 H4 p H5 H6 H7 dts None e H9 H8).
  assert (X' := X ltac:(discriminate)). apply ok_exists in X'.
  destruct X' as (r & A & l & B & C & D). exists r, l. auto.
Qed.
Print Assumptions C69_accepted.

(** A sweep leaves the stages alone exactly when they solve the stage equations. *)
Theorem C69_solves : forall ps F bt t h y ks, length ks = bt_steps bt ->
  (impl_sweep ps F bt t h y ks = ks <-> impl_solves ps F bt t h y ks).
Proof. intros ps F bt t h y ks H. symmetry. now apply solves_fixed. Qed.
Print Assumptions C69_solves.

(** For steps with |h| L A < 1 the stage equations have exactly one solution. *)
Theorem C69_unique_solution : forall ps F bt L A t h y,
  (forall t u, length u = ps -> length (F t u) = ps) ->
  lipschitz ps F L -> rows_below bt A -> Rabs h * L * A < 1 ->
  exists! ks, impl_solves ps F bt t h y ks.
Proof.
  intros ps F bt L A t h y H0 (HL0 & HL) (HA0 & HA) Hq.
  destruct (@solution_exists ps F bt L A HL0 HL H0 HA HA0 t h y Hq) as [ks Hks].
  exists ks. split; auto. intros ks' H'. exact (@solution_unique ps F bt L A HL0 HL H0 HA HA0 t h y Hq ks ks' Hks H').
Qed.
Print Assumptions C69_unique_solution.

(** The first step of the solver: its distance from the step of the method (the stages [kx] that
    solve the equations) is the distance of the Euler guesses from [kx] times (|h| L A)^r. *)
Theorem C69_convergence : forall (E : Type) mind ps (ef : E -> nat -> R -> list R -> list R -> option (E * list R))
    garbage F p (e : @eng R E) h L A B kx d,
  (0 < ps)%nat -> (forall n, length (garbage n) = ps) ->
  (forall t y, length y = ps -> length (F t y) = ps) ->
  (forall q step t y f, length y = ps -> length f = ps -> ef q step t y f = Some (q, F t y)) ->
  table_wf (rp_table p) -> implicit_rows (rp_table p) ->
  bt_embedded (rp_table p) = false \/ rp_max_recursion p = O ->
  length (e_y e) = ps -> h <> 0 ->
  lipschitz ps F L -> rows_below (rp_table p) A -> Rabs h * L * A < 1 ->
  rsum (bt_steps (rp_table p)) (fun i => Rabs (nth i (bt_b2 (rp_table p)) 0)) <= B ->
  impl_solves ps F (rp_table p) (e_time e) h (e_y e) kx ->
  (forall i, (i < bt_steps (rp_table p))%nat ->
     near ps (nth i (impl_guess ps F (rp_table p) (e_time e) h (e_y e)) []) (nth i kx []) d) -> 0 <= d ->
  exists r, advise (Rops mind) ps ef garbage h (SButcher p None) e = Some r /\
    near ps (e_y (snd r)) (impl_value ps (rp_table p) h (e_y e) kx)
      (Rabs h * B * ((Rabs h * L * A) ^ rp_refine p * d)).
Proof.
  intros E mind ps ef garbage F p e h L A B kx d H1 H2 H3 H4 H5 H6 H7 H8 H9 (HL0 & HL) (HA0 & HA) Hq HB Hk Hd Hd0.
  destruct (@C69_fixed E mind ps ef garbage F p e [h]) as (r & X & Y); auto.
  cbn [advise_all] in X. destruct (advise _ _ _ _ _ _ _) as [[s' e']|]; [|discriminate]. cbn [obind] in X.
  injection X as <-. exists (s', e'). split; auto. cbn [snd] in *. rewrite Y. cbn [impl_run].
  unfold impl_value. apply lincomb_near; auto.
  - apply Rmult_le_pos; auto. apply pow_le. apply Rmult_le_pos; auto. apply Rmult_le_pos; auto. apply Rabs_pos.
  - assert (Q1 : Rabs h * L * A <= 1) by lra.
    apply (@sweeps_near ps F (rp_table p) L A HL0 HL HA (e_time e) h (e_y e) kx Hk Q1 (rp_refine p)); auto.
    apply guess_length.
Qed.
Print Assumptions C69_convergence.

(** the two implicit tables of the code meet the hypotheses *)
Theorem C69_tables : forall mind,
  (table_wf (tab_rkgl (Rops mind)) /\ implicit_rows (tab_rkgl (Rops mind)) /\
   bt_embedded (tab_rkgl (Rops mind)) = false /\ rows_below (tab_rkgl (Rops mind)) 1) /\
  (table_wf (tab_rklc (Rops mind)) /\ implicit_rows (tab_rklc (Rops mind)) /\
   rows_below (tab_rklc (Rops mind)) 1).
Proof.
  intros mind.
  assert (WF : forall bt, In bt [tab_rkgl (Rops mind); tab_rklc (Rops mind)] -> table_wf bt).
  { intros bt H. cbn [In] in H. repeat destruct H as [<-|H]; try contradiction; (split; [cbn; lia|]);
      (split; [|cbn; repeat split; lia]); intros i row Hi Hrow; cbn in Hi;
      (do 4 (destruct i as [|i]; [try lia; cbn in Hrow; injection Hrow as <-; cbn; lia|])); lia. }
  assert (S15 : 0 <= sqrt 15 < 4).
  { split; [apply sqrt_pos|]. replace 4 with (sqrt (4 * 4)) by (rewrite sqrt_square; lra). apply sqrt_lt_1; lra. }
  repeat match goal with |- _ /\ _ => split end; try (apply WF; cbn; now auto); try reflexivity; try lra.
  - split; [reflexivity|]. intros i Hi. exists 0%nat. cbn in Hi. split; [cbn; lia|].
    do 3 (destruct i as [|i]; [cbn; unfold Rdiv; try lra|]); lia.
  - split; [lra|]. intros i Hi. cbn in Hi.
    do 3 (destruct i as [|i]; [cbn; unfold Rdiv; cbn [Rops nsqrt nlit]; unfold Rabs; repeat destruct Rcase_abs; lra|]); lia.
  - split; [reflexivity|]. intros i Hi. exists 0%nat. cbn in Hi. split; [cbn; lia|].
    do 3 (destruct i as [|i]; [cbn; unfold Rdiv; try lra|]); lia.
  - split; [lra|]. intros i Hi. cbn in Hi.
    do 3 (destruct i as [|i]; [cbn; unfold Rdiv; unfold Rabs; repeat destruct Rcase_abs; lra|]); lia.
Qed.
Print Assumptions C69_tables.

(** y' = -y from 24 with h = 1 and the Lobatto table: the guesses are -24, -12, 0; one sweep gives
    -24, -15, -10 and the value 11; the equations are solved by -1152/49, -720/49, -432/49 *)
Definition minus (t : R) (y : list R) : list R := map Ropp y.
Example C69_example :
  impl_guess 1 minus (tab_rklc (Rops 1)) 0 1 [24] = [[-24]; [-12]; [0]] /\
  impl_sweeps 1 minus (tab_rklc (Rops 1)) 1 0 1 [24] [[-24]; [-12]; [0]] = [[-24]; [-15]; [-10]] /\
  impl_run 1 minus (tab_rklc (Rops 1)) 1 0 [24] None [1] = [11] /\
  impl_solves 1 minus (tab_rklc (Rops 1)) 0 1 [24] [[-1152/49]; [-720/49]; [-432/49]].
Proof.
  Ltac crunch := cbv -[Rplus Rmult Ropp Rdiv Rinv IZR];
    repeat match goal with |- _ :: _ = _ => apply f_equal2 end; try reflexivity; unfold Rdiv; lra.
  repeat match goal with |- _ /\ _ => split end; try crunch.
  split; [reflexivity|]. intros i Hi. cbn in Hi.
  do 3 (destruct i as [|i]; [crunch|]). lia.
Qed.
(** the model itself on the same equation, in exact rational arithmetic: two steps *)
Example C69_run :
  option_map (fun r => map Qred (e_y (snd r)))
    (advise_all Qops 1 (fun (u : unit) _ _ y _ => Some (u, map Qopp y)) (fun _ => [7%Q]) [1%Q; 1%Q]
      (SButcher (mkRkParams (tab_rklc Qops) 0 8 1%Q 1 false 1%Q) None) (mkEng [24%Q] 0%Q 0 tt 0)) =
  Some [(296 # 27)%Q].
Proof. vm_compute. reflexivity. Qed.
(** the hypotheses of convergence: L = 1, A = 1, h = 1/2 *)
Example C69_hypotheses : lipschitz 1 minus 1 /\ rows_below (tab_rklc (Rops 1)) 1 /\ Rabs (1 / 2) * 1 * 1 < 1.
Proof.
  split; [|split; [apply C69_tables|]].
  - split; [lra|]. intros t u v d Lu Lv H q Hq. destruct q as [|q]; [|lia].
    destruct u as [|a [|]]; try discriminate. destruct v as [|b [|]]; try discriminate.
    specialize (H 0%nat Hq). cbn in *. revert H. unfold Rabs. repeat destruct Rcase_abs; lra.
  - unfold Rabs. destruct Rcase_abs; lra.
Qed.
