(** The contents of new memory do not reach the results: C95. *)
From Coq Require Import String ZArith NArith QArith Reals SpecFloat List Arith Lia Lra.
From Verif Require Import Num Arr ModelEngine ModelSolverBase ModelButcher ModelFeagin ModelExtrap ModelSolver ModelStream ModelArgs ModelObject
  ModelText ModelData SpecSolver SpecSafe SpecResume LemOrder LemTwin LemResume LemObject PropResume.
Import ListNotations.
Set Implicit Arguments.
Local Open Scope nat_scope.

(** Any arithmetic, any engine whose derivative depends on the step, the time and the state only.  [garbage k]
    is what the k-th buffer holds when the engine creates it.  Two runs of the same steps on two machines with
    different rubbish in their memory end in the same state, at the same time, after the same number of
    evaluations. *)
Theorem C95_memory : forall (T E : Type) (U : NumOps T) ps (ef : E -> nat -> T -> list T -> list T -> option (E * list T))
    (garbage garbage' : nat -> list T) dts s (e : @eng T E),
  0 < ps -> stateless ps ef -> (forall k, length (garbage k) = ps) -> (forall k, length (garbage' k) = ps) ->
  solver_ok s -> fresh s -> Forall (fun dt => set_stages U dt s) dts -> length (e_y e) = ps ->
  exists r r', advise_all U ps ef garbage dts s e = Some r /\ advise_all U ps ef garbage' dts s e = Some r' /\
    length (e_y (snd r)) = ps /\ e_y (snd r') = e_y (snd r) /\ e_time (snd r') = e_time (snd r) /\ e_step (snd r') = e_step (snd r).
Proof.
  intros T E U ps ef garbage garbage' dts s e Hps [F HF] G G' HO Hf HS He.
  assert (HF1 : forall q step t y f, length y = ps -> length f = ps -> exists q', ef q step t y f = Some (q', F step t y)).
  { intros q step t y f A B. now destruct (HF q step t y f A B). }
  assert (HF2 : forall n t y, length y = ps -> length (F n t y) = ps).
  { intros n t y A. now destruct (HF (e_priv e) n t y y A A). }
  assert (Q : EQ ps e e) by (unfold EQ; auto).
  pose proof (@grel_all T E U ps ef garbage garbage' F Hps G G' HF1 HF2 dts s s e e HO HS (@grel_fresh T ps s Hf) Q) as W.
  unfold twin in W.
  destruct (advise_all U ps ef garbage dts s e) as [r|] eqn:E1, (advise_all U ps ef garbage' dts s e) as [r'|] eqn:E2; try contradiction.
  destruct W as (A & B & C & D). exists r, r'. auto 8.
Qed.
Print Assumptions C95_memory.

(** Over the reals every solver the factory makes is given a state at every stage, if the steps are not 0. *)
Theorem C95_factory : forall mind X args fuel c dt,
  create_solver (Rops mind) X fuel (parse_arguments args) = Some (Some c) -> dt <> 0%R -> set_stages (Rops mind) dt (cr_solver c).
Proof.
  intros mind X args fuel c dt. generalize (parse_arguments args). clear args. revert c.
  assert (TB : forall t mr n thr refine co ms,
    In t [tab_rk4 (Rops mind); tab_rkf (Rops mind); tab_rkck (Rops mind); tab_rkdp (Rops mind); tab_rkdverk (Rops mind);
          tab_rkfeagin10 (Rops mind); tab_rkfeagin12 (Rops mind); tab_rkfeagin14 (Rops mind)] -> dt <> 0%R ->
    set_stages (Rops mind) dt (SButcher (mkRkParams t mr n thr refine co ms) None)).
  { intros t mr n thr refine co ms Ht Hd. cbn [set_stages rp_table rp_correction rp_max_recursion rp_subdivisions].
    intros _ _ k Hk Hn. destruct n as [|n].
    - assert (k = 0) as -> by lia.
      destruct (@C79_tables mind t None dt mr 1 thr refine ms Ht Hd ltac:(lia)) as (_ & _ & H). exact (H 0 ltac:(lia)).
    - destruct (@C79_tables mind t None dt mr (S n) thr refine ms Ht Hd ltac:(lia)) as (_ & _ & H). exact (H k Hk). }
  induction fuel as [|fuel IH]; intros c m E Hd; [discriminate|]. cbn [create_solver] in E. cbv zeta in E.
  match type of E with obind ?x _ = _ => destruct x as [[s|]|] eqn:Es; cbn [obind] in E; try discriminate end.
  injection E as <-. cbn [cr_solver].
  destruct (text_eqb (value m "solver"%string []) (chars "adams"%string)).
  - destruct (create_solver (Rops mind) X fuel _) as [[c|]|] eqn:Ec; cbn [obind] in Es; try discriminate.
    injection Es as <-. cbn [set_stages]. eapply IH; eauto.
  - repeat match type of Es with (if ?b then _ else _) = _ => destruct b end; try discriminate;
      injection Es as <-; try exact I.
    all: unfold create_butcher_solver; try (apply TB; [cbn [In]; tauto|exact Hd]).
    all: cbn [set_stages rp_table]; intros H; discriminate H.
Qed.
Print Assumptions C95_factory.

(** The solvers and engines of the command line, over the reals: the simple engine, the OpenMP engine, and for a
    multiple of 64 bodies the block engine. *)
Theorem C95_command_line : forall mind X args fuel c o n mass split garbage garbage' dts y t k q,
  create_solver (Rops mind) X fuel (parse_arguments args) = Some (Some c) ->
  create_engine (Rops mind) X (parse_arguments args) = Some o ->
  rank_fits (cr_solver c) -> 0 < n -> length mass = n ->
  o = ESimple \/ o = EOpenmp \/ o = EBlock /\ n mod 64 = 0 ->
  (forall k, length (garbage k) = 6 * n) -> (forall k, length (garbage' k) = 6 * n) ->
  Forall (fun dt => dt <> 0%R) dts -> length y = 6 * n ->
  exists r r',
    advise_all (Rops mind) (6 * n) (object_ef (Rops mind) n mass split o) garbage dts (cr_solver c) (mkEng y t k q 0) = Some r /\
    advise_all (Rops mind) (6 * n) (object_ef (Rops mind) n mass split o) garbage' dts (cr_solver c) (mkEng y t k q 0) = Some r' /\
    e_y (snd r') = e_y (snd r) /\ e_time (snd r') = e_time (snd r) /\ e_step (snd r') = e_step (snd r).
Proof.
  intros mind X args fuel c o n mass split garbage garbage' dts y t k q Ec Eo Hr Hn Hm Ho G G' Hd Hy.
  destruct (create_solver_made _ _ _ _ Ec) as [(M1 & M2 & _) _].
  destruct (@C95_memory _ _ (Rops mind) (6 * n) (object_ef (Rops mind) n mass split o) garbage garbage' dts (cr_solver c) (mkEng y t k q 0))
    as (r & r' & E & E' & _ & H); [lia| | | | | | | |exists r, r'; auto]; auto.
  - now apply C79_engines.
  - eapply Forall_impl; [|exact Hd]. intros dt Hdt. eapply C95_factory; eauto.
Qed.
Print Assumptions C95_command_line.

(** In binary64 a step can be so short that all weights of a stage underflow.  Then nothing is written to the
    buffer of its state, and the solver goes on with whatever is in it.  Two bodies, the method of
    Dormand and Prince with the parameters the factory takes if none are given, one step of 2^-1074: a
    velocity is NaN on one machine and 1 on another. *)
Definition rubbish (x : spec_float) (k : nat) : list spec_float := repeat x 12.
Theorem C95_underflow_refuted : exists s dt (e : @eng spec_float unit) x x',
  stateless 12 (simple_ef Fops 2 [nlit Fops 3; nlit Fops 5]) /\ (exists p, s = SButcher p None /\ rp_table p = tab_rkdp Fops) /\ solver_ok s /\ fresh s /\
  nltb Fops (nlit Fops 0) dt = true /\ length (e_y e) = 12 /\
  let after x := advise Fops 12 (simple_ef Fops 2 [nlit Fops 3; nlit Fops 5]) (rubbish x) dt s e in
  exists r r', after x = Some r /\ after x' = Some r' /\
    nth_error (e_y (snd r)) 6 = Some S754_nan /\ nth_error (e_y (snd r')) 6 = Some (nlit Fops 1).
Proof.
  exists (create_butcher_solver Fops (mkTextOps (fun _ => []) (fun _ => []) (fun _ => None)) (tab_rkdp Fops) []),
    (S754_finite false 1 (-1074)), ex_start, S754_nan, (nlit Fops 0).
  split; [now apply (@C79_simple _ Fops 2)|]. split; [eexists; split; reflexivity|].
  split; [refine (proj1 (proj2 (made_table _ _)) I); vm_compute; reflexivity|].
  split; [reflexivity|]. split; [vm_compute; reflexivity|]. split; [reflexivity|]. cbv zeta.
  eexists. eexists. split; [vm_compute; reflexivity|]. split; [vm_compute; reflexivity|]. split; reflexivity.
Qed.
Print Assumptions C95_underflow_refuted.

(** Two bodies in binary64, an Adams-Bashforth solver with correction that starts with the adaptive method of
    Cash and Karp, steps of 1/100, and two memories full of different rubbish: the hypotheses hold, and the
    positions move. *)
Definition ex_solver : @solver spec_float :=
  SAdams (mkAdamsParams 2 true) (SButcher (mkRkParams (tab_rkck Fops) 1 8 (nlit Fops 0) 1 false (nlit Fops 0)) None) None 0.
Definition ex_dts : list spec_float := repeat (ndiv Fops (nlit Fops 1) (nlit Fops 100)) 4.
Example C95_ex :
  stateless 12 (simple_ef Fops 2 [nlit Fops 3; nlit Fops 5]) /\ solver_ok ex_solver /\ fresh ex_solver /\
  Forall (fun dt => set_stages Fops dt ex_solver) ex_dts /\ length (e_y ex_start) = 12 /\
  exists r, advise_all Fops 12 (simple_ef Fops 2 [nlit Fops 3; nlit Fops 5]) (fun _ => repeat S754_nan 12) ex_dts ex_solver ex_start = Some r /\
    option_map (nltb Fops (nlit Fops 0)) (nth_error (e_y (snd r)) 0) = Some true.
Proof.
  split; [now apply (@C79_simple _ Fops 2)|]. split.
  { cbn [solver_ok ex_solver ap_rank]. split; [lia|]. refine (proj1 (proj2 (made_table _ _)) I). vm_compute. reflexivity. }
  split; [cbn; auto|]. split.
  { apply Forall_forall. intros dt Hd. apply repeat_spec in Hd. subst dt. cbn [set_stages ex_solver]. intros _ _ k Hk _.
    destruct C79_tables_f as (_ & _ & H). exact (H k Hk). }
  split; [reflexivity|]. eexists. split; vm_compute; reflexivity.
Qed.
