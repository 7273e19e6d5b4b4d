(** C73: which runs stay inside the arrays, in every arithmetic *)
From Coq Require Import Bool Ascii String List ZArith Arith NArith Lia Permutation.
From Verif Require Import Num Arr ModelEngine ModelTree ModelBH ModelText ModelData ModelButcher ModelSolverBase ModelSolver
  ModelArgs ModelObject SpecTree SpecSolver SpecArgs SpecSafe LemOk LemArgs LemSafe LemObject PropArgs.
Import ListNotations.

(** Any solver with legal parameters on any engine whose [fcompute] is defined: every history is
    defined and the state keeps its size, whatever the arithmetic does (overflow, NaN, rounding). *)
Theorem C73_solver_safe : forall T E (U : NumOps T) ps ef garbage (inv : E -> Prop) dts s (e : @eng T E),
  0 < ps -> (forall k, length (garbage k) = ps) ->
  (forall q step t y f, inv q -> length y = ps -> length f = ps ->
     exists q' f', ef q step t y f = Some (q', f') /\ inv q' /\ length f' = ps) ->
  solver_ok s -> fresh s -> inv (e_priv e) -> length (e_y e) = ps ->
  exists r, advise_all U ps ef garbage dts s e = Some r /\ length (e_y (snd r)) = ps /\ inv (e_priv (snd r)).
Proof.
  intros T E U ps ef garbage inv dts s e H1 H2 H3 H4 H5 H6 H7. apply ok_exists.
  apply (@all_s T E U ps ef garbage (fun _ _ => False) inv); auto.
  - intros q step t y f [Q|[]]; auto.
  - now apply fresh_i.
  - split; auto.
Qed.
Print Assumptions C73_solver_safe.

(** The program: solver and engine made from a command line, [n] bodies, first step number [step].
    The run is defined if and only if the Adams rank exists and the engine fits the body count and the
    step number (a solver that computes no forces does not care about the engine).  The number of bodies is
    bounded by the 32 bit index of the stackless heap.  Left out: the nested traversal of the pointer
    tree, see C26. *)
Theorem C73_runs_iff : forall T (U : NumOps T) (X : TextOps T) args fuel c o n mass split garbage y t step dt dts,
  create_solver U X fuel (parse_arguments args) = Some (Some c) ->
  create_engine U X (parse_arguments args) = Some o -> ~ nested_tree o ->
  1 <= n -> (N.of_nat n < 2 ^ 31)%N -> length mass = n -> length y = 6 * n ->
  (forall k, length (garbage k) = 6 * n) -> (forall step t y, permuting (split step t y)) ->
  ((exists r, advise_all U (6 * n) (object_ef U n mass split o) garbage (dt :: dts) (cr_solver c)
                (object_engine o y t step) = Some r) <->
   rank_fits (cr_solver c) /\ (engine_fits n step o \/ idle (cr_solver c))).
Proof.
  intros T U X args fuel c o n mass split garbage y t step dt dts Ec Eo HN H1 H2 H3 H4 H5 H6.
  destruct (create_solver_made U X fuel _ Ec) as [M _]. split.
  - intros (r & E).
    assert (D : rank_fits (cr_solver c) /\ (engine_fits n step o \/ idle (cr_solver c)) \/
      ~ (rank_fits (cr_solver c) /\ (engine_fits n step o \/ idle (cr_solver c)))).
    { assert (D1 : rank_fits (cr_solver c) \/ ~ rank_fits (cr_solver c)).
      { destruct (cr_solver c); cbn [rank_fits]; auto. lia. }
      assert (D2 : idle (cr_solver c) \/ ~ idle (cr_solver c)).
      { destruct (cr_solver c); cbn [idle]; auto. lia. }
      assert (D3 : engine_fits n step o \/ ~ engine_fits n step o).
      { destruct o as [rate d m| | | |r0 tv rate|r0 tv rate|r0 tv rate]; cbn [engine_fits]; auto.
        - lia.
        - lia.
        - destruct tv; auto.
        - apply pow2_dec.
        - apply pow2_dec. }
      tauto. }
    destruct D as [D|D]; auto.
    rewrite (run_crash U mass split H1 H2 H3 H6 garbage H5 o dt dts y t step M HN H4 D) in E. discriminate.
  - intros [HR HF].
    destruct (run_safe U mass split H1 H2 H3 H6 garbage H5 o (dt :: dts) y t step M HR HN HF H4) as (r & E & _). eauto.
Qed.
Print Assumptions C73_runs_iff.

(** ... and the state keeps its size *)
Theorem C73_size : forall T (U : NumOps T) (X : TextOps T) args fuel c o n mass split garbage y t step dts r,
  create_solver U X fuel (parse_arguments args) = Some (Some c) ->
  create_engine U X (parse_arguments args) = Some o -> ~ nested_tree o ->
  1 <= n -> (N.of_nat n < 2 ^ 31)%N -> length mass = n -> length y = 6 * n ->
  (forall k, length (garbage k) = 6 * n) -> (forall step t y, permuting (split step t y)) ->
  advise_all U (6 * n) (object_ef U n mass split o) garbage dts (cr_solver c) (object_engine o y t step) = Some r ->
  length (e_y (snd r)) = 6 * n.
Proof.
  intros T U X args fuel c o n mass split garbage y t step dts r Ec Eo HN H1 H2 H3 H4 H5 H6 E.
  destruct dts as [|dt dts]; [injection E as <-; exact H4|].
  destruct (proj1 (C73_runs_iff T U X args fuel c o n mass split garbage y t step dt dts Ec Eo HN H1 H2 H3 H4 H5 H6)
    (ex_intro _ r E)) as [HR HF].
  destruct (create_solver_made U X fuel _ Ec) as [M _].
  destruct (run_safe U mass split H1 H2 H3 H6 garbage H5 o (dt :: dts) y t step M HR HN HF H4) as (r' & E' & L).
  rewrite E in E'. injection E' as <-. exact L.
Qed.
Print Assumptions C73_size.

(** The documented command lines are not all safe.  [crashes args n step]: in every arithmetic, solver and
    engine are created, and the first step of a run of [n] bodies from step number [step] leaves an array
    (or divides by zero) whatever the bodies are. *)
Definition crashes (args : list string) (n step : nat) : Prop :=
  forall T (U : NumOps T) (X : TextOps T), exists c o,
    create_solver U X 2 (parse_arguments (map chars args)) = Some (Some c) /\
    create_engine U X (parse_arguments (map chars args)) = Some o /\
    forall mass split garbage y t dt dts,
      length mass = n -> length y = 6 * n ->
      (forall k, length (garbage k) = 6 * n) -> (forall step t y, permuting (split step t y)) ->
      advise_all U (6 * n) (object_ef U n mass split o) garbage (dt :: dts) (cr_solver c)
        (object_engine o y t step) = None.
Lemma crashes_intro args n step : 1 <= n -> (N.of_nat n < 2 ^ 31)%N ->
  (forall T (U : NumOps T) (X : TextOps T), exists c o,
    create_solver U X 2 (parse_arguments (map chars args)) = Some (Some c) /\
    create_engine U X (parse_arguments (map chars args)) = Some o /\ ~ nested_tree o /\
    ~ (rank_fits (cr_solver c) /\ (engine_fits n step o \/ idle (cr_solver c)))) -> crashes args n step.
Proof.
  intros H1 H2 H T U X. destruct (H T U X) as (c & o & Ec & Eo & HN & HC). exists c, o. split; auto. split; auto.
  intros mass split garbage y t dt dts H3 H4 H5 H6.
  destruct (create_solver_made U X 2 _ Ec) as [M _].
  exact (run_crash U mass split H1 H2 H3 H6 garbage H5 o dt dts y t step M HN H4 HC).
Qed.
Ltac crash := apply crashes_intro; [lia|lia|]; intros T U X; do 2 eexists;
  split; [vm_compute; reflexivity|]; split; [vm_compute; reflexivity|];
  split; [exact (fun H => H)|]; cbn [cr_solver rank_fits engine_fits idle ap_rank].

Theorem C73_command_line_refuted : exists args n step, crashes args n step.
Proof. exists ["--engine=simple"; "--solver=adams"; "--rank=6"]%string, 2, 0. crash. lia. Qed.
Print Assumptions C73_command_line_refuted.
(** the kinds of crash: Adams ranks that do not exist, a rank that is no number, block engine with a body
    count that is no multiple of 64, heap engines with a body count that is no power of two, an
    Ahmad-Cohen engine resumed at a step that is no multiple of its rate, a rate of zero *)
Theorem C73_crash_cases_refuted :
  crashes ["--engine=simple"; "--solver=adams"; "--rank=0"]%string 2 0 /\
  crashes ["--engine=simple"; "--solver=adams"; "--rank=six"]%string 2 0 /\
  crashes ["--engine=block"; "--solver=euler"]%string 100 0 /\
  crashes ["--engine=simple_bh"; "--tree_layout=heap"; "--solver=rk4"]%string 3 0 /\
  crashes ["--engine=simple_bh"; "--tree_layout=heap_stackless"; "--traverse_type=nested_tree"; "--solver=bs"]%string 100 0 /\
  crashes ["--engine=ah"; "--solver=rkf"]%string 2 7 /\
  crashes ["--engine=ah"; "--full_recompute_rate=0"; "--solver=rkf"]%string 2 0.
Proof.
  split; [crash; lia|]. split; [crash; lia|]. split; [crash; intros [_ [H|[]]]; discriminate|].
  split; [crash; intros [_ [(k & H)|[]]]|split; [crash; intros [_ [(k & H)|H]]|]].
  - destruct k as [|[|k]]; cbn in H; lia.
  - do 7 (destruct k as [|k]; [discriminate|]). rewrite !Nat.pow_succ_r' in H. pose proof (Nat.pow_nonzero 2 k). lia.
  - discriminate.
  - split; crash; intros [_ [H|[]]]; [destruct H as [_ H]; discriminate|lia].
Qed.
Print Assumptions C73_crash_cases_refuted.

(** hypotheses are met: binary64, Ahmad-Cohen engine, embedded and implicit tableaus *)
Example C73_example : let args := map chars ["--engine=ah"; "--solver=adams"; "--starter_solver=rkgl"; "--rank=5"]%string in
  exists c o, create_solver Fops (mkTextOps (fun _ => []) (fun _ => []) (fun _ => None)) 2 (parse_arguments args) = Some (Some c) /\
    create_engine Fops (mkTextOps (fun _ => []) (fun _ => []) (fun _ => None)) (parse_arguments args) = Some o /\
    ~ nested_tree o /\ rank_fits (cr_solver c) /\ engine_fits 2 3000 o /\
    forall y dts, length y = 12 -> exists r,
      advise_all Fops 12 (object_ef Fops 2 [nlit Fops 1; nlit Fops 2] (fun _ _ _ _ _ l => rev l) o) (fun _ => repeat (nlit Fops 7) 12)
        dts (cr_solver c) (object_engine o y (nlit Fops 0) 3000) = Some r.
Proof.
  do 2 eexists. split; [vm_compute; reflexivity|]. split; [vm_compute; reflexivity|].
  split; [exact (fun H => H)|]. split; [cbn [cr_solver rank_fits ap_rank]; lia|]. split; [split; [reflexivity|vm_compute; reflexivity]|].
  intros y dts Hy. destruct dts as [|dt dts]; [eexists; reflexivity|].
  eapply (C73_runs_iff _ Fops (mkTextOps (fun _ => []) (fun _ => []) (fun _ => None))
    (map chars ["--engine=ah"; "--solver=adams"; "--starter_solver=rkgl"; "--rank=5"]%string) 2 _ _ 2).
  - vm_compute. reflexivity.
  - vm_compute. reflexivity.
  - exact (fun H => H).
  - lia.
  - lia.
  - reflexivity.
  - exact Hy.
  - reflexivity.
  - intros s t z i d l. symmetry. apply Permutation_rev.
  - split; [cbn [cr_solver rank_fits ap_rank]; lia|]. left. split; [reflexivity|vm_compute; reflexivity].
Qed.
