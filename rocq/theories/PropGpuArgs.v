(** The engine factory of a build for GPUs: C94. *)
From Coq Require Import Ascii String List NArith ZArith Bool Lia.
From Verif Require Import Num Arr ModelText ModelData ModelBH ModelArgs ModelGpuArgs SpecArgs SpecGpuArgs LemText LemArgs PropArgs.
From Verif Require ModelDevices SpecDevices PropDevices.
Import ListNotations.
Set Implicit Arguments.

(** ** C94 *)

Lemma int_wanted : forall args k d, wants_int args k d (match lookup (chars k) (parse_arguments args) with Some v => to_int v | None => d end).
Proof.
  intros args k d. unfold wants_int. split; [|split; [|split]].
  - intros H. now rewrite (look_silent _ _ H).
  - intros w Hw H. rewrite (look_says _ _ _ H). unfold to_int. rewrite to_longlong_show by lia. cbv zeta.
    rewrite Z.mod_small by lia. destruct (Z.ltb_spec (Z.of_N w) (2 ^ 31)); lia.
  - intros w Hw H. rewrite (look_says _ _ _ H). unfold to_int. rewrite to_longlong_minus by lia. cbv zeta.
    assert (E : ((- Z.of_N w) mod 2 ^ 32 = 2 ^ 32 - Z.of_N w)%Z)
      by (symmetry; apply (Z.mod_unique_pos _ _ (-1)); lia).
    rewrite E. destruct (Z.ltb_spec (2 ^ 32 - Z.of_N w) (2 ^ 31)); lia.
  - intros v H E. rewrite (look_says _ _ _ H). unfold to_int. now rewrite E.
Qed.
Lemma said : forall args k d, says_or args k d (value (parse_arguments args) k d).
Proof.
  intros args k d. destruct (C54_total args k) as [Q|(v & Q)].
  - right. split; [exact Q|]. now apply (proj2 (C54_default args k d)).
  - left. now rewrite (proj1 (C54_default args k d) v Q).
Qed.
Lemma cuda_wanted : forall w args ids, new_cuda w (value (parse_arguments args) "device" (chars "0")) = Some ids <-> wants_cuda w args ids.
Proof.
  intros w args ids. unfold new_cuda, wants_cuda. split.
  - intros H. set (s := value _ _ _) in *.
    destruct (mc_cuda w) as [n|] eqn:En.
    + destruct (ModelDevices.cuda_select (Some n) s [0%Z]) as [l good] eqn:E. destruct good; [|discriminate]. injection H as <-.
      exists s, n. split; [apply said|]. split; [reflexivity|]. exact (proj1 (proj1 (PropDevices.C92_cuda n s [0%Z] l)) E).
    + destruct (PropDevices.C92_cuda 0%Z s [0%Z] []) as (_ & _ & Q). destruct (ModelDevices.cuda_select None s [0%Z]) as [l good]. cbn in Q. subst good. discriminate.
  - intros (s & n & A & -> & C). apply value_says in A. rewrite A.
    pose proof (proj2 (proj1 (PropDevices.C92_cuda n s [0%Z] ids)) C) as ->. reflexivity.
Qed.
Lemma opencl_wanted : forall w args devs same,
  new_opencl w (value (parse_arguments args) "device" (chars "0:0")) = Some (devs, same) <-> wants_opencl w args devs same.
Proof.
  intros w args devs same. unfold new_opencl, wants_opencl. split.
  - intros H. set (s := value _ _ _) in *.
    destruct (ModelDevices.opencl_select (mc_platforms w) (mc_works w) s ([], false)) as [[l q] good] eqn:E. destruct good; [|discriminate].
    injection H as <- <-. apply PropDevices.C92_opencl in E. destruct E as (es & gs & H). exists s, es, gs. split; [apply said|exact H].
  - intros (s & es & gs & A & H). apply value_says in A. rewrite A.
    assert (E : ModelDevices.opencl_select (mc_platforms w) (mc_works w) s ([], false) = ((devs, same), true)) by (apply PropDevices.C92_opencl; exists es, gs; exact H).
    now rewrite E.
Qed.
Lemma layout_wanted : forall args tl,
  let l := tree_layout_from_str (value (parse_arguments args) "tree_layout" (chars "heap")) in
  (heap_layout l = true /\ tl = l) <-> wants_layout args tl.
Proof.
  intros args tl l. unfold wants_layout. split.
  - intros [H ->]. exists (value (parse_arguments args) "tree_layout" (chars "heap")). split; [apply said|]. unfold l in *. clear l.
    unfold tree_layout_from_str in *. set (v := value _ _ _) in *.
    destruct (text_eqb v (chars "tree")) eqn:Q1; [discriminate|].
    destruct (text_eqb v (chars "heap")) eqn:Q2; [apply is_name in Q2; auto|].
    destruct (text_eqb v (chars "heap_stackless")) eqn:Q3; [apply is_name in Q3; auto|discriminate].
  - intros (s & A & B). apply value_says in A. unfold l. rewrite A. destruct B as [[-> ->]|[-> ->]]; split; reflexivity.
Qed.
Lemma traverse_wanted : forall args tv,
  let s := value (parse_arguments args) "traverse_type" (chars "cycle") in
  (if text_eqb s (chars "cycle") then Some ett_cycle else if text_eqb s (chars "nested_tree") then Some ett_nested_tree else None) = Some tv <->
  wants_traverse args tv.
Proof.
  intros args tv s. unfold wants_traverse. split.
  - intros H. exists s. split; [apply said|].
    destruct (text_eqb s (chars "cycle")) eqn:Q1; [apply is_name in Q1; injection H as <-; auto|].
    destruct (text_eqb s (chars "nested_tree")) eqn:Q2; [apply is_name in Q2; injection H as <-; auto|discriminate].
  - intros (v & A & B). apply value_says in A. unfold s. rewrite A. destruct B as [[-> ->]|[-> ->]]; reflexivity.
Qed.

(** The factory answers with an object exactly if one is asked for that this build, this machine and the other arguments allow, and then
    with such an object. *)
Theorem C94_engine : forall (T : Type) (U : NumOps T) (X : TextOps T) cuda opencl w args,
  let made := create_any U X cuda opencl w (parse_arguments args) in
  (forall g, made = Some (inr g) -> wants_gpu U X cuda opencl w args g) /\
  (forall e, made = Some (inl e) -> wants_engine U X args e) /\
  (made = None <-> (~ exists g, wants_gpu U X cuda opencl w args g) /\ ~ exists e, wants_engine U X args e).
Proof.
  intros T U X cuda opencl w args made. set (m := parse_arguments args) in *.
  assert (Y : forall s, text_eqb (value m "engine" []) (chars s) = true -> s <> ""%string -> says args "engine" (chars s)).
  { intros s Q Hs. apply is_name in Q. unfold value in Q.
    destruct (lookup (chars "engine") m) as [v|] eqn:L.
    - rewrite <- Q. exact (proj1 (lookup_iff args _ v) L).
    - exfalso. apply Hs. apply (f_equal string_of_list_ascii) in Q. unfold chars in Q.
      rewrite string_of_list_ascii_of_string in Q. cbn in Q. congruence. }
  assert (W : forall s, says args "engine" (chars s) -> value m "engine" [] = chars s)
    by (intros s Q; exact (proj1 (C54_default args "engine" []) _ Q)).
  assert (A : forall g, made = Some (inr g) -> wants_gpu U X cuda opencl w args g).
  { intros g. unfold made, create_any. cbv zeta.
    destruct (cuda && text_eqb (value m "engine" []) (chars "cuda")) eqn:E1.
    { apply andb_prop in E1. destruct E1 as [C E]. unfold create_cuda. intros H. destruct (new_cuda w _) as [ids|] eqn:N; [|discriminate].
      cbn [obind] in H. injection H as <-. apply cuda_wanted in N.
      constructor; auto; [apply Y; [exact E|discriminate]|apply int_wanted|apply flag_wanted]. }
    destruct (cuda && text_eqb (value m "engine" []) (chars "cuda_bh")) eqn:E2.
    { apply andb_prop in E2. destruct E2 as [C E]. unfold create_cuda_bh. intros H. destruct (new_cuda w _) as [ids|] eqn:N; [|discriminate].
      cbn [obind] in H. injection H as <-. apply cuda_wanted in N.
      constructor; auto; [apply Y; [exact E|discriminate]|apply int_wanted|apply flag_wanted|apply number_wanted|apply (ull_wanted args "tree_build_rate" 0)]. }
    destruct (cuda && text_eqb (value m "engine" []) (chars "cuda_bh_tex")) eqn:E3.
    { apply andb_prop in E3. destruct E3 as [C E]. unfold create_cuda_bh_tex. intros H.
      destruct (heap_layout _) eqn:L; cbn [negb] in H; [|discriminate]. destruct (new_cuda w _) as [ids|] eqn:N; [|discriminate].
      cbn [obind] in H. injection H as <-. apply cuda_wanted in N.
      constructor; auto; [apply Y; [exact E|discriminate]|apply int_wanted|apply flag_wanted|apply number_wanted|apply (ull_wanted args "tree_build_rate" 0)|].
      apply layout_wanted. auto. }
    destruct (opencl && text_eqb (value m "engine" []) (chars "opencl")) eqn:E4.
    { apply andb_prop in E4. destruct E4 as [C E]. unfold create_opencl. intros H. destruct (new_opencl w _) as [[devs same]|] eqn:N; [|discriminate].
      cbn [obind fst snd] in H. injection H as <-. apply opencl_wanted in N.
      constructor; auto; [apply Y; [exact E|discriminate]|apply int_wanted]. }
    destruct (opencl && text_eqb (value m "engine" []) (chars "opencl_bh")) eqn:E5.
    { apply andb_prop in E5. destruct E5 as [C E]. unfold create_opencl_bh. cbv zeta. intros H.
      destruct (heap_layout _) eqn:L; cbn [negb] in H; [|discriminate].
      match type of H with obind (obind ?o _) _ = _ => destruct o as [tv|] eqn:Et; cbn [obind] in H; [|discriminate] end.
      destruct (new_opencl w _) as [[devs same]|] eqn:N; [|discriminate].
      cbn [obind fst snd] in H. injection H as <-. apply opencl_wanted in N.
      constructor; auto; [apply Y; [exact E|discriminate]|apply int_wanted|apply number_wanted|apply (ull_wanted args "tree_build_rate" 0)| |].
      - apply layout_wanted. auto.
      - apply traverse_wanted. exact Et. }
    destruct (create_engine U X m); discriminate. }
  assert (B : forall e, made = Some (inl e) -> create_engine U X m = Some e).
  { intros e. unfold made, create_any. cbv zeta.
    repeat match goal with |- (if ?c then _ else _) = _ -> _ => destruct c; [match goal with |- obind ?o _ = _ -> _ => destruct o; discriminate end|] end.
    destruct (create_engine U X m); cbn [obind]; intros H; congruence. }
  split; [exact A|]. split; [intros e E; apply (C67_engine T U X args); now apply B|]. split.
  - intros E. split.
    + intros (g & G). unfold made, create_any in E. cbv zeta in E.
      inversion G as [ids b nccl C S H1 H2 H3|ids b nccl ratio rate C S H1 H2 H3 H4 H5|ids b nccl ratio rate tl C S H1 H2 H3 H4 H5 H6|
        devs same b C S H1 H2|devs same b ratio tv rate tl C S H1 H2 H3 H4 H5 H6]; subst; rewrite (W _ S) in E; cbn [andb] in E;
        repeat match type of E with context [text_eqb (chars ?x) (chars ?y)] =>
          let v := eval vm_compute in (text_eqb (chars x) (chars y)) in change (text_eqb (chars x) (chars y)) with v in E end;
        rewrite ?andb_false_r in E; cbn [andb] in E.
      * apply cuda_wanted in H1. unfold create_cuda in E. fold m in H1. rewrite H1 in E. discriminate.
      * apply cuda_wanted in H1. unfold create_cuda_bh in E. fold m in H1. rewrite H1 in E. discriminate.
      * apply cuda_wanted in H1. apply layout_wanted in H6. unfold create_cuda_bh_tex in E. fold m in H1, H6. rewrite (proj1 H6), H1 in E. discriminate.
      * apply opencl_wanted in H1. unfold create_opencl in E. fold m in H1. rewrite H1 in E. discriminate.
      * apply opencl_wanted in H1. apply layout_wanted in H5. apply traverse_wanted in H6. unfold create_opencl_bh in E. cbv zeta in E. fold m in H1, H5, H6.
        rewrite (proj1 H5) in E. cbn [negb] in E. cbv zeta in H6. rewrite H6 in E. cbn [obind] in E. rewrite H1 in E. discriminate.
    + intros (e & G). assert (Q : create_engine U X m <> None) by (intros Q; apply (proj2 (C67_engine T U X args)) in Q; apply Q; eauto).
      unfold made, create_any in E. cbv zeta in E.
      inversion G as [S|S|S|rate d f S|layout traverse ratio tv rate e' S Sl St _ _ Ct Cl]; subst; rewrite (W _ S) in E;
        repeat match type of E with context [text_eqb (chars ?x) (chars ?y)] =>
          let v := eval vm_compute in (text_eqb (chars x) (chars y)) in change (text_eqb (chars x) (chars y)) with v in E end;
        rewrite ?andb_false_r in E; cbn [andb] in E; destruct (create_engine U X m); cbn [obind] in E; congruence.
  - intros [H1 H2]. destruct made as [[e|g]|] eqn:E; [| |reflexivity]; exfalso.
    + apply H2. exists e. apply (C67_engine T U X args). now apply B.
    + apply H1. exists g. now apply A.
Qed.
Print Assumptions C94_engine.

(** A build without the GPU engines is the factory of C67. *)
Theorem C94_plain : forall (T : Type) (U : NumOps T) (X : TextOps T) w m,
  create_any U X false false w m = option_map inl (create_engine U X m).
Proof. intros T U X w m. unfold create_any. cbn [andb]. destruct (create_engine U X m); reflexivity. Qed.
Print Assumptions C94_plain.

(** The block size is not checked: on any machine with a device an engine with blocks of no bodies can be had, also by a misspelt number. *)
Theorem C94_block_size_refuted : forall (T : Type) (U : NumOps T) (X : TextOps T) w n, mc_cuda w = Some n -> (0 < n)%Z ->
  exists args g, create_any U X true true w (parse_arguments args) = Some (inr g) /\ block_size g = 0%Z /\
    says args "block_size" (chars "64x").
Proof.
  intros T U X w n Hw Hn. exists (map chars ["--engine=cuda"; "--block_size=64x"]%string), (@GCuda T [0%Z] 0 false).
  split; [|split; [reflexivity|]].
  - set (m := parse_arguments _). vm_compute in m. subst m. unfold create_any. cbv zeta.
    match goal with |- context [@create_cuda T w ?m] => change (@create_cuda T w m) with (let* ids := new_cuda w (chars "0") in Some (@GCuda T ids 0 false)) end.
    unfold new_cuda. rewrite Hw. unfold ModelDevices.cuda_select.
    change (ModelText.split_skip ","%char (chars "0")) with [chars "0"]. cbn [is_nil ModelDevices.cuda_ids].
    change (ModelDevices.to_int (chars "0")) with (Some 0%Z). cbn [Z.ltb Z.compare orb].
    destruct (Z.leb_spec n 0); [lia|]. reflexivity.
  - refine (proj1 (lookup_iff _ _ _) _). reflexivity.
Qed.
Print Assumptions C94_block_size_refuted.

(** A machine with two CUDA devices and one OpenCL platform with two devices. *)
Example C94_case : let X := mkTextOps (fun _ => []) (fun _ => []) to_longlong in
  let w := mkMachine (Some 2%Z) [2] (fun _ _ => true) in
  let made c o l := create_any Zops X c o w (parse_arguments (map chars l)) in
  made true true ["--engine=cuda_bh_tex"; "--device=1,0"; "--tree_layout=heap_stackless"; "--block_size=32"]%string =
    Some (inr (GCudaBhTex [1%Z; 0%Z] 32 false 10%Z 0 etl_heap_stackless)) /\
  made true true ["--engine=opencl_bh"; "--device=0:1"; "--traverse_type=nested_tree"]%string =
    Some (inr (GOpenclBh [ModelDevices.mkDevice 0 1 0] true 64 10%Z ett_nested_tree 0 etl_heap)) /\
  made true true ["--engine=cuda_bh_tex"; "--tree_layout=tree"]%string = None /\
  made true true ["--engine=cuda"; "--device=2"]%string = None /\
  made true true ["--engine=opencl"; "--device=0:0,1,0"]%string = None /\
  made false true ["--engine=cuda"]%string = None /\
  made true true ["--engine=simple"]%string = Some (inl ESimple).
Proof. repeat split; vm_compute; reflexivity. Qed.
