(** C54, C55, C67: command line, solver factory, engine factory *)
From Coq Require Import Bool Ascii String List NArith ZArith Arith Lia.
From Verif Require Import Num Arr ModelText ModelData ModelButcher ModelFeagin ModelSolver ModelBH ModelArgs
  SpecSolver SpecArgs LemText LemArgs LemCase.
Import ListNotations.

(** ** C54 *)

(** The last assignment of a key counts, *)
Theorem C54_last_wins : forall args k v,
  lookup k (parse_arguments args) = Some v <->
  exists before arg after, args = before ++ arg :: after /\ assigns arg k v /\
    forall a v', In a after -> ~ assigns a k v'.
Proof. exact lookup_iff. Qed.
Print Assumptions C54_last_wins.
(** and a key has no value only if it is never assigned; *)
Theorem C54_default : forall args (k : string) default,
  (forall v, says args k v -> value (parse_arguments args) k default = v) /\
  (silent args k -> value (parse_arguments args) k default = default).
Proof.
  intros args k default. unfold value. split.
  - intros v H. now rewrite (proj2 (lookup_iff args (chars k) v) H).
  - intros H. now rewrite (proj2 (lookup_none_iff args (chars k)) H).
Qed.
Print Assumptions C54_default.
(** an argument of another form has no effect wherever it stands. *)
Theorem C54_malformed : forall before arg after,
  (forall k v, ~ assigns arg k v) ->
  parse_arguments (before ++ arg :: after) = parse_arguments (before ++ after).
Proof.
  intros before arg after H. rewrite !parse_app. cbn [fold_left]. now rewrite (parse_arg_other _ _ H).
Qed.
Print Assumptions C54_malformed.
(** Every key is either said or silent. *)
Theorem C54_total : forall args k, silent args k \/ exists v, says args k v.
Proof.
  intros args k. destruct (lookup (chars k) (parse_arguments args)) as [v|] eqn:E.
  - right. exists v. exact (proj1 (lookup_iff args (chars k) v) E).
  - left. exact (proj1 (lookup_none_iff args (chars k)) E).
Qed.
Print Assumptions C54_total.

Example C54_case : let args := map chars ["--solver=rk4"; "solver=bs"; "--a=b=c"; "--rank=3"; "--solver=euler"; "--"; "--x="; "--solver"]%string in
  lookup (chars "solver") (parse_arguments args) = Some (chars "euler") /\
  lookup (chars "rank") (parse_arguments args) = Some (chars "3") /\
  lookup (chars "a") (parse_arguments args) = None /\
  lookup (chars "x") (parse_arguments args) = Some [] /\
  (forall k v, ~ assigns (chars "--a=b=c") k v).
Proof.
  vm_compute parse_arguments. repeat split. intros k v (E & H1 & H2).
  destruct (split_two "="%char (k ++ "="%char :: v) k v) as [_ Q]. specialize (Q (conj eq_refl (conj H1 H2))).
  change (chars "--a=b=c") with (chars "--" ++ chars "a=b=c") in E. apply app_inv_head in E. rewrite <- E in Q. discriminate.
Qed.

(** ** C55 *)

(** the names are different texts *)
Lemma is_name : forall t s, text_eqb t (chars s) = true <-> t = chars s.
Proof. intros t s. destruct (text_eqb_spec t (chars s)); intuition congruence. Qed.
Lemma value_says : forall args k default v, says_or args k default v -> value (parse_arguments args) k default = v.
Proof.
  intros args k default v [H|[H ->]]; now apply (C54_default args k default).
Qed.


Lemma look_says : forall args k v, says args k v -> lookup (chars k) (parse_arguments args) = Some v.
Proof. intros args k v H. exact (proj2 (lookup_iff args (chars k) v) H). Qed.
Lemma look_silent : forall args k, silent args k -> lookup (chars k) (parse_arguments args) = None.
Proof. intros args k H. exact (proj2 (lookup_none_iff args (chars k)) H). Qed.

Lemma unsigned_wanted : forall args k d, wants_N (2 ^ 32) args k d (unsigned (parse_arguments args) k d).
Proof.
  intros args k d. unfold unsigned, wants_N. split; [|split].
  - intros H. now rewrite (look_silent _ _ H).
  - intros w Hw H. rewrite (look_says _ _ _ H). unfold to_uint. rewrite to_ulonglong_show by lia.
    now apply N.mod_small.
  - intros v H E. rewrite (look_says _ _ _ H). unfold to_uint. now rewrite E.
Qed.
Lemma ull_wanted : forall args k d,
  wants_N (2 ^ 64) args k d (match lookup (chars k) (parse_arguments args) with Some v => to_ull v | None => d end).
Proof.
  intros args k d. unfold wants_N. split; [|split].
  - intros H. now rewrite (look_silent _ _ H).
  - intros w Hw H. rewrite (look_says _ _ _ H). unfold to_ull. now rewrite to_ulonglong_show.
  - intros v H E. rewrite (look_says _ _ _ H). unfold to_ull. now rewrite E.
Qed.
Lemma rank_wanted : forall args,
  wants_rank args (match lookup (chars "rank") (parse_arguments args) with Some v => to_size_t (to_int v) | None => 1%N end).
Proof.
  intros args. unfold wants_rank. split; [|split; [|split]].
  - intros H. now rewrite (look_silent _ _ H).
  - intros w Hw H. rewrite (look_says _ _ _ H). unfold to_int. rewrite to_longlong_show by lia. cbv zeta.
    rewrite Z.mod_small by lia. destruct (Z.ltb_spec (Z.of_N w) (2 ^ 31)); [|lia].
    unfold to_size_t. rewrite Z.mod_small by lia. apply N2Z.id.
  - intros w Hw H. rewrite (look_says _ _ _ H). unfold to_int. rewrite to_longlong_minus by lia. cbv zeta.
    assert (E : ((- Z.of_N w) mod 2 ^ 32 = 2 ^ 32 - Z.of_N w)%Z)
      by (symmetry; apply (Z.mod_unique_pos _ _ (-1)); lia).
    rewrite E. destruct (Z.ltb_spec (2 ^ 32 - Z.of_N w) (2 ^ 31)); [lia|].
    unfold to_size_t. replace (2 ^ 32 - Z.of_N w - 2 ^ 32)%Z with (- Z.of_N w)%Z by lia.
    assert (E2 : ((- Z.of_N w) mod 2 ^ 64 = 2 ^ 64 - Z.of_N w)%Z)
      by (symmetry; apply (Z.mod_unique_pos _ _ (-1)); lia).
    rewrite E2. lia.
  - intros v H E. rewrite (look_says _ _ _ H). unfold to_int. now rewrite E.
Qed.
Lemma flag_wanted : forall args k, wants_flag args k (flag (parse_arguments args) k false).
Proof.
  intros args k. unfold flag, wants_flag. split.
  - intros H. now rewrite (look_silent _ _ H).
  - intros v H. rewrite (look_says _ _ _ H). unfold to_bool.
    rewrite negb_false_iff, !orb_true_iff, <- (lower_word v (chars "false")). change (map lower (chars "false")) with (chars "false").
    destruct v as [|a v]; [cbn; intuition|].
    destruct (text_eqb_spec (map lower (a :: v)) (chars "0")) as [E|E];
    destruct (text_eqb_spec (map lower (a :: v)) (chars "false")) as [F|F]; cbn [is_nil map].
    + rewrite E in F. discriminate.
    + split; [intros _|auto]. right; left. now apply lower_zero.
    + split; [intros _|auto]. now right; right.
    + split; [intros [Q|[Q|Q]]; discriminate|]. intros [Q|[Q|Q]]; [discriminate| |contradiction].
      exfalso. apply E. now rewrite Q.
Qed.
Lemma number_wanted : forall (T : Type) (U : NumOps T) (X : TextOps T) args k d,
  wants_number U X args k d (number U X (parse_arguments args) k d).
Proof.
  intros T U X args k d. unfold number, wants_number. split; [|split].
  - intros H. now rewrite (look_silent _ _ H).
  - intros v y H E. rewrite (look_says _ _ _ H). now rewrite E.
  - intros v H E. rewrite (look_says _ _ _ H). now rewrite E.
Qed.

Section Create.
  Context {T : Type} (U : NumOps T) (X : TextOps T).

  (** all solvers but Adams, one call *)
  Lemma create_single : forall fuel m name, value m "solver" [] = chars name -> In name single_solvers ->
    exists c, create_solver U X (S fuel) m = Some (Some c) /\ is_a U name (cr_solver c) /\ fresh (cr_solver c) /\
      cr_min_step c = number U X m "min_step" (ndiv U (nlit U 1) (nlit U 1000000000)) /\
      cr_max_step c = number U X m "max_step" (ndiv U (nlit U 1) (nlit U 100)) /\
      cr_clamp c = flag m "clamp" false.
  Proof.
    intros fuel m name E H. cbn [create_solver]. rewrite E. cbv zeta.
    cbn [single_solvers In] in H. repeat (destruct H as [<-|H]); [..|destruct H].
    all: match goal with |- context [text_eqb (chars ?s) (chars "adams")] =>
           change (text_eqb (chars s) (chars "adams")) with false end; cbv iota.
    all: repeat match goal with
           | |- context [if text_eqb (chars ?a) (chars ?b) then _ else _] =>
               let r := eval vm_compute in (text_eqb (chars a) (chars b)) in
               change (text_eqb (chars a) (chars b)) with r; cbv iota
           end.
    all: cbn [obind]; eexists; split; [reflexivity|]; cbn [cr_solver cr_min_step cr_max_step cr_clamp].
    all: split; [constructor; reflexivity|]; repeat split.
  Qed.
  Lemma create_unknown : forall fuel m, value m "solver" [] <> chars "adams" ->
    (forall name, In name single_solvers -> value m "solver" [] <> chars name) ->
    create_solver U X (S fuel) m = Some None.
  Proof.
    intros fuel m H1 H2. cbn [create_solver]. set (t := value m "solver" []) in *. cbv zeta.
    assert (N1 : text_eqb t (chars "adams") = false) by (destruct (text_eqb_spec t (chars "adams")); congruence).
    rewrite N1.
    assert (N2 : forall name, In name single_solvers -> text_eqb t (chars name) = false).
    { intros name H. destruct (text_eqb_spec t (chars name)); [|reflexivity]. exfalso. now apply (H2 name). }
    unfold single_solvers in N2.
    repeat (rewrite N2 by (cbn [In]; tauto)). reflexivity.
  Qed.
  Lemma create_adams : forall fuel m, value m "solver" [] = chars "adams" ->
    create_solver U X (S fuel) m =
    (let* starter := create_solver U X fuel (assign (chars "solver") (value m "starter_solver" (chars "euler")) m) in
     match starter with
     | None => Some None
     | Some c =>
         let rank := match lookup (chars "rank") m with Some v => to_size_t (to_int v) | None => 1%N end in
         Some (Some (mkCreated
           (SAdams (mkAdamsParams (N.to_nat rank) (flag m "correction" false)) (cr_solver c) None 0)
           (number U X m "min_step" (ndiv U (nlit U 1) (nlit U 1000000000)))
           (number U X m "max_step" (ndiv U (nlit U 1) (nlit U 100))) (flag m "clamp" false)))
     end).
  Proof.
    intros fuel m E. cbn [create_solver]. rewrite E. cbv zeta.
    change (text_eqb (chars "adams") (chars "adams")) with true. cbv iota.
    destruct (create_solver U X fuel _) as [[c|]|]; reflexivity.
  Qed.

  Lemma value_assign : forall v m, value (assign (chars "solver") v m) "solver" [] = v.
  Proof. intros v m. unfold value. rewrite lookup_assign, text_eqb_refl. reflexivity. Qed.
  Lemma value_assign_starter : forall v m d, value (assign (chars "solver") v m) "starter_solver" d = value m "starter_solver" d.
  Proof. intros v m d. unfold value. rewrite lookup_assign. reflexivity. Qed.
End Create.

Definition known (name : text) : Prop := exists s, In s single_solvers /\ name = chars s.
Lemma known_dec : forall t, known t \/ (forall s, In s single_solvers -> t <> chars s).
Proof.
  intros t. unfold known. generalize single_solvers as l. induction l as [|a l IH].
  - right. intros s [].
  - destruct (text_eqb_spec t (chars a)) as [->|H]; [left; exists a; split; [now left|reflexivity]|].
    destruct IH as [(s & H1 & H2)|IH]; [left; exists s; split; [now right|exact H2]|].
    right. intros s [<-|Hs]; auto.
Qed.

(** A known type gives a solver of this type; an unknown one gives none; adams depends on its starter
    in the same way. *)
Theorem C55_answers : forall (T : Type) (U : NumOps T) (X : TextOps T) args type starter fuel,
  says_or args "solver" [] type -> says_or args "starter_solver" (chars "euler") starter -> 2 <= fuel ->
  (forall name, In name single_solvers -> type = chars name ->
     exists c, create_solver U X fuel (parse_arguments args) = Some (Some c) /\
       is_a U name (cr_solver c) /\ fresh (cr_solver c)) /\
  (type = chars "adams" -> forall name, In name single_solvers -> starter = chars name ->
     exists c p st, create_solver U X fuel (parse_arguments args) = Some (Some c) /\
       cr_solver c = SAdams p st None 0 /\ is_a U name st /\ fresh st) /\
  (type <> chars "adams" -> ~ known type -> create_solver U X fuel (parse_arguments args) = Some None) /\
  (type = chars "adams" -> starter <> chars "adams" -> ~ known starter ->
     create_solver U X fuel (parse_arguments args) = Some None).
Proof.
  intros T U X args type starter fuel H1 H2 Hf.
  apply value_says in H1. apply value_says in H2. set (m := parse_arguments args) in *.
  destruct fuel as [|[|fuel]]; try lia. split; [|split; [|split]].
  - intros name Hn ->. destruct (create_single U X (S fuel) m name H1 Hn) as (c & -> & A & B & _). eauto.
  - intros -> name Hn ->. rewrite (create_adams U X (S fuel) m H1). rewrite H2.
    destruct (create_single U X fuel (assign (chars "solver") (chars name) m) name) as (c & -> & A & B & _); auto.
    { apply value_assign. }
    cbn [obind]. eexists _, _, (cr_solver c). split; [reflexivity|]. cbn [cr_solver]. auto.
  - intros Ha Hk. apply create_unknown; rewrite H1; auto. intros name Hn E. apply Hk. exists name. auto.
  - intros -> Hs Hk. rewrite (create_adams U X (S fuel) m H1). rewrite H2.
    rewrite create_unknown; [reflexivity|rewrite value_assign; auto|].
    intros name Hn. rewrite value_assign. intros E. apply Hk. exists name. auto.
Qed.
Print Assumptions C55_answers.

(** The factory answers if and only if it is not asked for an Adams solver started by an Adams solver. *)
Theorem C55_ends : forall (T : Type) (U : NumOps T) (X : TextOps T) args,
  (exists fuel, create_solver U X fuel (parse_arguments args) <> None) <->
  ~ (says args "solver" (chars "adams") /\ says args "starter_solver" (chars "adams")).
Proof.
  intros T U X args. set (m := parse_arguments args). split.
  - intros (fuel & Hf) [S1 S2]. apply Hf. clear Hf.
    assert (V1 : value m "solver" [] = chars "adams") by (apply value_says; now left).
    assert (V2 : value m "starter_solver" (chars "euler") = chars "adams") by (apply value_says; now left).
    clearbody m. clear S1 S2. revert m V1 V2. induction fuel as [|fuel IH]; intros m V1 V2; [reflexivity|].
    rewrite (create_adams U X fuel m V1), IH; [reflexivity|rewrite value_assign; exact V2|rewrite value_assign_starter; exact V2].
  - intros H. exists 2.
    assert (A : forall k d, d <> chars "adams" -> exists t, says_or args k d t /\ (t = chars "adams" -> says args k (chars "adams"))).
    { intros k d Hd. destruct (C54_total args k) as [Q|(t & Q)].
      - exists d. split; [right; auto|]. intros E. contradiction.
      - exists t. split; [now left|]. intros ->. exact Q. }
    destruct (A "solver"%string []) as (t & S1 & S1'); [discriminate|].
    destruct (A "starter_solver"%string (chars "euler")) as (t2 & S2 & S2'); [discriminate|].
    destruct (C55_answers T U X args t t2 2 S1 S2 (le_n 2)) as (Q1 & Q2 & Q3 & Q4).
    fold m in Q1, Q2, Q3, Q4.
    destruct (text_eqb_spec t (chars "adams")) as [->|Ht].
    + destruct (text_eqb_spec t2 (chars "adams")) as [->|Ht2]; [exfalso; apply H; auto|].
      destruct (known_dec t2) as [(s & Hs & ->)|Hk].
      * destruct (Q2 eq_refl s Hs eq_refl) as (c & p & st & -> & _). discriminate.
      * rewrite Q4; auto; [discriminate|]. intros (s & Hs & ->). now apply (Hk s).
    + destruct (known_dec t) as [(s & Hs & ->)|Hk].
      * destruct (Q1 s Hs eq_refl) as (c & -> & _). discriminate.
      * rewrite Q3; auto; [discriminate|]. intros (s & Hs & ->). now apply (Hk s).
Qed.
Print Assumptions C55_ends.
Theorem C55_answers_refuted : exists args, forall (T : Type) (U : NumOps T) (X : TextOps T) fuel,
  create_solver U X fuel (parse_arguments args) = None.
Proof.
  exists (map chars ["--solver=adams"; "--starter_solver=adams"]%string). intros T U X fuel.
  destruct (create_solver U X fuel _) eqn:E; [|reflexivity]. exfalso.
  eapply (proj1 (C55_ends T U X _)); [exists fuel; rewrite E; discriminate|].
  split; refine (proj1 (lookup_iff _ _ _) _); reflexivity.
Qed.
Print Assumptions C55_answers_refuted.

(** The solver has the parameters asked for, or the documented defaults. *)
Theorem C55_parameters : forall (T : Type) (U : NumOps T) (X : TextOps T) args fuel c,
  create_solver U X fuel (parse_arguments args) = Some (Some c) -> wants_parameters U X args c.
Proof.
  intros T U X args fuel c E. destruct fuel as [|fuel]; [discriminate|].
  cbn [create_solver] in E. cbv zeta in E.
  match type of E with obind ?x _ = _ => destruct x as [[s|]|] eqn:Es; cbn [obind] in E; try discriminate end.
  injection E as <-. unfold wants_parameters. cbn [cr_min_step cr_max_step cr_clamp cr_solver].
  split; [apply number_wanted|]. split; [apply number_wanted|]. split; [apply flag_wanted|].
  repeat match type of Es with
    | (if ?b then _ else _) = _ => destruct b
    end; try discriminate.
  1: { destruct (create_solver U X fuel _) as [[c|]|]; cbn [obind] in Es; try discriminate.
       injection Es as <-. cbn [ap_rank ap_corr]. rewrite N2Nat.id. split; [apply rank_wanted|apply flag_wanted]. }
  all: injection Es as <-; unfold create_butcher_solver;
    cbn [bp_max_level bp_threshold rp_max_recursion rp_subdivisions rp_refine rp_threshold rp_correction rp_min_step];
    rewrite ?N2Nat.id; repeat match goal with |- _ /\ _ => split end;
    first [apply unsigned_wanted|apply number_wanted|apply flag_wanted|reflexivity|exact I].
Qed.
Print Assumptions C55_parameters.

Example C55_case : let args := map chars ["--solver=adams"; "--starter_solver=rkf"; "--rank=4"; "--correction=True"; "--max_recursion=x"; "--min_step=7"]%string in
  create_solver Zops (mkTextOps (fun _ => []) (fun _ => []) to_longlong) 2 (parse_arguments args) =
  Some (Some (mkCreated
    (SAdams (mkAdamsParams 4 true) (SButcher (mkRkParams (tab_rkf Zops) 0 8 0%Z 1 true 7%Z) None) None 0) 7%Z 0%Z false)) /\
  says args "starter_solver" (chars "rkf") /\ silent args "refine_steps_count".
Proof.
  split; [vm_compute; reflexivity|]. split.
  - refine (proj1 (lookup_iff _ _ _) _). reflexivity.
  - refine (proj1 (lookup_none_iff _ _) _). reflexivity.
Qed.

(** ** C67: engine factory *)
Theorem C67_engine : forall (T : Type) (U : NumOps T) (X : TextOps T) args,
  (forall e, create_engine U X (parse_arguments args) = Some e -> wants_engine U X args e) /\
  (create_engine U X (parse_arguments args) = None <-> ~ exists e, wants_engine U X args e).
Proof.
  intros T U X args. set (m := parse_arguments args).
  assert (A : forall e, create_engine U X m = Some e -> wants_engine U X args e).
  { intros e E. unfold create_engine in E. cbv zeta in E.
    assert (Y : forall s, text_eqb (value m "engine" []) (chars s) = true -> s <> ""%string -> says args "engine" (chars s)).
    { intros s Q Hs. apply is_name in Q. unfold value in Q.
      destruct (lookup (chars "engine") m) as [v|] eqn:L.
      - rewrite <- Q. exact (proj1 (lookup_iff args _ v) L).
      - exfalso. apply Hs. apply (f_equal string_of_list_ascii) in Q. unfold chars in Q.
        rewrite string_of_list_ascii_of_string in Q. cbn in Q. congruence. }
    assert (V : forall k d, says_or args k d (value m k d)).
    { intros k d. destruct (C54_total args k) as [Q|(v & Q)].
      - right. split; [exact Q|]. now apply (proj2 (C54_default args k d)).
      - left. unfold m. now rewrite (proj1 (C54_default args k d) v Q). }
    repeat match type of E with
    | (if text_eqb (value m "engine" []) _ then _ else _) = _ =>
        match type of E with (if ?b then _ else _) = _ => destruct b eqn:? end
    end; try discriminate; try (injection E as <-).
    - constructor; [apply Y; [assumption|discriminate]|apply unsigned_wanted|apply number_wanted|apply number_wanted].
    - constructor; apply Y; [assumption|discriminate].
    - constructor; apply Y; [assumption|discriminate].
    - constructor; apply Y; [assumption|discriminate].
    - match type of E with obind ?x _ = _ => destruct x as [tv|] eqn:Et; cbn [obind] in E; [|discriminate] end.
      eapply (@wants_bh T U X args (value m "tree_layout" (chars "tree")) (value m "traverse_type" (chars "cycle"))
                (number U X m "distance_to_node_radius_ratio" (nlit U 10)) tv _ e);
        [apply Y; [assumption|discriminate]|apply V|apply V|apply number_wanted|apply (ull_wanted args "tree_build_rate" 0)| |].
      + destruct (text_eqb (value m "traverse_type" (chars "cycle")) (chars "cycle")) eqn:Q; [apply is_name in Q; injection Et as <-; auto|].
        destruct (text_eqb (value m "traverse_type" (chars "cycle")) (chars "nested_tree")) eqn:Q2; [|discriminate].
        apply is_name in Q2. injection Et as <-. auto.
      + fold m. unfold tree_layout_from_str in E. set (l := value m "tree_layout" (chars "tree")) in *.
        destruct (text_eqb l (chars "tree")) eqn:Q1; [apply is_name in Q1; injection E as <-; auto|].
        destruct (text_eqb l (chars "heap")) eqn:Q2; [apply is_name in Q2; injection E as <-; auto|].
        destruct (text_eqb l (chars "heap_stackless")) eqn:Q3; [apply is_name in Q3; injection E as <-; auto|discriminate]. }
  split; [exact A|]. split.
  - intros E (e & W). unfold create_engine in E. cbv zeta in E.
    assert (V : forall s, says args "engine" (chars s) -> value m "engine" [] = chars s)
      by (intros s Q; exact (proj1 (C54_default args "engine" []) _ Q)).
    inversion W as [S|S|S|rate d f S|layout traverse ratio tv rate e' S Sl St _ _ Ct Cl]; subst; rewrite (V _ S) in E;
      try discriminate E.
    apply value_says in Sl. apply value_says in St. fold m in Sl, St. rewrite Sl, St in E.
    destruct Ct as [[-> _]|[-> _]]; destruct Cl as [[-> _]|[[-> _]|[-> _]]]; discriminate E.
  - intros H. destruct (create_engine U X m) as [e|] eqn:E; [|reflexivity]. exfalso. apply H. eauto.
Qed.
Print Assumptions C67_engine.

Example C67_case : let X := mkTextOps (fun _ => []) (fun _ => []) to_longlong in
  create_engine Zops X (parse_arguments (map chars ["--engine=simple_bh"; "--tree_layout=heap"; "--tree_build_rate=5"]%string)) =
    Some (EBhHeap 10%Z ett_cycle 5%N) /\
  create_engine Zops X (parse_arguments (map chars ["--engine=simple_bh"; "--tree_layout=list"]%string)) = None /\
  create_engine Zops X (parse_arguments []) = None.
Proof. repeat split; vm_compute; reflexivity. Qed.
