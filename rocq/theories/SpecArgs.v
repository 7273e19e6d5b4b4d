(** Specification vocabulary for the command line and the factories *)
From Coq Require Import Ascii String List NArith ZArith Arith.
From Verif Require Import Num Arr ModelText ModelData ModelButcher ModelFeagin ModelSolver ModelBH ModelArgs SpecCase.
Import ListNotations.
Set Implicit Arguments.

(** the argument [arg] says [--k=v] *)
Definition assigns (arg k v : text) : Prop :=
  arg = chars "--" ++ k ++ "="%char :: v /\ ~ In "="%char k /\ ~ In "="%char v.

(** what the user asked for *)
Definition says (args : list text) (k : string) (v : text) : Prop :=
  exists before arg after, args = before ++ arg :: after /\ assigns arg (chars k) v /\
    forall a v', In a after -> ~ assigns a (chars k) v'.
Definition silent (args : list text) (k : string) : Prop :=
  forall arg v, In arg args -> ~ assigns arg (chars k) v.
(** ... with a default *)
Definition says_or (args : list text) (k : string) (default v : text) : Prop :=
  says args k v \/ (silent args k /\ v = default).

(** the value wanted for an unsigned parameter: a decimal numeral means itself, a text that is no
    number means 0 *)
Definition wants_N (bound : N) (args : list text) (k : string) (default n : N) : Prop :=
  (silent args k -> n = default) /\
  (forall w, (w < bound)%N -> says args k (show_N w) -> n = w) /\
  (forall v, says args k v -> to_ulonglong v = None -> n = 0%N).
(** ... a 32 bit integer stored in a 64 bit unsigned one *)
Definition wants_rank (args : list text) (n : N) : Prop :=
  (silent args "rank" -> n = 1%N) /\
  (forall w, (w < 2 ^ 31)%N -> says args "rank" (show_N w) -> n = w) /\
  (forall w, (0 < w <= 2 ^ 31)%N -> says args "rank" ("-"%char :: show_N w) -> n = (2 ^ 64 - w)%N) /\
  (forall v, says args "rank" v -> to_longlong v = None -> n = 0%N).
(** ... a switch: off if not given, empty, 0 or false *)
Definition wants_flag (args : list text) (k : string) (b : bool) : Prop :=
  (silent args k -> b = false) /\
  (forall v, says args k v -> (b = false <-> v = [] \/ v = chars "0" \/ same_word v (chars "false"))).
(** ... a number: a text that is no number means 0 *)
Definition wants_number {T : Type} (U : NumOps T) (X : TextOps T) (args : list text) (k : string) (default x : T) : Prop :=
  (silent args k -> x = default) /\
  (forall v y, says args k v -> t_read X v = Some y -> x = y) /\
  (forall v, says args k v -> t_read X v = None -> x = nlit U 0).

Section S.
  Context {T : Type} (U : NumOps T).
  (** [is_a name s]: the object [s] is a solver of the type called [name] *)
  Inductive is_a : string -> @solver T -> Prop :=
  | is_adams p st s n : is_a "adams" (SAdams p st s n)
  | is_bs p s : is_a "bs" (SBs p s)
  | is_euler s : is_a "euler" (SEuler s)
  | is_midpoint s : is_a "midpoint" (SMidpoint s)
  | is_stetter s : is_a "midpoint-st" (SStetter s)
  | is_rk4 s : is_a "rk4" (SRk4 s)
  | is_trapeze r s : is_a "trapeze" (STrapeze r s)
  | is_rkck p s : rp_table p = tab_rkck U -> is_a "rkck" (SButcher p s)
  | is_rkdp p s : rp_table p = tab_rkdp U -> is_a "rkdp" (SButcher p s)
  | is_rkdverk p s : rp_table p = tab_rkdverk U -> is_a "rkdverk" (SButcher p s)
  | is_rkf p s : rp_table p = tab_rkf U -> is_a "rkf" (SButcher p s)
  | is_rkfeagin10 p s : rp_table p = tab_rkfeagin10 U -> is_a "rkfeagin10" (SButcher p s)
  | is_rkfeagin12 p s : rp_table p = tab_rkfeagin12 U -> is_a "rkfeagin12" (SButcher p s)
  | is_rkfeagin14 p s : rp_table p = tab_rkfeagin14 U -> is_a "rkfeagin14" (SButcher p s)
  | is_rkgl p s : rp_table p = tab_rkgl U -> is_a "rkgl" (SButcher p s)
  | is_rklc p s : rp_table p = tab_rklc U -> is_a "rklc" (SButcher p s).
  (** the names of README.md, except adams *)
  Definition single_solvers : list string :=
    ["bs"; "euler"; "midpoint"; "midpoint-st"; "rk4"; "rkck"; "rkdp"; "rkdverk"; "rkf"; "rkfeagin10";
     "rkfeagin12"; "rkfeagin14"; "rkgl"; "rklc"; "trapeze"]%string.

  Context (X : TextOps T).
  Let small (d : Z) : T := ndiv U (nlit U 1) (nlit U d).
  (** the documented parameters of a solver, with their defaults *)
  Definition wants_parameters (args : list text) (c : @created T) : Prop :=
    wants_number U X args "min_step" (small 1000000000) (cr_min_step c) /\
    wants_number U X args "max_step" (small 100) (cr_max_step c) /\
    wants_flag args "clamp" (cr_clamp c) /\
    match cr_solver c with
    | SAdams p _ _ _ => wants_rank args (N.of_nat (ap_rank p)) /\ wants_flag args "correction" (ap_corr p)
    | SBs p _ =>
        wants_N (2 ^ 32) args "max_level" 8 (N.of_nat (bp_max_level p)) /\
        wants_number U X args "error_threshold" (small 100000000000) (bp_threshold p)
    | STrapeze r _ => wants_N (2 ^ 32) args "refine_steps_count" 1 (N.of_nat r)
    | SButcher p _ =>
        wants_N (2 ^ 32) args "max_recursion" 8 (N.of_nat (rp_max_recursion p)) /\
        wants_N (2 ^ 32) args "substep_subdivisions" 8 (N.of_nat (rp_subdivisions p)) /\
        wants_N (2 ^ 32) args "refine_steps_count" 1 (N.of_nat (rp_refine p)) /\
        wants_number U X args "error_threshold" (small 10000) (rp_threshold p) /\
        wants_flag args "correction" (rp_correction p) /\
        rp_min_step p = cr_min_step c
    | _ => True
    end.

  (** the engine asked for *)
  Inductive wants_engine (args : list text) : @engine_object T -> Prop :=
  | wants_simple : says args "engine" (chars "simple") -> wants_engine args ESimple
  | wants_openmp : says args "engine" (chars "openmp") -> wants_engine args EOpenmp
  | wants_block : says args "engine" (chars "block") -> wants_engine args EBlock
  | wants_ah rate d f : says args "engine" (chars "ah") ->
      wants_N (2 ^ 32) args "full_recompute_rate" 1000 rate ->
      wants_number U X args "max_dist" (nlit U 10) d ->
      wants_number U X args "min_force" (small 10000) f -> wants_engine args (EAh rate d f)
  | wants_bh layout traverse ratio tv rate e : says args "engine" (chars "simple_bh") ->
      says_or args "tree_layout" (chars "tree") layout ->
      says_or args "traverse_type" (chars "cycle") traverse ->
      wants_number U X args "distance_to_node_radius_ratio" (nlit U 10) ratio ->
      wants_N (2 ^ 64) args "tree_build_rate" 0 rate ->
      (traverse = chars "cycle" /\ tv = ett_cycle \/ traverse = chars "nested_tree" /\ tv = ett_nested_tree) ->
      (layout = chars "tree" /\ e = EBhTree ratio tv rate \/
       layout = chars "heap" /\ e = EBhHeap ratio tv rate \/
       layout = chars "heap_stackless" /\ e = EBhHeapStackless ratio tv rate) -> wants_engine args e.
End S.
