(** Command line and factories: nbody/nbody_arg_parser.cpp, nbody/nbody_solvers.cpp,
    nbody/nbody_engines.cpp, nbody/nbody_engine_simple_bh.cpp:111-127.

    The argument vector is the list of arguments after the program name.  Values are texts, because
    the parser stores nothing else.  Qt's conversions of a text value give 0 (or false) when the text
    is no number; integers are taken modulo 2^32.  Diagnostics are left out.  The build has neither
    HAVE_CUDA nor HAVE_OPENCL. *)
From Coq Require Import Ascii String List NArith ZArith Arith.
From Verif Require Import Num Arr ModelText ModelData ModelButcher ModelFeagin ModelSolver ModelBH.
Import ListNotations.
Set Implicit Arguments.

(** QVariantMap *)
Definition params := list (text * text).
Fixpoint lookup (k : text) (m : params) : option text :=
  match m with
  | [] => None
  | (k', v) :: m => if text_eqb k' k then Some v else lookup k m
  end.
(** [m[k] = v] *)
Fixpoint assign (k v : text) (m : params) : params :=
  match m with
  | [] => [(k, v)]
  | (k', v') :: m => if text_eqb k' k then (k', v) :: m else (k', v') :: assign k v m
  end.
(** [param.value(k, default)] *)
Definition value (m : params) (k : string) (default : text) : text :=
  match lookup (chars k) m with Some v => v | None => default end.

(** QString::startsWith *)
Fixpoint starts_with (p s : text) : bool :=
  match p, s with
  | [], _ => true
  | a :: p, b :: s => andb (Ascii.eqb a b) (starts_with p s)
  | _, [] => false
  end.
(** nbody_arg_parser.cpp:10-24: one argument *)
Definition parse_arg (arg : text) (m : params) : params :=
  if starts_with (chars "--") arg then
    match split "="%char (skipn 2 arg) with
    | [k; v] => assign k v m
    | _ => m
    end
  else m.
(** nbody_arg_parser.cpp:5-28 *)
Definition parse_arguments (args : list text) : params :=
  fold_left (fun m arg => parse_arg arg m) args [].

(** QVariant(QString)::toUInt, toInt, toULongLong, toBool *)
Definition to_uint (s : text) : N :=
  match to_ulonglong s with Some n => (n mod 2 ^ 32)%N | None => 0%N end.
Definition to_int (s : text) : Z :=
  match to_longlong s with
  | Some z => let r := (z mod 2 ^ 32)%Z in if Z.ltb r (2 ^ 31) then r else (r - 2 ^ 32)%Z
  | None => 0%Z
  end.
Definition to_size_t (z : Z) : N := Z.to_N (z mod 2 ^ 64).
Definition to_ull (s : text) : N := match to_ulonglong s with Some n => n | None => 0%N end.
Definition to_bool (s : text) : bool :=
  let s := map lower s in
  negb (orb (is_nil s) (orb (text_eqb s (chars "0")) (text_eqb s (chars "false")))).

Section Factory.
  Context {T : Type} (U : NumOps T) (X : TextOps T).

  (** a number argument with a default value *)
  Definition number (m : params) (k : string) (default : T) : T :=
    match lookup (chars k) m with
    | Some v => match t_read X v with Some x => x | None => nlit U 0 end
    | None => default
    end.
  Definition unsigned (m : params) (k : string) (default : N) : N :=
    match lookup (chars k) m with Some v => to_uint v | None => default end.
  Definition flag (m : params) (k : string) (default : bool) : bool :=
    match lookup (chars k) m with Some v => to_bool v | None => default end.

  (** what the factory has set in a solver, besides its own parameters *)
  Record created := mkCreated {
    cr_solver : @solver T; cr_min_step : T; cr_max_step : T; cr_clamp : bool }.

  (** nbody_solvers.cpp:3-15; [get_min_step()] is set in line 104 *)
  Definition create_butcher_solver (t : table T) (m : params) : @solver T :=
    SButcher (mkRkParams t (N.to_nat (unsigned m "max_recursion" 8))
                (N.to_nat (unsigned m "substep_subdivisions" 8))
                (number m "error_threshold" (ndiv U (nlit U 1) (nlit U 10000)))
                (N.to_nat (unsigned m "refine_steps_count" 1))
                (flag m "correction" false)
                (number m "min_step" (ndiv U (nlit U 1) (nlit U 1000000000)))) None.

  (** nbody_solvers.cpp:17-110.  The recursion of the Adams case need not end: [None] when it is not
      over after [fuel] calls; [Some None] is the null pointer. *)
  Fixpoint create_solver (fuel : nat) (m : params) : option (option created) :=
    match fuel with
    | O => None
    | S fuel =>
        let type := value m "solver" [] in
        let is (s : string) := text_eqb type (chars s) in
        let* s :=
          if is "adams"%string then
            let* starter := create_solver fuel (assign (chars "solver") (value m "starter_solver" (chars "euler")) m) in
            match starter with
            | None => Some None
            | Some c =>
                let rank := match lookup (chars "rank") m with Some v => to_size_t (to_int v) | None => 1%N end in
                Some (Some (SAdams (mkAdamsParams (N.to_nat rank) (flag m "correction" false)) (cr_solver c) None 0))
            end
          else if is "bs"%string then
            Some (Some (SBs (mkBsParams (N.to_nat (unsigned m "max_level" 8))
                               (number m "error_threshold" (ndiv U (nlit U 1) (nlit U 100000000000)))) None))
          else if is "euler"%string then Some (Some (SEuler None))
          else if is "midpoint"%string then Some (Some (SMidpoint None))
          else if is "midpoint-st"%string then Some (Some (SStetter None))
          else if is "rk4"%string then Some (Some (SRk4 None))
          else if is "rkck"%string then Some (Some (create_butcher_solver (tab_rkck U) m))
          else if is "rkdp"%string then Some (Some (create_butcher_solver (tab_rkdp U) m))
          else if is "rkdverk"%string then Some (Some (create_butcher_solver (tab_rkdverk U) m))
          else if is "rkf"%string then Some (Some (create_butcher_solver (tab_rkf U) m))
          else if is "rkfeagin10"%string then Some (Some (create_butcher_solver (tab_rkfeagin10 U) m))
          else if is "rkfeagin12"%string then Some (Some (create_butcher_solver (tab_rkfeagin12 U) m))
          else if is "rkfeagin14"%string then Some (Some (create_butcher_solver (tab_rkfeagin14 U) m))
          else if is "rkgl"%string then Some (Some (create_butcher_solver (tab_rkgl U) m))
          else if is "rklc"%string then Some (Some (create_butcher_solver (tab_rklc U) m))
          else if is "trapeze"%string then
            Some (Some (STrapeze (N.to_nat (unsigned m "refine_steps_count" 1)) None))
          else Some None in
        match s with
        | None => Some None
        | Some s =>
            Some (Some (mkCreated s (number m "min_step" (ndiv U (nlit U 1) (nlit U 1000000000)))
                          (number m "max_step" (ndiv U (nlit U 1) (nlit U 100))) (flag m "clamp" false)))
        end
    end.

  (** nbody_engine_simple_bh.h:13-19 *)
  Inductive tree_layout := etl_unknown | etl_tree | etl_heap | etl_heap_stackless.
  (** nbody_engine_simple_bh.cpp:111-127 *)
  Definition tree_layout_from_str (s : text) : tree_layout :=
    if text_eqb s (chars "tree") then etl_tree
    else if text_eqb s (chars "heap") then etl_heap
    else if text_eqb s (chars "heap_stackless") then etl_heap_stackless
    else etl_unknown.

  (** the engine objects, with the arguments of their constructors *)
  Inductive engine_object :=
  | EAh (full_recompute_rate : N) (max_dist min_force : T)
  | EBlock | EOpenmp | ESimple
  | EBhTree (ratio : T) (tv : traverse_type) (rate : N)
  | EBhHeap (ratio : T) (tv : traverse_type) (rate : N)
  | EBhHeapStackless (ratio : T) (tv : traverse_type) (rate : N).

  (** nbody_engines.cpp:4-193 *)
  Definition create_engine (m : params) : option engine_object :=
    let type := value m "engine" [] in
    let is (s : string) := text_eqb type (chars s) in
    if is "ah"%string then
      Some (EAh (unsigned m "full_recompute_rate" 1000) (number m "max_dist" (nlit U 10))
              (number m "min_force" (ndiv U (nlit U 1) (nlit U 10000))))
    else if is "block"%string then Some EBlock
    else if is "openmp"%string then Some EOpenmp
    else if is "simple"%string then Some ESimple
    else if is "simple_bh"%string then
      let strtt := value m "traverse_type" (chars "cycle") in
      let strtl := value m "tree_layout" (chars "tree") in
      let ratio := number m "distance_to_node_radius_ratio" (nlit U 10) in
      let rate := match lookup (chars "tree_build_rate") m with Some v => to_ull v | None => 0%N end in
      let* tv := if text_eqb strtt (chars "cycle") then Some ett_cycle
                 else if text_eqb strtt (chars "nested_tree") then Some ett_nested_tree
                 else None in
      match tree_layout_from_str strtl with
      | etl_unknown => None
      | etl_tree => Some (EBhTree ratio tv rate)
      | etl_heap => Some (EBhHeap ratio tv rate)
      | etl_heap_stackless => Some (EBhHeapStackless ratio tv rate)
      end
    else None.
End Factory.
