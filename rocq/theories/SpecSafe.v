(** Specification vocabulary for memory safety of whole runs *)
From Coq Require Import List Arith NArith.
From Verif Require Import Num ModelButcher ModelBH ModelArgs ModelSolver.
Import ListNotations.
Set Implicit Arguments.

Section S.
  Context {T : Type}.
  (** the body count and the first step number an engine can work with *)
  Definition engine_fits (n step : nat) (o : engine_object (T := T)) : Prop :=
    match o with
    | ESimple | EOpenmp => True
    | EBlock => n mod 64 = 0
    | EAh rate _ _ => (0 < rate)%N /\ (N.of_nat step mod rate = 0)%N
    | EBhTree _ ett_cycle _ => True
    | EBhTree _ ett_nested_tree _ => False
    | EBhHeap _ _ _ | EBhHeapStackless _ _ _ => exists k, n = 2 ^ k
    end.
  (** whether it does is a matter of the positions, too *)
  Definition nested_tree (o : engine_object (T := T)) : Prop :=
    match o with EBhTree _ ett_nested_tree _ => True | _ => False end.
  (** the ranks of the Adams-Bashforth methods there are *)
  Definition rank_fits (s : @solver T) : Prop :=
    match s with SAdams p _ _ _ => 1 <= ap_rank p <= 5 | _ => True end.
  (** a solver that computes no forces at all *)
  Definition idle (s : @solver T) : Prop :=
    match s with SBs p _ => bp_max_level p = 0 | _ => False end.
End S.
