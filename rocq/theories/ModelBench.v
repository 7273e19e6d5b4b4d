(** The comparison of two states in the benchmark: test/bench/bench.h:10-24. *)
From Coq Require Import ZArith List.
From Verif Require Import Num Arr ModelVertex.
Set Implicit Arguments.

Section Bench.
  Context {T : Type} (N : NumOps T).
  (** std::max *)
  Definition std_max (a b : T) : T := if nltb N a b then b else a.
  (** 17-22: one iteration; (total, max_diff) *)
  Definition compare_body (a b : list (vec3 T)) (n : nat) (st : T * T) : option (T * T) :=
    let* u := rd a n in
    let* v := rd b n in
    let diff := vlength N (vsub N u v) in
    Some (nadd N (fst st) diff, std_max (snd st) diff).
  (** 10-24, [compare_data] *)
  Definition compare_data (a b : list (vec3 T)) (count : nat) : option (T * T) :=
    let* (total, max_diff) := for_ count 0 (compare_body a b) (nlit N 0, nlit N 0) in
    Some (ndiv N total (nlit N (Z.of_nat count)), max_diff).
End Bench.
