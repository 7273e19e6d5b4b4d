(** Words that differ at most in upper and lower case: vocabulary for PropArgs.v and PropData2.v *)
From Coq Require Import Ascii List Arith.
From Verif Require Import ModelText.

Definition same_letter (x y : ascii) : Prop :=
  x = y \/ exists n, 65 <= n <= 90 /\
    (x = ascii_of_nat n /\ y = ascii_of_nat (n + 32) \/ y = ascii_of_nat n /\ x = ascii_of_nat (n + 32)).
Definition same_word (v w : text) : Prop := Forall2 same_letter v w.
