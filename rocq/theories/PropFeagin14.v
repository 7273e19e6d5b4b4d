(** The order of Feagin's methods, continued: C81. *)
From Coq Require Import ZArith Uint63 Reals List Arith Lia Lra.
From Verif Require Import Num SpecPhys RLemmas ModelButcher ModelFeagin SpecOrder LemOrder LemFeagin.
Import ListNotations.
Set Implicit Arguments.
Local Open Scope R_scope.

Lemma holds14 mind : table_holds (tab_rkfeagin14 Bops) (tab_rkfeagin14 (Rops mind)).
Proof. unfold tab_rkfeagin14. hold_table. Qed.
Lemma small_eps14 : IZR (2 ^ 20) / IZR one <= 1 / 10 ^ 9.
Proof. unfold one. change (2 ^ 20)%Z with 1048576%Z. change (2 ^ 50)%Z with 1125899906842624%Z. cbn [pow]. lra. Qed.

(** rkfeagin14: the row the solver steps with satisfies the conditions of all trees with up to 14 vertices, the
    other row those with up to 12, to 9 decimal places (its coefficients go up to 1946) *)
Theorem C81_rkfeagin14 : forall mind, let t := tab_rkfeagin14 (Rops mind) in
  nearly_order t (bt_b2 t) 14 (1 / 10 ^ 9) /\ nearly_order t (bt_b1 t) 12 (1 / 10 ^ 9) /\ nearly_row_sums t (1 / 10 ^ 9).
Proof.
  intros mind t. pose proof (holds14 mind) as H. pose proof H as (_ & _ & _ & _ & H1 & H2 & _). split; [|split].
  - eapply nearly_weaken; [|exact small_eps14]. eapply nearly_ok; [exact H|exact H2|].
    vm_cast_no_check (eq_refl true).
  - eapply nearly_weaken; [|exact small_eps14]. eapply nearly_ok; [exact H|exact H1|].
    vm_cast_no_check (eq_refl true).
  - intros i Hi. eapply Rle_trans; [|exact small_eps14]. eapply nearly_rows_ok; [exact H| |exact Hi].
    vm_cast_no_check (eq_refl true).
Qed.
Print Assumptions C81_rkfeagin14.

(** ... and no further: a tree with 15 vertices is missed by more than 10^-5 *)
Definition tree15 : rtree := Node [Node []; Node []; Node [Node [Node [Node [Node
  [Node []; Node []; Node []; Node []; Node []; Node []; Node []]]]]]].
Theorem C81_no_further14 : forall mind, let t := tab_rkfeagin14 (Rops mind) in ~ nearly_order t (bt_b2 t) 15 (1 / 10 ^ 5).
Proof.
  intros mind. pose proof (holds14 mind) as H. pose proof H as (_ & _ & _ & _ & _ & H2 & _).
  apply (@off_order _ _ tree15); [reflexivity|].
  apply Rle_lt_trans with (IZR (2 * 10 ^ 10) / IZR one); [clear|eapply off_table; [exact H|exact H2|]].
  - unfold one. change (2 * 10 ^ 10)%Z with 20000000000%Z. change (2 ^ 50)%Z with 1125899906842624%Z. cbn [pow]. lra.
  - vm_cast_no_check (eq_refl true).
Qed.
Print Assumptions C81_no_further14.
Example C81_ex14 : vertices tree15 = 15%nat /\ density tree15 = 1425600.
Proof. split; [reflexivity|]. now rewrite <- zdensity_R. Qed.
