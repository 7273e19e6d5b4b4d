(** The order of Feagin's methods: C81. *)
From Coq Require Import ZArith Uint63 Reals List Arith Lia Lra.
From Verif Require Import Num SpecPhys RLemmas ModelButcher ModelFeagin SpecOrder LemOrder LemFeagin.
Import ListNotations.
Set Implicit Arguments.
Local Open Scope R_scope.

Lemma holds10 mind : table_holds (tab_rkfeagin10 Bops) (tab_rkfeagin10 (Rops mind)).
Proof. unfold tab_rkfeagin10. hold_table. Qed.
Lemma holds12 mind : table_holds (tab_rkfeagin12 Bops) (tab_rkfeagin12 (Rops mind)).
Proof. unfold tab_rkfeagin12. hold_table. Qed.
Lemma small_eps : IZR (2 ^ 10) / IZR one <= 1 / 10 ^ 12.
Proof. unfold one. change (2 ^ 10)%Z with 1024%Z. change (2 ^ 50)%Z with 1125899906842624%Z. cbn [pow]. lra. Qed.

(** ** C81 *)

(** rkfeagin10: the row the solver steps with satisfies the conditions of all trees with up to 10 vertices, the
    other row those with up to 8, to 12 decimal places; the rows of the tableau add up to its nodes. *)
Theorem C81_rkfeagin10 : forall mind, let t := tab_rkfeagin10 (Rops mind) in
  nearly_order t (bt_b2 t) 10 (1 / 10 ^ 12) /\ nearly_order t (bt_b1 t) 8 (1 / 10 ^ 12) /\ nearly_row_sums t (1 / 10 ^ 12).
Proof.
  intros mind t. pose proof (holds10 mind) as H. pose proof H as (_ & _ & _ & _ & H1 & H2 & _). split; [|split].
  - eapply nearly_weaken; [|exact small_eps]. eapply nearly_ok; [exact H|exact H2|].
    vm_cast_no_check (eq_refl true).
  - eapply nearly_weaken; [|exact small_eps]. eapply nearly_ok; [exact H|exact H1|].
    vm_cast_no_check (eq_refl true).
  - intros i Hi. eapply Rle_trans; [|exact small_eps]. eapply nearly_rows_ok; [exact H| |exact Hi].
    vm_cast_no_check (eq_refl true).
Qed.
Print Assumptions C81_rkfeagin10.

(** rkfeagin12: up to 12 vertices, and 10 *)
Theorem C81_rkfeagin12 : forall mind, let t := tab_rkfeagin12 (Rops mind) in
  nearly_order t (bt_b2 t) 12 (1 / 10 ^ 12) /\ nearly_order t (bt_b1 t) 10 (1 / 10 ^ 12) /\ nearly_row_sums t (1 / 10 ^ 12).
Proof.
  intros mind t. pose proof (holds12 mind) as H. pose proof H as (_ & _ & _ & _ & H1 & H2 & _). split; [|split].
  - eapply nearly_weaken; [|exact small_eps]. eapply nearly_ok; [exact H|exact H2|].
    vm_cast_no_check (eq_refl true).
  - eapply nearly_weaken; [|exact small_eps]. eapply nearly_ok; [exact H|exact H1|].
    vm_cast_no_check (eq_refl true).
  - intros i Hi. eapply Rle_trans; [|exact small_eps]. eapply nearly_rows_ok; [exact H| |exact Hi].
    vm_cast_no_check (eq_refl true).
Qed.
Print Assumptions C81_rkfeagin12.

(** ... and no further: a tree with one vertex more is missed by more than 10^-5, and by more than 10^-7 *)
Definition leaf : rtree := Node [].
Definition tree11 : rtree := Node [leaf; leaf; Node [Node [Node [leaf; leaf; leaf; leaf; leaf]]]].
Definition tree13 : rtree := Node [leaf; leaf; Node [Node [Node [Node [leaf; leaf; leaf; leaf; leaf; leaf]]]]].
Theorem C81_no_further : forall mind,
  (let t := tab_rkfeagin10 (Rops mind) in ~ nearly_order t (bt_b2 t) 11 (1 / 10 ^ 5)) /\
  (let t := tab_rkfeagin12 (Rops mind) in ~ nearly_order t (bt_b2 t) 13 (1 / 10 ^ 7)).
Proof.
  intros mind. split.
  - pose proof (holds10 mind) as H. pose proof H as (_ & _ & _ & _ & _ & H2 & _).
    apply (@off_order _ _ tree11); [reflexivity|].
    apply Rle_lt_trans with (IZR (2 * 10 ^ 10) / IZR one); [clear|eapply off_table; [exact H|exact H2|]].
    + unfold one. change (2 * 10 ^ 10)%Z with 20000000000%Z. change (2 ^ 50)%Z with 1125899906842624%Z. cbn [pow]. lra.
    + vm_cast_no_check (eq_refl true).
  - pose proof (holds12 mind) as H. pose proof H as (_ & _ & _ & _ & _ & H2 & _).
    apply (@off_order _ _ tree13); [reflexivity|].
    apply Rle_lt_trans with (IZR (2 * 10 ^ 8) / IZR one); [clear|eapply off_table; [exact H|exact H2|]].
    + unfold one. change (2 * 10 ^ 8)%Z with 200000000%Z. change (2 ^ 50)%Z with 1125899906842624%Z. cbn [pow]. lra.
    + vm_cast_no_check (eq_refl true).
Qed.
Print Assumptions C81_no_further.

(** the trees these are about: the condition of a tree with 10 vertices, and its right-hand side *)
Definition tree10 : rtree := Node [leaf; Node [Node [Node [leaf; leaf; leaf; leaf; leaf]]]].
Example C81_ex : vertices tree10 = 10%nat /\ density tree10 = 3360 /\ vertices tree11 = 11%nat /\ vertices tree13 = 13%nat.
Proof. split; [reflexivity|]. split; [now rewrite <- zdensity_R|]. split; reflexivity. Qed.
