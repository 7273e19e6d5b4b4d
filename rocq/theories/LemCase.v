(** Comparison without case *)
From Coq Require Import Ascii List Arith Bool Lia.
From Verif Require Import ModelText ModelData SpecCase.
Import ListNotations.

Lemma ascii_inj n m : n < 256 -> m < 256 -> ascii_of_nat n = ascii_of_nat m -> n = m.
Proof. intros Hn Hm E. rewrite <- (nat_ascii_embedding n Hn), <- (nat_ascii_embedding m Hm). now rewrite E. Qed.

Lemma lower_same x y : lower x = lower y <-> same_letter x y.
Proof.
  assert (U : forall a, (65 <= nat_of_ascii a <= 90 /\ lower a = ascii_of_nat (nat_of_ascii a + 32)) \/
                        (~ 65 <= nat_of_ascii a <= 90 /\ lower a = a)).
  { intros a. unfold lower. destruct (Nat.leb_spec 65 (nat_of_ascii a)), (Nat.leb_spec (nat_of_ascii a) 90); cbn [andb]; [left|right..]; split; auto; lia. }
  split.
  - destruct (U x) as [(Hx & ->)|(Hx & ->)], (U y) as [(Hy & ->)|(Hy & ->)]; intros E.
    + left. apply ascii_inj in E; [|lia|lia]. rewrite <- (ascii_nat_embedding x), <- (ascii_nat_embedding y). f_equal. lia.
    + right. exists (nat_of_ascii x). split; [exact Hx|]. left. now rewrite ascii_nat_embedding.
    + right. exists (nat_of_ascii y). split; [exact Hy|]. right. now rewrite ascii_nat_embedding.
    + now left.
  - assert (D : forall n, 65 <= n <= 90 -> lower (ascii_of_nat n) = lower (ascii_of_nat (n + 32))).
    { intros n Hn. unfold lower. rewrite !nat_ascii_embedding by lia.
      replace (65 <=? n) with true by (symmetry; apply Nat.leb_le; lia). replace (n <=? 90) with true by (symmetry; apply Nat.leb_le; lia).
      replace (n + 32 <=? 90) with false by (symmetry; apply Nat.leb_gt; lia). rewrite andb_false_r. reflexivity. }
    intros [->|(n & Hn & [(-> & ->)|(-> & ->)])]; auto. symmetry. auto.
Qed.

Lemma lower_word v w : map lower v = map lower w <-> same_word v w.
Proof.
  unfold same_word. revert w. induction v as [|x v IH]; intros [|y w]; cbn [map]; split; intros H; try discriminate; try (inversion H; fail); auto.
  - injection H as H1 H2. constructor; [now apply lower_same|now apply IH].
  - inversion H; subst. f_equal; [now apply lower_same|now apply IH].
Qed.

Lemma text_eqb_true a b : text_eqb a b = true <-> a = b.
Proof.
  revert b. induction a as [|x a IH]; intros [|y b]; cbn; split; intros H; try discriminate; auto.
  - apply andb_true_iff in H. destruct H as (H1 & H2). apply Ascii.eqb_eq in H1. apply IH in H2. now subst.
  - injection H as -> ->. rewrite Ascii.eqb_refl. now apply IH.
Qed.

Lemma same_name_word v w : same_name v w = true <-> same_word v w.
Proof. unfold same_name. now rewrite text_eqb_true, lower_word. Qed.
