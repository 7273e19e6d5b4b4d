(** Splitting, lines and printed integers. *)
From Coq Require Import Ascii String List NArith ZArith Arith Lia Bool DecimalN DecimalPos.
From Verif Require Import ModelText.
Import ListNotations.
Set Implicit Arguments.

Lemma split_free : forall c w, ~ In c w -> split c w = [w].
Proof.
  induction w as [|a w IH]; intros H; [reflexivity|]. cbn [split].
  destruct (Ascii.eqb_spec a c) as [->|E]; [exfalso; apply H; left; reflexivity|].
  rewrite IH; [reflexivity|]. intros K. apply H. right. exact K.
Qed.
Lemma split_cons : forall c w s, ~ In c w -> split c (w ++ c :: s) = w :: split c s.
Proof.
  induction w as [|a w IH]; intros s H; cbn [split app].
  - rewrite Ascii.eqb_refl. reflexivity.
  - destruct (Ascii.eqb_spec a c) as [->|E]; [exfalso; apply H; left; reflexivity|].
    rewrite IH; [reflexivity|]. intros K. apply H. right. exact K.
Qed.

(** every line ends with a newline, and no carriage return before it *)
Definition lines_text (ls : list text) : text := concat (map (fun l => l ++ [newline]) ls).
Definition plain (l : text) : Prop := ~ In newline l /\ (forall m, l <> m ++ [return_]).

Lemma split_lines : forall ls, Forall plain ls ->
  split newline (lines_text ls) = ls ++ [[]].
Proof.
  induction ls as [|l ls IH]; intros H; [reflexivity|]. inversion H as [|? ? [Hn _] Hs]; subst.
  unfold lines_text in *. cbn [map concat]. rewrite <- app_assoc. cbn [app].
  rewrite split_cons by exact Hn. rewrite (IH Hs). reflexivity.
Qed.
Lemma strip_last : forall m, strip_return (m ++ [return_]) = m.
Proof.
  induction m as [|a m IH]; [reflexivity|]. cbn [app strip_return].
  destruct (m ++ [return_]) eqn:E; [destruct m; discriminate|]. now rewrite IH.
Qed.
Lemma strip_plain : forall l, (forall m, l <> m ++ [return_]) -> strip_return l = l.
Proof.
  induction l as [|a l IH]; intros H; [reflexivity|]. destruct l as [|b l].
  - cbn [strip_return]. destruct (Ascii.eqb_spec a return_) as [->|E]; [|reflexivity].
    exfalso. apply (H []). reflexivity.
  - change (a :: strip_return (b :: l) = a :: b :: l). f_equal. apply IH.
    intros m E. apply (H (a :: m)). cbn [app]. now f_equal.
Qed.
Lemma drop_last_app : forall ls, drop_last_empty (ls ++ [[]]) = ls.
Proof.
  induction ls as [|l ls IH]; [reflexivity|]. cbn [app drop_last_empty].
  destruct l as [|a l].
  - destruct (ls ++ [[]]) eqn:E; [destruct ls; discriminate|]. now rewrite <- IH.
  - now rewrite IH.
Qed.
Lemma map_id_in : forall A (f : A -> A) l, Forall (fun x => f x = x) l -> map f l = l.
Proof. induction 1; cbn; congruence. Qed.
Lemma read_lines_text : forall ls, Forall plain ls -> read_lines (lines_text ls) = ls.
Proof.
  intros ls H. unfold read_lines. rewrite split_lines by exact H. rewrite drop_last_app.
  apply map_id_in. eapply Forall_impl; [|exact H]. intros l [_ K]. apply strip_plain, K.
Qed.

(** printed integers *)
Definition is_digit (a : ascii) : Prop := digit a <> None.
Lemma uint_digits : forall u, Forall is_digit (uint_text u).
Proof. induction u; cbn; constructor; auto; discriminate. Qed.
Lemma show_digits : forall n, Forall is_digit (show_N n).
Proof. intros. apply uint_digits. Qed.
Lemma show_nonempty : forall n, show_N n <> [].
Proof.
  intros [|p]; [discriminate|]. unfold show_N, N.to_uint. intros H.
  assert (K : Pos.to_uint p = Decimal.Nil) by (destruct (Pos.to_uint p); cbn in H; try discriminate; reflexivity).
  pose proof (Unsigned.of_to p) as E. rewrite K in E. discriminate E.
Qed.
Lemma read_acc : forall u acc,
  read_digits (N.pos acc) (uint_text u) = Some (N.pos (Pos.of_uint_acc u acc)).
Proof.
  induction u; intros acc; [reflexivity|..]; cbn [uint_text read_digits];
    match goal with |- context [digit ?c] => let d := eval compute in (digit c) in
      change (digit c) with d end; cbn [Pos.of_uint_acc]; cbv beta iota;
    match goal with |- read_digits ?a _ = Some (N.pos (Pos.of_uint_acc _ ?b)) =>
      replace a with (N.pos b) by (cbn -[Pos.mul Pos.add]; rewrite ?Pos2Nat.inj_add; lia) end;
    apply IHu.
Qed.
Lemma read_uint : forall u, read_digits 0 (uint_text u) = Some (N.of_uint u).
Proof.
  induction u; [reflexivity|..]; cbn [uint_text read_digits];
    match goal with |- context [digit ?c] => let d := eval compute in (digit c) in
      change (digit c) with d end; cbv beta iota;
    match goal with |- read_digits ?a _ = _ => let d := eval compute in a in change a with d end;
    [apply IHu|..]; rewrite read_acc; reflexivity.
Qed.
Lemma read_show : forall n, read_N (show_N n) = Some n.
Proof.
  intros n. unfold read_N. destruct (show_N n) eqn:E; [apply show_nonempty in E; contradiction|].
  rewrite <- E. unfold show_N. rewrite read_uint. now rewrite DecimalN.Unsigned.of_to.
Qed.

Lemma digit_cases : forall a, is_digit a -> exists k, (k < 10)%N /\ N_of_ascii a = (48 + k)%N.
Proof.
  intros a H. unfold is_digit, digit in H.
  destruct ((48 <=? N_of_ascii a)%N && (N_of_ascii a <=? 57)%N) eqn:E; [|contradiction].
  apply andb_true_iff in E. destruct E as [E1 E2]. apply N.leb_le in E1. apply N.leb_le in E2.
  exists (N_of_ascii a - 48)%N. lia.
Qed.
Lemma digit_not : forall a c, is_digit a -> (N_of_ascii c < 48)%N -> a <> c.
Proof. intros a c H K ->. destruct (digit_cases H) as (k & _ & E). lia. Qed.
Lemma digit_space : forall a, is_digit a -> is_space a = false.
Proof.
  intros a H. destruct (digit_cases H) as (k & K & E). unfold is_space.
  assert (N : nat_of_ascii a = N.to_nat (48 + k)) by (rewrite <- E; reflexivity).
  rewrite N. apply orb_false_iff. split.
  - destruct (Ascii.eqb_spec a space) as [->|]; [|reflexivity]. exfalso. change (N_of_ascii space) with 32%N in E. lia.
  - apply andb_false_iff. right. apply Nat.leb_gt. lia.
Qed.
Lemma ltrim_digits : forall s, Forall is_digit s -> ltrim s = s.
Proof.
  intros [|a s] H; [reflexivity|]. inversion H; subst. cbn [ltrim]. now rewrite digit_space.
Qed.
Lemma trim_digits : forall s, Forall is_digit s -> trim s = s.
Proof.
  intros s H. unfold trim. rewrite (ltrim_digits H). rewrite ltrim_digits by (apply Forall_rev; exact H).
  apply rev_involutive.
Qed.

Lemma to_ulonglong_show : forall n, (n < 2 ^ 64)%N -> to_ulonglong (show_N n) = Some n.
Proof.
  intros n H. unfold to_ulonglong. rewrite trim_digits by apply show_digits.
  pose proof (read_show n) as R. pose proof (show_digits n) as D.
  destruct (show_N n) as [|a s]; [discriminate R|]. inversion D; subst.
  destruct (Ascii.eqb_spec a "+"%char) as [E|E].
  - exfalso. revert E. apply digit_not; [assumption|reflexivity].
  - rewrite R. apply N.ltb_lt in H. now rewrite H.
Qed.
Lemma to_longlong_show : forall n, (n < 2 ^ 63)%N -> to_longlong (show_N n) = Some (Z.of_N n).
Proof.
  intros n H. unfold to_longlong. rewrite trim_digits by apply show_digits.
  pose proof (read_show n) as R. pose proof (show_digits n) as D.
  destruct (show_N n) as [|a s]; [discriminate R|]. inversion D; subst.
  destruct (Ascii.eqb_spec a "-"%char) as [E|E]; [exfalso; revert E; apply digit_not; [assumption|reflexivity]|].
  destruct (Ascii.eqb_spec a "+"%char) as [E'|E']; [exfalso; revert E'; apply digit_not; [assumption|reflexivity]|].
  rewrite R. apply N.ltb_lt in H. now rewrite H.
Qed.
Lemma show_inj : forall a b, show_N a = show_N b -> a = b.
Proof. intros a b H. pose proof (read_show a) as A. rewrite H, read_show in A. now inversion A. Qed.
Lemma show_free : forall n c, (N_of_ascii c < 48)%N -> ~ In c (show_N n).
Proof.
  intros n c H K. pose proof (proj1 (Forall_forall _ _) (show_digits n) _ K) as D.
  exact (digit_not D H eq_refl).
Qed.
