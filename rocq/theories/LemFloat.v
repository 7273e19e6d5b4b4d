(** Facts about the standard library's IEEE arithmetic *)
From Coq Require Import ZArith SpecFloat Bool.
From Verif Require Import Num.

Lemma round_aux_abs : forall p e sx sy m ex l,
  SFabs (binary_round_aux p e sx m ex l) = SFabs (binary_round_aux p e sy m ex l).
Proof.
  intros. unfold binary_round_aux. destruct (shr_fexp p e m ex l) as [mrs' e'].
  destruct (shr_fexp p e _ e' loc_Exact) as [mrs'' e''].
  destruct (shr_m mrs''); try reflexivity. destruct (Z.leb e'' (e - p)); reflexivity.
Qed.
Lemma round_abs : forall p e sx sy m ex,
  SFabs (binary_round p e sx m ex) = SFabs (binary_round p e sy m ex).
Proof.
  intros. unfold binary_round. destruct (shl_align m ex _) as [mz ez]. apply round_aux_abs.
Qed.
Lemma normalize_abs : forall p e m ex z z', SFabs (binary_normalize p e m ex z) = SFabs (binary_normalize p e (- m) ex z').
Proof. intros. destruct m; cbn; [reflexivity|apply round_abs|apply round_abs]. Qed.

(** |a - b| = |b - a|, for all floating-point numbers, infinities and NaN *)
Lemma sub_abs_sym : forall p e a b, SFabs (SFsub p e a b) = SFabs (SFsub p e b a).
Proof.
  intros p e [sa|sa| |sa ma ea] [sb|sb| |sb mb eb]; try reflexivity; try (destruct sa, sb; reflexivity).
  cbn [SFsub]. rewrite (Z.min_comm eb ea).
  set (x := cond_Zopp sa _). set (y := cond_Zopp sb _).
  rewrite (normalize_abs p e (x - y) _ false false). f_equal. f_equal. ring.
Qed.
Lemma sub_self : forall p e a, SFsub p e a a = S754_zero false \/ SFsub p e a a = S754_nan.
Proof.
  intros p e [s|s| |s m ex]; try (destruct s; cbn; auto; fail); auto.
  cbn [SFsub]. rewrite Z.sub_diag. left. reflexivity.
Qed.

(** order *)
Lemma lex_lt_le : forall (e1 e2 e3 : Z) (m1 m2 m3 : positive),
  match Z.compare e1 e2 with Lt => True | Gt => False | Eq => (m1 <= m2)%positive end ->
  match Z.compare e2 e3 with Lt => True | Gt => False | Eq => (m2 < m3)%positive end ->
  match Z.compare e1 e3 with Lt => True | Gt => False | Eq => (m1 < m3)%positive end.
Proof.
  intros e1 e2 e3 m1 m2 m3 H1 H2.
  destruct (Z.compare_spec e1 e2); destruct (Z.compare_spec e2 e3); destruct (Z.compare_spec e1 e3);
    try Lia.lia.
Qed.
Lemma lex_le_lt : forall (e1 e2 e3 : Z) (m1 m2 m3 : positive),
  match Z.compare e1 e2 with Lt => True | Gt => False | Eq => (m1 < m2)%positive end ->
  match Z.compare e2 e3 with Lt => True | Gt => False | Eq => (m2 <= m3)%positive end ->
  match Z.compare e1 e3 with Lt => True | Gt => False | Eq => (m1 < m3)%positive end.
Proof.
  intros e1 e2 e3 m1 m2 m3 H1 H2.
  destruct (Z.compare_spec e1 e2); destruct (Z.compare_spec e2 e3); destruct (Z.compare_spec e1 e3);
    try Lia.lia.
Qed.
Lemma fin_ltb : forall e1 e2 m1 m2,
  match (match Z.compare e1 e2 with Lt => Lt | Gt => Gt | Eq => Pcompare m1 m2 Eq end) with Lt => true | _ => false end
  = true <-> match Z.compare e1 e2 with Lt => True | Gt => False | Eq => (m1 < m2)%positive end.
Proof.
  intros. change (Pcompare m1 m2 Eq) with (Pos.compare m1 m2).
  destruct (Z.compare e1 e2); try (split; [tauto || discriminate|tauto || discriminate || reflexivity]).
  destruct (Pos.compare_spec m1 m2); split; try discriminate; try reflexivity; Lia.lia.
Qed.
Lemma fin_leb : forall e1 e2 m1 m2,
  match (match Z.compare e1 e2 with Lt => Lt | Gt => Gt | Eq => Pcompare m1 m2 Eq end) with Gt => false | _ => true end
  = true <-> match Z.compare e1 e2 with Lt => True | Gt => False | Eq => (m1 <= m2)%positive end.
Proof.
  intros. change (Pcompare m1 m2 Eq) with (Pos.compare m1 m2).
  destruct (Z.compare e1 e2); try (split; [tauto || discriminate|tauto || discriminate || reflexivity]).
  destruct (Pos.compare_spec m1 m2); split; try discriminate; try reflexivity; Lia.lia.
Qed.
Lemma fin_neg : forall e1 e2 m1 m2,
  match Z.compare e1 e2 with Lt => Gt | Gt => Lt | Eq => CompOpp (Pcompare m1 m2 Eq) end =
  match Z.compare e2 e1 with Lt => Lt | Gt => Gt | Eq => Pcompare m2 m1 Eq end.
Proof.
  intros. rewrite (Z.compare_antisym e1 e2). change (Pcompare m1 m2 Eq) with (Pos.compare m1 m2).
  change (Pcompare m2 m1 Eq) with (Pos.compare m2 m1). rewrite (Pos.compare_antisym m1 m2).
  destruct (Z.compare e1 e2); reflexivity.
Qed.
Lemma SFle_lt_trans : forall a b c, SFleb a b = true -> SFltb b c = true -> SFltb a c = true.
Proof.
  assert (Hl : forall c, match Some c with Some (Lt | Eq) => true | _ => false end =
                         match c with Gt => false | _ => true end) by (intros []; reflexivity).
  assert (Hs : forall c, match Some c with Some Lt => true | _ => false end =
                         match c with Lt => true | _ => false end) by (intros []; reflexivity).
  intros [sa|sa| |sa ma ea] [sb|sb| |sb mb eb] [sc|sc| |sc mc ec]; unfold SFleb, SFltb; cbn [SFcompare];
    try (destruct sa); try (destruct sb); try (destruct sc); try discriminate; try reflexivity; try tauto;
    rewrite ?Hl, ?Hs, ?fin_neg.
  - intros H1 H2. apply fin_leb in H1. apply fin_ltb in H2. apply fin_ltb.
    exact (lex_le_lt _ _ _ _ _ _ H2 H1).
  - intros H1 H2. apply fin_leb in H1. apply fin_ltb in H2. apply fin_ltb.
    exact (lex_lt_le _ _ _ _ _ _ H1 H2).
Qed.
