(** From the lemmas to the specification vocabulary. *)
From Coq Require Import ZArith Reals List Arith Lia Lra Bool SpecFloat Permutation.
From Verif Require Import Num Arr ArrLemmas SpecPhys SpecEngine SpecPar RLemmas ModelVertex
  ModelForce ModelSum ModelEngine ModelBlock ModelAH ModelParallel
  LemEngine LemPhys LemBlock LemAH LemBuffers LemOmp LemMisc LemStat.
Import ListNotations.
Set Implicit Arguments.

Lemma firstn_S_nth {A} (d : A) n l : n < length l -> firstn (S n) l = firstn n l ++ [nth n l d].
Proof.
  revert l. induction n as [|n IH]; intros [|x l] H; cbn in *; try lia; auto.
  f_equal. rewrite <- IH by lia. reflexivity.
Qed.

Lemma elementwise_ext {T} n (v1 v2 : nat -> T) a a' :
  (forall j, j < n -> v1 j = v2 j) -> elementwise n v1 a a' -> elementwise n v2 a a'.
Proof.
  intros H [L E]. split; auto. intros j. rewrite E. destruct (Nat.ltb_spec j n); auto.
  now rewrite H.
Qed.

Lemma terms_S {T} (N : NumOps T) c bs k :
  k < length c -> k < length bs ->
  terms c bs (S k) = terms c bs k ++ [(nth k c (nlit N 0), nth k bs [])].
Proof.
  intros H1 H2. unfold terms.
  rewrite (firstn_S_nth (nlit N 0, @nil T)) by (rewrite combine_length; lia).
  f_equal. f_equal.
  revert bs c H1 H2. induction k as [|k IH]; intros [|b bs] [|x c]; cbn;
    intros; try lia; auto. apply IH; lia.
Qed.

Local Open Scope R_scope.

Lemma wfold_R mind c bs m j s :
  (m <= length c)%nat -> (m <= length bs)%nat ->
  wfold (Rops mind) (terms c bs m) j s = s + weighted m c bs j.
Proof.
  unfold wfold, weighted. induction m as [|m IH]; intros H1 H2.
  - cbn. lra.
  - rewrite (terms_S (Rops mind)) by lia. rewrite fold_left_app, IH by lia.
    cbn [fold_left fst snd neqb nlit nadd nmul Rops rsum].
    destruct (Req_EM_T (nth m c 0) 0) as [E|E].
    + rewrite E. lra.
    + lra.
Qed.

Lemma kfold_R mind c bs m j a corr :
  (m <= length c)%nat -> (m <= length bs)%nat ->
  let r := kfold (Rops mind) (terms c bs m) j (a, corr) in
  fst r - snd r = a - corr + weighted m c bs j /\
  ((exists k, (k < m)%nat /\ nth k c 0 <> 0) -> snd r = 0) /\
  ((forall k, (k < m)%nat -> nth k c 0 = 0) -> r = (a, corr)).
Proof.
  unfold kfold, weighted. induction m as [|m IH]; intros H1 H2.
  - cbn. split; [lra|]. split; auto. intros (k & Hk & _). lia.
  - rewrite (terms_S (Rops mind)) by lia. rewrite fold_left_app. cbn [fold_left].
    destruct IH as (I1 & I2 & I3); try lia.
    set (r := fold_left _ _ _) in *. cbn [fst snd neqb nlit nadd nmul nsub Rops rsum].
    destruct (Req_EM_T (nth m c 0) 0) as [E|E].
    + rewrite E. split; [lra|]. split.
      * intros (k & Hk & Hn). apply I2. exists k. split; auto.
        destruct (Nat.eq_dec k m) as [->|]; [contradiction|lia].
      * intros H. apply I3. intros; apply H; lia.
    + unfold summation_step. cbn [fst snd]. split; [lra|]. split; [lra|].
      intros H. exfalso. apply E. apply H. lia.
Qed.

Lemma any_weight_R mind d m : (m <= length d)%nat ->
  (any_weight (Rops mind) d m = true <-> some_weight m d).
Proof.
  intros Hm. unfold any_weight, some_weight. rewrite existsb_exists. split.
  - intros (w & Hin & Hw). apply In_nth with (d := 0) in Hin. destruct Hin as (k & Hk & E).
    rewrite firstn_length in Hk. exists k. split; [lia|].
    assert (nth k (firstn m d) 0 = nth k d 0) as E2.
    { rewrite <- (firstn_skipn m d) at 2. rewrite app_nth1; auto. rewrite firstn_length; lia. }
    rewrite <- E2, E. cbn in Hw. destruct (Req_EM_T w 0); [discriminate|auto].
  - intros (k & Hk & Hn). exists (nth k d 0). split.
    + assert (nth k (firstn m d) 0 = nth k d 0) as <-.
      { rewrite <- (firstn_skipn m d) at 2. rewrite app_nth1; auto. rewrite firstn_length; lia. }
      apply nth_In. rewrite firstn_length. lia.
    + cbn. destruct (Req_EM_T (nth k d 0) 0); [contradiction|auto].
Qed.

Lemma stored_rd3 {T} n off i (y : list T) v : rd3 y n off i = Some v <-> stored n off i y v.
Proof.
  unfold rd3, stored, rd.
  destruct (nth_error y (off * n + i)), (nth_error y ((off + 1) * n + i)),
    (nth_error y ((off + 2) * n + i)); cbn; split; intros H;
    try discriminate; try (destruct H as (H1 & H2 & H3); discriminate).
  - injection H as <-. auto.
  - destruct H as (H1 & H2 & H3). destruct v. cbn in *. congruence.
Qed.

(** doubles: [<] is a strict total order away from NaN and -0 *)
Definition f_ok (x : spec_float) : Prop := x <> S754_nan /\ x <> S754_zero true.

Lemma SFcmp_irr x : f_ok x -> SFltb x x = false.
Proof.
  intros [H1 H2]. unfold SFltb, SFcompare. destruct x as [s|s| |s m e]; try congruence; auto.
  - destruct s; auto.
  - destruct s; rewrite Z.compare_refl, Pos.compare_cont_refl; auto.
Qed.

Lemma SFcmp_trans a b c : f_ok a -> f_ok b -> f_ok c ->
  SFltb a b = true -> SFltb b c = true -> SFltb a c = true.
Proof.
  intros [A1 A2] [B1 B2] [C1 C2]. unfold SFltb, SFcompare.
  destruct a as [sa|[]| |[] ma ea], b as [sb|[]| |[] mb eb], c as [sc|[]| |[] mc ec];
    try congruence; auto; intros H1 H2;
    repeat match goal with
    | H : match (?a ?= ?b)%Z with _ => _ end = _ |- _ => destruct (Z.compare_spec a b); subst
    | |- match (?a ?= ?b)%Z with _ => _ end = _ => destruct (Z.compare_spec a b); subst
    | H : match match (?a ?= ?b)%Z with _ => _ end with _ => _ end = _ |- _ => destruct (Z.compare_spec a b); subst
    | |- match match (?a ?= ?b)%Z with _ => _ end with _ => _ end = _ => destruct (Z.compare_spec a b); subst
    end; try congruence; try lia;
    fold (Pos.compare) in *;
    repeat match goal with
    | H : context [(?a ?= ?b)%positive] |- _ => destruct (Pos.compare_spec a b); subst; cbn in *
    | |- context [(?a ?= ?b)%positive] => destruct (Pos.compare_spec a b); subst; cbn in *
    end; try congruence; try lia.
Qed.

Lemma SFcmp_total a b : f_ok a -> f_ok b -> SFltb a b = false -> SFltb b a = false -> a = b.
Proof.
  intros [A1 A2] [B1 B2]. unfold SFltb, SFcompare.
  destruct a as [[]|[]| |[] ma ea], b as [[]|[]| |[] mb eb];
    try congruence; auto;
    destruct (Z.compare_spec ea eb); subst; rewrite ?Z.compare_refl;
    intros H1 H2; try discriminate;
    fold (Pos.compare) in *;
    repeat match goal with
    | H : context [(?a ?= ?b)%positive] |- _ => destruct (Pos.compare_spec a b); subst; cbn in *
    end; try congruence; try lia;
    destruct (Z.compare_spec eb ea); try lia; discriminate.
Qed.
