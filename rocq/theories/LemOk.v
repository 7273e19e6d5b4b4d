(** Postconditions of partial computations. *)
From Coq Require Import List Arith Lia.
From Verif Require Import Arr ArrLemmas.
Import ListNotations.
Set Implicit Arguments.

(** [o] gives a result satisfying [Q], or none if failing is permitted *)
Definition ok {A : Type} (mf : Prop) (o : option A) (Q : A -> Prop) : Prop :=
  match o with Some a => Q a | None => mf end.

Lemma ok_some A (mf : Prop) (a : A) (Q : A -> Prop) : Q a -> ok mf (Some a) Q.
Proof. auto. Qed.

Lemma ok_none A (Q : A -> Prop) : ok True None Q.
Proof. exact I. Qed.

Lemma ok_mono A (mf : Prop) (o : option A) (Q Q' : A -> Prop) :
  ok mf o Q -> (forall a, Q a -> Q' a) -> ok mf o Q'.
Proof. destruct o; cbn; auto. Qed.

Lemma ok_and A (mf : Prop) (o : option A) (Q Q' : A -> Prop) :
  ok mf o Q -> ok mf o Q' -> ok mf o (fun a => Q a /\ Q' a).
Proof. destruct o; cbn; auto. Qed.

Lemma ok_bind A B (mf : Prop) (o : option A) (f : A -> option B) (Q : A -> Prop) (R : B -> Prop) :
  ok mf o Q -> (forall a, Q a -> ok mf (f a) R) -> ok mf (obind o f) R.
Proof. destruct o; cbn; auto. Qed.

(** any result at all *)
Lemma ok_bind_any A B (o : option A) (f : A -> option B) (R : B -> Prop) :
  (forall a, o = Some a -> ok True (f a) R) -> ok True (obind o f) R.
Proof. destruct o; cbn; auto. Qed.

Lemma ok_match A (mf : Prop) (o : option A) (Q : A -> Prop) :
  (exists a, o = Some a /\ Q a) -> ok mf o Q.
Proof. intros (a & -> & H). exact H. Qed.

Lemma ok_exists A (o : option A) (Q : A -> Prop) : ok False o Q <-> exists a, o = Some a /\ Q a.
Proof.
  split; [|apply ok_match]. destruct o as [a|]; cbn; [eauto|tauto].
Qed.

Lemma ok_elim A (mf : Prop) (o : option A) a (Q : A -> Prop) : ok mf o Q -> o = Some a -> Q a.
Proof. intros H ->. exact H. Qed.

(** loops: an invariant indexed by the number of iterations done *)
Lemma ok_for St (mf : Prop) (P : nat -> St -> Prop) n i (body : nat -> St -> option St) (s : St) :
  P i s ->
  (forall k s, i <= k < i + n -> P k s -> ok mf (body k s) (P (S k))) ->
  ok mf (for_ n i body s) (P (i + n)).
Proof.
  revert i s. induction n as [|n IH]; intros i s H0 HB; cbn.
  - now rewrite Nat.add_0_r.
  - pose proof (HB i s ltac:(lia) H0) as H1. destruct (body i s) as [s'|]; [|exact H1].
    cbn in H1. replace (i + S n) with (S i + n) by lia. apply IH; auto.
    intros k x Hk Hx. apply HB; auto. lia.
Qed.

Lemma ok_for0 St (mf : Prop) (P : nat -> St -> Prop) n (body : nat -> St -> option St) (s : St) :
  P 0 s ->
  (forall k s, k < n -> P k s -> ok mf (body k s) (P (S k))) ->
  ok mf (for_ n 0 body s) (P n).
Proof.
  intros H0 HB. change n with (0 + n) at 2. apply ok_for; auto.
  intros k x Hk. apply HB. lia.
Qed.

(** a constant invariant *)
Lemma ok_for_const St (mf : Prop) (P : St -> Prop) n (body : nat -> St -> option St) (s : St) :
  P s -> (forall k s, P s -> ok mf (body k s) P) -> ok mf (for_ n 0 body s) P.
Proof. intros H0 HB. apply (@ok_for0 St mf (fun _ => P)); auto. Qed.

Lemma ok_rd A (mf : Prop) (l : list A) i (Q : A -> Prop) :
  (exists a, nth_error l i = Some a /\ Q a) -> ok mf (rd l i) Q.
Proof. intros (a & E & H). unfold rd. now rewrite E. Qed.
