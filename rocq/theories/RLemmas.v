(** Sums over the reals and vectors. *)
From Coq Require Import Reals List Arith Lia Lra.
From Verif Require Import SpecPhys Num ModelVertex ArrLemmas.
Import ListNotations.
Local Open Scope R_scope.

Lemma rsum_ext n f g : (forall i, (i < n)%nat -> f i = g i) -> rsum n f = rsum n g.
Proof.
  induction n as [|n IH]; intros H; simpl; auto.
  rewrite IH by (intros; apply H; lia). rewrite H by lia. reflexivity.
Qed.

Lemma rsum_plus n f g : rsum n (fun i => f i + g i) = rsum n f + rsum n g.
Proof. induction n as [|n IH]; simpl; [ring|rewrite IH; ring]. Qed.

Lemma rsum_opp n f : rsum n (fun i => - f i) = - rsum n f.
Proof. induction n as [|n IH]; simpl; [ring|rewrite IH; ring]. Qed.

Lemma rsum_minus n f g : rsum n (fun i => f i - g i) = rsum n f - rsum n g.
Proof. induction n as [|n IH]; simpl; [ring|rewrite IH; ring]. Qed.

Lemma rsum_scal n c f : rsum n (fun i => c * f i) = c * rsum n f.
Proof. induction n as [|n IH]; simpl; [ring|rewrite IH; ring]. Qed.

Lemma rsum_scal_r n c f : rsum n (fun i => f i * c) = rsum n f * c.
Proof. induction n as [|n IH]; simpl; [ring|rewrite IH; ring]. Qed.

Lemma rsum_zero n f : (forall i, (i < n)%nat -> f i = 0) -> rsum n f = 0.
Proof.
  induction n as [|n IH]; intros H; simpl; auto.
  rewrite IH by (intros; apply H; lia). rewrite H by lia. ring.
Qed.

Lemma rsum_swap n m f :
  rsum n (fun i => rsum m (fun j => f i j)) = rsum m (fun j => rsum n (fun i => f i j)).
Proof.
  induction n as [|n IH]; simpl.
  - symmetry. apply rsum_zero. auto.
  - rewrite IH, <- rsum_plus. reflexivity.
Qed.

Lemma rsum_antisym n f :
  (forall i j, (i < n)%nat -> (j < n)%nat -> f i j = - f j i) ->
  rsum n (fun i => rsum n (fun j => f i j)) = 0.
Proof.
  intros H.
  assert (E : rsum n (fun i => rsum n (fun j => f i j)) =
              - rsum n (fun i => rsum n (fun j => f i j))).
  { rewrite rsum_swap at 1. rewrite <- rsum_opp. apply rsum_ext. intros j Hj.
    rewrite <- rsum_opp. apply rsum_ext. intros i Hi. apply H; auto. }
  lra.
Qed.

Lemma fold_left_rsum_gen (f : nat -> R) i n (a : R) :
  fold_left (fun s k => s + f k) (seq i n) a = a + rsum n (fun k => f (i + k)%nat).
Proof.
  revert a. induction n as [|n IH]; intros a.
  - simpl. ring.
  - rewrite seq_S, fold_left_app, IH. simpl. ring.
Qed.

Lemma fold_left_rsum (f : nat -> R) n a :
  fold_left (fun s k => s + f k) (seq 0 n) a = a + rsum n f.
Proof. rewrite fold_left_rsum_gen. f_equal. Qed.

(** sum of real vectors *)
Definition vsumR (n : nat) (f : nat -> vec3 R) : vec3 R :=
  V3 (rsum n (fun i => vx (f i))) (rsum n (fun i => vy (f i))) (rsum n (fun i => vz (f i))).

Lemma fold_left_vadd (d : R) (f : nat -> vec3 R) n a :
  fold_left (fun s k => vadd (Rops d) s (f k)) (seq 0 n) a = vadd (Rops d) a (vsumR n f).
Proof.
  induction n as [|n IH].
  - destruct a. unfold vsumR, vadd. simpl. now rewrite !Rplus_0_r.
  - rewrite seq_S, fold_left_app, IH. unfold vsumR, vadd. simpl.
    f_equal; ring.
Qed.

Lemma vec3_eq T (a b : vec3 T) : vx a = vx b -> vy a = vy b -> vz a = vz b -> a = b.
Proof. destruct a, b; simpl; congruence. Qed.

Lemma nltb_R d a b : nltb (Rops d) a b = true <-> a < b.
Proof. simpl. destruct (Rlt_dec a b); split; auto; discriminate. Qed.
Lemma nltb_R_false d a b : nltb (Rops d) a b = false <-> ~ a < b.
Proof. simpl. destruct (Rlt_dec a b); split; auto; try discriminate; intros; contradiction. Qed.
