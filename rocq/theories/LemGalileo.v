(** Uniform shifts of the state vectors. *)
From Coq Require Import Reals List Arith Lia Lra.
From Verif Require Import Num SpecPhys SpecGalileo RLemmas.
Import ListNotations.
Local Open Scope R_scope.

(** some displacement and some velocity *)
Definition gW (n : nat) (y y' : list R) : Prop := exists X V, boosted n X V y y'.

Lemma gW_len n u v : gW n u v -> length u = (6 * n)%nat /\ length v = (6 * n)%nat.
Proof. intros (X & V & A & B & _). auto. Qed.

Lemma gW_refl n u : length u = (6 * n)%nat -> gW n u u.
Proof. intros L. exists (fun _ => 0), (fun _ => 0). split; [|split]; auto. intros. lra. Qed.

Lemma gW_comb n a u u' b v v' r r' : gW n u u' -> gW n v v' -> length r = (6 * n)%nat -> length r' = (6 * n)%nat ->
  (forall q, (q < 6 * n)%nat -> nth q r 0 = a * nth q u 0 + b * nth q v 0) ->
  (forall q, (q < 6 * n)%nat -> nth q r' 0 = a * nth q u' 0 + b * nth q v' 0) -> gW n r r'.
Proof.
  intros (X & V & _ & _ & H) (X2 & V2 & _ & _ & H2) L L' E E'.
  exists (fun k => a * X k + b * X2 k), (fun k => a * V k + b * V2 k). split; [|split]; auto.
  intros k i Hk Hi. destruct (H k i Hk Hi) as [A B], (H2 k i Hk Hi) as [A2 B2]. unfold comp in *.
  rewrite !E, !E' by nia. rewrite A, B, A2, B2. lra.
Qed.

Lemma boosted_newton mind n mass X V y y' f f' : boosted n X V y y' ->
  newton_rhs mind n mass y f -> newton_rhs mind n mass y' f' -> boosted n V (fun _ => 0) f f'.
Proof.
  intros (L & L' & H) [F G] [F' G']. split; [|split]; auto. intros k i Hk Hi.
  destruct (G i k Hi Hk) as [A B], (G' i k Hi Hk) as [A' B'].
  apply (nth_error_nth _ _ 0) in A. apply (nth_error_nth _ _ 0) in B. apply (nth_error_nth _ _ 0) in A'. apply (nth_error_nth _ _ 0) in B'.
  fold (comp f n k i) in A. fold (comp f' n k i) in A'. fold (comp f n (k + 3) i) in B. fold (comp f' n (k + 3) i) in B'.
  rewrite A, A', B, B'. split; [apply (H k i Hk Hi)|]. rewrite Rplus_0_r. unfold newton_acc. f_equal. apply rsum_ext. intros j Hj.
  destruct (Nat.eqb i j); [reflexivity|].
  assert (D : forall l, (l < 3)%nat -> comp y' n l i - comp y' n l j = comp y n l i - comp y n l j).
  { intros l Hl. rewrite (proj1 (H l i Hl Hi)), (proj1 (H l j Hl Hj)). ring. }
  unfold dist2. rewrite (D k) by auto. rewrite (D 0%nat), (D 1%nat), (D 2%nat) by lia. reflexivity.
Qed.

(** the sum over the bodies finds the shift *)
Lemma shift_sum n (m f f' : nat -> R) d : (forall i, (i < n)%nat -> f' i = f i + d) ->
  rsum n (fun i => m i * f' i) = rsum n (fun i => m i * f i) + rsum n m * d.
Proof.
  intros H. rewrite <- rsum_scal_r, <- rsum_plus. apply rsum_ext. intros i Hi. rewrite H by auto. ring.
Qed.
