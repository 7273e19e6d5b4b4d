(** The map [moved]: linear, commutes with the equations of motion, keeps the largest component when it takes axes to axes. *)
From Coq Require Import Bool ZArith Reals List Arith Lia Lra Permutation.
From Verif Require Import Num Arr ArrLemmas ModelForce ModelEngine ModelSolver SpecPhys SpecEngine SpecSolver SpecConv SpecTree
  SpecSym RLemmas LemBufProp LemErase LemNewtonLip LemTreeR LemSym LemSymLin.
Import ListNotations.
Set Implicit Arguments.
Local Open Scope R_scope.

Lemma moved_length n sigma O y : length (moved n sigma O y) = (6 * n)%nat.
Proof. unfold moved. now rewrite map_length, seq_length. Qed.

Lemma moved_nth n sigma O y q : (q < 6 * n)%nat -> nth q (moved n sigma O y) 0 =
  if (q / n <? 3)%nat
  then O (q / n)%nat 0%nat * comp y n 0 (sigma (q mod n)) + O (q / n)%nat 1%nat * comp y n 1 (sigma (q mod n))
       + O (q / n)%nat 2%nat * comp y n 2 (sigma (q mod n))
  else O (q / n - 3)%nat 0%nat * comp y n 3 (sigma (q mod n)) + O (q / n - 3)%nat 1%nat * comp y n 4 (sigma (q mod n))
       + O (q / n - 3)%nat 2%nat * comp y n 5 (sigma (q mod n)).
Proof.
  intros H. unfold moved.
  match goal with |- nth q (map ?f _) 0 = _ => rewrite (nth_indep _ 0 (f 0%nat)) by (now rewrite map_length, seq_length); rewrite (map_nth f) end.
  rewrite seq_nth by auto. reflexivity.
Qed.

Lemma divmod n k i : (i < n)%nat -> ((k * n + i) / n = k /\ (k * n + i) mod n = i)%nat.
Proof.
  intros Hi. rewrite (Nat.add_comm (k * n)). split.
  - rewrite Nat.div_add by lia. rewrite Nat.div_small by auto. lia.
  - rewrite Nat.mod_add by lia. now apply Nat.mod_small.
Qed.

Lemma moved_pos n sigma O y k i : (i < n)%nat -> (k < 3)%nat -> comp (moved n sigma O y) n k i =
  O k 0%nat * comp y n 0 (sigma i) + O k 1%nat * comp y n 1 (sigma i) + O k 2%nat * comp y n 2 (sigma i).
Proof.
  intros Hi Hk. unfold comp at 1. rewrite moved_nth by nia. destruct (divmod k Hi) as [-> ->]. destruct (Nat.ltb_spec k 3); [reflexivity|lia].
Qed.
Lemma moved_vel n sigma O y k i : (i < n)%nat -> (k < 3)%nat -> comp (moved n sigma O y) n (k + 3) i =
  O k 0%nat * comp y n 3 (sigma i) + O k 1%nat * comp y n 4 (sigma i) + O k 2%nat * comp y n 5 (sigma i).
Proof.
  intros Hi Hk. unfold comp at 1. rewrite moved_nth by nia. destruct (divmod (k + 3) Hi) as [-> ->].
  destruct (Nat.ltb_spec (k + 3) 3); [lia|]. replace (k + 3 - 3)%nat with k by lia. reflexivity.
Qed.

Section Perm.
  Variables (n : nat) (sigma : nat -> nat).
  Hypothesis Hs : rearranges n sigma.
  Lemma perm_lt i : (i < n)%nat -> (sigma i < n)%nat.
  Proof.
    intros Hi. assert (In (sigma i) (seq 0 n)); [|rewrite in_seq in *; lia].
    apply (Permutation_in _ Hs). apply in_map. apply in_seq. lia.
  Qed.
  Lemma perm_inj i j : (i < n)%nat -> (j < n)%nat -> sigma i = sigma j -> i = j.
  Proof.
    intros Hi Hj E. assert (ND : NoDup (map sigma (seq 0 n))).
    { eapply Permutation_NoDup; [apply Permutation_sym; exact Hs|apply seq_NoDup]. }
    rewrite (NoDup_nth _ 0%nat) in ND. apply ND; rewrite ?map_length, ?seq_length; auto.
    rewrite !(nth_indep _ 0%nat (sigma 0%nat)) by (now rewrite map_length, seq_length). rewrite !map_nth, !seq_nth by auto. exact E.
  Qed.
  Lemma perm_onto j : (j < n)%nat -> exists i, (i < n)%nat /\ sigma i = j.
  Proof.
    intros Hj. assert (In j (map sigma (seq 0 n))) as H. { apply (Permutation_in _ (Permutation_sym Hs)). apply in_seq. lia. }
    apply in_map_iff in H. destruct H as (i & E & Hi). apply in_seq in Hi. exists i. split; [lia|auto].
  Qed.
  Lemma rsum_perm f : rsum n (fun i => f (sigma i)) = rsum n f.
  Proof.
    rewrite <- !lsum_seq. rewrite <- (@lsum_perm _ _ f Hs). generalize (seq 0 n). intros l. unfold lsum.
    induction l as [|b l IH]; cbn; [reflexivity|]. now rewrite IH.
  Qed.
End Perm.

Lemma remassed_nth n sigma mass j : (j < n)%nat -> nth j (remassed n sigma mass) 0 = nth (sigma j) mass 0.
Proof.
  intros H. unfold remassed.
  match goal with |- nth j (map ?f _) 0 = _ => rewrite (nth_indep _ 0 (f 0%nat)) by (now rewrite map_length, seq_length); rewrite (map_nth f) end.
  rewrite seq_nth by auto. reflexivity.
Qed.

(** distances do not change *)
Lemma moved_dist n sigma O y i j : orthogonal O -> (i < n)%nat -> (j < n)%nat ->
  dist2 (comp (moved n sigma O y) n 0) (comp (moved n sigma O y) n 1) (comp (moved n sigma O y) n 2) i j =
  dist2 (comp y n 0) (comp y n 1) (comp y n 2) (sigma i) (sigma j).
Proof.
  intros HO Hi Hj. unfold dist2. rewrite !moved_pos by lia.
  set (a := comp y n 0 (sigma i)). set (b := comp y n 1 (sigma i)). set (c := comp y n 2 (sigma i)).
  set (a' := comp y n 0 (sigma j)). set (b' := comp y n 1 (sigma j)). set (c' := comp y n 2 (sigma j)).
  pose proof (HO 0 0)%nat as H00. pose proof (HO 0 1)%nat as H01. pose proof (HO 0 2)%nat as H02.
  pose proof (HO 1 1)%nat as H11. pose proof (HO 1 2)%nat as H12. pose proof (HO 2 2)%nat as H22.
  cbn [Nat.eqb] in *. specialize (H00 ltac:(lia) ltac:(lia)). specialize (H01 ltac:(lia) ltac:(lia)). specialize (H02 ltac:(lia) ltac:(lia)).
  specialize (H11 ltac:(lia) ltac:(lia)). specialize (H12 ltac:(lia) ltac:(lia)). specialize (H22 ltac:(lia) ltac:(lia)).
  transitivity (
    (O 0%nat 0%nat * O 0%nat 0%nat + O 1%nat 0%nat * O 1%nat 0%nat + O 2%nat 0%nat * O 2%nat 0%nat) * ((a - a') * (a - a'))
    + (O 0%nat 1%nat * O 0%nat 1%nat + O 1%nat 1%nat * O 1%nat 1%nat + O 2%nat 1%nat * O 2%nat 1%nat) * ((b - b') * (b - b'))
    + (O 0%nat 2%nat * O 0%nat 2%nat + O 1%nat 2%nat * O 1%nat 2%nat + O 2%nat 2%nat * O 2%nat 2%nat) * ((c - c') * (c - c'))
    + 2 * (O 0%nat 0%nat * O 0%nat 1%nat + O 1%nat 0%nat * O 1%nat 1%nat + O 2%nat 0%nat * O 2%nat 1%nat) * ((a - a') * (b - b'))
    + 2 * (O 0%nat 0%nat * O 0%nat 2%nat + O 1%nat 0%nat * O 1%nat 2%nat + O 2%nat 0%nat * O 2%nat 2%nat) * ((a - a') * (c - c'))
    + 2 * (O 0%nat 1%nat * O 0%nat 2%nat + O 1%nat 1%nat * O 1%nat 2%nat + O 2%nat 1%nat * O 2%nat 2%nat) * ((b - b') * (c - c'))); [ring|].
  rewrite H00, H01, H02, H11, H12, H22. ring.
Qed.

(** The equations of motion in the moved picture. *)
Lemma moved_acc mind n mass sigma O y k i : rearranges n sigma -> orthogonal O -> (i < n)%nat -> (k < 3)%nat ->
  let y' := moved n sigma O y in
  let a l := newton_acc mind n (fun j => nth j mass 0) (comp y n 0) (comp y n 1) (comp y n 2) (comp y n l) (sigma i) in
  newton_acc mind n (fun j => nth j (remassed n sigma mass) 0) (comp y' n 0) (comp y' n 1) (comp y' n 2) (comp y' n k) i =
  O k 0%nat * a 0%nat + O k 1%nat * a 1%nat + O k 2%nat * a 2%nat.
Proof.
  intros Hs HO Hi Hk y' a.
  set (g := fun l j => if Nat.eqb (sigma i) j then 0 else
    nth j mass 0 * (comp y n l (sigma i) - comp y n l j) / soft_cube mind (dist2 (comp y n 0) (comp y n 1) (comp y n 2) (sigma i) j)).
  assert (Ha : forall l, a l = - rsum n (g l)) by reflexivity.
  rewrite !Ha. rewrite <- !(@rsum_perm n sigma Hs (g _)).
  unfold newton_acc. rewrite !Ropp_mult_distr_r_reverse. rewrite <- !rsum_scal. rewrite <- !Ropp_plus_distr. rewrite <- !rsum_plus. f_equal.
  apply rsum_ext. intros j Hj. unfold g. cbn beta.
  destruct (Nat.eqb_spec i j) as [->|D].
  - rewrite Nat.eqb_refl. ring.
  - destruct (Nat.eqb_spec (sigma i) (sigma j)) as [E|_]; [exfalso; apply D; eapply perm_inj; eauto|].
    unfold y'. rewrite moved_dist by auto. rewrite !moved_pos by auto. rewrite remassed_nth by auto. unfold Rdiv. ring.
Qed.

Lemma moved_newton mind n mass sigma O y f : rearranges n sigma -> orthogonal O ->
  newton_rhs mind n mass y f -> newton_rhs mind n (remassed n sigma mass) (moved n sigma O y) (moved n sigma O f).
Proof.
  intros Hs HO [L H]. split; [apply moved_length|]. intros i k Hi Hk.
  assert (F : forall l, (l < 3)%nat -> comp f n l (sigma i) = comp y n (l + 3) (sigma i) /\
    comp f n (l + 3) (sigma i) = newton_acc mind n (fun j => nth j mass 0) (comp y n 0) (comp y n 1) (comp y n 2) (comp y n l) (sigma i)).
  { intros l Hl. destruct (H (sigma i) l (perm_lt Hs Hi) Hl) as [A B]. split; unfold comp at 1; now apply nth_error_nth. }
  destruct (F 0%nat ltac:(lia)) as [F0 G0], (F 1%nat ltac:(lia)) as [F1 G1], (F 2%nat ltac:(lia)) as [F2 G2]. cbn [Nat.add] in *.
  split.
  - rewrite (nth_error_nth' _ 0) by (rewrite moved_length; nia). f_equal.
    change (comp (moved n sigma O f) n k i = comp (moved n sigma O y) n (k + 3) i).
    rewrite moved_pos, moved_vel by auto. now rewrite F0, F1, F2.
  - rewrite (nth_error_nth' _ 0) by (rewrite moved_length; nia). f_equal.
    change (comp (moved n sigma O f) n (k + 3) i = newton_acc mind n (fun j => nth j (remassed n sigma mass) 0)
      (comp (moved n sigma O y) n 0) (comp (moved n sigma O y) n 1) (comp (moved n sigma O y) n 2) (comp (moved n sigma O y) n k) i).
    rewrite moved_vel by auto. rewrite moved_acc by auto. now rewrite G0, G1, G2.
Qed.

Lemma moved_lin n sigma O a u b v r : rearranges n sigma -> length u = (6 * n)%nat -> length v = (6 * n)%nat -> length r = (6 * n)%nat ->
  (forall q, (q < 6 * n)%nat -> nth q r 0 = a * nth q u 0 + b * nth q v 0) ->
  forall q, (q < 6 * n)%nat -> nth q (moved n sigma O r) 0 = a * nth q (moved n sigma O u) 0 + b * nth q (moved n sigma O v) 0.
Proof.
  intros Hs Lu Lv Lr H q Hq. rewrite !moved_nth by auto.
  assert (Hn : n <> 0%nat) by lia. pose proof (perm_lt Hs (Nat.mod_upper_bound q n Hn)) as Hj.
  assert (C : forall k, (k < 6)%nat -> comp r n k (sigma (q mod n)) = a * comp u n k (sigma (q mod n)) + b * comp v n k (sigma (q mod n))).
  { intros k Hk. unfold comp. apply H. nia. }
  destruct (q / n <? 3)%nat; rewrite !C by lia; ring.
Qed.

(** axes to axes: the components are the old ones, in another order and up to the sign *)
Lemma axis_row O k : axis_map O -> (k < 3)%nat -> exists l sg, (l < 3)%nat /\ (sg = 1 \/ sg = -1) /\
  forall f : nat -> R, O k 0%nat * f 0%nat + O k 1%nat * f 1%nat + O k 2%nat * f 2%nat = sg * f l.
Proof.
  intros (tau & sign & Ht & H) Hk. destruct (H k Hk) as [Hsg HO]. exists (tau k), (sign k). pose proof (perm_lt Ht Hk) as L.
  split; [exact L|]. split; [exact Hsg|]. intros f. rewrite !HO by lia.
  destruct (tau k) as [|[|[|x]]]; [| | |lia]; cbn [Nat.eqb]; ring.
Qed.
Lemma axis_col O l : axis_map O -> (l < 3)%nat -> exists k sg, (k < 3)%nat /\ (sg = 1 \/ sg = -1) /\
  forall f : nat -> R, O k 0%nat * f 0%nat + O k 1%nat * f 1%nat + O k 2%nat * f 2%nat = sg * f l.
Proof.
  intros (tau & sign & Ht & H) Hl. destruct (perm_onto Ht Hl) as (k & Hk & E). destruct (H k Hk) as [Hsg HO]. exists k, (sign k).
  split; [exact Hk|]. split; [exact Hsg|]. intros f. rewrite !HO by lia. rewrite E.
  destruct l as [|[|[|x]]]; [| | |lia]; cbn [Nat.eqb]; ring.
Qed.
Lemma abs_sign sg x : sg = 1 \/ sg = -1 -> Rabs (sg * x) = Rabs x.
Proof. intros [->| ->]; [now rewrite Rmult_1_l|]. replace (-1 * x) with (- x) by ring. apply Rabs_Ropp. Qed.

Lemma moved_from n sigma O y q : rearranges n sigma -> axis_map O -> (q < 6 * n)%nat ->
  exists p, (p < 6 * n)%nat /\ Rabs (nth q (moved n sigma O y) 0) = Rabs (nth p y 0).
Proof.
  intros Hs HO Hq. assert (Hn : n <> 0%nat) by lia. pose proof (perm_lt Hs (Nat.mod_upper_bound q n Hn)) as Hj.
  assert (Hk : (q / n < 6)%nat) by (apply Nat.div_lt_upper_bound; lia).
  rewrite moved_nth by auto. destruct (Nat.ltb_spec (q / n) 3) as [L|L].
  - destruct (axis_row HO L) as (l & sg & Hl & S1 & E). exists (l * n + sigma (q mod n))%nat. split; [nia|].
    rewrite (E (fun l => comp y n l (sigma (q mod n)))). now apply abs_sign.
  - destruct (@axis_row O (q / n - 3) HO) as (l & sg & Hl & S1 & E); [lia|]. exists ((l + 3) * n + sigma (q mod n))%nat. split; [nia|].
    pose proof (E (fun l => comp y n (l + 3) (sigma (q mod n)))) as X. cbn [Nat.add] in X. rewrite X. now apply abs_sign.
Qed.
Lemma moved_onto n sigma O y p : rearranges n sigma -> axis_map O -> (p < 6 * n)%nat ->
  exists q, (q < 6 * n)%nat /\ Rabs (nth q (moved n sigma O y) 0) = Rabs (nth p y 0).
Proof.
  intros Hs HO Hp. assert (Hn : n <> 0%nat) by lia. pose proof (Nat.mod_upper_bound p n Hn) as Hm.
  destruct (perm_onto Hs Hm) as (i & Hi & E). assert (Hk : (p / n < 6)%nat) by (apply Nat.div_lt_upper_bound; lia).
  pose proof (Nat.div_mod p n Hn) as Dp.
  destruct (Nat.ltb_spec (p / n) 3) as [L|L].
  - destruct (axis_col HO L) as (k & sg & Hk' & S1 & F). exists (k * n + i)%nat. split; [nia|].
    change (Rabs (comp (moved n sigma O y) n k i) = Rabs (nth p y 0)). rewrite moved_pos by auto.
    rewrite (F (fun l => comp y n l (sigma i))). rewrite abs_sign by auto. rewrite E. unfold comp. do 2 f_equal. lia.
  - destruct (@axis_col O (p / n - 3) HO) as (k & sg & Hk' & S1 & F); [lia|]. exists ((k + 3) * n + i)%nat. split; [nia|].
    change (Rabs (comp (moved n sigma O y) n (k + 3) i) = Rabs (nth p y 0)). rewrite moved_vel by auto.
    pose proof (F (fun l => comp y n (l + 3) (sigma i))) as X. cbn [Nat.add] in X. rewrite X. rewrite abs_sign by auto. rewrite E. unfold comp. do 2 f_equal. nia.
Qed.

Lemma moved_iso mind n sigma O : (0 < n)%nat -> rearranges n sigma -> axis_map O -> iso (Rops mind) (6 * n) (lW (6 * n) (moved n sigma O)).
Proof.
  intros Hn Hs HO a a' [La ->].
  destruct (@fmaxabs_R mind a) as (m & E & (v & Hv & Em) & H). { intros ->. cbn in La. lia. }
  destruct (@fmaxabs_R mind (moved n sigma O a)) as (m' & E' & (v' & Hv' & Em') & H').
  { intros X. pose proof (moved_length n sigma O a) as Y. rewrite X in Y. cbn in Y. lia. }
  rewrite La in E. rewrite moved_length in E'. rewrite E, E'. cbn [sim].
  destruct (In_nth _ _ 0 Hv) as (p & Hp & P1), (In_nth _ _ 0 Hv') as (q & Hq & P2). rewrite La in Hp. rewrite moved_length in Hq.
  apply Rle_antisym.
  - destruct (@moved_onto n sigma O a p Hs HO Hp) as (i & Hi & I1). rewrite Em, <- P1, <- I1. apply H'. apply nth_In. now rewrite moved_length.
  - destruct (@moved_from n sigma O a q Hs HO Hq) as (i & Hi & I1). rewrite Em', <- P2, I1. apply H. apply nth_In. now rewrite La.
Qed.
