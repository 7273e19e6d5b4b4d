(** Facts about checked arrays and loops. *)
From Coq Require Import List Arith Lia.
From Verif Require Import Arr.
Import ListNotations.
Set Implicit Arguments.

(** Total update, used only to describe [wr]. *)
Fixpoint upd {A : Type} (l : list A) (i : nat) (v : A) : list A :=
  match l, i with
  | [], _ => []
  | _ :: t, O => v :: t
  | h :: t, S i' => h :: upd t i' v
  end.

Lemma upd_length A (l : list A) i v : length (upd l i v) = length l.
Proof. revert i; induction l as [|a l IH]; intros [|i]; simpl; auto. Qed.

Lemma upd_nth A (l : list A) i v j :
  nth_error (upd l i v) j =
  if Nat.eqb j i then (if Nat.ltb i (length l) then Some v else None) else nth_error l j.
Proof.
  revert i j; induction l as [|a l IH]; intros [|i] [|j]; simpl; auto.
  - destruct (Nat.eqb j i); auto.
  - rewrite IH. destruct (Nat.eqb j i); auto.
Qed.

Lemma wr_upd A (l : list A) i v :
  wr l i v = if Nat.ltb i (length l) then Some (upd l i v) else None.
Proof.
  revert i; induction l as [|a l IH]; intros [|i]; simpl; auto.
  rewrite IH. change (S i <? S (length l)) with (i <? length l).
  destruct (i <? length l); auto.
Qed.

Lemma wr_ok A (l : list A) i v : i < length l -> wr l i v = Some (upd l i v).
Proof. intros H. rewrite wr_upd. apply Nat.ltb_lt in H. now rewrite H. Qed.

Lemma wr_none A (l : list A) i v : length l <= i -> wr l i v = None.
Proof. intros H. rewrite wr_upd. apply Nat.ltb_ge in H. now rewrite H. Qed.

Lemma wr_some_inv A (l l' : list A) i v :
  wr l i v = Some l' -> i < length l /\ l' = upd l i v.
Proof.
  rewrite wr_upd. destruct (Nat.ltb_spec i (length l)); [|discriminate].
  intros [= <-]. auto.
Qed.

Lemma upd_nth_same A (l : list A) i v : i < length l -> nth_error (upd l i v) i = Some v.
Proof. intros H. rewrite upd_nth, Nat.eqb_refl. apply Nat.ltb_lt in H. now rewrite H. Qed.

Lemma upd_nth_other A (l : list A) i v j : j <> i -> nth_error (upd l i v) j = nth_error l j.
Proof. intros H. rewrite upd_nth. apply Nat.eqb_neq in H. now rewrite H. Qed.

Lemma rd_some A (l : list A) i : i < length l -> exists v, rd l i = Some v.
Proof.
  intros H. unfold rd. destruct (nth_error l i) eqn:E; eauto.
  apply nth_error_None in E. lia.
Qed.

Lemma rd_none A (l : list A) i : length l <= i -> rd l i = None.
Proof. intros H. unfold rd. now apply nth_error_None. Qed.

Lemma rd_nth A (l : list A) i d : i < length l -> rd l i = Some (nth i l d).
Proof. intros H. unfold rd. now apply nth_error_nth'. Qed.

Lemma rd_bound A (l : list A) i v : rd l i = Some v -> i < length l.
Proof. unfold rd. intros H. apply nth_error_Some. congruence. Qed.

Lemma nth_error_ext A (l l' : list A) :
  length l = length l' -> (forall i, i < length l -> nth_error l i = nth_error l' i) -> l = l'.
Proof.
  revert l'; induction l as [|a l IH]; intros [|b l'] Hl H; simpl in *; try lia; auto.
  f_equal.
  - specialize (H 0 ltac:(lia)). simpl in H. congruence.
  - apply IH; [lia|]. intros i Hi. apply (H (S i)). lia.
Qed.

Lemma obind_some A B (a : option A) (f : A -> option B) x : a = Some x -> obind a f = f x.
Proof. intros ->. reflexivity. Qed.

(** Loop rules *)
Lemma for_inv St (P : nat -> St -> Prop) n i body (s : St) :
  P i s ->
  (forall k s, i <= k < i + n -> P k s -> exists s', body k s = Some s' /\ P (S k) s') ->
  exists s', for_ n i body s = Some s' /\ P (i + n) s'.
Proof.
  revert i s; induction n as [|n IH]; intros i s H0 Hs; simpl.
  - exists s. rewrite Nat.add_0_r. auto.
  - destruct (Hs i s ltac:(lia) H0) as (s' & E & H1). rewrite E.
    destruct (IH (S i) s' H1) as (s'' & E' & H2).
    + intros k t Hk Ht. apply Hs; [lia|auto].
    + exists s''. split; auto. now replace (i + S n) with (S i + n) by lia.
Qed.

Lemma for_ext St n i (b1 b2 : nat -> St -> option St) s :
  (forall k s, i <= k < i + n -> b1 k s = b2 k s) -> for_ n i b1 s = for_ n i b2 s.
Proof.
  revert i s; induction n as [|n IH]; intros i s H; simpl; auto.
  rewrite H by lia. destruct (b2 i s); auto. apply IH. intros; apply H; lia.
Qed.

Lemma for_app St n m i (b : nat -> St -> option St) s :
  for_ (n + m) i b s = match for_ n i b s with Some s' => for_ m (i + n) b s' | None => None end.
Proof.
  revert i s; induction n as [|n IH]; intros i s; simpl.
  - now rewrite Nat.add_0_r.
  - destruct (b i s); auto. rewrite IH. now replace (S i + n) with (i + S n) by lia.
Qed.

Lemma for_succ St n i (b : nat -> St -> option St) s :
  for_ (S n) i b s = match for_ n i b s with Some s' => b (i + n) s' | None => None end.
Proof.
  replace (S n) with (n + 1) by lia. rewrite for_app.
  destruct (for_ n i b s); auto. simpl. destruct (b (i + n) s0); auto.
Qed.

Lemma for_fold St (g : nat -> St -> St) n i body (s : St) :
  (forall k s, i <= k < i + n -> body k s = Some (g k s)) ->
  for_ n i body s = Some (fold_left (fun s k => g k s) (seq i n) s).
Proof.
  revert i s; induction n as [|n IH]; intros i s H; simpl; auto.
  rewrite H by lia. apply IH. intros; apply H; lia.
Qed.

(** A loop that fails at its first failing iteration *)
Lemma for_fail St n i body (s : St) (P : nat -> St -> Prop) k0 :
  i <= k0 < i + n ->
  P i s ->
  (forall k s, i <= k < k0 -> P k s ->
     body k s = None \/ exists s', body k s = Some s' /\ P (S k) s') ->
  (forall s, P k0 s -> body k0 s = None) ->
  for_ n i body s = None.
Proof.
  revert i s; induction n as [|n IH]; intros i s Hk H0 Hs Hf; simpl; [lia|].
  destruct (Nat.eq_dec i k0) as [->|Hne].
  - now rewrite (Hf s H0).
  - destruct (Hs i s ltac:(lia) H0) as [-> | (s' & -> & H1)]; auto.
    apply IH; auto; try lia. intros; apply Hs; auto; lia.
Qed.

Lemma for_step_for St cnt i step (b : nat -> St -> option St) s :
  for_step cnt i step b s = for_ cnt 0 (fun k => b (i + k * step)) s.
Proof.
  revert i s. induction cnt as [|c IH]; intros i s; simpl; auto.
  rewrite Nat.add_0_r. destruct (b i s) as [s'|]; auto.
  rewrite IH. clear IH. revert s'.
  enough (G : forall a st, for_ c a (fun k => b (i + step + k * step)) st =
                          for_ c (S a) (fun k => b (i + k * step)) st) by (intros; apply G).
  induction c as [|c IH]; intros a st; simpl; auto.
  replace (i + (step + a * step)) with (i + step + a * step) by lia.
  destruct (b _ st); auto.
Qed.

(** A loop that rewrites cell [k] at iteration [k] from its old contents *)
Lemma for_cells T (h : nat -> T -> T) n (body : nat -> list T -> option (list T)) (a : list T) :
  n <= length a ->
  (forall k l x, k < n -> length l = length a -> rd l k = Some x ->
     rd a k = Some x -> body k l = Some (upd l k (h k x))) ->
  exists a', for_ n 0 body a = Some a' /\ length a' = length a /\
    forall j, nth_error a' j =
              if Nat.ltb j n then option_map (h j) (nth_error a j) else nth_error a j.
Proof.
  intros Hn Hb.
  pose (P := fun k l => length l = length a /\
    forall j, nth_error l j =
              if Nat.ltb j k then option_map (h j) (nth_error a j) else nth_error a j).
  destruct (@for_inv _ P n 0 body a) as (a' & E & HP).
  - split; auto.
  - intros k l Hk [Hl Hj].
    assert (Hr : nth_error l k = nth_error a k).
    { rewrite Hj. now rewrite Nat.ltb_irrefl. }
    destruct (rd_some a (i:=k) ltac:(lia)) as [x Hx].
    exists (upd l k (h k x)). split.
    + apply Hb; auto; try lia. unfold rd in *. congruence.
    + split; [now rewrite upd_length|]. intros j. rewrite upd_nth.
      destruct (Nat.eqb_spec j k) as [->|Hne].
      * replace (k <? length l) with true by (symmetry; apply Nat.ltb_lt; lia).
        replace (k <? S k) with true by (symmetry; apply Nat.ltb_lt; lia).
        unfold rd in Hx. now rewrite Hx.
      * rewrite Hj. replace (j <? S k) with (j <? k); auto.
        destruct (Nat.ltb_spec j k), (Nat.ltb_spec j (S k)); auto; lia.
  - destruct HP as [H1 H2]. exists a'. auto.
Qed.

(** Structure-of-arrays addressing *)
Lemma soa_inj n a b i j : i < n -> j < n -> a * n + i = b * n + j -> a = b /\ i = j.
Proof.
  intros Hi Hj H.
  assert (a = b).
  { destruct (Nat.lt_trichotomy a b) as [C|[C|C]]; auto; exfalso.
    - assert (S a * n <= b * n) by (apply Nat.mul_le_mono_r; lia). lia.
    - assert (S b * n <= a * n) by (apply Nat.mul_le_mono_r; lia). lia. }
  subst. split; auto. lia.
Qed.

Lemma soa_bound n k K i : i < n -> k < K -> k * n + i < K * n.
Proof.
  intros Hi Hk. assert (S k * n <= K * n) by (apply Nat.mul_le_mono_r; lia). lia.
Qed.

Lemma soa_split n K j : j < K * n -> exists k i, k < K /\ i < n /\ j = k * n + i.
Proof.
  intros H. assert (n <> 0) by (intros ->; lia).
  exists (j / n), (j mod n). split; [|split].
  - apply Nat.div_lt_upper_bound; auto. lia.
  - now apply Nat.mod_upper_bound.
  - rewrite Nat.mul_comm. now apply Nat.div_mod.
Qed.

Lemma for_collect A (get : nat -> option A) (v : nat -> A) n :
  (forall b, b < n -> get b = Some (v b)) ->
  for_ n 0 (fun b acc => let* x := get b in Some (acc ++ [x])) [] = Some (map v (seq 0 n)).
Proof.
  induction n as [|n IH]; intros H; auto.
  rewrite for_succ, IH by (intros; apply H; lia).
  cbn [Nat.add]. rewrite H by lia. cbn [obind]. f_equal.
  rewrite seq_S, map_app. reflexivity.
Qed.

Lemma nth_map A (v : nat -> A) n b : b < n -> nth_error (map v (seq 0 n)) b = Some (v b).
Proof.
  intros H. rewrite nth_error_map.
  rewrite (nth_error_nth' (seq 0 n) 0) by (rewrite seq_length; lia).
  rewrite seq_nth by lia. reflexivity.
Qed.

Lemma rd_map A (v : nat -> A) n b : b < n -> rd (map v (seq 0 n)) b = Some (v b).
Proof.
  intros H. unfold rd. rewrite nth_error_map.
  rewrite (nth_error_nth' (seq 0 n) 0) by (rewrite seq_length; lia).
  rewrite seq_nth by lia. reflexivity.
Qed.

Lemma seq_shift_map a n : seq a n = map (fun b => a + b) (seq 0 n).
Proof.
  induction n as [|n IH]; auto. rewrite !seq_S, map_app, IH. reflexivity.
Qed.

Lemma fold_left_map A B C (f : A -> B -> A) (g : C -> B) l a :
  fold_left f (map g l) a = fold_left (fun s c => f s (g c)) l a.
Proof. revert a; induction l as [|c l IH]; intros a; simpl; auto. Qed.
