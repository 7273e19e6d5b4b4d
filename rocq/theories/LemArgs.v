(** Lemmas about the command line *)
From Coq Require Import Bool Ascii String List NArith ZArith Arith Lia.
From Verif Require Import Num Arr ModelText ModelData ModelArgs SpecArgs LemText.
Import ListNotations.

Lemma text_eqb_spec : forall a b, reflect (a = b) (text_eqb a b).
Proof.
  induction a as [|x a IH]; intros [|y b]; cbn; try (constructor; congruence).
  destruct (Ascii.eqb_spec x y) as [->|H]; cbn; [|constructor; congruence].
  destruct (IH b) as [->|H]; constructor; congruence.
Qed.
Lemma text_eqb_refl : forall a, text_eqb a a = true.
Proof. intros a. destruct (text_eqb_spec a a); congruence. Qed.

Lemma lookup_assign : forall k v m k', lookup k' (assign k v m) = if text_eqb k k' then Some v else lookup k' m.
Proof.
  intros k v m k'. induction m as [|[a b] m IH]; cbn [assign lookup].
  - reflexivity.
  - destruct (text_eqb_spec a k) as [->|H]; cbn [lookup].
    + destruct (text_eqb_spec k k'); reflexivity.
    + rewrite IH. destruct (text_eqb_spec a k') as [->|H']; [|reflexivity].
      destruct (text_eqb_spec k k'); congruence.
Qed.

Lemma split_none : forall c s, ~ In c s -> split c s = [s].
Proof.
  induction s as [|a s IH]; intros H; cbn; [reflexivity|].
  destruct (Ascii.eqb_spec a c) as [->|E]; [exfalso; apply H; now left|].
  rewrite IH; [reflexivity|]. intros H'. apply H. now right.
Qed.
Lemma split_nonempty : forall c s, split c s <> [].
Proof. intros c [|a s]; cbn; [discriminate|]. destruct (Ascii.eqb a c); [discriminate|]. destruct (split c s); discriminate. Qed.
Lemma split_one : forall c s w, split c s = [w] <-> s = w /\ ~ In c s.
Proof.
  intros c s w. split; [|intros [-> H]; now apply split_none].
  revert w. induction s as [|a s IH]; intros w E; cbn in E.
  - injection E as <-. split; auto.
  - destruct (Ascii.eqb_spec a c) as [->|H].
    + injection E as _ E. exfalso. exact (split_nonempty _ _ E).
    + destruct (split c s) as [|x l] eqn:Es; [exfalso; exact (split_nonempty _ _ Es)|].
      injection E as <- ->. destruct (IH x eq_refl) as [-> Hn]. split; [reflexivity|].
      intros [Q|Q]; congruence.
Qed.
Lemma split_two : forall c s k v, split c s = [k; v] <-> s = k ++ c :: v /\ ~ In c k /\ ~ In c v.
Proof.
  intros c s k v. split.
  - revert k. induction s as [|a s IH]; intros k E; cbn in E; [discriminate|].
    destruct (Ascii.eqb_spec a c) as [->|H].
    + injection E as <- E. apply split_one in E. destruct E as [-> E]. cbn. auto.
    + destruct (split c s) as [|x l] eqn:Es; [exfalso; exact (split_nonempty _ _ Es)|].
      injection E as <- ->. destruct (IH x eq_refl) as (-> & H1 & H2). split; [reflexivity|].
      split; [|exact H2]. intros [Q|Q]; congruence.
  - intros (-> & H1 & H2). induction k as [|a k IH]; cbn.
    + rewrite Ascii.eqb_refl. f_equal. now apply split_none.
    + destruct (Ascii.eqb_spec a c) as [->|H]; [exfalso; apply H1; now left|].
      rewrite IH; [reflexivity|]. intros Q. apply H1. now right.
Qed.

Lemma starts_with_spec : forall p s, starts_with p s = true <-> exists r, s = p ++ r.
Proof.
  induction p as [|a p IH]; intros s; cbn; [split; eauto|].
  destruct s as [|b s]; [split; [discriminate|intros (r & H); discriminate]|].
  destruct (Ascii.eqb_spec a b) as [->|H]; cbn.
  - rewrite IH. split; intros (r & E); exists r; [now subst|congruence].
  - split; [discriminate|]. intros (r & E). injection E as E _. congruence.
Qed.

(** what one argument does *)
Lemma parse_arg_assigns : forall arg k v m, assigns arg k v -> parse_arg arg m = assign k v m.
Proof.
  intros arg k v m (-> & H1 & H2). unfold parse_arg.
  assert (E : starts_with (chars "--") (chars "--" ++ k ++ "="%char :: v) = true) by (apply starts_with_spec; eauto).
  rewrite E. change (skipn 2 (chars "--" ++ k ++ "="%char :: v)) with (k ++ "="%char :: v).
  destruct (split_two "="%char (k ++ "="%char :: v) k v) as [_ ->]; auto.
Qed.
Lemma parse_arg_other : forall arg m, (forall k v, ~ assigns arg k v) -> parse_arg arg m = m.
Proof.
  intros arg m H. unfold parse_arg. destruct (starts_with (chars "--") arg) eqn:E; [|reflexivity].
  apply starts_with_spec in E. destruct E as (r & ->).
  change (skipn 2 (chars "--" ++ r)) with r. destruct (split "="%char r) as [|k [|v [|w l]]] eqn:Es; try reflexivity.
  exfalso. apply split_two in Es. destruct Es as (-> & H1 & H2). apply (H k v). repeat split; auto.
Qed.
Lemma assigns_dec : forall arg, (exists k v, assigns arg k v) \/ (forall k v, ~ assigns arg k v).
Proof.
  intros arg. destruct (starts_with (chars "--") arg) eqn:E.
  2: { right. intros k v (-> & _). enough (X : starts_with (chars "--") (chars "--" ++ k ++ "="%char :: v) = true) by congruence.
       apply starts_with_spec. eauto. }
  apply starts_with_spec in E. destruct E as (r & ->).
  destruct (split "="%char r) as [|k [|v [|w l]]] eqn:Es.
  1, 2, 4: right; intros k' v' (E & H1 & H2); apply app_inv_head in E;
    destruct (split_two "="%char r k' v') as [_ Q]; rewrite Q in Es; auto; discriminate.
  left. apply split_two in Es. destruct Es as (-> & H1 & H2). exists k, v. repeat split; auto.
Qed.
Lemma assigns_inj : forall arg k v k' v', assigns arg k v -> assigns arg k' v' -> k = k' /\ v = v'.
Proof.
  intros arg k v k' v' (-> & H1 & H2) (E & H3 & H4). apply app_inv_head in E.
  destruct (split_two "="%char (k ++ "="%char :: v) k v) as [_ A]. destruct (split_two "="%char (k ++ "="%char :: v) k' v') as [_ B].
  rewrite A in B by auto. specialize (B (conj E (conj H3 H4))). injection B as -> ->. auto.
Qed.

Lemma parse_app : forall a b, parse_arguments (a ++ b) = fold_left (fun m arg => parse_arg arg m) b (parse_arguments a).
Proof. intros. unfold parse_arguments. apply fold_left_app. Qed.

Lemma lookup_silent : forall k args m, (forall arg v, In arg args -> ~ assigns arg k v) ->
  lookup k (fold_left (fun m arg => parse_arg arg m) args m) = lookup k m.
Proof.
  induction args as [|a args IH]; intros m H; cbn [fold_left]; [reflexivity|].
  rewrite IH by (intros; apply H; now right).
  destruct (assigns_dec a) as [(k' & v & Ha)|Ha].
  - rewrite (parse_arg_assigns _ _ _ m Ha), lookup_assign. destruct (text_eqb_spec k' k) as [->|]; [|reflexivity].
    exfalso. apply (H a v); [now left|exact Ha].
  - now rewrite (parse_arg_other _ m Ha).
Qed.

Lemma lookup_iff : forall args k v,
  lookup k (parse_arguments args) = Some v <->
  exists before arg after, args = before ++ arg :: after /\ assigns arg k v /\ forall a v', In a after -> ~ assigns a k v'.
Proof.
  intros args k v. split.
  - revert v. induction args as [|a args IH] using rev_ind; intros v E; [discriminate|].
    rewrite parse_app in E. cbn [fold_left] in E. destruct (assigns_dec a) as [(k' & v0 & Ha)|Ha].
    + rewrite (parse_arg_assigns _ _ _ _ Ha), lookup_assign in E. destruct (text_eqb_spec k' k) as [->|Hk].
      * injection E as ->. exists args, a, []. split; [reflexivity|]. split; [exact Ha|]. intros ? ? [].
      * destruct (IH v E) as (b & x & af & -> & H1 & H2). exists b, x, (af ++ [a]). split; [now rewrite <- app_assoc|].
        split; [exact H1|]. intros y v' Hy Hb. apply in_app_iff in Hy. destruct Hy as [Hy|[<-|[]]]; [exact (H2 y v' Hy Hb)|].
        destruct (assigns_inj _ _ _ _ _ Ha Hb). congruence.
    + rewrite (parse_arg_other _ _ Ha) in E. destruct (IH v E) as (b & x & af & -> & H1 & H2).
      exists b, x, (af ++ [a]). split; [now rewrite <- app_assoc|]. split; [exact H1|].
      intros y v' Hy Hb. apply in_app_iff in Hy. destruct Hy as [Hy|[<-|[]]]; [exact (H2 y v' Hy Hb)|exact (Ha _ _ Hb)].
  - intros (b & x & af & -> & H1 & H2). rewrite parse_app. cbn [fold_left].
    rewrite lookup_silent by exact H2. rewrite (parse_arg_assigns _ _ _ _ H1), lookup_assign, text_eqb_refl. reflexivity.
Qed.
Lemma lookup_none_iff : forall args k,
  lookup k (parse_arguments args) = None <-> forall arg v, In arg args -> ~ assigns arg k v.
Proof.
  intros args k. split.
  - intros E arg v Hi Ha. apply in_split in Hi. destruct Hi as (l1 & l2 & ->).
    rewrite parse_app in E. cbn [fold_left] in E. rewrite (parse_arg_assigns _ _ _ _ Ha) in E.
    assert (G : forall l m, lookup k m <> None -> lookup k (fold_left (fun m arg => parse_arg arg m) l m) <> None).
    { induction l as [|a l IH]; intros m Hm; cbn [fold_left]; [exact Hm|]. apply IH.
      destruct (assigns_dec a) as [(k' & v0 & Hb)|Hb].
      - rewrite (parse_arg_assigns _ _ _ m Hb), lookup_assign. destruct (text_eqb k' k); [discriminate|exact Hm].
      - now rewrite (parse_arg_other _ m Hb). }
    eapply G; [|exact E]. rewrite lookup_assign, text_eqb_refl. discriminate.
  - intros H. unfold parse_arguments. now rewrite lookup_silent.
Qed.

Lemma to_longlong_minus : forall n, (n <= 2 ^ 63)%N -> to_longlong ("-"%char :: show_N n) = Some (- Z.of_N n)%Z.
Proof.
  intros n H. unfold to_longlong.
  assert (T : trim ("-"%char :: show_N n) = "-"%char :: show_N n).
  { unfold trim. change (ltrim ("-"%char :: show_N n)) with ("-"%char :: show_N n). cbn [rev].
    pose proof (read_show n) as R. pose proof (show_digits n) as D. apply Forall_rev in D.
    destruct (rev (show_N n)) as [|a s] eqn:E.
    - apply (f_equal (@rev ascii)) in E. rewrite rev_involutive in E. rewrite E in R. discriminate R.
    - cbn [app ltrim]. inversion D; subst. rewrite digit_space by assumption.
      rewrite app_comm_cons, rev_app_distr, <- E, rev_involutive. reflexivity. }
  rewrite T. cbv zeta. change (Ascii.eqb "-" "-") with true. cbv iota beta.
  rewrite (read_show n). apply N.leb_le in H. now rewrite H.
Qed.
Lemma lower_zero : forall s, map lower s = chars "0" -> s = chars "0".
Proof.
  intros [|a [|b s]] H; try discriminate. injection H as H. f_equal.
  destruct a as [[] [] [] [] [] [] [] []]; vm_compute in H; try discriminate H; reflexivity.
Qed.
