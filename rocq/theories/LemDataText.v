(** Lines of data files: the parser against the description in SpecData.v *)
From Coq Require Import Ascii String List NArith ZArith Arith Lia.
From Verif Require Import Num Arr ModelVertex ModelText ModelData SpecData LemText.
Import ListNotations.
Set Implicit Arguments.

(** ** Comments *)
Lemma cut_app : forall l post, ~ has_comment (l ++ ["/"%char]) -> cut_comment (l ++ slashes ++ post) = l.
Proof.
  induction l as [|a l IH]; intros post H.
  - reflexivity.
  - assert (H' : ~ has_comment (l ++ ["/"%char])).
    { intros (x & y & E). apply H. exists (a :: x), y. cbn. now rewrite E. }
    specialize (IH post H').
    destruct l as [|b l].
    + cbn in *. destruct (Ascii.eqb a "/"%char) eqn:E; [|reflexivity].
      exfalso. apply H. apply Ascii.eqb_eq in E. subst a. exists [], []. reflexivity.
    + cbn in *. destruct (Ascii.eqb a "/"%char && Ascii.eqb b "/"%char)%bool eqn:E.
      * exfalso. apply H. apply andb_prop in E. destruct E as [E1 E2].
        apply Ascii.eqb_eq in E1. apply Ascii.eqb_eq in E2. subst. exists [], (l ++ ["/"%char]).
        reflexivity.
      * now rewrite IH.
Qed.
Lemma cut_none : forall l, ~ has_comment l -> cut_comment l = l.
Proof.
  induction l as [|a l IH]; intros H; [reflexivity|].
  assert (H' : ~ has_comment l).
  { intros (x & y & E). apply H. exists (a :: x), y. cbn. now rewrite E. }
  specialize (IH H'). destruct l as [|b l]; [reflexivity|].
  cbn in *. destruct (Ascii.eqb a "/"%char && Ascii.eqb b "/"%char)%bool eqn:E.
  - exfalso. apply H. apply andb_prop in E. destruct E as [E1 E2].
    apply Ascii.eqb_eq in E1. apply Ascii.eqb_eq in E2. subst. exists [], l. reflexivity.
  - now rewrite IH.
Qed.
Lemma before_cut : forall l c, before_comment l c -> cut_comment l = c.
Proof. intros l c [[-> H] | (post & -> & H)]; [now apply cut_none | now apply cut_app]. Qed.

Lemma no_comment_cons : forall a l,
  ~ has_comment l -> (a = "/"%char -> forall r, l <> "/"%char :: r) -> ~ has_comment (a :: l).
Proof.
  intros a l H Ha (x & y & E). destruct x as [|x0 x].
  - cbn in E. injection E as -> E. now apply (Ha eq_refl y).
  - cbn in E. injection E as -> E. apply H. now exists x, y.
Qed.
Lemma no_comment_app_slash : forall l, ~ has_comment l -> (forall m, l <> m ++ ["/"%char]) ->
  ~ has_comment (l ++ ["/"%char]).
Proof.
  induction l as [|a l IH]; intros H Hl.
  - intros (x & y & E). destruct x as [|? [|? ?]]; cbn in E; discriminate.
  - cbn. apply no_comment_cons.
    + apply IH.
      * intros (x & y & E). apply H. exists (a :: x), y. cbn. now rewrite E.
      * intros m E. apply (Hl (a :: m)). cbn. now rewrite E.
    + intros -> r E. destruct l as [|b l]; [now apply (Hl [])|].
      cbn in E. injection E as -> E. apply H. exists [], l. reflexivity.
Qed.
Lemma cut_before : forall l, before_comment l (cut_comment l).
Proof.
  induction l as [|a l IH].
  - left. split; [reflexivity|]. intros (x & y & E). destruct x; discriminate.
  - destruct l as [|b l].
    + left. split; [reflexivity|]. intros (x & y & E). destruct x as [|? [|? ?]]; cbn in E; discriminate.
    + change (cut_comment (a :: b :: l)) with
        (if andb (Ascii.eqb a "/"%char) (Ascii.eqb b "/"%char) then [] else a :: cut_comment (b :: l)).
      destruct (Ascii.eqb a "/"%char && Ascii.eqb b "/"%char)%bool eqn:E.
      * apply andb_prop in E. destruct E as [E1 E2].
        apply Ascii.eqb_eq in E1. apply Ascii.eqb_eq in E2. subst.
        right. exists l. split; [reflexivity|]. intros (x & y & E).
        destruct x as [|? [|? ?]]; cbn in E; discriminate.
      * assert (Ha : a = "/"%char -> b <> "/"%char) by (intros -> ->; discriminate).
        destruct IH as [[E' H] | (post & E' & H)].
        -- left. rewrite <- E'. split; [reflexivity|].
           apply no_comment_cons; [exact H|]. intros Ea r Er. injection Er as Eb _. now apply Ha.
        -- right. exists post.
           split; [rewrite E' at 1; reflexivity|]. rewrite <- app_comm_cons.
           apply no_comment_cons; [exact H|].
           intros Ea r Er.
           assert (Hb : exists s, (cut_comment (b :: l) ++ ["/"%char]) = b :: s).
           { destruct (cut_comment (b :: l)) as [|c s] eqn:Ec.
             - exists []. cbn in E'. injection E' as -> _. reflexivity.
             - cbn in E'. injection E' as -> _. now exists (s ++ ["/"%char]). }
           destruct Hb as [s Hs]. rewrite Hs in Er. injection Er as Eb _. now apply Ha.
Qed.

(** ** White space *)
Lemma ltrim_blank : forall a s, blank_text a -> ltrim (a ++ s) = ltrim s.
Proof. induction 1; cbn; [reflexivity|]. now rewrite H. Qed.
Lemma ltrim_start : forall s, (forall x r, s = x :: r -> is_space x = false) -> ltrim s = s.
Proof. destruct s; intros H; [reflexivity|]. cbn. now rewrite (H _ _ eq_refl). Qed.
Lemma ltrim_spec : forall s, exists a, s = a ++ ltrim s /\ blank_text a /\
  (forall x r, ltrim s = x :: r -> is_space x = false).
Proof.
  induction s as [|x s (a & E & Ha & Hs)].
  - exists []. repeat split; [constructor|discriminate].
  - cbn. destruct (is_space x) eqn:Ex.
    + exists (x :: a). cbn. rewrite <- E. repeat split; [now constructor|exact Hs].
    + exists []. repeat split; [constructor|]. intros y r E'. now injection E' as <- _.
Qed.
Lemma blank_rev : forall a, blank_text a -> blank_text (rev a).
Proof. intros a H. apply Forall_rev. exact H. Qed.
Lemma trim_of : forall s m, trimmed s m -> trim s = m.
Proof.
  intros s m (a & b & -> & Ha & Hb & H1 & H2). unfold trim. rewrite ltrim_blank by assumption.
  destruct m as [|x m].
  - cbn. rewrite <- (app_nil_r b), ltrim_blank by assumption. reflexivity.
  - rewrite (@ltrim_start ((x :: m) ++ b)).
    + rewrite rev_app_distr, ltrim_blank by now apply blank_rev.
      rewrite ltrim_start; [now rewrite rev_involutive|].
      intros y r E. apply (H2 y (rev r)). rewrite <- (rev_involutive (x :: m)), E. cbn. reflexivity.
    + intros y r E. cbn in E. injection E as <- _. now apply (H1 x m).
Qed.
Lemma trim_spec : forall s, trimmed s (trim s).
Proof.
  intros s. unfold trim. destruct (ltrim_spec s) as (a & E & Ha & Hs).
  destruct (ltrim_spec (rev (ltrim s))) as (b & E' & Hb & Hs').
  exists a, (rev b).
  assert (Ef : ltrim s = rev (ltrim (rev (ltrim s))) ++ rev b).
  { rewrite <- rev_app_distr, <- E'. now rewrite rev_involutive. }
  repeat split.
  - rewrite E at 1. f_equal. exact Ef.
  - exact Ha.
  - now apply blank_rev.
  - intros x r Ex. rewrite Ex in Ef. cbn in Ef. apply (Hs x (r ++ rev b)). exact Ef.
  - intros x r Ex. apply (Hs' x (rev r)).
    rewrite <- (rev_involutive (ltrim (rev (ltrim s)))), Ex, rev_app_distr. reflexivity.
Qed.

(** ** Words *)
Lemma skip_space : forall s, split_skip space (space :: s) = split_skip space s.
Proof. intros s. reflexivity. Qed.
Lemma split_nonempty : forall c s, split c s <> [].
Proof.
  intros c s. destruct s as [|a s]; cbn; [discriminate|].
  destruct (Ascii.eqb a c); [discriminate|]. destruct (split c s); discriminate.
Qed.
Lemma skip_word : forall w s, w <> [] -> ~ In space w -> (s = [] \/ exists r, s = space :: r) ->
  split_skip space (w ++ s) = w :: split_skip space s.
Proof.
  intros w s Hw Hi [-> | [r ->]].
  - rewrite app_nil_r. unfold split_skip. rewrite split_free by assumption. cbn.
    destruct w; [congruence|reflexivity].
  - unfold split_skip. rewrite split_cons by assumption. cbn. destruct w; [congruence|reflexivity].
Qed.
Lemma spread_split : forall ws s, spread ws s -> split_skip space s = ws.
Proof.
  induction 1.
  - reflexivity.
  - now rewrite skip_space.
  - rewrite skip_word by assumption. now f_equal.
Qed.
Lemma split_spread : forall s, spread (split_skip space s) s.
Proof.
  intros s. remember (length s) as n eqn:E. assert (H : length s <= n) by lia. clear E.
  revert s H. induction n as [|n IH]; intros s H.
  - destruct s; [constructor|cbn in H; lia].
  - destruct s as [|a s]; [constructor|]. cbn in H.
    destruct (Ascii.eqb a space) eqn:Ea.
    + apply Ascii.eqb_eq in Ea. subst a. rewrite skip_space. constructor. apply IH. lia.
    + assert (Hs : exists w r, a :: s = w ++ r /\ w <> [] /\ ~ In space w /\
                     (r = [] \/ exists q, r = space :: q) /\ length r < length (a :: s)).
      { assert (Ha : a <> space) by (intros ->; rewrite Ascii.eqb_refl in Ea; discriminate).
        clear IH H Ea n. revert a Ha. induction s as [|b s IHs]; intros a Ha.
        - exists [a], []. repeat split; auto; try discriminate. intros [E|[]]. congruence.
        - destruct (Ascii.ascii_dec b space) as [->|Hb].
          + exists [a], (space :: s). repeat split; eauto; try discriminate.
            intros [E|[]]. congruence.
          + destruct (IHs b Hb) as (w & r & E & Hw & Hi & Hr & Hl).
            exists (a :: w), r. repeat split; auto; try discriminate.
            * cbn. now rewrite E.
            * intros [E'|E']; [congruence|now apply Hi].
            * cbn in Hl |- *. lia. }
      destruct Hs as (w & r & E & Hw & Hi & Hr & Hl). rewrite E.
      rewrite skip_word by assumption. constructor; try assumption. apply IH. cbn in Hl. lia.
Qed.

Lemma columns_iff : forall l ws, columns_of l ws <-> split_skip space (trim (cut_comment l)) = ws.
Proof.
  intros l ws. split.
  - intros (c & m & H1 & H2 & H3). rewrite (before_cut H1), (trim_of H2). now apply spread_split.
  - intros <-. exists (cut_comment l), (trim (cut_comment l)).
    split; [apply cut_before|]. split; [apply trim_spec|apply split_spread].
Qed.
Lemma trim_nil_columns : forall l, trim (cut_comment l) = [] <-> columns_of l [].
Proof.
  intros l. split.
  - intros E. apply columns_iff. now rewrite E.
  - intros H. apply columns_iff in H. destruct (trim_spec (cut_comment l)) as (a & b & _ & _ & _ & H1 & _).
    destruct (trim (cut_comment l)) as [|x m]; [reflexivity|]. exfalso.
    specialize (H1 x m eq_refl).
    assert (Hx : x <> space) by (intros ->; discriminate).
    unfold split_skip in H. cbn in H. destruct (Ascii.eqb x space) eqn:E.
    + apply Ascii.eqb_eq in E. congruence.
    + destruct (split space m) as [|w ws]; cbn in H; discriminate.
Qed.

Section P.
  Context {T C : Type} (U : NumOps T) (X : TextOps T) (K : Colors C).
  Notation data := (@data T C).

  Lemma read_all_map : forall ws xs, read_all X ws = Some xs <-> map (t_read X) ws = map Some xs.
  Proof.
    induction ws as [|w ws IH]; intros xs; cbn.
    - split; [intros [= <-]; reflexivity|]. destruct xs; [reflexivity|discriminate].
    - destruct (t_read X w) as [x|]; cbn.
      + destruct (read_all X ws) as [ys|]; cbn.
        * split.
          -- intros [= <-]. cbn. f_equal. now apply IH.
          -- destruct xs as [|x' xs]; [discriminate|]. cbn. intros [= <- E]. f_equal. f_equal.
             apply IH in E. congruence.
        * split; [discriminate|]. destruct xs as [|x' xs]; [discriminate|]. cbn. intros [= <- E].
          apply IH in E. discriminate.
      + split; [discriminate|]. destruct xs; discriminate.
  Qed.

  Definition said (p : parsed) (l : text) : Prop :=
    match p with
    | Skip => blank_line l
    | Bad => bad_line U X l
    | Body r v m radius => body_line U X l (mkBody r v m radius)
    end.

  Lemma body_line_inv : forall l y, body_line U X l y ->
    parse_line U X l = Body (y_r y) (y_v y) (y_m y) (y_radius y).
  Proof.
    intros l y (ws & x1 & x2 & x3 & v1 & v2 & v3 & m & rest & Hc & Hr & E1 & E2 & E3 & E4).
    assert (Hl : length ws = 7) by (rewrite <- (map_length (t_read X)), Hr; reflexivity).
    assert (Hn : trim (cut_comment l) <> []).
    { intros E. apply trim_nil_columns in E. apply columns_iff in E. apply columns_iff in Hc.
      rewrite E in Hc. destruct ws; [discriminate Hl|discriminate]. }
    apply columns_iff in Hc. unfold parse_line.
    destruct (trim (cut_comment l)) as [|a s] eqn:Et; [congruence|]. cbn [is_nil].
    rewrite Hc. rewrite app_length, Hl.
    replace (Nat.ltb (7 + length rest) 7) with false by (symmetry; apply Nat.ltb_ge; lia).
    rewrite firstn_app, Hl, Nat.sub_diag, firstn_O, app_nil_r.
    rewrite <- Hl, firstn_all. apply read_all_map in Hr. rewrite Hr.
    rewrite nth_error_app2 by lia. rewrite Nat.sub_diag.
    destruct rest as [|c rest]; cbn [nth_error].
    - now rewrite E1, E2, E3, E4.
    - now rewrite E4, E1, E2, E3.
  Qed.
  Lemma blank_line_inv : forall l, blank_line l -> parse_line U X l = Skip.
  Proof.
    intros l H. apply trim_nil_columns in H. unfold parse_line. now rewrite H.
  Qed.
  Lemma parse_said : forall l, said (parse_line U X l) l.
  Proof.
    intros l.
    assert (Hbad : parse_line U X l = Bad -> bad_line U X l).
    { intros E. split.
      - intros H. apply blank_line_inv in H. congruence.
      - intros y H. apply body_line_inv in H. congruence. }
    destruct (parse_line U X l) as [| |r v m radius] eqn:E; cbn.
    - unfold parse_line in E. destruct (trim (cut_comment l)) as [|a s] eqn:Et.
      + apply trim_nil_columns. exact Et.
      + cbn [is_nil] in E. destruct (Nat.ltb _ 7); [discriminate|].
        destruct (read_all X _) as [[|? [|? [|? [|? [|? [|? [|? [|? ?]]]]]]]]|]; try discriminate.
        destruct (nth_error _ 7); [|discriminate]. destruct (t_read X _); discriminate.
    - now apply Hbad.
    - unfold parse_line in E. destruct (trim (cut_comment l)) as [|a s] eqn:Et; [discriminate|].
      cbn [is_nil] in E.
      destruct (Nat.ltb _ 7) eqn:El; [discriminate|]. apply Nat.ltb_ge in El.
      set (ws := split_skip space (a :: s)) in *.
      destruct (read_all X (firstn 7 ws)) as [[|x1 [|x2 [|x3 [|v1 [|v2 [|v3 [|m' [|? ?]]]]]]]]|] eqn:Er;
        try discriminate.
      apply read_all_map in Er.
      exists (firstn 7 ws), x1, x2, x3, v1, v2, v3, m', (skipn 7 ws).
      split; [apply columns_iff; rewrite firstn_skipn; now rewrite Et|].
      split; [exact Er|].
      assert (Hn : nth_error ws 7 = nth_error (skipn 7 ws) 0).
      { rewrite <- (firstn_skipn 7 ws) at 1. rewrite nth_error_app2; rewrite firstn_length_le by lia; auto. }
      rewrite Hn in E. destruct (skipn 7 ws) as [|c rest]; cbn [nth_error] in E.
      + injection E as <- <- <- <-. cbn. auto.
      + destruct (t_read X c) as [radius'|] eqn:Ec; [|discriminate].
        injection E as <- <- <- <-. cbn. auto.
  Qed.

  (** ** Loading *)
  Lemma load_bodies_spec : forall factor ls (d d' : data) good,
    load_bodies U X K factor ls d = (d', good) ->
    exists ys pre post,
      ls = pre ++ post /\ lines_say U X pre ys /\
      d' = mkData (b_count d + length ys) (b_time d) (b_step d) (b_box d)
             (b_vert d ++ map (@y_r T) ys) (b_velo d ++ map (@y_v T) ys)
             (b_mass d ++ map (fun y => nmul U (y_m y) factor) ys)
             (b_color d ++ map (fun _ => c_white K) ys) (b_radius d ++ map (@y_radius T) ys) /\
      if good then post = [] else exists l rest, post = l :: rest /\ bad_line U X l.
  Proof.
    intros factor ls. induction ls as [|l ls IH]; intros d d' good E; cbn in E.
    - injection E as <- <-. exists [], [], []. split; [reflexivity|]. split; [constructor|].
      split; [|reflexivity]. cbn. rewrite !app_nil_r, Nat.add_0_r. now destruct d.
    - pose proof (parse_said l) as Hs. destruct (parse_line U X l) as [| |r v m radius]; cbn in Hs.
      + destruct (IH _ _ _ E) as (ys & pre & post & -> & Hp & Hd & Hg).
        exists ys, (l :: pre), post. split; [reflexivity|]. split; [now constructor|]. auto.
      + injection E as <- <-. exists [], [], (l :: ls). split; [reflexivity|]. split; [constructor|].
        split; [|eauto]. cbn. rewrite !app_nil_r, Nat.add_0_r. now destruct d.
      + destruct (IH _ _ _ E) as (ys & pre & post & -> & Hp & Hd & Hg).
        exists (mkBody r v m radius :: ys), (l :: pre), post.
        split; [reflexivity|]. split; [now constructor|]. split; [|exact Hg].
        rewrite Hd. cbn. rewrite <- !app_assoc. cbn. f_equal. lia.
  Qed.
  (** and conversely *)
  Lemma load_bodies_good : forall factor pre ys, lines_say U X pre ys -> forall post (d : data),
    load_bodies U X K factor (pre ++ post) d =
    load_bodies U X K factor post
      (mkData (b_count d + length ys) (b_time d) (b_step d) (b_box d)
             (b_vert d ++ map (@y_r T) ys) (b_velo d ++ map (@y_v T) ys)
             (b_mass d ++ map (fun y => nmul U (y_m y) factor) ys)
             (b_color d ++ map (fun _ => c_white K) ys) (b_radius d ++ map (@y_radius T) ys)).
  Proof.
    induction 1 as [|l ls ys Hl H IH|l ls y ys Hl H IH]; intros post d; cbn.
    - rewrite !app_nil_r, Nat.add_0_r. now destruct d.
    - rewrite (blank_line_inv Hl). apply IH.
    - rewrite (body_line_inv Hl). rewrite IH. cbn. rewrite <- !app_assoc. cbn. do 2 f_equal. lia.
  Qed.
  Lemma load_bodies_bad : forall factor l rest (d : data), bad_line U X l ->
    load_bodies U X K factor (l :: rest) d = (d, false).
  Proof.
    intros factor l rest d [H1 H2]. cbn. pose proof (parse_said l) as Hs.
    destruct (parse_line U X l) as [| |r v m radius]; cbn in Hs.
    - contradiction.
    - reflexivity.
    - exfalso. eapply H2; eauto.
  Qed.
End P.
