(** Reading an index file. *)
From Coq Require Import Ascii String Bool List NArith ZArith Arith Lia.
From Verif Require Import ModelText ModelStream SpecIndex LemText.
Import ListNotations.
Set Implicit Arguments.

Lemma split_nonnil c s : split c s <> [].
Proof. destruct s as [|a s]; cbn [split]; [discriminate|]. destruct (Ascii.eqb a c); [discriminate|]. destruct (split c s); discriminate. Qed.
(** the fields of a line *)
Lemma split_inv c s : forall w ws, split c s = w :: ws -> ~ In c w /\
  match ws with [] => s = w | _ => exists s', s = w ++ c :: s' /\ split c s' = ws end.
Proof.
  induction s as [|a s IH]; intros w ws H; cbn [split] in H.
  - injection H as <- <-. split; [intros []|reflexivity].
  - destruct (Ascii.eqb_spec a c) as [->|N].
    + injection H as <- E. split; [intros []|]. subst ws. destruct (split c s) eqn:E; [now apply split_nonnil in E|].
      exists s. split; [reflexivity|exact E].
    + destruct (split c s) as [|w1 ws1] eqn:E; [now apply split_nonnil in E|]. injection H as <- <-.
      destruct (IH w1 ws1 eq_refl) as [A B]. split; [intros [X|X]; auto|].
      destruct ws1; [now subst|]. destruct B as (s' & -> & B). exists s'. split; [reflexivity|exact B].
Qed.
Lemma split4 s a b c d : split tab s = [a; b; c; d] <-> four_fields s a b c d.
Proof.
  split.
  - intros H. apply split_inv in H. destruct H as (A & s1 & -> & H). apply split_inv in H. destruct H as (B & s2 & -> & H).
    apply split_inv in H. destruct H as (C & s3 & -> & H). apply split_inv in H. destruct H as (D & ->). unfold four_fields. cbn. auto.
  - intros (-> & A & B & C & D). cbn [app]. rewrite !split_cons by assumption. now rewrite split_free.
Qed.
Lemma starts_comment line : starts_with "#"%char line = true <-> comment line.
Proof.
  unfold starts_with, comment. destruct line as [|b l]; [split; [discriminate|intros [? ?]; discriminate]|].
  destruct (Ascii.eqb_spec b "#"%char) as [->|N]; split; intros H; eauto; try discriminate. destruct H as [r H]. congruence.
Qed.

Section Index.
  Context {T : Type} (X : TextOps T).
  Notation reader := (@reader T).
  Notation item := (@item T).

  Lemma parse_frame line i : parse_item X line = Some i <-> frame_line X line i.
  Proof.
    unfold parse_item, frame_line. split.
    - intros H. destruct (split tab line) as [|a [|b [|c [|d [|x l]]]]] eqn:E; try discriminate.
      destruct (to_ulonglong a) eqn:Ea; [|discriminate]. destruct (t_read X b) eqn:Eb; [|discriminate].
      destruct (to_ulonglong c) eqn:Ec; [|discriminate]. destruct (to_longlong d) eqn:Ed; [|discriminate]. injection H as <-.
      exists a, b, c, d. split; [now apply split4|]. cbn. auto.
    - intros (a & b & c & d & F & A & B & C & D). apply split4 in F. rewrite F, A, B, C, D. now destruct i.
  Qed.
  Lemma parse_bad line : parse_item X line = None <-> forall i, ~ frame_line X line i.
  Proof.
    split.
    - intros H i A. apply parse_frame in A. congruence.
    - intros H. destruct (parse_item X line) as [i|] eqn:E; [|reflexivity]. apply parse_frame in E. now apply H in E.
  Qed.

  (** ** headers *)
  Lemma header_split name line v : ~ In space name ->
    header_line name line v <-> exists w, split space line = [name; w] /\ to_ulonglong w = Some v.
  Proof.
    intros N. split.
    - intros (w & -> & A & B). exists w. split; [|exact B]. cbn [app]. rewrite split_cons by assumption. now rewrite split_free.
    - intros (w & H & B). apply split_inv in H. destruct H as (A & s1 & -> & H). apply split_inv in H. destruct H as (C & ->).
      exists w. auto.
  Qed.
  Definition coord_name := chars "#coord_size".
  Definition body_name := chars "#body_count".
  Definition box_name := chars "#box_size".
  Lemma free_names : ~ In space coord_name /\ ~ In space body_name /\ ~ In space box_name.
  Proof. repeat split; intros H; cbn in H; repeat (destruct H as [H|H]; [discriminate|]); exact H. Qed.

  (** one header line: the value it gives or the old one *)
  Definition told (name line : text) (before v : N) : Prop :=
    header_line name line v \/ (v = before /\ forall u, ~ header_line name line u).
  Lemma parse_told line (r : reader) :
    told coord_name line (r_coord r) (r_coord (parse_header_line line r)) /\
    told body_name line (r_body r) (r_body (parse_header_line line r)) /\
    told box_name line (r_box r) (r_box (parse_header_line line r)) /\
    r_frames (parse_header_line line r) = r_frames r /\ r_file (parse_header_line line r) = r_file r /\
    r_current (parse_header_line line r) = r_current r.
  Proof.
    destruct free_names as (F1 & F2 & F3).
    assert (NO : forall name, ~ In space name -> (forall w v, split space line = [name; w] -> to_ulonglong w = Some v -> False) ->
      forall u, ~ header_line name line u).
    { intros name F H u A. apply header_split in A; [|exact F]. destruct A as (w & A & B). eauto. }
    unfold parse_header_line, told.
    destruct (split space line) as [|name [|w [|x l]]] eqn:E;
      try (repeat split; auto; right; split; auto; apply NO; auto; intros; congruence).
    destruct (to_ulonglong w) as [v|] eqn:Ew.
    2: { repeat split; auto; right; (split; [reflexivity|]); apply NO; auto; intros w' v' Q1 Q2; injection Q1 as Q1 Q3; congruence. }
    assert (YES : forall nm, ~ In space nm -> nm = name -> header_line nm line v).
    { intros nm F ->. apply header_split; [exact F|]. exists w. rewrite E. auto. }
    assert (NOT : forall nm, ~ In space nm -> nm <> name -> forall u, ~ header_line nm line u).
    { intros nm F Q. apply NO; [exact F|]. intros w' v' Q1 _. injection Q1 as Q1 _. congruence. }
    destruct (text_dec name (chars "#coord_size")) as [Q|N1];
      [|destruct (text_dec name (chars "#body_count")) as [Q|N2]; [|destruct (text_dec name (chars "#box_size")) as [Q|N3]]];
      cbn [r_coord r_body r_box r_frames r_file r_current].
    - split; [left; apply YES; auto|]. split; [right; split; [reflexivity|apply NOT; [auto|rewrite Q; discriminate]]|].
      split; [right; split; [reflexivity|apply NOT; [auto|rewrite Q; discriminate]]|]. auto.
    - split; [right; split; [reflexivity|apply NOT; [auto|rewrite Q; discriminate]]|]. split; [left; apply YES; auto|].
      split; [right; split; [reflexivity|apply NOT; [auto|rewrite Q; discriminate]]|]. auto.
    - split; [right; split; [reflexivity|apply NOT; [auto|rewrite Q; discriminate]]|].
      split; [right; split; [reflexivity|apply NOT; [auto|rewrite Q; discriminate]]|]. split; [left; apply YES; auto|]. auto.
    - split; [right; split; [reflexivity|apply NOT; auto]|].
      split; [right; split; [reflexivity|apply NOT; auto]|]. split; [right; split; [reflexivity|apply NOT; auto]|]. auto.
  Qed.
  Lemma value_cons name line lines b v u : told name line b v -> header_value name lines v u -> header_value name (line :: lines) b u.
  Proof.
    intros H [(pre & l & post & -> & A & B)|(-> & A)].
    - left. exists (line :: pre), l, post. auto.
    - destruct H as [H|(-> & H)].
      + left. exists [], line, lines. auto.
      + right. split; [reflexivity|]. intros l u [<-|I]; auto.
  Qed.
  Lemma not_told name line b : ~ comment line -> (exists n, name = "#"%char :: n) -> told name line b b.
  Proof. intros N [n ->]. right. split; [reflexivity|]. intros u (w & -> & _). apply N. eexists. reflexivity. Qed.

  (** ** the lines *)
  Lemma load_says lines : forall (r r' : reader) good, load_lines X lines r = (r', good) ->
    r_file r' = r_file r /\ r_current r' = r_current r /\
    if good then exists fr, index_says X lines fr /\ r_frames r' = r_frames r ++ fr /\
      header_value coord_name lines (r_coord r) (r_coord r') /\ header_value body_name lines (r_body r) (r_body r') /\
      header_value box_name lines (r_box r) (r_box r')
    else exists pre bad post fr, lines = pre ++ bad :: post /\ bad_line X bad /\ index_says X pre fr /\ r_frames r' = r_frames r ++ fr.
  Proof.
    induction lines as [|line lines IH]; intros r r' good H; cbn [load_lines] in H.
    - injection H as <- <-. split; [reflexivity|]. split; [reflexivity|]. exists []. rewrite app_nil_r.
      split; [constructor|]. split; [reflexivity|]. repeat split; right; (split; [reflexivity|]); intros l u [].
    - destruct (starts_with "#"%char line) eqn:Es.
      + apply starts_comment in Es. destruct (IH _ _ _ H) as (A & B & C).
        destruct (parse_told line r) as (T1 & T2 & T3 & T4 & T5 & T6). rewrite T4 in C. rewrite A, B, T5, T6.
        split; [reflexivity|]. split; [reflexivity|]. destruct good.
        * destruct C as (fr & C1 & C2 & C3 & C4 & C5). exists fr. split; [now constructor|]. split; [exact C2|].
          split; [|split]; eapply value_cons; eauto.
        * destruct C as (pre & bad & post & fr & -> & C2 & C3 & C4). exists (line :: pre), bad, post, fr.
          split; [reflexivity|]. split; [exact C2|]. split; [now constructor|exact C4].
      + assert (Nc : ~ comment line) by (intros Q; apply starts_comment in Q; congruence).
        destruct (parse_item X line) as [i|] eqn:Ei.
        * apply parse_frame in Ei. destruct (IH _ _ _ H) as (A & B & C). cbn [r_file r_current r_frames r_coord r_body r_box] in *.
          split; [exact A|]. split; [exact B|]. destruct good.
          -- destruct C as (fr & C1 & C2 & C3 & C4 & C5). exists (i :: fr). split; [now constructor|]. rewrite C2, <- app_assoc.
             split; [reflexivity|]. split; [|split]; (eapply value_cons; [apply not_told; [exact Nc|eexists; reflexivity]|eassumption]).
          -- destruct C as (pre & bad & post & fr & -> & C2 & C3 & C4). exists (line :: pre), bad, post, (i :: fr).
             split; [reflexivity|]. split; [exact C2|]. split; [now constructor|]. rewrite C4, <- app_assoc. reflexivity.
        * injection H as <- <-. split; [reflexivity|]. split; [reflexivity|]. exists [], line, lines, []. rewrite app_nil_r.
          split; [reflexivity|]. split; [split; [exact Nc|now apply parse_bad]|]. split; [constructor|reflexivity].
  Qed.
  Lemma frame_fun line i j : frame_line X line i -> frame_line X line j -> i = j.
  Proof. intros A B. apply parse_frame in A, B. congruence. Qed.
  Lemma says_fun lines fr : index_says X lines fr -> forall fr', index_says X lines fr' -> fr = fr'.
  Proof.
    induction 1 as [|l ls fr Hc H IH|l ls i fr Hc Hi H IH]; intros fr' H'; inversion H'; subst; auto; try contradiction.
    f_equal; [eapply frame_fun; eauto|auto].
  Qed.
  Lemma says_no_bad pre bad post fr : bad_line X bad -> ~ index_says X (pre ++ bad :: post) fr.
  Proof.
    intros [A B]. revert fr. induction pre as [|l pre IH]; intros fr H; inversion H; subst; try contradiction; try (eapply IH; eassumption).
    eapply B. eassumption.
  Qed.
  Lemma value_fun name lines b v u : ~ In space name -> header_value name lines b v -> header_value name lines b u -> v = u.
  Proof.
    intros F. revert b. 
    assert (HF : forall l x y, header_line name l x -> header_line name l y -> x = y).
    { intros l x y A B. apply header_split in A, B; auto. destruct A as (w & A & A'), B as (w' & B & B'). congruence. }
    assert (LAST : forall pre l post pre' l' post', pre ++ l :: post = pre' ++ l' :: post' ->
      forall x y, header_line name l x -> header_line name l' y -> (forall q z, In q post -> ~ header_line name q z) ->
      (forall q z, In q post' -> ~ header_line name q z) -> x = y).
    { induction pre as [|q pre IH]; intros l post [|q' pre'] l' post' E x y Hx Hy P P'; cbn in E; injection E as E1 E2.
      - subst. eauto.
      - subst. exfalso. apply (P l' y); [apply in_elt|exact Hy].
      - subst. exfalso. apply (P' l x); [apply in_elt|exact Hx].
      - eauto. }
    intros b [(p & l & q & -> & A & B)|(-> & A)] [(p' & l' & q' & E & A' & B')|(-> & A')]; auto.
    - eauto.
    - exfalso. apply (A' l v); [apply in_elt|exact A].
    - exfalso. subst lines. apply (A l' u); [apply in_elt|exact A'].
  Qed.
End Index.
