(** The clock of the data: which operations change time and step counter. *)
From Coq Require Import Ascii String List NArith ZArith Arith Lia.
From Verif Require Import Num Arr ArrLemmas ModelVertex ModelText ModelData SpecData LemText LemDataText.
Import ListNotations.
Set Implicit Arguments.

Section P.
  Context {T C : Type} (U : NumOps T) (X : TextOps T) (K : Colors C).
  Context (to_size : T -> option N) (pow3 : T -> T) (t : T) (s : N).
  Notation data := (@data T C).
  Definition clk (d : data) : Prop := b_time d = t /\ b_step d = s.

  Lemma clk_vert : forall i v (d d' : data), clk d -> store_vert i v d = Some d' -> clk d'.
  Proof. intros i v d d' H E. unfold store_vert in E. destruct (wr (b_vert d) i v); [|discriminate]. injection E as <-. exact H. Qed.
  Lemma clk_velo : forall i v (d d' : data), clk d -> store_velo i v d = Some d' -> clk d'.
  Proof. intros i v d d' H E. unfold store_velo in E. destruct (wr (b_velo d) i v); [|discriminate]. injection E as <-. exact H. Qed.
  Lemma clk_mass : forall i v (d d' : data), clk d -> store_mass i v d = Some d' -> clk d'.
  Proof. intros i v d d' H E. unfold store_mass in E. destruct (wr (b_mass d) i v); [|discriminate]. injection E as <-. exact H. Qed.
  Lemma clk_loop : forall fuel uniform k n count center velosity radius sm all hole color (d : data),
    clk d -> clk (ended (star_loop U pow3 fuel uniform k n count center velosity radius sm all hole color d)).
  Proof.
    induction fuel as [|fuel IH]; intros; cbn; destruct (N.eqb n count); cbn; auto.
    destruct (nltb U radius _); apply IH; auto.
  Qed.
  Lemma clk_galaxy : forall fuel uniform center velosity radius m count color (d : data),
    clk d -> clk (ended (add_galaxy U K pow3 fuel uniform center velosity radius m count color d)).
  Proof. intros. apply clk_loop. assumption. Qed.
  Lemma clk_universe : forall fuel uniform count sx sy sz (d : data) o, clk d ->
    make_universe U K to_size pow3 fuel uniform count sx sy sz d = Some o -> clk (ended o).
  Proof.
    intros fuel uniform count sx sy sz d o H E. unfold make_universe in E.
    set (c1 := vsub U _ _) in E. set (c2 := vadd U _ _) in E. cbv zeta in E.
    match type of E with match ?g with _ => _ end = _ =>
      assert (Hg : clk (ended g)) by (apply clk_galaxy, H); destruct g as [d1|d1] end.
    2: { injection E as <-. exact Hg. }
    match type of E with match ?g with _ => _ end = _ =>
      assert (Hg2 : clk (ended g)) by (apply clk_galaxy, Hg); destruct g as [d2|d2] end.
    2: { injection E as <-. exact Hg2. }
    destruct (to_size _) as [box|]; [|discriminate]. injection E as <-. exact Hg2.
  Qed.
  Lemma clk_load_bodies : forall factor ls (d : data), clk d -> clk (fst (load_bodies U X K factor ls d)).
  Proof.
    induction ls as [|l ls IH]; intros d H; cbn; [exact H|].
    destruct (parse_line U X l); cbn; auto.
  Qed.
  Lemma clk_load : forall file u (d : data), clk d -> clk (fst (load U X K file u d)).
  Proof. intros [f|] u d H; cbn; [apply clk_load_bodies|]; exact H. Qed.
  Lemma clk_masses : forall todo i ls (d d' : data) ls' good, clk d ->
    zeno_masses U X todo i ls d = Some (d', ls', good) -> clk d'.
  Proof.
    induction todo as [|todo IH]; intros i ls d d' ls' good H E; cbn in E.
    - now injection E as <- _ _.
    - destruct ls as [|l ls]; [now injection E as <- _ _|].
      destruct (store_mass i _ d) as [d1|] eqn:Es; [|discriminate]. cbn in E.
      eapply IH; [|exact E]. eapply clk_mass; eauto.
  Qed.
  Lemma clk_vectors : forall store,
    (forall i v (d d' : data), clk d -> store i v d = Some d' -> clk d') ->
    forall todo i ls (d d' : data) ls' good, clk d ->
    zeno_vectors U X store todo i ls d = Some (d', ls', good) -> clk d'.
  Proof.
    intros store Hst. induction todo as [|todo IH]; intros i ls d d' ls' good H E; cbn in E.
    - now injection E as <- _ _.
    - destruct ls as [|l ls]; [now injection E as <- _ _|].
      destruct (split_skip space l) as [|x [|y [|z [|? ?]]]];
        try (injection E as <- _ _; exact H).
      destruct (store i _ d) as [d1|] eqn:Es; [|discriminate]. cbn in E.
      eapply IH; [|exact E]. eapply Hst; eauto.
  Qed.
  Lemma clk_zeno : forall file (d d' : data) good, clk d ->
    load_zeno_ascii U X K file d = Some (d', good) -> clk d'.
  Proof.
    intros [f|] d d' good H E; cbn in E; [|now injection E as <- _].
    destruct (next_line (read_lines f)) as [l1 ls1].
    destruct (to_ulonglong l1) as [count|]; [|injection E as <- _; exact H].
    destruct (next_line ls1) as [l2 ls2].
    destruct (to_ulonglong l2) as [dim|]; [|injection E as <- _; exact H].
    destruct (negb (N.eqb dim 3)); [injection E as <- _; exact H|].
    destruct (next_line ls2) as [l3 ls3].
    destruct (is_nil l3); [injection E as <- _; exact H|].
    set (d0 := data_resize U K (N.to_nat count) (data_clear d)) in *.
    assert (H0 : clk d0) by exact H.
    destruct (zeno_masses U X _ 0 ls3 d0) as [[[d1 ls4] g1]|] eqn:E1; [|discriminate]. cbn in E.
    apply clk_masses in E1; [|exact H0].
    destruct g1; cbn in E; [|now injection E as <- _].
    destruct (zeno_vectors U X _ _ 0 ls4 d1) as [[[d2 ls5] g2]|] eqn:E2; [|discriminate]. cbn in E.
    apply clk_vectors in E2; [|exact clk_vert|exact E1].
    destruct g2; cbn in E; [|now injection E as <- _].
    destruct (zeno_vectors U X _ _ 0 ls5 d2) as [[[d3 ls6] g3]|] eqn:E3; [|discriminate]. cbn in E.
    apply clk_vectors in E3; [|exact clk_velo|exact E2].
    destruct g3; cbn in E; [|now injection E as <- _].
    injection E as <- _. exact E3.
  Qed.
  Lemma clk_initial : forall file type (d d' : data) good, clk d ->
    load_initial U X K to_size file type d = Some (d', good) -> clk d'.
  Proof.
    intros file type d d' good H E. unfold load_initial in E.
    match type of E with obind ?x _ = _ => destruct x as [[d1 ret]|] eqn:E1 end;
      [|discriminate].
    assert (H1 : clk d1).
    { destruct (same_name type (chars "Zeno")); [eapply clk_zeno; eauto|].
      destruct (same_name type (chars "G1"));
        [injection E1 as E1; apply (f_equal fst) in E1; cbn [fst] in E1; rewrite <- E1; now apply clk_load|].
      destruct (same_name type (chars "SI"));
        [injection E1 as E1; apply (f_equal fst) in E1; cbn [fst] in E1; rewrite <- E1; now apply clk_load|].
      destruct (same_name type (chars "ADK"));
        [injection E1 as E1; apply (f_equal fst) in E1; cbn [fst] in E1; rewrite <- E1; now apply clk_load|].
      now injection E1 as <- _. }
    destruct ret; cbn in E; [|now injection E as <- _].
    destruct (to_size _); cbn in E; [|discriminate]. injection E as <- _. exact H1.
  Qed.
End P.

Lemma clock_do : forall (T C : Type) (U : NumOps T) (X : TextOps T) (K : Colors C) to_size pow3 o (d d' : @data T C),
  data_do U X K to_size pow3 o d = Some d' -> (b_time d', b_step d') = ticked U (b_time d, b_step d) o.
Proof.
  intros T C U X K to_size pow3 o d d' E.
  assert (H : clk (b_time d) (b_step d) d) by (split; reflexivity).
  assert (G : forall e : @data T C, clk (b_time d) (b_step d) e -> (b_time e, b_step e) = (b_time d, b_step d)) by (intros e [-> ->]; reflexivity).
  destruct o; cbn -[make_universe load_initial load_zeno_ascii add_galaxy N.pow N.modulo] in E |- *; try (injection E as <-); try reflexivity; apply G.
  - eapply clk_vert; eauto.
  - eapply clk_velo; eauto.
  - eapply clk_mass; eauto.
  - now apply clk_load.
  - destruct (load_zeno_ascii U X K file d) as [[d1 g]|] eqn:E1; [|discriminate]. injection E as <-. eapply clk_zeno; eauto.
  - destruct (load_initial U X K to_size file type d) as [[d1 g]|] eqn:E1; [|discriminate]. injection E as <-. eapply clk_initial; eauto.
  - now apply clk_galaxy.
  - destruct (make_universe U K to_size pow3 fuel uniform count sx sy sz d) eqn:E1; [|discriminate]. injection E as <-. eapply clk_universe; eauto.
Qed.
