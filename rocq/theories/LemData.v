(** Body tables: shape, files, generated universes *)
From Coq Require Import Ascii String List NArith ZArith Arith Lia.
From Verif Require Import Num Arr ArrLemmas ModelVertex ModelText ModelData SpecData LemText LemDataText.
Import ListNotations.
Set Implicit Arguments.

Lemma wr_len : forall A (l : list A) i v l', wr l i v = Some l' -> length l' = length l.
Proof.
  intros A l. induction l as [|a l IH]; intros [|i] v l' E; cbn in E; try discriminate.
  - now injection E as <-.
  - destruct (wr l i v) eqn:E'; [|discriminate]. injection E as <-. cbn. f_equal. eauto.
Qed.
Lemma resize_len : forall A (z : A) n l, length (vector_resize z n l) = n.
Proof. intros. unfold vector_resize. rewrite app_length, firstn_length, repeat_length. lia. Qed.

(** ** Sizes *)
Lemma wrap_small : forall n, (n < 2 ^ 64)%N -> wrap n = n.
Proof. intros. now apply N.mod_small. Qed.
Lemma wsub_small : forall a b, (b <= a < 2 ^ 64)%N -> wsub a b = (a - b)%N.
Proof.
  intros a b H. unfold wsub, wrap. replace (a + 2 ^ 64 - b)%N with ((a - b) + 1 * 2 ^ 64)%N by lia.
  rewrite N.mod_add by lia. apply N.mod_small. lia.
Qed.
Lemma round_up_spec : forall n f, (1 <= f)%N -> (1 <= n)%N -> (n + f <= 2 ^ 64)%N ->
  (n <= round_up n f < n + f)%N /\ (exists k, round_up n f = k * f)%N.
Proof.
  intros n f Hf Hn Hb. unfold round_up. rewrite wsub_small by lia.
  pose proof (N.div_mod (n - 1) f ltac:(lia)) as Hd.
  pose proof (N.mod_lt (n - 1) f ltac:(lia)) as Hm.
  set (q := ((n - 1) / f)%N) in *. set (r := ((n - 1) mod f)%N) in *.
  assert (Hq : (1 + q < 2 ^ 64)%N) by nia.
  rewrite (@wrap_small (1 + q)) by assumption.
  rewrite wrap_small by nia. split; [nia|]. exists (1 + q)%N. lia.
Qed.
Lemma round_up_zero : round_up 0 64 = 0%N.
Proof. vm_compute. reflexivity. Qed.

Section P.
  Context {T C : Type} (U : NumOps T) (X : TextOps T) (K : Colors C).
  Context (to_size : T -> option N) (pow3 : T -> T).
  Notation data := (@data T C).

  (** ** Shape *)
  Lemma rect_add : forall r v m c radius (d : data), rectangular d -> rectangular (add_body r v m c radius d).
  Proof.
    intros r v m c radius d (H1 & H2 & H3 & H4 & H5).
    repeat split; cbn; rewrite app_length; cbn; congruence.
  Qed.
  Lemma rect_resize : forall n (d : data), rectangular (data_resize U K n d).
  Proof. intros. repeat split; cbn; apply resize_len. Qed.
  Lemma rect_clear : forall (d : data), rectangular (data_clear d).
  Proof. intros. repeat split. Qed.
  Lemma rect_vert : forall i v (d d' : data), rectangular d -> store_vert i v d = Some d' -> rectangular d'.
  Proof.
    intros i v d d' (H1 & H2 & H3 & H4 & H5) E. unfold store_vert in E. cbn in E.
    destruct (wr (b_vert d) i v) eqn:Ew; [|discriminate]. injection E as <-.
    repeat split; cbn; auto. rewrite (wr_len _ _ _ Ew). exact H1.
  Qed.
  Lemma rect_velo : forall i v (d d' : data), rectangular d -> store_velo i v d = Some d' -> rectangular d'.
  Proof.
    intros i v d d' (H1 & H2 & H3 & H4 & H5) E. unfold store_velo in E. cbn in E.
    destruct (wr (b_velo d) i v) eqn:Ew; [|discriminate]. injection E as <-.
    repeat split; cbn; auto. rewrite (wr_len _ _ _ Ew). exact H2.
  Qed.
  Lemma rect_mass : forall i v (d d' : data), rectangular d -> store_mass i v d = Some d' -> rectangular d'.
  Proof.
    intros i v d d' (H1 & H2 & H3 & H4 & H5) E. unfold store_mass in E. cbn in E.
    destruct (wr (b_mass d) i v) eqn:Ew; [|discriminate]. injection E as <-.
    repeat split; cbn; auto. rewrite (wr_len _ _ _ Ew). exact H3.
  Qed.
  Lemma rect_loop : forall fuel uniform k n count center velosity radius sm all hole color (d : data),
    rectangular d ->
    rectangular (ended (star_loop U pow3 fuel uniform k n count center velosity radius sm all hole color d)).
  Proof.
    induction fuel as [|fuel IH]; intros; cbn; destruct (N.eqb n count); cbn; auto.
    destruct (nltb U radius _); apply IH; auto using rect_add.
  Qed.
  Lemma rect_galaxy : forall fuel uniform center velosity radius m count color (d : data),
    rectangular d -> rectangular (ended (add_galaxy U K pow3 fuel uniform center velosity radius m count color d)).
  Proof. intros. apply rect_loop. now apply rect_add. Qed.
  Lemma rect_universe : forall fuel uniform count sx sy sz (d : data) o,
    make_universe U K to_size pow3 fuel uniform count sx sy sz d = Some o -> rectangular (ended o).
  Proof.
    intros fuel uniform count sx sy sz d o E. unfold make_universe in E.
    set (c1 := vsub U _ _) in E. set (c2 := vadd U _ _) in E. cbv zeta in E.
    match type of E with match ?g with _ => _ end = _ =>
      assert (Hg : rectangular (ended g)) by (apply rect_galaxy, rect_clear); destruct g as [d1|d1] end.
    2: { injection E as <-. exact Hg. }
    match type of E with match ?g with _ => _ end = _ =>
      assert (Hg2 : rectangular (ended g)) by (apply rect_galaxy, Hg); destruct g as [d2|d2] end.
    2: { injection E as <-. exact Hg2. }
    destruct (to_size _) as [box|]; [|discriminate]. injection E as <-. exact Hg2.
  Qed.
  Lemma rect_load_bodies : forall factor ls (d : data), rectangular d ->
    rectangular (fst (load_bodies U X K factor ls d)).
  Proof.
    induction ls as [|l ls IH]; intros d H; cbn; [exact H|].
    destruct (parse_line U X l); cbn; auto using rect_add.
  Qed.
  Lemma rect_load : forall file u (d : data), rectangular d -> rectangular (fst (load U X K file u d)).
  Proof. intros [f|] u d H; cbn; [apply rect_load_bodies, rect_clear|exact H]. Qed.

  Lemma rect_masses : forall todo i ls (d d' : data) ls' good, rectangular d ->
    zeno_masses U X todo i ls d = Some (d', ls', good) -> rectangular d'.
  Proof.
    induction todo as [|todo IH]; intros i ls d d' ls' good H E; cbn in E.
    - now injection E as <- _ _.
    - destruct ls as [|l ls]; [now injection E as <- _ _|].
      destruct (store_mass i _ d) as [d1|] eqn:Es; [|discriminate]. cbn in E.
      eapply IH; [|exact E]. eapply rect_mass; eauto.
  Qed.
  Lemma rect_vectors : forall store,
    (forall i v (d d' : data), rectangular d -> store i v d = Some d' -> rectangular d') ->
    forall todo i ls (d d' : data) ls' good, rectangular d ->
    zeno_vectors U X store todo i ls d = Some (d', ls', good) -> rectangular d'.
  Proof.
    intros store Hst. induction todo as [|todo IH]; intros i ls d d' ls' good H E; cbn in E.
    - now injection E as <- _ _.
    - destruct ls as [|l ls]; [now injection E as <- _ _|].
      destruct (split_skip space l) as [|x [|y [|z [|? ?]]]];
        try (injection E as <- _ _; exact H).
      destruct (store i _ d) as [d1|] eqn:Es; [|discriminate]. cbn in E.
      eapply IH; [|exact E]. eapply Hst; eauto.
  Qed.
  Lemma rect_zeno : forall file (d d' : data) good, rectangular d ->
    load_zeno_ascii U X K file d = Some (d', good) -> rectangular d'.
  Proof.
    intros [f|] d d' good H E; cbn in E; [|now injection E as <- _].
    destruct (next_line (read_lines f)) as [l1 ls1].
    destruct (to_ulonglong l1) as [count|]; [|injection E as <- _; apply rect_clear].
    destruct (next_line ls1) as [l2 ls2].
    destruct (to_ulonglong l2) as [dim|]; [|injection E as <- _; apply rect_clear].
    destruct (negb (N.eqb dim 3)); [injection E as <- _; apply rect_clear|].
    destruct (next_line ls2) as [l3 ls3].
    destruct (is_nil l3); [injection E as <- _; apply rect_clear|].
    set (d0 := data_resize U K (N.to_nat count) (data_clear d)) in *.
    assert (H0 : rectangular d0) by apply rect_resize.
    destruct (zeno_masses U X _ 0 ls3 d0) as [[[d1 ls4] g1]|] eqn:E1; [|discriminate]. cbn in E.
    apply rect_masses in E1; [|exact H0].
    destruct g1; cbn in E; [|now injection E as <- _].
    destruct (zeno_vectors U X _ _ 0 ls4 d1) as [[[d2 ls5] g2]|] eqn:E2; [|discriminate]. cbn in E.
    apply rect_vectors in E2; [|exact rect_vert|exact E1].
    destruct g2; cbn in E; [|now injection E as <- _].
    destruct (zeno_vectors U X _ _ 0 ls5 d2) as [[[d3 ls6] g3]|] eqn:E3; [|discriminate]. cbn in E.
    apply rect_vectors in E3; [|exact rect_velo|exact E2].
    destruct g3; cbn in E; [|now injection E as <- _].
    injection E as <- _. destruct E3 as (A & B & D & F & G).
    repeat split; cbn; auto. now rewrite repeat_length.
  Qed.
  Lemma rect_initial : forall file type (d d' : data) good, rectangular d ->
    load_initial U X K to_size file type d = Some (d', good) -> rectangular d'.
  Proof.
    intros file type d d' good H E. unfold load_initial in E.
    match type of E with obind ?x _ = _ => destruct x as [[d1 ret]|] eqn:E1 end;
      [|discriminate].
    assert (H1 : rectangular d1).
    { destruct (same_name type (chars "Zeno")); [eapply rect_zeno; eauto|].
      destruct (same_name type (chars "G1"));
        [injection E1 as E1; apply (f_equal fst) in E1; cbn [fst] in E1; rewrite <- E1; now apply rect_load|].
      destruct (same_name type (chars "SI"));
        [injection E1 as E1; apply (f_equal fst) in E1; cbn [fst] in E1; rewrite <- E1; now apply rect_load|].
      destruct (same_name type (chars "ADK"));
        [injection E1 as E1; apply (f_equal fst) in E1; cbn [fst] in E1; rewrite <- E1; now apply rect_load|].
      now injection E1 as <- _. }
    destruct ret; cbn in E; [|now injection E as <- _].
    destruct (to_size _); cbn in E; [|discriminate]. injection E as <- _. exact H1.
  Qed.
  Lemma rect_do : forall o (d d' : data), rectangular d -> data_do U X K to_size pow3 o d = Some d' ->
    rectangular d'.
  Proof.
    intros o d d' H E. destruct o; cbn -[make_universe load_initial load_zeno_ascii add_galaxy] in E;
      try (injection E as <-).
    - now apply rect_add.
    - apply rect_resize.
    - apply rect_clear.
    - exact H.
    - exact H.
    - exact H.
    - eapply rect_vert; eauto.
    - eapply rect_velo; eauto.
    - eapply rect_mass; eauto.
    - now apply rect_load.
    - destruct (load_zeno_ascii U X K file d) as [[d1 g]|] eqn:E1; [|discriminate]. injection E as <-.
      eapply rect_zeno; eauto.
    - destruct (load_initial U X K to_size file type d) as [[d1 g]|] eqn:E1; [|discriminate].
      injection E as <-. eapply rect_initial; eauto.
    - now apply rect_galaxy.
    - destruct (make_universe U K to_size pow3 fuel uniform count sx sy sz d) eqn:E1; [|discriminate].
      injection E as <-. eapply rect_universe; eauto.
  Qed.
  Lemma rect_history : forall os (d d' : data), rectangular d ->
    data_history U X K to_size pow3 os d = Some d' -> rectangular d'.
  Proof.
    induction os as [|o os IH]; intros d d' H E; cbn -[data_do] in E; [now injection E as <-|].
    destruct (data_do U X K to_size pow3 o d) as [d1|] eqn:E1; [|discriminate]. cbn in E.
    eapply IH; [|exact E]. eapply rect_do; eauto.
  Qed.

  (** ** Loading a file again *)
  Definition body_at (d : data) (n : nat) (y : @body T) : Prop :=
    nth_error (b_vert d) n = Some (y_r y) /\ nth_error (b_velo d) n = Some (y_v y) /\
    nth_error (b_mass d) n = Some (y_m y) /\ nth_error (b_radius d) n = Some (y_radius y).
  Definition body_reread (a b : @body T) : Prop :=
    reread3 X (y_r a) (y_r b) /\ reread3 X (y_v a) (y_v b) /\ reread X (y_m a) (y_m b) /\
    reread X (y_radius a) (y_radius b).
  Definition body_printable (y : @body T) : Prop :=
    printable3 X (y_r y) /\ printable3 X (y_v y) /\ printable_full X (y_m y) /\
    printable_full X (y_radius y).
  Definition line_words (y : @body T) : list text :=
    map (t_show_full X)
      [vx (y_r y); vy (y_r y); vz (y_r y); vx (y_v y); vy (y_v y); vz (y_v y); y_m y; y_radius y].
  Fixpoint spaced (ws : list text) : text :=
    match ws with
    | [] => []
    | [w] => w
    | w :: ws => w ++ space :: spaced ws
    end.
  Lemma body_text_line : forall y,
    body_text X (y_r y) (y_v y) (y_m y) (y_radius y) = spaced (line_words y) ++ [newline].
  Proof.
    intros y. unfold body_text. cbn [line_words map spaced].
    rewrite <- !app_assoc. cbn [app]. rewrite <- !app_assoc. cbn [app]. rewrite <- !app_assoc. cbn [app].
    repeat (rewrite <- !app_assoc; cbn [app]). reflexivity.
  Qed.

  Definition word (w : text) : Prop :=
    w <> [] /\ ~ In "/"%char w /\ Forall (fun a => is_space a = false) w.
  Lemma word_space : forall w, word w -> ~ In space w.
  Proof.
    intros w (_ & _ & H) Hi. rewrite Forall_forall in H. apply H in Hi. discriminate.
  Qed.
  Lemma spaced_spread : forall ws, Forall word ws -> spread ws (spaced ws).
  Proof.
    induction ws as [|w ws IH]; intros H; [constructor|].
    inversion H as [|? ? Hw Hws]; subst.
    destruct ws as [|w' ws].
    - cbn. rewrite <- (app_nil_r w) at 2. apply spread_word; auto.
      + apply Hw.
      + now apply word_space.
    - change (spaced (w :: w' :: ws)) with (w ++ space :: spaced (w' :: ws)).
      apply spread_word; eauto.
      + apply Hw.
      + now apply word_space.
      + apply spread_space. auto.
  Qed.
  Lemma spaced_no_slash : forall ws, Forall word ws -> ~ In "/"%char (spaced ws).
  Proof.
    induction ws as [|w ws IH]; intros H Hi; [exact Hi|].
    inversion H as [|? ? Hw Hws]; subst.
    destruct ws as [|w' ws]; [now apply Hw|].
    change (spaced (w :: w' :: ws)) with (w ++ space :: spaced (w' :: ws)) in Hi.
    apply in_app_or in Hi. destruct Hi as [Hi|[Hi|Hi]].
    - now apply Hw.
    - discriminate.
    - now apply IH.
  Qed.
  Lemma spaced_spaces : forall ws, Forall word ws ->
    Forall (fun a => a = space \/ is_space a = false) (spaced ws).
  Proof.
    induction ws as [|w ws IH]; intros H; [constructor|].
    inversion H as [|? ? Hw Hws]; subst.
    assert (Hw' : Forall (fun a => a = space \/ is_space a = false) w).
    { eapply Forall_impl; [|apply Hw]. auto. }
    destruct ws as [|w' ws]; [exact Hw'|].
    change (spaced (w :: w' :: ws)) with (w ++ space :: spaced (w' :: ws)).
    apply Forall_app. split; [exact Hw'|]. constructor; auto.
  Qed.
  Lemma spaced_ends : forall ws, Forall word ws ->
    (forall x r, spaced ws = x :: r -> is_space x = false) /\
    (forall x r, spaced ws = r ++ [x] -> is_space x = false).
  Proof.
    induction ws as [|w ws IH]; intros H.
    - split; intros x r E; [discriminate|]. destruct r; discriminate.
    - inversion H as [|? ? Hw Hws]; subst. destruct (IH Hws) as [IH1 IH2].
      assert (Hlast : forall x r, w = r ++ [x] -> is_space x = false).
      { intros x r ->. destruct Hw as (_ & _ & Hw). apply Forall_app in Hw. destruct Hw as [_ Hw].
        now inversion Hw. }
      split.
      + intros x r E. destruct w as [|a w]; [now destruct Hw|].
        assert (Ex : x = a) by (destruct ws; cbn in E; now injection E).
        subst a. destruct Hw as (_ & _ & Hw). now inversion Hw.
      + intros x r E. destruct ws as [|w' ws]; [now apply (Hlast x r)|].
        change (spaced (w :: w' :: ws)) with (w ++ space :: spaced (w' :: ws)) in E.
        destruct (exists_last (l := spaced (w' :: ws))) as (s & z & Ez).
        { inversion Hws as [|? ? Hw' ?]; subst. destruct w' as [|b w']; [now destruct Hw'|].
          destruct ws; discriminate. }
        rewrite Ez in E. rewrite app_comm_cons, app_assoc in E. apply app_inj_tail in E.
        destruct E as [_ ->]. eapply IH2. exact Ez.
  Qed.
  Lemma spaced_columns : forall ws, Forall word ws -> columns_of (spaced ws) ws.
  Proof.
    intros ws H. exists (spaced ws), (spaced ws). split; [|split].
    - left. split; [reflexivity|]. intros (a & b & E). apply (spaced_no_slash H). rewrite E.
      apply in_or_app. right. now left.
    - exists [], []. rewrite app_nil_r. repeat split; try constructor; now apply spaced_ends.
    - now apply spaced_spread.
  Qed.
  Lemma words_of : forall y, body_printable y -> Forall word (line_words y).
  Proof.
    intros y ((A1 & A2 & A3) & (B1 & B2 & B3) & M & D).
    assert (W : forall x, printable_full X x -> word (t_show_full X x)).
    { intros x (H1 & H2 & H3 & _). now repeat split. }
    unfold line_words. cbn [map]. repeat constructor; (apply W; assumption) || apply W; assumption.
  Qed.
  Lemma saved_line : forall y, body_printable y ->
    exists y', body_reread y y' /\ body_line U X (spaced (line_words y)) y' /\ plain (spaced (line_words y)).
  Proof.
    intros y Hy. pose proof (words_of Hy) as Hw.
    destruct Hy as (((_ & _ & _ & x1 & Q1) & (_ & _ & _ & x2 & Q2) & (_ & _ & _ & x3 & Q3)) &
      ((_ & _ & _ & v1 & Q4) & (_ & _ & _ & v2 & Q5) & (_ & _ & _ & v3 & Q6)) &
      (_ & _ & _ & m & Q7) & (_ & _ & _ & radius & Q8)).
    exists (mkBody (V3 x1 x2 x3) (V3 v1 v2 v3) m radius).
    split; [repeat split; assumption|]. split.
    - exists (firstn 7 (line_words y)), x1, x2, x3, v1, v2, v3, m, [t_show_full X (y_radius y)].
      split; [exact (spaced_columns Hw)|]. unfold reread in *. cbn.
      rewrite Q1, Q2, Q3, Q4, Q5, Q6, Q7. repeat split. exact Q8.
    - pose proof (spaced_spaces Hw) as Hs. rewrite Forall_forall in Hs. split.
      + intros Hi. destruct (Hs _ Hi) as [E|E]; discriminate.
      + intros s E. destruct (Hs return_) as [E'|E']; try discriminate.
        rewrite E. apply in_or_app. right. now left.
  Qed.
  Lemma save_lines : forall todo n (d : data) ys,
    length ys = todo -> (forall i y, nth_error ys i = Some y -> body_at d (n + i) y) ->
    Forall body_printable ys ->
    exists lines ys', save_bodies X todo n d = Some (lines_text lines) /\ Forall plain lines /\
      lines_say U X lines ys' /\ Forall2 body_reread ys ys'.
  Proof.
    induction todo as [|todo IH]; intros n d ys Hl Hat Hp.
    - destruct ys; [|discriminate]. exists [], []. repeat split; constructor.
    - destruct ys as [|y ys]; [discriminate|]. injection Hl as Hl.
      inversion Hp as [|? ? Hy Hys]; subst.
      destruct (Hat 0 y eq_refl) as (A & B & D & F). rewrite Nat.add_0_r in *.
      destruct (IH (S n) d ys eq_refl) as (lines & ys' & E & Hpl & Hsay & H2); auto.
      { intros i y' Hi. replace (S n + i) with (n + S i) by lia. apply Hat. exact Hi. }
      destruct (saved_line Hy) as (y' & Hr & Hb & Hpy).
      exists (spaced (line_words y) :: lines), (y' :: ys').
      split; [|split; [|split]]; try now constructor.
      cbn [save_bodies]. unfold rd. rewrite A, B, D, F. cbn [obind]. rewrite E. cbn [obind].
      rewrite body_text_line. unfold lines_text. cbn. now rewrite <- app_assoc.
  Qed.
End P.
