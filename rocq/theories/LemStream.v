(** The stream writer keeps a well-formed stream on disk, at every moment. *)
From Coq Require Import Ascii String List NArith ZArith Arith Lia Bool.
From Verif Require Import Arr ModelText ModelStream SpecStream LemText.
Import ListNotations.
Set Implicit Arguments.

(** ** Names *)
Lemma dat_inj : forall base a b, make_dat_name base a = make_dat_name base b -> a = b.
Proof.
  unfold make_dat_name. intros base a b H. apply app_inv_head in H. apply app_inv_tail in H.
  now apply show_inj.
Qed.
Lemma dat_idx : forall base n, make_dat_name base n <> make_idx_name base.
Proof.
  unfold make_dat_name, make_idx_name. intros base n H. apply app_inv_head in H.
  apply (f_equal (@rev ascii)) in H. rewrite rev_app_distr in H. discriminate H.
Qed.
Lemma dat_col : forall base n, make_dat_name base n <> make_col_name base.
Proof.
  unfold make_dat_name, make_col_name. intros base n H. apply app_inv_head in H.
  apply (f_equal (@rev ascii)) in H. rewrite rev_app_distr in H. discriminate H.
Qed.
Lemma dat_mass : forall base n, make_dat_name base n <> make_mass_name base.
Proof.
  unfold make_dat_name, make_mass_name. intros base n H. apply app_inv_head in H.
  apply (f_equal (@rev ascii)) in H. rewrite rev_app_distr in H. discriminate H.
Qed.
Lemma idx_col : forall base, make_idx_name base <> make_col_name base.
Proof. unfold make_idx_name, make_col_name. intros base H. apply app_inv_head in H. discriminate H. Qed.
Lemma idx_mass : forall base, make_idx_name base <> make_mass_name base.
Proof. unfold make_idx_name, make_mass_name. intros base H. apply app_inv_head in H. discriminate H. Qed.
Lemma col_mass : forall base, make_col_name base <> make_mass_name base.
Proof. unfold make_col_name, make_mass_name. intros base H. apply app_inv_head in H. discriminate H. Qed.
#[global] Hint Resolve dat_idx dat_col dat_mass idx_col idx_mass col_mass not_eq_sym : names.

Lemma set_same : forall fs n c, set_file fs n c n = c.
Proof. intros. unfold set_file. destruct (text_dec n n); congruence. Qed.
Lemma set_other : forall fs n m c, m <> n -> set_file fs n c m = fs m.
Proof. intros. unfold set_file. destruct (text_dec m n); congruence. Qed.

Definition names (ev : event) : text := match ev with Create n | Touch n | App n _ => n end.
Lemma apply_other : forall fs ev n, n <> names ev -> apply fs ev n = fs n.
Proof. intros fs [m|m|m bs] n H; apply set_other; exact H. Qed.
Lemma after_app : forall p q fs, after fs (p ++ q) = after (after fs p) q.
Proof. intros. apply fold_left_app. Qed.

(** ** Prefixes *)
Lemma starts_refl : forall t, starts t t.
Proof. intros t. exists []. now rewrite app_nil_r. Qed.
Lemma starts_app : forall p t r, starts p t -> starts p (t ++ r).
Proof. intros p t r [q ->]. exists (q ++ r). now rewrite app_assoc. Qed.
Lemma starts_app_l : forall a b t, starts (a ++ b) t -> starts a t.
Proof. intros a b t [q ->]. exists (b ++ q). now rewrite app_assoc. Qed.
Lemma starts_len : forall p t, starts p t -> length p <= length t.
Proof. intros p t [r ->]. rewrite app_length. lia. Qed.
Lemma starts_firstn : forall k (t r : text), starts (firstn k t) (t ++ r).
Proof. intros k t r. exists (skipn k t ++ r). now rewrite app_assoc, firstn_skipn. Qed.

Section L.
  Context {T : Type} (X : TextOps T) (cs : nat).
  Notation bdata := (@bdata T).
  Notation rec := (@rec T).

  Lemma stored_app : forall fs base (c : rec) n bs,
    stored fs base c -> stored (apply fs (App n bs)) base c.
  Proof.
    intros fs base c n bs (u & v & E & L). destruct (text_dec (make_dat_name base (c_part c)) n) as [<-|H].
    - exists u, (v ++ bs). split; [|exact L]. cbn [apply]. rewrite set_same. unfold contents. rewrite E.
      now rewrite <- !app_assoc.
    - exists u, v. split; [|exact L]. rewrite apply_other by exact H. exact E.
  Qed.
  Lemma stored_touch : forall fs base (c : rec) n, stored fs base c -> stored (apply fs (Touch n)) base c.
  Proof.
    intros fs base c n (u & v & E & L). destruct (text_dec (make_dat_name base (c_part c)) n) as [<-|H].
    - exists u, v. split; [|exact L]. cbn [apply]. rewrite set_same. unfold contents. now rewrite E.
    - exists u, v. split; [|exact L]. rewrite apply_other by exact H. exact E.
  Qed.
  Lemma stored_other : forall fs base (c : rec) ev,
    make_dat_name base (c_part c) <> names ev -> stored fs base c -> stored (apply fs ev) base c.
  Proof.
    intros fs base c ev H (u & v & E & L). exists u, v. split; [|exact L].
    rewrite apply_other by exact H. exact E.
  Qed.

  (** ** The index *)
  Lemma line_nonempty : forall c : rec, 0 < length (line_of X c).
  Proof. intros c. unfold line_of, index_line. rewrite !app_length. cbn. lia. Qed.
  Lemma header_nonempty : forall b : bdata, 0 < length (header_text cs b).
  Proof. intros b. unfold header_text, header_line. rewrite !app_length. cbn. lia. Qed.
  Lemma lines_nonempty : forall l : list rec, l <> [] -> 0 < length (concat (map (line_of X) l)).
  Proof.
    intros [|c l] H; [contradiction|]. cbn [map concat]. rewrite app_length.
    pose proof (line_nonempty c). lia.
  Qed.
  Lemma index_app : forall first l m,
    index_text X cs first (l ++ m) = index_text X cs first l ++ concat (map (line_of X) m).
  Proof. intros. unfold index_text. rewrite map_app, concat_app. now rewrite app_assoc. Qed.
  Lemma index_starts : forall first l m, starts (index_text X cs first l) (index_text X cs first (l ++ m)).
  Proof. intros. exists (concat (map (line_of X) m)). apply index_app. Qed.

  (** nothing is lost at a crash: what the index lists is there *)
  Definition crash_ok (fs : files) (base : text) (first : bdata) (recs : list rec) : Prop :=
    starts (contents fs (make_idx_name base)) (index_text X cs first recs) /\
    (forall k, length (index_text X cs first (firstn k recs)) <= length (contents fs (make_idx_name base)) ->
               Forall (stored fs base) (firstn k recs)) /\
    (contents fs (make_idx_name base) <> [] ->
       fs (make_col_name base) = Some (d_color first) /\ fs (make_mass_name base) = Some (d_mass first)).

  Lemma crash_more : forall fs base first recs more,
    crash_ok fs base first recs -> crash_ok fs base first (recs ++ more).
  Proof.
    intros fs base first recs more (S & F & C). split; [|split].
    - destruct S as [r E]. rewrite index_app, E, <- app_assoc. eexists; reflexivity.
    - intros k H. rewrite firstn_app in *.
      destruct (firstn (k - length recs) more) as [|c l] eqn:E.
      + rewrite app_nil_r in *. apply F, H.
      + exfalso. assert (length recs < k) by (destruct (le_lt_dec k (length recs)) as [K|K]; [|exact K];
          rewrite (proj2 (Nat.sub_0_le _ _) K) in E; discriminate E).
        rewrite (@firstn_all2 _ k) in H by lia. rewrite index_app, app_length in H.
        pose proof (starts_len S). assert (K : c :: l <> []) by discriminate.
        pose proof (lines_nonempty K). lia.
    - exact C.
  Qed.

  (** the index is a prefix of the intended one and all frames are there *)
  Definition calm (fs : files) (base : text) (first : bdata) (recs : list rec) : Prop :=
    (exists t, fs (make_idx_name base) = Some t /\ starts t (index_text X cs first recs)) /\
    fs (make_col_name base) = Some (d_color first) /\ fs (make_mass_name base) = Some (d_mass first) /\
    Forall (stored fs base) recs.
  Lemma firstn_In_sub : forall A k (l : list A) x, In x (firstn k l) -> In x l.
  Proof. intros A k l x H. rewrite <- (firstn_skipn k l). apply in_or_app. now left. Qed.
  Lemma calm_crash : forall fs base first recs, calm fs base first recs -> crash_ok fs base first recs.
  Proof.
    intros fs base first recs ((t & E & S) & C & M & F). split; [|split].
    - unfold contents. rewrite E. exact S.
    - intros k _. rewrite Forall_forall in *. intros c H. apply F. eapply firstn_In_sub, H.
    - intros _. split; assumption.
  Qed.

  (** data may be appended and parts after the last one created *)
  Inductive harmless (base : text) (last : N) : event -> Prop :=
  | harmless_app : forall n bs, harmless base last (App (make_dat_name base n) bs)
  | harmless_create : forall n, (last < n)%N -> harmless base last (Create (make_dat_name base n)).
  Lemma calm_event : forall fs base first recs last ev,
    Forall (fun c => (c_part c <= last)%N) recs -> harmless base last ev ->
    calm fs base first recs -> calm (apply fs ev) base first recs.
  Proof.
    intros fs base first recs last ev P H ((t & E & S) & C & M & F).
    assert (O : forall n, n = make_idx_name base \/ n = make_col_name base \/ n = make_mass_name base ->
                apply fs ev n = fs n).
    { intros n K. apply apply_other. destruct H; cbn [names];
        destruct K as [-> | [-> | ->]]; auto with names. }
    split; [exists t; split; [rewrite O by auto; exact E|exact S]|].
    rewrite !O by auto. split; [exact C|]. split; [exact M|].
    rewrite Forall_forall in *. intros c I. specialize (F c I). specialize (P c I). destruct H as [n bs|n L].
    - apply stored_app, F.
    - apply stored_other; [|exact F]. cbn [names]. intros K. apply dat_inj in K. lia.
  Qed.
  Lemma torn_harmless : forall base last evs p,
    Forall (harmless base last) evs -> torn evs p -> Forall (harmless base last) p.
  Proof.
    intros base last evs p H K. induction K as [l|e l p K IH|n bs k l].
    - constructor.
    - inversion H; subst. constructor; auto.
    - inversion H as [|? ? A ?]; subst. constructor; [|constructor]. inversion A; subst. constructor.
  Qed.
  Lemma calm_events : forall base first recs last evs fs,
    Forall (fun c => (c_part c <= last)%N) recs -> Forall (harmless base last) evs ->
    calm fs base first recs -> calm (after fs evs) base first recs.
  Proof.
    intros base first recs last evs. induction evs as [|e evs IH]; intros fs P H C; [exact C|].
    inversion H; subst. apply (IH (apply fs e)); auto. eapply calm_event; eassumption.
  Qed.

  Lemma torn_app : forall a b p, torn (a ++ b) p -> torn a p \/ exists q, p = a ++ q /\ torn b q.
  Proof.
    induction a as [|e a IH]; intros b p H; [right; exists p; auto|].
    cbn [app] in H. inversion H as [l|e' l q Q|n bs k l]; subst.
    - left. constructor.
    - destruct (IH b q Q) as [K|(r & -> & K)].
      + left. now constructor.
      + right. exists r. auto.
    - left. constructor.
  Qed.

  (** ** A writer between two writes *)
  Record ready (base : text) (first : bdata) (recs : list rec) (w : writer) (fs : files) : Prop := {
    y_base : w_base w = base;
    y_idx : w_idx w = Some (make_idx_name base);
    y_ok : w_ok w = true;
    y_data : w_data w = Some (make_dat_name base (w_file_n w));
    y_dat : exists c, fs (make_dat_name base (w_file_n w)) = Some c /\ w_pos w = length c;
    y_pend : w_pend w = [];
    y_text : exists t, fs (make_idx_name base) = Some t /\ t ++ w_buf w = index_text X cs first recs;
    y_col : fs (make_col_name base) = Some (d_color first);
    y_mass : fs (make_mass_name base) = Some (d_mass first);
    y_stored : Forall (stored fs base) recs;
    y_parts : Forall (fun c => (c_part c <= w_file_n w)%N) recs }.

  Lemma ready_calm : forall base first recs w fs, ready base first recs w fs -> calm fs base first recs.
  Proof.
    intros base first recs w fs H. destruct (y_text H) as (t & E & S).
    split; [exists t; split; [exact E|exists (w_buf w); symmetry; exact S]|].
    split; [exact (y_col H)|]. split; [exact (y_mass H)|exact (y_stored H)].
  Qed.

  Definition must_rotate (w : writer) : bool := andb (Z.ltb 0 (w_max w)) (Z.leb (w_max w) (Z.of_nat (w_pos w))).

  (** starting another part *)
  Lemma rotate_ready : forall base first recs w fs lg,
    ready base first recs w fs ->
    exists w' evs,
      open_data_file false (set_file_n w (w_file_n w + 1)) (mkDisk fs [] lg) =
        (w', mkDisk (after fs evs) [] (lg ++ evs), true) /\
      Forall (harmless base (w_file_n w)) evs /\
      ready base first recs w' (after fs evs) /\
      w_file_n w' = (w_file_n w + 1)%N /\ w_pos w' = 0 /\
      w_max w' = w_max w /\ w_header w' = w_header w /\ w_buf w' = w_buf w /\
      after fs evs (make_dat_name base (w_file_n w + 1)) = Some [] /\
      (forall n, n <> (w_file_n w + 1)%N -> after fs evs (make_dat_name base n) = fs (make_dat_name base n)).
  Proof.
    intros base first recs w fs lg H. destruct H as [Hb Hi Ho Hd Hdat Hp Ht Hc Hm Hs Hr].
    unfold open_data_file, close_data. cbn [set_file_n w_data w_pend w_base w_file_n].
    rewrite Hd, Hp. unfold put, outcome. cbn [k_io taken firstn length happen k_fs k_log].
    unfold open_file, outcome. cbn [k_io happen k_fs k_log set_data set_file_n w_base w_file_n].
    rewrite Hb. unfold contents at 1. cbn [apply]. rewrite set_same. cbn [length].
    set (ev := [App (make_dat_name base (w_file_n w)) []; Create (make_dat_name base (w_file_n w + 1))]).
    assert (HH : Forall (harmless base (w_file_n w)) ev).
    { repeat constructor. lia. }
    exists (set_data (set_data (set_file_n w (w_file_n w + 1)) None 0 [])
             (Some (make_dat_name base (w_file_n w + 1))) 0 []), ev.
    assert (L1 : after fs ev (make_dat_name base (w_file_n w + 1)) = Some []).
    { unfold ev, after. cbn [fold_left apply]. apply set_same. }
    assert (L2 : forall n, n <> (w_file_n w + 1)%N -> after fs ev (make_dat_name base n) = fs (make_dat_name base n)).
    { intros n Hn. unfold ev, after. cbn [fold_left].
      rewrite apply_other by (cbn [names]; intros K; apply dat_inj in K; congruence).
      destruct (N.eq_dec n (w_file_n w)) as [->|Hn'].
      - cbn [apply]. rewrite set_same. destruct Hdat as (c & E & _). unfold contents. rewrite E.
        now rewrite app_nil_r.
      - apply apply_other. cbn [names]. intros K. apply dat_inj in K. congruence. }
    split; [|split; [exact HH|split; [|repeat (split; [reflexivity|]); split; [exact L1|exact L2]]]].
    - unfold happen. cbn [k_fs k_io k_log]. rewrite <- app_assoc. reflexivity.
    - assert (C : calm (after fs ev) base first recs).
      { eapply calm_events; [exact Hr|exact HH|].
        eapply ready_calm; constructor; eassumption. }
      assert (Hx : after fs ev (make_idx_name base) = fs (make_idx_name base)).
      { unfold ev, after. cbn [fold_left]. rewrite !apply_other by (cbn [names]; auto with names). reflexivity. }
      destruct C as (_ & C1 & C2 & C3).
      constructor; cbn [w_base w_idx w_ok w_data w_file_n w_pos w_pend w_buf set_data set_file_n]; auto.
      + exists []. split; [|reflexivity]. unfold ev, after. cbn [fold_left apply]. apply set_same.
      + rewrite Hx. exact Ht.
      + eapply Forall_impl; [|exact Hr]. cbn beta. intros c K. lia.
  Qed.

  Lemma write_tail : forall base first recs w fs lg b,
    ready base first recs w fs ->
    let c := mkRec b (w_file_n w) (w_pos w) in
    exists w' evs,
      (let fpos := w_pos w in
       let '(w1, d1, good) := write_data (d_vert b) w (mkDisk fs [] lg) in
       if negb good then (w1, d1, false) else
       let '(w2, d2, good) := write_data (d_velo b) w1 d1 in
       if negb good then (w2, d2, false) else
       let (w3, d3) := flush_data w2 d2 in
       let w4 := set_index w3 (w_idx w3) (w_buf w3 ++ index_line X b (w_file_n w3) fpos) (w_ok w3) in
       let (w5, d5) := flush_index w4 d3 in (w5, d5, true)) =
        (w', mkDisk (after fs evs) [] (lg ++ evs), true) /\
      ready base first (recs ++ [c]) w' (after fs evs) /\
      w_file_n w' = w_file_n w /\ w_pos w' = w_pos w + length (image b) /\
      w_max w' = w_max w /\ w_header w' = w_header w /\ w_buf w' = [] /\
      (forall p, torn evs p -> crash_ok (after fs p) base first (recs ++ [c])) /\
      after fs evs (make_dat_name base (w_file_n w)) =
        Some (contents fs (make_dat_name base (w_file_n w)) ++ image b) /\
      (forall n, n <> w_file_n w -> after fs evs (make_dat_name base n) = fs (make_dat_name base n)).
  Proof.
    intros base first recs w fs lg b H c. pose proof (ready_calm H) as HC.
    destruct H as [Hb Hi Ho Hd Hdat Hp Ht Hc Hm Hs Hr].
    cbn zeta. unfold write_data at 1. rewrite Hd, Hp. unfold outcome. cbn [k_io taken app].
    rewrite !firstn_all, Nat.eqb_refl. cbn [negb].
    unfold write_data. cbn [set_data w_data w_pos w_pend]. unfold outcome. cbn [k_io taken].
    rewrite !firstn_all, Nat.eqb_refl. cbn [negb].
    unfold flush_data. cbn [set_data w_data w_pos w_pend]. unfold put, outcome. cbn [k_io taken].
    rewrite !firstn_all. unfold happen. cbn [k_fs k_log k_io].
    unfold flush_index. cbn [set_index set_data w_idx w_ok w_buf]. rewrite Hi, Ho.
    unfold put, outcome. cbn [k_io taken].
    rewrite !firstn_all. unfold happen. cbn [k_fs k_log k_io].
    rewrite skipn_all, Nat.eqb_refl. cbn [set_index set_data w_file_n w_base w_max w_header].
    fold (image b).
    set (e1 := App (make_dat_name base (w_file_n w)) (image b)).
    set (e2 := App (make_idx_name base) (w_buf w ++ index_line X b (w_file_n w) (w_pos w))).
    destruct Ht as (t & Et & Tt). destruct Hdat as (dat & Ed & Ld).
    assert (L1 : after fs [e1; e2] (make_dat_name base (w_file_n w)) = Some (dat ++ image b)).
    { unfold after. cbn [fold_left]. rewrite apply_other by (cbn; auto with names). cbn [apply e1].
      rewrite set_same. unfold contents. now rewrite Ed. }
    assert (L2 : after fs [e1; e2] (make_idx_name base) = Some (index_text X cs first (recs ++ [c]))).
    { unfold after. cbn [fold_left apply e2]. rewrite set_same. unfold contents.
      rewrite apply_other by (cbn; auto with names). rewrite Et. rewrite app_assoc, Tt.
      rewrite index_app. cbn [map concat]. rewrite app_nil_r. reflexivity. }
    assert (HH : harmless base (w_file_n w) e1) by constructor.
    assert (C1 : calm (apply fs e1) base first recs) by (eapply calm_event; eassumption).
    assert (Sc1 : stored (apply fs e1) base c).
    { exists dat, []. split; [|symmetry; exact Ld]. unfold e1. cbn [c c_part c_frame apply].
      rewrite set_same, app_nil_r. unfold contents. now rewrite Ed. }
    assert (Sall : forall bs, Forall (stored (apply (apply fs e1) (App (make_idx_name base) bs)) base) (recs ++ [c])).
    { intros bs. destruct C1 as (_ & _ & _ & F). apply Forall_app. split.
      - eapply Forall_impl; [|exact F]. intros x K. apply stored_app, K.
      - constructor; [|constructor]. apply stored_app, Sc1. }
    eexists _, [e1; e2]. split; [rewrite <- app_assoc; reflexivity|].
    split; [|split; [reflexivity|split; [|
      split; [reflexivity|split; [reflexivity|split; [reflexivity|split; [|split]]]]]]].
    - constructor; cbn [w_base w_idx w_ok w_data w_file_n w_pos w_pend w_buf set_data set_index]; auto.
      + rewrite L1. eexists; split; [reflexivity|]. rewrite app_length. unfold image. rewrite app_length. lia.
      + rewrite L2. eexists; split; [reflexivity|]. now rewrite app_nil_r.
      + unfold after. cbn [fold_left]. rewrite !apply_other by (cbn; auto with names). exact Hc.
      + unfold after. cbn [fold_left]. rewrite !apply_other by (cbn; auto with names). exact Hm.
      + apply Sall.
      + apply Forall_app. split; [exact Hr|]. constructor; [|constructor]. cbn. lia.
    - cbn [w_pos set_index set_data]. unfold image. rewrite app_length. lia.
    - intros p Q. change [e1; e2] with ([e1] ++ [e2]) in Q. apply torn_app in Q.
      destruct Q as [Q|(q & -> & Q)].
      + apply crash_more, calm_crash. eapply calm_events; [exact Hr| |exact HC].
        eapply torn_harmless; [|exact Q]. constructor; [exact HH|constructor].
      + change ([e1] ++ q) with (e1 :: q). unfold after. cbn [fold_left]. fold (after (apply fs e1) q).
        assert (CC : forall k, crash_ok (apply (apply fs e1) (App (make_idx_name base)
                     (firstn k (w_buf w ++ index_line X b (w_file_n w) (w_pos w))))) base first (recs ++ [c])).
        { intros k. apply calm_crash. split; [|split; [|split]].
          - eexists. split; [cbn [apply]; apply set_same|]. unfold contents.
            rewrite apply_other by (cbn; auto with names). rewrite Et.
            rewrite index_app. cbn [map concat]. rewrite app_nil_r. rewrite <- Tt, <- app_assoc.
            destruct (starts_firstn k (w_buf w ++ line_of X c) []) as [r R]. rewrite app_nil_r in R.
            exists r. rewrite R at 1. now rewrite app_assoc.
          - rewrite !apply_other by (cbn; auto with names). exact Hc.
          - rewrite !apply_other by (cbn; auto with names). exact Hm.
          - apply Sall. }
        inversion Q as [l|e l q' Q'|n bs k l]; subst.
        * cbn [after fold_left]. apply crash_more, calm_crash, C1.
        * inversion Q'; subst. cbn [after fold_left]. unfold e2.
          rewrite <- (firstn_all (w_buf w ++ index_line X b (w_file_n w) (w_pos w))). apply CC.
        * cbn [after fold_left]. apply CC.
    - rewrite L1. unfold contents. now rewrite Ed.
    - intros n Hn. unfold after. cbn [fold_left].
      rewrite !apply_other by (cbn; auto with names; intros K; apply dat_inj in K; congruence). reflexivity.
  Qed.

  Lemma write_ready : forall base first recs w fs lg b,
    ready base first recs w fs -> w_header w = true ->
    exists part off w' evs,
      stream_write X cs b w (mkDisk fs [] lg) = (w', mkDisk (after fs evs) [] (lg ++ evs), true) /\
      (if must_rotate w then part = (w_file_n w + 1)%N /\ off = 0 else part = w_file_n w /\ off = w_pos w) /\
      ready base first (recs ++ [mkRec b part off]) w' (after fs evs) /\
      w_file_n w' = part /\ w_pos w' = off + length (image b) /\
      w_max w' = w_max w /\ w_header w' = true /\ w_buf w' = [] /\
      (forall p, torn evs p -> crash_ok (after fs p) base first (recs ++ [mkRec b part off])) /\
      after fs evs (make_dat_name base part) =
        Some ((if must_rotate w then [] else contents fs (make_dat_name base part)) ++ image b) /\
      (forall n, n <> part -> after fs evs (make_dat_name base n) = fs (make_dat_name base n)).
  Proof.
    intros base first recs w fs lg b H Hh. unfold stream_write.
    rewrite (y_idx H), Hh. cbn [negb]. fold (must_rotate w). destruct (must_rotate w) eqn:M.
    - destruct (rotate_ready lg H) as (w1 & e1 & E1 & HH & R1 & F1 & P1 & X1 & H1 & B1 & D1 & D1').
      rewrite E1. cbn [negb].
      destruct (write_tail (lg ++ e1) b R1) as (w2 & e2 & E2 & R2 & F2 & P2 & X2 & H2 & B2 & C2 & D2 & D2').
      cbv zeta in E2 |- *. rewrite E2.
      exists (w_file_n w1), (w_pos w1), w2, (e1 ++ e2).
      rewrite !after_app, app_assoc. split; [reflexivity|]. split; [split; assumption|].
      split; [exact R2|]. split; [exact F2|]. split; [exact P2|]. split; [congruence|]. split; [congruence|].
      split; [exact B2|]. split; [|split].
      + intros p Q. apply torn_app in Q. destruct Q as [Q|(q & -> & Q)].
        * apply crash_more, calm_crash. eapply calm_events; [exact (y_parts H)| |exact (ready_calm H)].
          eapply torn_harmless; eassumption.
        * rewrite after_app. apply C2, Q.
      + rewrite D2. unfold contents. rewrite F1, D1. reflexivity.
      + intros n Hn. rewrite D2' by exact Hn. apply D1'. congruence.
    - cbn [negb].
      destruct (write_tail lg b H) as (w2 & e2 & E2 & R2 & F2 & P2 & X2 & H2 & B2 & C2 & D2 & D2').
      cbv zeta in E2 |- *. rewrite E2. exists (w_file_n w), (w_pos w), w2, e2.
      split; [reflexivity|]. split; [split; reflexivity|].
      split; [exact R2|]. split; [exact F2|]. split; [exact P2|]. split; [congruence|]. split; [congruence|].
      split; [exact B2|]. split; [exact C2|]. split; [exact D2|exact D2'].
  Qed.

  (** ** The first write *)
  Record opened (base : text) (w : writer) (fs : files) : Prop := {
    o_base : w_base w = base;
    o_idx : w_idx w = Some (make_idx_name base);
    o_ok : w_ok w = true;
    o_n : w_file_n w = 0%N;
    o_data : w_data w = Some (make_dat_name base 0);
    o_dat : fs (make_dat_name base 0) = Some [];
    o_pos : w_pos w = 0;
    o_pend : w_pend w = [];
    o_buf : w_buf w = [];
    o_text : fs (make_idx_name base) = Some [] }.

  Lemma crash_blank : forall fs base first recs,
    contents fs (make_idx_name base) = [] -> crash_ok fs base first recs.
  Proof.
    intros fs base first recs E. unfold crash_ok. rewrite E. split; [eexists; reflexivity|]. split.
    - intros k H. unfold index_text in H. rewrite app_length in H. cbn [length] in H.
      pose proof (header_nonempty first). lia.
    - intros K. contradiction.
  Qed.
  Lemma contents_torn : forall evs p, torn evs p -> forall fs n, Forall (fun e => n <> names e) evs ->
    after fs p n = fs n.
  Proof.
    intros evs p Q. induction Q as [l|e l p Q IH|m bs k l]; intros fs n H; [reflexivity|..].
    - inversion H; subst. unfold after. cbn [fold_left]. fold (after (apply fs e) p).
      rewrite IH by assumption. now apply apply_other.
    - inversion H as [|? ? A ?]; subst. cbn [after fold_left]. apply apply_other. exact A.
  Qed.

  Lemma write_header_ready : forall base b w fs lg,
    opened base w fs ->
    exists w' evs,
      write_header cs b w (mkDisk fs [] lg) = (w', mkDisk (after fs evs) [] (lg ++ evs), true) /\
      ready base b [] w' (after fs evs) /\ w_header w' = true /\ w_idx w' = w_idx w /\
      w_file_n w' = 0%N /\ w_pos w' = 0 /\ w_max w' = w_max w /\
      Forall (fun e => make_idx_name base <> names e) evs /\
      (forall n, after fs evs (make_dat_name base n) = fs (make_dat_name base n)).
  Proof.
    intros base b w fs lg [Hb Hi Ho Hn Hd Hdat Hps Hp Hbuf Ht].
    unfold write_header. cbn [set_index w_base]. rewrite Hb. unfold write_file, open_file, outcome.
    cbn [k_io]. unfold happen. cbn [k_fs k_log k_io taken]. rewrite !firstn_all.
    unfold put, outcome. cbn [k_io taken]. rewrite !firstn_all. unfold happen. cbn [k_fs k_log k_io].
    rewrite Nat.eqb_refl. unfold outcome. cbn [k_io]. unfold happen. cbn [k_fs k_log k_io taken].
    rewrite !firstn_all. rewrite Nat.eqb_refl.
    set (evs := [Create (make_col_name base); App (make_col_name base) (d_color b);
                 Create (make_mass_name base); App (make_mass_name base) (d_mass b)]).
    eexists _, evs. split; [rewrite <- !app_assoc; reflexivity|].
    assert (O : forall n, n <> make_col_name base -> n <> make_mass_name base -> after fs evs n = fs n).
    { intros n A B. unfold after, evs. cbn [fold_left]. rewrite !apply_other by assumption. reflexivity. }
    split; [|repeat split; cbn [set_header set_index w_file_n w_pos w_max]; auto].
    - constructor; cbn [set_header set_index w_base w_idx w_ok w_data w_file_n w_pos w_pend w_buf]; auto.
      + rewrite Hn. exact Hd.
      + rewrite Hn, O by auto with names. exists []. auto.
      + rewrite O by auto with names. exists []. rewrite Hbuf. split; [exact Ht|].
        unfold index_text. cbn [map concat app]. now rewrite app_nil_r.
      + unfold after, evs. cbn [fold_left].
        do 2 rewrite apply_other by (cbn [names]; auto with names).
        cbn [apply]. rewrite set_same. unfold contents. rewrite set_same. reflexivity.
      + unfold after, evs. cbn [fold_left]. cbn [apply]. rewrite set_same. unfold contents. rewrite set_same.
        reflexivity.
    - unfold evs. repeat constructor; cbn [names]; auto with names.
    - intros n. apply O; auto with names.
  Qed.

  Lemma write_first : forall base w fs lg b,
    opened base w fs -> w_header w = false ->
    exists w' evs,
      stream_write X cs b w (mkDisk fs [] lg) = (w', mkDisk (after fs evs) [] (lg ++ evs), true) /\
      ready base b [mkRec b 0 0] w' (after fs evs) /\
      w_file_n w' = 0%N /\ w_pos w' = length (image b) /\
      w_max w' = w_max w /\ w_header w' = true /\ w_buf w' = [] /\
      (forall p, torn evs p -> crash_ok (after fs p) base b [mkRec b 0 0]) /\
      after fs evs (make_dat_name base 0) = Some (image b).
  Proof.
    intros base w fs lg b H Hh.
    destruct (write_header_ready b lg H) as (w1 & e1 & E1 & R1 & H1 & I1 & F1 & P1 & X1 & N1 & D1).
    assert (S : stream_write X cs b w (mkDisk fs [] lg) =
                stream_write X cs b w1 (mkDisk (after fs e1) [] (lg ++ e1))).
    { unfold stream_write. rewrite (o_idx H), Hh, E1, I1, (o_idx H), H1. reflexivity. }
    rewrite S.
    destruct (write_ready (lg ++ e1) b R1 H1)
      as (part & off & w2 & e2 & E2 & L2 & R2 & F2 & P2 & X2 & H2 & B2 & C2 & D2 & _).
    assert (Mr : must_rotate w1 = false).
    { unfold must_rotate. rewrite P1, X1. cbn. destruct (Z.ltb_spec 0 (w_max w)); [|reflexivity].
      cbn. apply Z.leb_gt. lia. }
    rewrite Mr in L2, D2. destruct L2 as [-> ->]. rewrite F1, P1 in *.
    rewrite E2. exists w2, (e1 ++ e2). rewrite !after_app, app_assoc. split; [reflexivity|].
    split; [exact R2|]. split; [exact F2|]. split; [exact P2|]. split; [congruence|].
    split; [exact H2|]. split; [exact B2|]. split.
    - intros p Q. apply torn_app in Q. destruct Q as [Q|(q & -> & Q)].
      + apply crash_blank. unfold contents. rewrite (contents_torn Q) by exact N1. now rewrite (o_text H).
      + rewrite after_app. apply C2, Q.
    - rewrite D2. unfold contents. rewrite D1, (o_dat H). reflexivity.
  Qed.

  Lemma open_opened : forall base max w fs lg,
    w_data w = None -> w_idx w = None ->
    exists w',
      let evs := [Create (make_dat_name base 0); Create (make_idx_name base)] in
      stream_open base max None w (mkDisk fs [] lg) = (w', mkDisk (after fs evs) [] (lg ++ evs), true) /\
      opened base w' (after fs evs) /\ w_max w' = max /\ w_header w' = w_header w.
  Proof.
    intros base max w fs lg Hd Hi. unfold stream_open, open_data_file, close_data.
    cbn [w_data w_base w_file_n]. rewrite Hd. unfold open_file, outcome. cbn [k_io].
    unfold happen. cbn [k_fs k_log k_io]. cbn [negb].
    unfold open_index_file, open_file, outcome. cbn [set_data w_base k_io]. unfold happen. cbn [k_fs k_log k_io].
    eexists. cbn zeta. split; [rewrite <- app_assoc; reflexivity|]. split; [|split; reflexivity].
    constructor; cbn [set_index set_data w_base w_idx w_ok w_data w_file_n w_pos w_pend w_buf]; auto.
    - unfold after. cbn [fold_left]. rewrite apply_other by (cbn [names]; auto with names).
      cbn [apply]. apply set_same.
    - cbn [apply]. unfold contents. rewrite set_same. reflexivity.
    - unfold after. cbn [fold_left apply]. apply set_same.
  Qed.
End L.
