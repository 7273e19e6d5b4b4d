(** The statements of PropStream.v, assembled. *)
From Coq Require Import Ascii String List NArith ZArith Arith Lia Bool.
From Verif Require Import Arr ModelText ModelStream SpecStream LemText LemStream LemStreamRun LemStreamRead.
Import ListNotations.
Set Implicit Arguments.

Section L.
  Context {T : Type} (X : TextOps T) (cs : nat).
  Notation bdata := (@bdata T).
  Notation rec := (@rec T).

  Lemma frame_size : forall n (b : bdata), frame_ok X cs n b -> length (image b) = 6 * cs * n.
  Proof. intros n b ((A & B & _) & C & _). unfold image. rewrite app_length. subst n. lia. Qed.
  Lemma frames_size : forall n frames, Forall (frame_ok X cs n) frames ->
    Forall (fun b => length (image b) = 6 * cs * n) frames.
  Proof. intros n frames H. eapply Forall_impl; [|exact H]. intros b. apply frame_size. Qed.
  Lemma sequence_header : forall n b frames, sequence_ok X cs n (b :: frames) -> header_ok cs n b.
  Proof.
    intros n b frames (F & A & B & C). inversion F as [|? ? (W & E & _) ?]; subst.
    split; [exact W|]. auto.
  Qed.

  (** bounded positions fit their columns *)
  Lemma bound_recs : forall n n0 p0 frames (recs : list rec),
    Forall (frame_ok X cs n) frames -> map (fun c => c_frame c) recs = frames ->
    Forall (bound n0 p0 (6 * cs * n) (length frames)) recs ->
    (n0 + N.of_nat (length frames) < 2 ^ 64 - 1)%N ->
    (N.of_nat p0 + bytes_of cs n frames < 2 ^ 63)%N ->
    Forall (rec_ok X cs n) recs.
  Proof.
    intros n n0 p0 frames recs F M B Hn Hp. rewrite Forall_forall in *. intros c I.
    destruct (B c I) as [B1 B2]. split; [|split].
    - apply F. rewrite <- M. apply in_map with (f := fun c => c_frame c). exact I.
    - lia.
    - unfold bytes_of in Hp. lia.
  Qed.
  Lemma count_bytes : forall n frames, (0 < N.of_nat n)%N -> (0 < N.of_nat cs)%N ->
    (bytes_of cs n frames < 2 ^ 63)%N -> (0 + N.of_nat (length (frames : list bdata)) < 2 ^ 64 - 1)%N.
  Proof.
    intros n frames Hn Hc H. unfold bytes_of in H.
    assert (length frames * 1 <= length frames * (6 * cs * n)) by (apply Nat.mul_le_mono_l; nia).
    lia.
  Qed.

  (** a session recorded by a new writer *)
  Lemma session_ok : forall base max n b frames w0 fs,
    closed w0 -> w_header w0 = false ->
    sequence_ok X cs n (b :: frames) -> (bytes_of cs n (b :: frames) < 2 ^ 63)%N ->
    exists recs w' evs,
      record_on X cs w0 base max None (b :: frames) fs = (w', mkDisk (after fs evs) [] evs, true) /\
      map (fun c => c_frame c) recs = b :: frames /\
      on_disk X cs (after fs evs) base b recs /\
      header_ok cs n b /\ Forall (rec_ok X cs n) recs /\ recs <> [] /\
      (fs (make_idx_name base) = None -> forall p, torn evs p -> crash_ok X cs (after fs p) base b recs) /\
      (exists last, tidy max base (after fs evs) recs last) /\
      w_data w' = None /\ w_idx w' = None /\ w_header w' = true.
  Proof.
    intros base max n b frames w0 fs [Hd Hi] Hh Hs Hb. pose proof Hs as (F & A & B & C).
    destruct (session X cs base max w0 fs Hd Hi Hh (frames_size F))
      as (recs & w' & evs & E & M & O & Bd & Cr & Ty & Cl).
    exists recs, w', evs. split; [exact E|]. split; [exact M|]. split; [exact O|].
    split; [eapply sequence_header; exact Hs|].
    split; [|split; [intros K; rewrite K in M; discriminate M|split; [exact Cr|split; [exact Ty|exact Cl]]]].
    eapply bound_recs; [exact F|exact M|exact Bd| |cbn [N.of_nat]; lia].
    apply (@count_bytes n); [lia|lia|exact Hb].
  Qed.

  Lemma round_trip : forall base max n b frames w0 fs,
    closed w0 -> w_header w0 = false ->
    sequence_ok X cs n (b :: frames) -> (bytes_of cs n (b :: frames) < 2 ^ 63)%N ->
    exists w' d', record_on X cs w0 base max None (b :: frames) fs = (w', d', true) /\
      replays X cs (k_fs d') base n b (b :: frames).
  Proof.
    intros base max n b frames w0 fs Hw Hh Hs Hb.
    destruct (@session_ok base max n b frames w0 fs Hw Hh Hs Hb)
      as (recs & w' & evs & E & M & O & Hd & Hr & Ne & _).
    do 2 eexists. split; [exact E|]. cbn [k_fs]. rewrite <- M. now apply on_disk_replays.
  Qed.

  Lemma live : forall base max n b frames fs,
    sequence_ok X cs n (b :: frames) -> (bytes_of cs n (b :: frames) < 2 ^ 63)%N ->
    exists w1 d1 w' d', stream_open base max None new_writer (mkDisk fs [] []) = (w1, d1, true) /\
      write_all X cs (b :: frames) w1 d1 = (w', d', true) /\
      replays X cs (k_fs d') base n b (b :: frames).
  Proof.
    intros base max n b frames fs Hs Hb. pose proof Hs as (F & A & B & C).
    destruct (@live_session T X cs (6 * cs * n) base max b frames new_writer fs eq_refl eq_refl eq_refl (frames_size F))
      as (recs & w1 & d1 & w' & d' & E1 & E & M & O & Bd).
    exists w1, d1, w', d'. split; [exact E1|]. split; [exact E|]. rewrite <- M. apply on_disk_replays; auto.
    - eapply sequence_header; exact Hs.
    - eapply bound_recs; [exact F|exact M|exact Bd| |cbn [N.of_nat]; lia].
      apply (@count_bytes n); [lia|lia|exact Hb].
    - intros K. rewrite K in M. discriminate M.
  Qed.

  (** ** Parts *)
  Lemma last_in_part : forall p (recs : list rec), (exists c, In c recs /\ c_part c = p) ->
    exists pre c post, recs = pre ++ c :: post /\ c_part c = p /\ Forall (fun b => c_part b <> p) post.
  Proof.
    intros p recs. induction recs as [|x recs IH]; intros (c & I & E); [contradiction|].
    destruct (Exists_dec (fun b : rec => c_part b = p) recs (fun b => N.eq_dec (c_part b) p)) as [K|K].
    - apply Exists_exists in K. destruct (IH K) as (pre & d & post & -> & A & B).
      exists (x :: pre), d, post. auto.
    - exists [], x, recs. split; [reflexivity|].
      assert (F : Forall (fun b : rec => c_part b <> p) recs).
      { apply Forall_forall. intros y Iy Ey. apply K. apply Exists_exists. eauto. }
      split; [|exact F]. destruct I as [->|I]; [exact E|]. rewrite Forall_forall in F. now apply F in I.
  Qed.
  Lemma part_nil : forall p (recs : list rec), Forall (fun b => c_part b <> p) recs -> part_bytes p recs = [].
  Proof.
    intros p recs H. unfold part_bytes. induction H as [|c l K H IH]; [reflexivity|]. cbn [filter].
    destruct (N.eqb_spec (c_part c) p); [contradiction|exact IH].
  Qed.
  Lemma tidy_size : forall max base fs (recs : list rec) last sz,
    tidy max base fs recs last -> Forall (fun c => length (image (c_frame c)) = sz) recs ->
    (0 < max)%Z -> forall p, (p <= last)%N -> (Z.of_nat (length (part_bytes p recs)) < max + Z.of_nat sz)%Z.
  Proof.
    intros max base fs recs last sz Ty Sz Hm p Hp.
    destruct (last_in_part _ (t_used Ty Hp)) as (pre & c & post & E & Ec & Fp).
    destruct (t_where Ty _ _ _ E) as [W _]. pose proof (t_off Ty Hm) as Fo.
    rewrite E in Fo, Sz. rewrite E. rewrite part_app. change (c :: post) with ([c] ++ post). rewrite part_app.
    rewrite part_one, Ec, N.eqb_refl, (part_nil Fp), app_nil_r, app_length. rewrite Ec in W. rewrite <- W.
    rewrite Forall_forall in Fo, Sz. specialize (Fo c). specialize (Sz c).
    assert (I : In c (pre ++ c :: post)) by (apply in_or_app; right; left; reflexivity).
    specialize (Fo I). specialize (Sz I). lia.
  Qed.
  Lemma tidy_single : forall max base fs (recs : list rec) last,
    tidy max base fs recs last -> (max <= 0)%Z -> last = 0%N.
  Proof.
    intros max base fs recs last Ty Hm. destruct (N.eq_dec last 0) as [->|D]; [reflexivity|].
    assert (K : (0 < last)%N) by lia. destruct (t_full Ty K). lia.
  Qed.
  Lemma nth_last_split : forall A (l : list A) x, nth_error l (length l - 1) = Some x -> exists pre, l = pre ++ [x].
  Proof.
    intros A l x H. destruct l as [|y l _] using rev_ind; [discriminate H|].
    rewrite app_length in H. cbn [length] in H. rewrite nth_error_app2 in H by lia.
    replace (length l + 1 - 1 - length l) with 0 in H by lia. cbn in H. inversion H; subst. eauto.
  Qed.
  Lemma tidy_ends : forall max base fs (recs : list rec) last, tidy max base fs recs last ->
    forall c, nth_error recs (length recs - 1) = Some c -> ends_there fs base c.
  Proof.
    intros max base fs recs last Ty c H. apply nth_last_split in H. destruct H as (pre & E).
    destruct (t_where Ty _ _ _ E) as [W _]. unfold ends_there, contents.
    assert (P : (c_part c <= last)%N).
    { pose proof (t_part Ty) as F. rewrite Forall_forall in F. apply F. rewrite E. apply in_or_app. right. left. reflexivity. }
    rewrite (t_files Ty P). rewrite E, part_app, part_one, N.eqb_refl, app_length, W. reflexivity.
  Qed.

  Lemma tidy_parts : forall max base fs (recs : list rec) last sz,
    tidy max base fs recs last -> Forall (fun c => length (image (c_frame c)) = sz) recs ->
    parts_ok max sz base fs recs last.
  Proof.
    intros max base fs recs last sz Ty Sz. constructor.
    - exact (t_files Ty).
    - intros p K. exact (proj2 (t_full Ty K)).
    - intros K p Hp. eapply tidy_size; eassumption.
    - intros K. eapply tidy_single; eassumption.
    - intros p. split; [apply (t_used Ty)|]. intros (c & I & <-). pose proof (t_part Ty) as F.
      rewrite Forall_forall in F. auto.
    - intros pre c post E. exact (proj2 (t_where Ty _ _ _ E)).
  Qed.

  (** ** Crashes *)
  Lemma crash_prefix : forall fs base first recs k,
    crash_ok X cs fs base first recs ->
    starts (index_text X cs first (firstn k recs)) (contents fs (make_idx_name base)) ->
    Forall (stored fs base) (firstn k recs).
  Proof. intros fs base first recs k (_ & B & _) S. apply B. apply starts_len, S. Qed.
  Lemma contents_some : forall fs name (t : text), contents fs name = t -> t <> [] -> fs name = Some t.
  Proof. intros fs name t. unfold contents. destruct (fs name); intros; congruence. Qed.
  Lemma index_nonempty : forall first recs, index_text X cs first recs <> [].
  Proof.
    intros first recs H. pose proof (header_nonempty cs first) as K. unfold index_text in H.
    apply app_eq_nil in H. destruct H as [H _]. rewrite H in K. cbn in K. lia.
  Qed.
  Lemma crash_replays : forall n fs base first recs k,
    crash_ok X cs fs base first recs -> header_ok cs n first -> Forall (rec_ok X cs n) recs ->
    contents fs (make_idx_name base) = index_text X cs first (firstn k recs) -> firstn k recs <> [] ->
    replays X cs fs base n first (firstn k (map (fun c => c_frame c) recs)).
  Proof.
    intros n fs base first recs k C Hd Hr E Ne. rewrite firstn_map. apply on_disk_replays; auto.
    - pose proof (@index_nonempty first (firstn k recs)) as In. destruct C as (_ & B & M).
      rewrite E in M. destruct (M In) as [M1 M2]. constructor; auto.
      + now apply contents_some.
      + apply B. rewrite E. lia.
    - rewrite <- (firstn_skipn k recs) in Hr. apply Forall_app in Hr. tauto.
  Qed.

  (** ** Appending *)
  Lemma last_item_ok : forall recs (r : reader) c, Forall2 (item_ok X) recs (r_frames r) ->
    nth_error recs (length recs - 1) = Some c -> reader_last_file_n r = c_part c.
  Proof.
    intros recs r c F H. apply nth_last_split in H. destruct H as (pre & ->).
    apply Forall2_app_inv_l in F. destruct F as (l1 & l2 & F1 & F2 & E).
    inversion F2 as [|? i ? l3 (_ & _ & K & _) F3]; subst. inversion F3; subst.
    unfold reader_last_file_n, last_item. rewrite E, rev_app_distr. cbn. exact K.
  Qed.
  Lemma resume : forall base max n first recs frames w0 r0 fs c,
    closed w0 ->
    on_disk X cs fs base first recs -> header_ok cs n first -> Forall (rec_ok X cs n) recs ->
    nth_error recs (length recs - 1) = Some c ->
    Forall (fun d => (c_part d <= c_part c)%N) recs ->
    Forall (frame_ok X cs n) frames ->
    (c_part c + N.of_nat (length frames) < 2 ^ 64 - 1)%N ->
    (N.of_nat (length (contents fs (make_dat_name base (c_part c)))) + bytes_of cs n frames < 2 ^ 63)%N ->
    exists r recs' w' evs,
      reader_load X cs fs base r0 = (r, true) /\
      record_on X cs w0 base max (Some (reader_last_file_n r)) frames fs = (w', mkDisk (after fs evs) [] evs, true) /\
      map (fun c => c_frame c) recs' = frames /\
      on_disk X cs (after fs evs) base first (recs ++ recs') /\
      Forall (rec_ok X cs n) (recs ++ recs') /\
      (forall p, torn evs p -> crash_ok X cs (after fs p) base first (recs ++ recs')).
  Proof.
    intros base max n first recs frames w0 r0 fs c [Hd Hi] O Hh Hr Hc Hp F Hn Hb.
    assert (Ne : recs <> []) by (intros ->; discriminate Hc).
    destruct (load_ok O Hh Hr r0 Ne) as (r & E & L & _). pose proof (last_item_ok _ (l_items L) Hc) as K.
    assert (Fs : fs (make_dat_name base (c_part c)) = Some (contents fs (make_dat_name base (c_part c)))).
    { pose proof (od_stored O) as S. rewrite Forall_forall in S. destruct (S c (nth_error_In _ _ Hc)) as (u & v & Es & _).
      unfold contents. now rewrite Es. }
    destruct (append_session max w0 Hd Hi O Hp Fs (frames_size F)) as (recs' & w' & evs & E' & M & O' & B' & C').
    exists r, recs', w', evs. rewrite K. split; [exact E|]. split; [exact E'|]. split; [exact M|].
    split; [exact O'|]. split; [|exact C'].
    apply Forall_app. split; [exact Hr|]. eapply bound_recs; [exact F|exact M|exact B'|exact Hn|exact Hb].
  Qed.

  (** ** Reused objects *)
  Lemma bare_load : forall n fs base recs,
    Forall (rec_ok X cs n) recs -> fs (make_idx_name base) = Some (concat (map (line_of X) recs)) ->
    snd (reader_load X cs fs base (new_reader (T:=T))) = false.
  Proof.
    intros n fs base recs Hr Hi. unfold reader_load. rewrite Hi.
    replace (concat (map (line_of X) recs)) with (lines_text (map (line_body X) recs)).
    2:{ unfold lines_text. f_equal. rewrite map_map. apply map_ext. intros c.
        unfold line_of, index_line, line_body. now rewrite <- !app_assoc. }
    rewrite read_lines_text.
    2:{ rewrite Forall_forall in *. intros l K. apply in_map_iff in K. destruct K as (c & <- & I).
        apply line_plain. destruct (Hr c I) as ((_ & _ & _ & P) & _). exact P. }
    destruct (load_items Hr (reader_close (new_reader (T:=T)))) as (items & _ & E). rewrite E.
    reflexivity.
  Qed.
  Lemma reuse : forall base max n frames w0 fs,
    closed w0 -> w_header w0 = true -> Forall (frame_ok X cs n) frames ->
    (0 < N.of_nat n)%N -> (0 < N.of_nat cs)%N -> (bytes_of cs n frames < 2 ^ 63)%N ->
    exists w' d', record_on X cs w0 base max None frames fs = (w', d', true) /\
      snd (reader_load X cs (k_fs d') base (new_reader (T:=T))) = false.
  Proof.
    intros base max n frames w0 fs [Hd Hi] Hh F Hn Hc Hb.
    destruct (bare_session X cs base max w0 fs Hd Hi Hh (frames_size F)) as (recs & w' & d' & E & M & B & I).
    exists w', d'. split; [exact E|]. eapply bare_load; [|exact I].
    eapply bound_recs; [exact F|exact M|exact B| |cbn [N.of_nat]; lia].
    apply (@count_bytes n); assumption.
  Qed.

  (** ** Random access, as a player does it *)
  Lemma expect_app : forall count a b c,
    expect_all count (a ++ b) c =
      (let (ea, c1) := expect_all count a c in let (eb, c2) := expect_all count b c1 in (ea ++ eb, c2)).
  Proof.
    intros count a b. induction a as [|o a IH]; intros c; cbn [app expect_all].
    - now destruct (expect_all count b c).
    - destruct (expect count o c) as [e c1]. rewrite IH. destruct (expect_all count a c1) as [ea c2].
      now destruct (expect_all count b c2).
  Qed.
  Lemma perform_app : forall fs a b (dst : bdata) (r : @reader T),
    perform_all cs fs (a ++ b) dst r =
      match perform_all cs fs a dst r with
      | Some (l, d, r) => match perform_all cs fs b d r with
                          | Some (l', d, r) => Some (l ++ l', d, r) | None => None end
      | None => None
      end.
  Proof.
    intros fs a b. induction a as [|o a IH]; intros dst r; cbn [app perform_all].
    - now destruct (perform_all cs fs b dst r) as [[[l d] r']|].
    - destruct (perform cs fs o dst r) as [[[x d] r']|]; [|reflexivity]. rewrite IH.
      destruct (perform_all cs fs a d r') as [[[l d'] r'']|]; [|reflexivity].
      now destruct (perform_all cs fs b d' r'') as [[[l' d''] r''']|].
  Qed.

  (** ** Names *)
  Lemma app_cases : forall (a b s t : text), a ++ s = b ++ t -> exists u, a = b ++ u \/ b = a ++ u.
  Proof.
    induction a as [|x a IH]; intros b s t H; [exists b; right; reflexivity|].
    destruct b as [|y b]; [exists (x :: a); left; reflexivity|].
    cbn in H. inversion H as [[E H']]. destruct (IH b s t H') as (u & [->| ->]); exists u; auto.
  Qed.
  Lemma name_clash : forall a b name, a <> b -> stream_file a name -> stream_file b name ->
    exists u, u <> [] /\ Forall is_digit u /\ (a = b ++ u \/ b = a ++ u).
  Proof.
    intros a b name D A B.
    assert (S : forall p q s t, name = p ++ chars s -> name = q ++ chars t -> rev (chars s) = rev (chars t) -> p = q).
    { intros p q s t E1 E2 E. apply (f_equal (@rev _)) in E. rewrite !rev_involutive in E.
      rewrite E1, E in E2. now apply app_inv_tail in E2. }
    assert (R : forall p q s t x y l m, name = p ++ chars s -> name = q ++ chars t ->
              rev (chars s) = x :: l -> rev (chars t) = y :: m -> x = y).
    { intros p q s t x y l m E1 E2 L M. rewrite E1 in E2. apply (f_equal (@rev _)) in E2.
      rewrite !rev_app_distr, L, M in E2. now inversion E2. }
    assert (I : forall p k, name = p ++ show_N k ++ chars ".dat" -> name = (p ++ show_N k) ++ chars ".dat").
    { intros p k E. now rewrite <- app_assoc. }
    destruct A as [A|[A|[A|[k A]]]]; destruct B as [B|[B|[B|[j B]]]];
      try (apply I in A); try (apply I in B);
      try (exfalso; apply D; eapply S; [exact A|exact B|reflexivity]);
      try (exfalso; epose proof (R _ _ _ _ _ _ _ _ A B eq_refl eq_refl) as Q; discriminate Q).
    - assert (Q : a ++ show_N k = b ++ show_N j) by (eapply S; [exact A|exact B|reflexivity]).
      destruct (app_cases _ _ _ _ Q) as (u & [E|E]).
      + exists u. split; [|split; [|left; exact E]].
        * intros ->. apply D. now rewrite app_nil_r in E.
        * rewrite E, <- app_assoc in Q. apply app_inv_head in Q. pose proof (show_digits j) as F.
          rewrite <- Q in F. apply Forall_app in F. tauto.
      + exists u. split; [|split; [|right; exact E]].
        * intros ->. apply D. now rewrite app_nil_r in E.
        * rewrite E, <- app_assoc in Q. apply app_inv_head in Q. pose proof (show_digits k) as F.
          rewrite Q in F. apply Forall_app in F. tauto.
  Qed.
End L.
