(** The player on a recorded stream *)
From Coq Require Import List NArith ZArith Arith Lia.
From Verif Require Import Arr ModelText ModelStream ModelPlayer SpecStream SpecPlayer LemStreamRun LemStreamRead LemStreamProp.
Import ListNotations.
Set Implicit Arguments.

Section L.
  Context {T : Type} (X : TextOps T) (cs : nat) (fs : files) (base : text) (n : nat) (first : @bdata T)
          (recs : list (@rec T)).
  Context (Hd : on_disk X cs fs base first recs) (Hf : header_ok cs n first)
          (Hr : Forall (rec_ok X cs n) recs) (Hne : recs <> [])
          (End : forall c, nth_error recs (length recs - 1) = Some c -> ends_there fs base c).
  Let frames := map (fun c => @c_frame T c) recs.
  Let count := length recs.
  Context (Hfirst : nth_error frames 0 = Some first).
  Notation player := (@player T).
  Notation loaded := (loaded X cs base n first recs).

  Definition flags (r : @reader T) (b : @bdata T) : Prop :=
    (r_masses r = true -> d_mass b = d_mass first) /\ (r_colors r = true -> d_color b = d_color first).
  Record fine (p : player) (cur : cursor) : Prop := {
    f_loaded : loaded (p_reader p);
    f_at : is_at cs base n recs (p_reader p) cur;
    f_whole : whole cs (p_data p);
    f_count : d_count (p_data p) = n;
    f_flags : flags (p_reader p) (p_data p);
    f_value : p_value p < count;
    f_past : cur = Past -> shows X frames (count - 1) (p_data p) }.

  Lemma frame_nth : forall k c, nth_error recs k = Some c -> nth_error frames k = Some (c_frame c).
  Proof. intros k c H. unfold frames. now rewrite nth_error_map, H. Qed.

  Lemma frames_count : forall r, loaded r -> reader_frame_count r = count.
  Proof. intros r L. exact (items_length L). Qed.

  Lemma seek_flags : forall r b r', r_colors r' = r_colors r -> r_masses r' = r_masses r -> flags r b -> flags r' b.
  Proof. intros r b r' C M [F1 F2]. split; rewrite ?C, ?M; assumption. Qed.

  (** seek and read: the data becomes frame [k], unless the reader is behind frame [k] already *)
  Lemma seek_read : forall p cur k, fine p cur -> k < count ->
    exists r, reader_seek fs (Some k) (p_reader p) = (r, true) /\
    exists r' b good cur', reader_read cs fs (p_data p) r = Some (r', b, good) /\
      fine (mkPlayer r' b (p_value p)) cur' /\ shows X frames k b /\
      (good = false -> k = count - 1 /\ cur = Past) /\
      (cur <> Past \/ k <> count - 1 -> good = true) /\
      cur' = (if Nat.ltb (k + 1) count then At (k + 1) else Past).
  Proof.
    intros p cur k F Hk. destruct F as [L A W C Fl V P].
    assert (G : exists r, reader_seek fs (Some k) (p_reader p) = (r, true) /\ loaded r /\
              flags r (p_data p) /\ (at_frame base recs r k \/ past_end cs base n recs r /\ k = count - 1 /\ cur = Past)).
    { destruct (nth_error recs k) as [c|] eqn:Ek; [|apply nth_error_None in Ek; unfold count in Hk; lia].
      assert (D : r_current (p_reader p) = Some k \/ r_current (p_reader p) <> Some k).
      { destruct (r_current (p_reader p)) as [j|]; [|right; discriminate].
        destruct (Nat.eq_dec j k); [left|right]; congruence. }
      destruct D as [D|D].
      - exists (p_reader p). rewrite (seek_stay fs _ D). split; [reflexivity|]. split; [exact L|]. split; [exact Fl|].
        destruct cur as [j|]; pose proof A as (cj & A1 & A2 & A3).
        + left. rewrite A2 in D. injection D as ->. exact A.
        + right. rewrite A2 in D. injection D as <-. auto.
      - destruct (seek_to Hd Hr L Ek D) as (r & E & L' & A' & C1 & C2).
        exists r. split; [exact E|]. split; [exact L'|]. split; [|auto]. apply (seek_flags _ C1 C2 Fl). }
    destruct G as (r & E & L' & F' & [A'|(A' & K & U)]); exists r; split; auto.
    - destruct (read_at Hd Hf Hr L' A' W C) as (r' & got & c & Er & Ek & S & L2 & P' & W' & N' & _ & M & Co & M1 & C1).
      assert (Sh : shows X frames k got).
      { exists (c_frame c), first. rewrite (frame_nth _ Ek). repeat split; auto; try apply S.
        - rewrite M. destruct (r_masses r) eqn:Q; auto. apply F'. exact Q.
        - rewrite Co. destruct (r_colors r) eqn:Q; auto. apply F'. exact Q. }
      exists r', got, true, (if Nat.ltb (k + 1) count then At (k + 1) else Past).
      split; [exact Er|]. split; [|split; [exact Sh|split; [discriminate|split; auto]]].
      constructor; cbn [p_reader p_data p_value]; auto.
      + unfold count. destruct (Nat.ltb (k + 1) (length recs)); exact P'.
      + split; intros _.
        * destruct Sh as (f & fi & _ & E0 & _ & H1 & H2). rewrite Hfirst in E0. now injection E0 as <-.
        * destruct Sh as (f & fi & _ & E0 & _ & H1 & H2). rewrite Hfirst in E0. now injection E0 as <-.
      + destruct (Nat.ltb_spec (k + 1) count); [discriminate|]. intros _. replace (count - 1) with k by lia. exact Sh.
    - pose proof A' as (c & Ek & _).
      assert (0 < cs * n). { destruct Hf as (_ & _ & A1 & A2 & _). apply Nat.mul_pos_pos; lia. }
      destruct (read_past Hd Hr (p_data p) L' A' C H Ek (End Ek)) as (r' & Er & L2 & A2 & M1 & C1).
      subst k. exists r', (p_data p), false, Past. split; [exact Er|].
      split; [|split; [auto|split; [auto|split]]].
      + constructor; cbn [p_reader p_data p_value]; auto. apply (seek_flags _ C1 M1 F').
      + intros [Q|Q]; [congruence|lia].
      + destruct (Nat.ltb_spec (count - 1 + 1) count); [lia|reflexivity].
  Qed.

  Lemma update_ok : forall p cur, fine p cur ->
    exists p', on_update_data cs fs p = Some p' /\ p_value p' = p_value p /\ shows X frames (p_value p) (p_data p') /\
      fine p' (if Nat.ltb (p_value p + 1) count then At (p_value p + 1) else Past).
  Proof.
    intros p cur F. unfold on_update_data.
    destruct (seek_read F (f_value F)) as (r & E & r' & b & good & cur' & Er & F' & S & _ & _ & ->).
    rewrite E. cbn [negb]. rewrite Er. cbn [obind]. eexists. split; [reflexivity|]. auto.
  Qed.

  Lemma count_pos : 0 < count.
  Proof. unfold count. destruct recs; [congruence|cbn; lia]. Qed.

  Lemma bound_asked : forall p v g, loaded (p_reader p) -> g = SetValue v \/ g = Drag v ->
    timeline_bound p v = asked count g /\ asked count g < count.
  Proof.
    intros p v g L G. unfold timeline_bound, timeline_max. rewrite (frames_count L). pose proof count_pos.
    assert (asked count g = asked count (SetValue v)) as -> by (destruct G; subst; reflexivity).
    unfold asked. destruct (Z.ltb_spec v 0); [split; [|lia]; rewrite Z.max_l; [reflexivity|lia]|].
    destruct (Z.ltb_spec v (Z.of_nat count)); split; lia.
  Qed.

  Definition asks (p : player) (g : gesture) : Prop := asked count g <> p_value p.
  Lemma set_ok : forall p cur v, fine p cur ->
    exists p' cur', set_value cs fs v p = Some p' /\ fine p' cur' /\ p_value p' = asked count (SetValue v) /\
      (asked count (SetValue v) = p_value p -> p' = p /\ cur' = cur) /\
      (asked count (SetValue v) <> p_value p -> shows X frames (p_value p') (p_data p') /\
         cur' = (if Nat.ltb (p_value p' + 1) count then At (p_value p' + 1) else Past)).
  Proof.
    intros p cur v F. unfold set_value. destruct (bound_asked p (f_loaded F) (or_introl (eq_refl (SetValue v)))) as [-> B].
    destruct (Nat.eqb_spec (asked count (SetValue v)) (p_value p)) as [Q|Q].
    - exists p, cur. split; [auto|]. split; [auto|]. split; [auto|]. split; [auto|congruence].
    - set (q := mkPlayer (p_reader p) (p_data p) (asked count (SetValue v))).
      assert (Fq : fine q cur) by (destruct F; constructor; auto).
      destruct (update_ok Fq) as (p' & E & V & S & F'). exists p'. eexists. split; [exact E|].
      split; [exact F'|]. rewrite V. split; [auto|]. split; [congruence|auto].
  Qed.

  Lemma gesture_ok : forall p cur g, fine p cur ->
    exists p' cur', gesture_do cs fs g p = Some p' /\ fine p' cur' /\ p_value p' = asked count g /\
      (asked count g = p_value p -> p' = p /\ cur' = cur) /\
      (asked count g <> p_value p -> shows X frames (p_value p') (p_data p') /\
         cur' = (if Nat.ltb (p_value p' + 1) count then At (p_value p' + 1) else Past)).
  Proof.
    intros p cur [v|v] F; cbn [gesture_do].
    - apply (set_ok v F).
    - unfold drag. destruct (bound_asked p (f_loaded F) (or_intror (eq_refl (Drag v)))) as [-> B].
      destruct (Nat.eqb_spec (asked count (Drag v)) (p_value p)) as [Q|Q].
      + exists p, cur. split; [auto|]. split; [auto|]. split; [auto|]. split; [auto|congruence].
      + destruct (update_ok F) as (p1 & E & V & S & F1). rewrite E. cbn [obind].
        destruct (set_ok v F1) as (p' & cur' & E' & F' & V' & _ & G). exists p', cur'.
        split; [exact E'|]. split; [exact F'|]. split; [exact V'|]. split; [congruence|].
        intros _. apply G. rewrite V. exact Q.
  Qed.

  Lemma gestures_ok : forall l p cur, fine p cur ->
    exists p' cur', gestures_do cs fs l p = Some p' /\ fine p' cur' /\
      (shows X frames (p_value p) (p_data p) -> shows X frames (p_value p') (p_data p')) /\
      (cur <> Past -> Forall (fun g => asked count g <> count - 1) l -> cur' <> Past).
  Proof.
    induction l as [|g l IH]; intros p cur F; cbn [gestures_do].
    - exists p, cur. auto.
    - destruct (gesture_ok g F) as (p1 & c1 & E & F1 & V & Same & Diff). rewrite E. cbn [obind].
      destruct (IH p1 c1 F1) as (p2 & c2 & E2 & F2 & Sh & Pa). exists p2, c2. split; [exact E2|].
      split; [exact F2|]. destruct (Nat.eq_dec (asked count g) (p_value p)) as [Q|Q].
      + destruct (Same Q) as [-> ->]. split; auto. intros H1 H2. inversion H2; subst. auto.
      + destruct (Diff Q) as [S1 ->]. split; auto. intros H1 H2. inversion H2; subst. apply Pa; auto.
        rewrite V. pose proof count_pos.
        destruct (Nat.ltb_spec (asked count g + 1) count); [discriminate|].
        destruct (bound_asked p (v := match g with SetValue v | Drag v => v end) (g := g) (f_loaded F)); [destruct g; auto|]. lia.
  Qed.

  (** the recording loop *)
  Lemma record_ok : forall drawn cancelled during m k p cur, fine p cur -> k + m = count ->
    exists images p' cur', record_frames cs fs drawn cancelled during (seq k m) p = Some (images, p') /\ fine p' cur' /\
      map fst images = seq k (length images) /\ Forall (fun i => shows X frames (fst i) (snd i)) images /\
      ((forall j, drawn j = true) -> (forall j, cancelled j = false) ->
       (2 <= count -> Forall (fun g => asked count g <> count - 1) (during (count - 2))) ->
       (m <= 1 -> cur <> Past) -> length images = m).
  Proof.
    intros drawn cancelled during. induction m as [|m IH]; intros k p cur F Hk; cbn [seq record_frames].
    - exists [], p, cur. auto.
    - assert (K : k < count) by lia.
      destruct (seek_read F K) as (r & E & r' & b & good & cur' & Er & F' & S & G1 & G2 & Ec).
      rewrite E. cbn [negb p_data p_reader p_value]. rewrite Er. cbn [obind].
      destruct good; cbn [negb].
      2:{ exists [], (mkPlayer r' b (p_value p)), cur'. split; [auto|]. split; [auto|]. split; [auto|]. split; [auto|]. intros D C U M.
          destruct (G1 eq_refl) as [K1 K2]. exfalso. apply M; [lia|exact K2]. }
      destruct (drawn k) eqn:Dk; cbn [negb].
      2:{ exists [], (mkPlayer r' b (p_value p)), cur'. split; [auto|]. split; [auto|]. split; [auto|]. split; [auto|]. intros D. rewrite D in Dk. discriminate. }
      destruct (cancelled k) eqn:Ck.
      { exists [(k, b)], (mkPlayer r' b (p_value p)), cur'. split; [auto|]. split; [auto|]. split; [auto|]. split; [auto|]. intros D C. rewrite C in Ck. discriminate. }
      destruct (gestures_ok (during k) F') as (p1 & c1 & E1 & F1 & _ & Pa). rewrite E1. cbn [obind].
      destruct (IH (Datatypes.S k) p1 c1 F1) as (im & p2 & c2 & E2 & F2 & M & Fo & Len); [lia|].
      rewrite E2. cbn [obind]. exists ((k, b) :: im), p2, c2. split; [reflexivity|]. split; [exact F2|].
      cbn [map fst length seq]. split; [now rewrite M|]. split; [constructor; auto|].
      intros D C U Q. f_equal. destruct (Nat.eq_dec m 0) as [->|Hm].
      { destruct im; [reflexivity|]. cbn [seq record_frames] in E2. discriminate E2. }
      apply Len; auto. intros Hm1. apply Pa.
      + rewrite Ec. destruct (Nat.ltb_spec (k + 1) count); [discriminate|lia].
      + replace k with (count - 2) by lia. apply U. lia.
  Qed.

  Lemma start_record_ok : forall drawn cancelled during p cur, fine p cur ->
    exists images p' cur', on_start_record cs fs drawn cancelled during p = Some (images, p') /\ fine p' cur' /\
      in_order X frames images /\ shows X frames (p_value p') (p_data p') /\
      ((forall j, drawn j = true) -> (forall j, cancelled j = false) ->
       (2 <= count -> Forall (fun g => asked count g <> count - 1) (during (count - 2))) ->
       (count = 1 -> cur <> Past) -> length images = count).
  Proof.
    intros drawn cancelled during p cur F. unfold on_start_record. rewrite (frames_count (f_loaded F)).
    destruct (record_ok drawn cancelled during count 0 F) as (im & p1 & c1 & E & F1 & M & Fo & Len); [lia|].
    rewrite E. cbn [obind]. destruct (update_ok F1) as (p2 & E2 & V & S & F2). rewrite E2. cbn [obind].
    exists im, p2. eexists. split; [reflexivity|]. split; [exact F2|]. split; [split; auto|].
    split; [now rewrite V|]. intros A B C D. apply Len; auto. intros Q. pose proof count_pos. apply D. lia.
  Qed.

  Lemma session_fine : forall l p cur, fine p cur ->
    exists all p' cur', play_session cs fs l p = Some (all, p') /\ fine p' cur' /\ Forall (in_order X frames) all /\
      (shows X frames (p_value p) (p_data p) -> shows X frames (p_value p') (p_data p')) /\
      (p_value p = 0 -> ~ Forall (idle count) l -> shows X frames (p_value p') (p_data p')) /\
      (p_value p = 0 -> Forall (idle count) l -> p' = p).
  Proof.
    induction l as [|a l IH]; intros p cur F; cbn [play_session].
    - exists [], p, cur. split; [auto|]. split; [auto|]. split; [auto|]. split; [auto|]. split; [|auto]. intros _ H. destruct H. constructor.
    - destruct a as [g|dr ca du].
      + destruct (gesture_ok g F) as (p1 & c1 & E & F1 & V & Same & Diff). rewrite E. cbn [obind].
        destruct (IH p1 c1 F1) as (all & p2 & c2 & E2 & F2 & O & S1 & S2 & S3).
        exists all, p2, c2. split; [exact E2|]. split; [exact F2|]. split; [exact O|].
        destruct (Nat.eq_dec (asked count g) (p_value p)) as [Q|Q].
        * destruct (Same Q) as [-> ->]. split; [auto|]. split.
          -- intros Z NF. apply S2; auto. intros Fo. apply NF. constructor; auto. cbn [idle]. congruence.
          -- intros Z Fo. apply S3; auto. now inversion Fo.
        * destruct (Diff Q) as [Sh ->]. split; [auto|]. split; [auto|]. intros Z Fo. inversion Fo; subst.
          cbn [idle] in H1. congruence.
      + destruct (start_record_ok dr ca du F) as (im & p1 & c1 & E & F1 & O1 & Sh & _). rewrite E. cbn [obind].
        destruct (IH p1 c1 F1) as (all & p2 & c2 & E2 & F2 & O & S1 & S2 & S3). rewrite E2. cbn [obind].
        exists (im :: all), p2, c2. split; [reflexivity|]. split; [exact F2|]. split; [constructor; auto|].
        split; [auto|]. split; [auto|]. intros Z Fo. inversion Fo; subst. contradiction.
  Qed.

  Lemma gestures_value : forall l g p cur, fine p cur ->
    exists p', play_session cs fs (map Gesture (l ++ [g])) p = Some ([], p') /\ p_value p' = asked count g.
  Proof.
    induction l as [|a l IH]; intros g p cur F; cbn [app map play_session].
    - destruct (gesture_ok g F) as (p1 & c1 & E & F1 & V & _). rewrite E. cbn [obind]. exists p1. auto.
    - destruct (gesture_ok a F) as (p1 & c1 & E & F1 & V & _). rewrite E. cbn [obind]. exact (IH g p1 c1 F1).
  Qed.
End L.

(** a new player on a stream just recorded *)
Lemma opened : forall (T : Type) (X : TextOps T) cs base max n b frames fs dst,
  sequence_ok X cs n (b :: frames) -> (bytes_of cs n (b :: frames) < 2 ^ 63)%N ->
  whole cs dst -> d_count dst = n ->
  exists w' d' r recs,
    record_on X cs new_writer base max None (b :: frames) fs = (w', d', true) /\
    reader_load X cs (k_fs d') base new_reader = (r, true) /\
    map (fun c => c_frame c) recs = b :: frames /\ on_disk X cs (k_fs d') base b recs /\
    header_ok cs n b /\ Forall (rec_ok X cs n) recs /\ recs <> [] /\
    (forall c, nth_error recs (length recs - 1) = Some c -> ends_there (k_fs d') base c) /\
    nth_error (map (fun c => c_frame c) recs) 0 = Some b /\
    fine X cs base n b recs (new_player r dst) (At 0).
Proof.
  intros T X cs base max n b frames fs dst Hs Hb W Hn.
  destruct (@session_ok T X cs base max n b frames new_writer fs (conj eq_refl eq_refl) eq_refl Hs Hb)
    as (recs & w' & evs & E & M & O & Hh & Hr & Ne & _ & (last & Ty) & _).
  destruct (load_ok O Hh Hr new_reader Ne) as (r & El & L & A & Cc & Cm).
  exists w', (mkDisk (after fs evs) [] evs), r, recs.
  split; [exact E|]. split; [exact El|]. split; [exact M|]. split; [exact O|]. split; [exact Hh|].
  split; [exact Hr|]. split; [exact Ne|]. split; [exact (tidy_ends Ty)|]. split; [now rewrite M|].
  constructor; cbn [new_player p_reader p_data p_value is_at]; auto.
  - split; [rewrite Cm|rewrite Cc]; discriminate.
  - destruct recs; [congruence|cbn; lia].
  - discriminate.
Qed.
