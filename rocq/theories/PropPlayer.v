(** C75: the player shows the selected frame; what a recording contains *)
From Coq Require Import Ascii String List NArith ZArith Arith Lia.
From Verif Require Import Arr ModelText ModelStream ModelPlayer SpecStream SpecPlayer LemText LemPlayer PropStream.
Import ListNotations.

(** A new player on any recorded stream, then any session of timeline gestures and recordings (with any
    drawing failures, cancellations and gestures during them): nothing is undefined; once a frame other than
    the first was selected or anything was recorded, the player holds exactly the selected frame, with the
    masses and colours of the stream; every recording is frame 0, 1, 2, ... up to some number, each drawn
    from its own data. *)
Theorem C75_shows_selected : forall (T : Type) (X : TextOps T) cs base max n b frames fs dst acts,
  sequence_ok X cs n (b :: frames) -> (bytes_of cs n (b :: frames) < 2 ^ 63)%N ->
  whole cs dst -> d_count dst = n ->
  exists w' d' r images p',
    record_on X cs new_writer base max None (b :: frames) fs = (w', d', true) /\
    reader_load X cs (k_fs d') base new_reader = (r, true) /\
    play_session cs (k_fs d') acts (new_player r dst) = Some (images, p') /\
    Forall (in_order X (b :: frames)) images /\
    (~ Forall (idle (length (b :: frames))) acts -> shows X (b :: frames) (p_value p') (p_data p')).
Proof.
  intros T X cs base max n b frames fs dst acts Hs Hb W Hn.
  destruct (@opened T X cs base max n b frames fs dst Hs Hb W Hn)
    as (w' & d' & r & recs & E & El & M & O & Hh & Hr & Ne & En & F0 & F).
  destruct (session_fine O Hh Hr Ne En F0 acts F) as (im & p' & cur & Es & _ & Io & _ & S & _).
  exists w', d', r, im, p'. rewrite M in *. split; [exact E|]. split; [exact El|]. split; [exact Es|].
  split; [exact Io|]. intros Hi. apply S; auto. rewrite <- (map_length (fun c => c_frame c)), M. exact Hi.
Qed.
Print Assumptions C75_shows_selected.

(** The selected frame is what the last gesture asked for, bounded to the frames there are. *)
Theorem C75_last_gesture : forall (T : Type) (X : TextOps T) cs base max n b frames fs dst gestures g,
  sequence_ok X cs n (b :: frames) -> (bytes_of cs n (b :: frames) < 2 ^ 63)%N ->
  whole cs dst -> d_count dst = n ->
  exists w' d' r p',
    record_on X cs new_writer base max None (b :: frames) fs = (w', d', true) /\
    reader_load X cs (k_fs d') base new_reader = (r, true) /\
    play_session cs (k_fs d') (map Gesture (gestures ++ [g])) (new_player r dst) = Some ([], p') /\
    p_value p' = asked (length (b :: frames)) g.
Proof.
  intros T X cs base max n b frames fs dst gs g Hs Hb W Hn.
  destruct (@opened T X cs base max n b frames fs dst Hs Hb W Hn)
    as (w' & d' & r & recs & E & El & M & O & Hh & Hr & Ne & En & F0 & F).
  destruct (gestures_value O Hh Hr Ne En F0 gs g F) as (p' & Es & V).
  exists w', d', r, p'. rewrite <- (map_length (fun c => c_frame c)), M in V. auto.
Qed.
Print Assumptions C75_last_gesture.

(** Before that the player does not show the stream at all: it still holds what it was created with. *)
Theorem C75_first_frame_not_shown : forall (T : Type) (X : TextOps T) cs base max n b frames fs dst acts,
  sequence_ok X cs n (b :: frames) -> (bytes_of cs n (b :: frames) < 2 ^ 63)%N ->
  whole cs dst -> d_count dst = n -> Forall (idle (length (b :: frames))) acts ->
  exists w' d' r images,
    record_on X cs new_writer base max None (b :: frames) fs = (w', d', true) /\
    reader_load X cs (k_fs d') base new_reader = (r, true) /\
    play_session cs (k_fs d') acts (new_player r dst) = Some (images, new_player r dst).
Proof.
  intros T X cs base max n b frames fs dst acts Hs Hb W Hn Hi.
  destruct (@opened T X cs base max n b frames fs dst Hs Hb W Hn)
    as (w' & d' & r & recs & E & El & M & O & Hh & Hr & Ne & En & F0 & F).
  destruct (session_fine O Hh Hr Ne En F0 acts F) as (im & p' & cur & Es & _ & _ & _ & _ & S).
  exists w', d', r, im. split; [exact E|]. split; [exact El|]. rewrite Es. repeat f_equal.
  apply S; auto. rewrite <- (map_length (fun c => c_frame c)), M. exact Hi.
Qed.
Print Assumptions C75_first_frame_not_shown.

(** A recording is complete if every frame can be drawn, nobody cancels, and the last frame is not selected
    in the pause before it is recorded -- and, for a stream of one frame, if the frame has not been read
    before. *)
Theorem C75_recording_complete :
  forall (T : Type) (X : TextOps T) cs base max n b frames fs dst acts drawn cancelled during,
  sequence_ok X cs n (b :: frames) -> (bytes_of cs n (b :: frames) < 2 ^ 63)%N ->
  whole cs dst -> d_count dst = n ->
  (forall k, drawn k = true) -> (forall k, cancelled k = false) ->
  (frames <> [] \/ acts = []) ->
  Forall (fun g => asked (length (b :: frames)) g <> length frames) (during (length frames - 1)) ->
  exists w' d' r images p image p',
    record_on X cs new_writer base max None (b :: frames) fs = (w', d', true) /\
    reader_load X cs (k_fs d') base new_reader = (r, true) /\
    play_session cs (k_fs d') acts (new_player r dst) = Some (images, p) /\
    on_start_record cs (k_fs d') drawn cancelled during p = Some (image, p') /\
    in_order X (b :: frames) image /\ length image = length (b :: frames).
Proof.
  intros T X cs base max n b frames fs dst acts dr ca du Hs Hb W Hn Hdr Hca Hf Hdu.
  destruct (@opened T X cs base max n b frames fs dst Hs Hb W Hn)
    as (w' & d' & r & recs & E & El & M & O & Hh & Hr & Ne & En & F0 & F).
  assert (Len : length recs = length (b :: frames)) by (rewrite <- M; now rewrite map_length).
  destruct (session_fine O Hh Hr Ne En F0 acts F) as (im & p & cur & Es & Fp & _).
  destruct (start_record_ok O Hh Hr Ne En F0 dr ca du Fp) as (image & p' & cur' & Er & _ & Io & _ & Co).
  destruct Hf as [Hf| ->].
  - exists w', d', r, im, p, image, p'. rewrite M in Io. rewrite Len in Co.
    repeat (split; [assumption|]). apply Co; auto.
    + intros _. replace (length (b :: frames) - 2) with (length frames - 1) by (cbn [length]; lia).
      replace (length (b :: frames) - 1) with (length frames) by (cbn [length]; lia). exact Hdu.
    + cbn [length]. destruct frames; [congruence|discriminate].
  - clear p p' image cur' im Es Fp Er Io Co.
    destruct (start_record_ok O Hh Hr Ne En F0 dr ca du F) as (image & p' & cur' & Er & _ & Io & _ & Co).
    exists w', d', r, [], (new_player r dst), image, p'. rewrite M in Io. rewrite Len in Co.
    split; [exact E|]. split; [exact El|]. split; [reflexivity|]. split; [exact Er|]. split; [exact Io|].
    apply Co; auto.
    + intros _. replace (length (b :: frames) - 2) with (length frames - 1) by (cbn [length]; lia).
      replace (length (b :: frames) - 1) with (length frames) by (cbn [length]; lia). exact Hdu.
    + discriminate.
Qed.
Print Assumptions C75_recording_complete.

Definition disk_of (frames : list (@bdata N)) : files :=
  k_fs (snd (fst (record_on Ntext 1 new_writer base 10 None frames nothing))).
Definition player_of (frames : list (@bdata N)) : player :=
  new_player (fst (reader_load Ntext 1 (disk_of frames) base new_reader)) blank.
Definition always (b : bool) (k : nat) : bool := b.

(** "The player shows the first frame when it starts" is false: it shows a blank. *)
Theorem C75_start_refuted : exists frames : list (@bdata N),
  sequence_ok Ntext 1 1 frames /\ ~ shows Ntext frames (p_value (player_of frames)) (p_data (player_of frames)).
Proof.
  exists three. split; [apply three_ok|]. intros (f & fi & H & _ & (_ & _ & _ & V & _) & _).
  vm_compute in H. injection H as <-. discriminate V.
Qed.
Print Assumptions C75_start_refuted.

(** "A recording contains every frame" is false: recording a stream of one frame for the second time gives
    nothing; selecting the last frame just before it is recorded loses it. *)
Theorem C75_recording_refuted :
  (exists p images, play_session 1 (disk_of [frm 0 "abc" "def"])
     [Record_ (always true) (always false) (fun _ => []); Record_ (always true) (always false) (fun _ => [])]
     (player_of [frm 0 "abc" "def"]) = Some (images, p) /\ map (@length _) images = [1; 0]) /\
  (exists p images, play_session 1 (disk_of three)
     [Record_ (always true) (always false) (fun k => if Nat.eqb k 1 then [SetValue 2] else [])]
     (player_of three) = Some (images, p) /\ map (map fst) images = [[0; 1]]).
Proof. split; do 2 eexists; split; vm_compute; reflexivity. Qed.
Print Assumptions C75_recording_refuted.

(** hypotheses are met: three frames; drag to the last, back to the second beyond bounds, record *)
Example C75_case : exists images p,
  play_session 1 (disk_of three)
    [Gesture (Drag 2); Gesture (SetValue (-5)); Record_ (always true) (always false) (fun _ => [Drag 1]);
     Gesture (SetValue 77)] (player_of three) = Some (images, p) /\
  p_value p = 2 /\ d_vert (p_data p) = chars "mno" /\ map (map fst) images = [[0; 1; 2]] /\
  map (map (fun i => d_vert (snd i))) images = [[chars "abc"; chars "ghi"; chars "mno"]].
Proof. do 2 eexists. split; [vm_compute; reflexivity|]. repeat split. Qed.
