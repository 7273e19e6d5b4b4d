(** The player: player/wgt_nbody_player.cpp and the timeline of player/wgt_nbody_player_control.cpp.

    What the window shows is a drawing of [m_data], repainted at any moment.  The timeline is a QSlider
    with tracking on: [setValue] bounds its argument and emits [valueChanged] if the value changes; a drag
    emits [sliderMoved] while [value()] is still the old one and then sets the value.  Play, stop,
    backward, forward and the animation only call [setValue].

    Simplifications: no second recording is started while one runs; the file dialog yields a destination
    (a cancelled dialog leaves everything as it is); printing of statistics, progress and settings of the
    drawing are left out. *)
From Coq Require Import List NArith ZArith Arith.
From Verif Require Import Arr ModelText ModelStream.
Import ListNotations.
Set Implicit Arguments.

Section Player.
  Context {T : Type} (cs : nat) (fs : files).

  (** wgt_nbody_player.h:13-17: [m_stream], [m_data], and [m_control->m_timeline->value()] *)
  Record player := mkPlayer { p_reader : @reader T; p_data : @bdata T; p_value : nat }.

  (** wgt_nbody_player.cpp:18-35: [b] is the resized [m_data]; nothing is read yet *)
  Definition new_player (r : @reader T) (b : @bdata T) : player := mkPlayer r b 0.

  (** wgt_nbody_player_control.cpp:70: range of the timeline; QAbstractSlider::setRange makes the
      maximum at least the minimum, QAbstractSlider::bound *)
  Definition timeline_max (p : player) : Z := Z.max 0 (Z.of_nat (reader_frame_count (p_reader p)) - 1).
  Definition timeline_bound (p : player) (v : Z) : nat := Z.to_nat (Z.max 0 (Z.min v (timeline_max p))).

  (** wgt_nbody_player.cpp:60-73, [on_update_data]; wgt_nbody_player_control.cpp:113-116 *)
  Definition on_update_data (p : player) : option player :=
    let (r, good) := reader_seek fs (Some (p_value p)) (p_reader p) in
    if negb good then Some (mkPlayer r (p_data p) (p_value p)) else
    let* (r, b, _) := reader_read cs fs (p_data p) r in
    Some (mkPlayer r b (p_value p)).

  (** wgt_nbody_player_control.cpp:84-93: [valueChanged] and [sliderMoved] emit [frame_number_updated] *)
  Definition set_value (v : Z) (p : player) : option player :=
    let n := timeline_bound p v in
    if Nat.eqb n (p_value p) then Some p else on_update_data (mkPlayer (p_reader p) (p_data p) n).
  Definition drag (v : Z) (p : player) : option player :=
    if Nat.eqb (timeline_bound p v) (p_value p) then Some p else
    let* p := on_update_data p in set_value v p.

  (** what the user, or the animation, does to the timeline *)
  Inductive gesture := SetValue (v : Z) | Drag (v : Z).
  Definition gesture_do (g : gesture) (p : player) : option player :=
    match g with SetValue v => set_value v p | Drag v => drag v p end.
  Fixpoint gestures_do (l : list gesture) (p : player) : option player :=
    match l with
    | [] => Some p
    | g :: l => let* p := gesture_do g p in gestures_do l p
    end.

  (** wgt_nbody_player.cpp:135-172: the loop of [on_start_record].  [drawn k]: drawing frame [k]
      succeeds; [cancelled k]: the dialog was cancelled by then; [during k]: what happens in
      [processEvents] after frame [k].  Frames are pushed with the data they were drawn from. *)
  Fixpoint record_frames (drawn cancelled : nat -> bool) (during : nat -> list gesture) (todo : list nat)
    (p : player) : option (list (nat * @bdata T) * player) :=
    match todo with
    | [] => Some ([], p)
    | k :: todo =>
        let (r, good) := reader_seek fs (Some k) (p_reader p) in
        let p := mkPlayer r (p_data p) (p_value p) in
        if negb good then Some ([], p) else
        let* (r, b, good) := reader_read cs fs (p_data p) r in
        let p := mkPlayer r b (p_value p) in
        if negb good then Some ([], p) else
        if negb (drawn k) then Some ([], p) else
        let image := (k, p_data p) in
        if cancelled k then Some ([image], p) else
        let* p := gestures_do (during k) p in
        let* (images, p) := record_frames drawn cancelled during todo p in
        Some (image :: images, p)
    end.
  (** wgt_nbody_player.cpp:102-177, [on_start_record] *)
  Definition on_start_record (drawn cancelled : nat -> bool) (during : nat -> list gesture) (p : player)
    : option (list (nat * @bdata T) * player) :=
    let* (images, p) :=
      record_frames drawn cancelled during (seq 0 (reader_frame_count (p_reader p))) p in
    let* p := on_update_data p in
    Some (images, p).

  (** a session with the player (not a function of the code) *)
  Inductive play := Gesture (g : gesture) | Record_ (drawn cancelled : nat -> bool) (during : nat -> list gesture).
  Fixpoint play_session (l : list play) (p : player) : option (list (list (nat * @bdata T)) * player) :=
    match l with
    | [] => Some ([], p)
    | Gesture g :: l => let* p := gesture_do g p in play_session l p
    | Record_ drawn cancelled during :: l =>
        let* (images, p) := on_start_record drawn cancelled during p in
        let* (all, p) := play_session l p in
        Some (images :: all, p)
    end.
End Player.
