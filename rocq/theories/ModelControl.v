(** The playback controls of the player: player/wgt_nbody_player_control.cpp:14-110, 154-208.

    What QAbstractAnimation, QVariantAnimation, QPropertyAnimation and QSlider of Qt do is restated here: [start] rewinds unless the animation is paused,
    [setCurrentTime] sets the property unless the animation is stopped and stops it at its end, and a stop at the end emits [finished].
    Simplification: the interpolated value is computed exactly and rounded down. *)
From Coq Require Import List Arith.
Import ListNotations.
Set Implicit Arguments.

Section Control.
  (** 70: the largest value of the timeline; its smallest is 0 *)
  Context (max : nat).

  Inductive animation := Stopped | Running | Paused.
  (** the animation with its current time in milliseconds, the timeline, and which of the buttons are enabled *)
  Record control := mkControl {
    c_anim : animation; c_time : nat; c_value : nat; c_start : bool; c_pause : bool; c_stop : bool }.

  (** 76-82: from the first to the last frame, linearly *)
  Definition duration : nat := 5000.
  Definition frame_at (ms : nat) : nat := max * ms / duration.

  Definition set_anim (a : animation) (c : control) : control := mkControl a (c_time c) (c_value c) (c_start c) (c_pause c) (c_stop c).
  Definition set_frame (v : nat) (c : control) : control := mkControl (c_anim c) (c_time c) v (c_start c) (c_pause c) (c_stop c).

  (** 197-202, [on_finished] *)
  Definition on_finished (c : control) : control := mkControl (c_anim c) (c_time c) (c_value c) true false false.
  (** 14-110, the constructor; QAction is enabled at first *)
  Definition new_control : control := on_finished (mkControl Stopped 0 0 true true true).

  (** QAbstractAnimation::setCurrentTime *)
  Definition set_current_time (ms : nat) (c : control) : control :=
    let ms := Nat.min ms duration in
    let v := match c_anim c with Stopped => c_value c | _ => frame_at ms end in
    let c := mkControl (c_anim c) ms v (c_start c) (c_pause c) (c_stop c) in
    if Nat.eqb ms duration then
      match c_anim c with Stopped => c | _ => on_finished (set_anim Stopped c) end
    else c.

  (** 154-162, [on_start] *)
  Definition on_start (c : control) : control :=
    let c := match c_anim c with
             | Stopped => set_current_time 0 (set_anim Running c)
             | Running => c
             | Paused => set_anim Running c
             end in
    mkControl (c_anim c) (c_time c) (c_value c) false true true.
  (** 164-169, [on_pause] *)
  Definition on_pause (c : control) : control :=
    let c := match c_anim c with Running => set_anim Paused c | _ => c end in
    mkControl (c_anim c) (c_time c) (c_value c) true false (c_stop c).
  (** 171-175, [on_backward] *)
  Definition on_backward (c : control) : control := set_frame 0 (set_current_time 0 c).
  (** 177-183, [on_stop] *)
  Definition on_stop (c : control) : control := on_finished (set_frame 0 (set_current_time 0 (set_anim Stopped c))).
  (** 185-189, [on_forward] *)
  Definition on_forward (c : control) : control := set_frame max (set_current_time duration c).

  (** what may happen: a button is pressed (nothing happens if it is disabled), the animation's timer finds that [ms] milliseconds
      have passed, or the user moves the timeline *)
  Inductive happening := Start | Pause | Backward | Stop | Forward | Tick (ms : nat) | Slide (v : nat).
  Definition happens (h : happening) (c : control) : control :=
    match h with
    | Start => if c_start c then on_start c else c
    | Pause => if c_pause c then on_pause c else c
    | Backward => on_backward c
    | Stop => if c_stop c then on_stop c else c
    | Forward => on_forward c
    | Tick ms => match c_anim c with Running => set_current_time (c_time c + ms) c | _ => c end
    | Slide v => set_frame (Nat.min v max) c
    end.
  Definition happen (l : list happening) (c : control) : control := fold_left (fun c h => happens h c) l c.
End Control.
