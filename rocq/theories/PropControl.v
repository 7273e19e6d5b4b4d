(** The playback controls of the player: C99. *)
From Coq Require Import List Arith Lia.
From Verif Require Import ModelControl.
Import ListNotations.
Set Implicit Arguments.

(** ** C99 *)

Section S.
  Context (max : nat).
  Notation control := ModelControl.control.

  Lemma frame_first : frame_at max 0 = 0.
  Proof. unfold frame_at. now rewrite Nat.mul_0_r, Nat.div_0_l. Qed.
  Lemma frame_last : frame_at max duration = max.
  Proof. unfold frame_at. now apply Nat.div_mul. Qed.
  Lemma frame_le ms : ms <= duration -> frame_at max ms <= max.
  Proof. intros H. unfold frame_at. apply Nat.div_le_upper_bound; [discriminate|]. nia. Qed.

  Definition sound (c : control) : Prop :=
    (c_start c = true <-> c_anim c <> Running) /\ (c_pause c = true <-> c_anim c = Running) /\
    (c_stop c = true <-> c_anim c <> Stopped) /\ c_value c <= max /\ c_time c <= duration.

  Lemma sound_time ms c : sound c -> sound (set_current_time max ms c).
  Proof.
    intros (A & B & C & D & E). unfold set_current_time. assert (F := @frame_le (Nat.min ms duration) (Nat.le_min_r _ _)).
    assert (G := Nat.le_min_r ms duration). destruct (Nat.eqb _ _); destruct c as [[] t v b1 b2 b3]; cbn in *; unfold sound; cbn; repeat split; auto; try congruence; intros; try tauto; try congruence.
  Qed.
  Lemma sound_start c : sound c -> c_start c = true -> sound (on_start max c).
  Proof.
    intros (A & B & C & D & E) H. unfold on_start. destruct c as [[] t v b1 b2 b3]; cbn [c_anim c_time c_value c_start c_pause c_stop] in *.
    - unfold set_current_time. cbn [set_anim c_anim c_time c_value c_start c_pause c_stop].
      replace (Nat.eqb (Nat.min 0 duration) duration) with false by reflexivity. cbn [Nat.min]. rewrite frame_first.
      unfold sound. cbn. repeat split; auto; try congruence; try lia.
    - exfalso. now apply A.
    - unfold sound. cbn. repeat split; auto; try congruence.
  Qed.

  Lemma sound_happens h c : sound c -> sound (happens max h c).
  Proof.
    intros H. destruct h as [| | | | |ms|v]; cbn [happens].
    - destruct (c_start c) eqn:Es; auto using sound_start.
    - destruct (c_pause c) eqn:Ep; auto. destruct H as (A & B & C & D & E). assert (R := proj1 B Ep). unfold on_pause. rewrite R.
      unfold sound. cbn. assert (c_stop c = true) by (apply C; congruence). repeat split; auto; try congruence; discriminate.
    - apply (sound_time 0) in H. destruct H as (A & B & C & D & E). unfold on_backward, set_frame. unfold sound. cbn. repeat split; try apply A; try apply B; try apply C; auto; lia.
    - destruct (c_stop c) eqn:Es; auto. destruct H as (A & B & C & D & E). unfold on_stop, on_finished, set_frame, set_current_time, set_anim.
      cbn [c_anim c_time c_value c_start c_pause c_stop]. replace (Nat.eqb (Nat.min 0 duration) duration) with false by reflexivity.
      unfold sound. cbn. repeat split; auto; try congruence; try discriminate; lia.
    - apply (sound_time duration) in H. destruct H as (A & B & C & D & E). unfold on_forward, set_frame. unfold sound. cbn [c_anim c_time c_value c_start c_pause c_stop].
      repeat split; try apply A; try apply B; try apply C; auto.
    - destruct (c_anim c) eqn:Ea; auto using sound_time.
    - destruct H as (A & B & C & D & E). unfold set_frame, sound. cbn [c_anim c_time c_value c_start c_pause c_stop].
      repeat split; try apply A; try apply B; try apply C; auto. apply Nat.le_min_r.
  Qed.
  Lemma sound_new : sound new_control.
  Proof. unfold sound. cbn. repeat split; auto; try congruence; try discriminate; lia. Qed.
  Lemma sound_all l c : sound c -> sound (happen max l c).
  Proof. revert c. induction l as [|h l IH]; intros c H; [exact H|]. apply IH, sound_happens, H. Qed.
End S.

(** Whatever was pressed, moved and waited: start is offered exactly when nothing plays, pause exactly when something plays, stop exactly when something
    plays or is paused, and the timeline is on a frame of the stream. *)
Theorem C99_buttons : forall max l, let c := happen max l new_control in
  (c_start c = true <-> c_anim c <> Running) /\ (c_pause c = true <-> c_anim c = Running) /\ (c_stop c = true <-> c_anim c <> Stopped) /\
  c_value c <= max.
Proof. intros max l c. destruct (sound_all l (sound_new max)) as (A & B & C & D & _). auto. Qed.
Print Assumptions C99_buttons.

(** Stop goes to the first frame, forward to the last, and both leave nothing playing; backward goes to the first frame and lets it play on. *)
Theorem C99_jumps : forall max l, let c := happen max l new_control in
  (c_anim c <> Stopped -> c_value (happens max Stop c) = 0 /\ c_anim (happens max Stop c) = Stopped /\ c_time (happens max Stop c) = 0) /\
  (c_value (happens max Forward c) = max /\ c_anim (happens max Forward c) = Stopped /\ c_time (happens max Forward c) = 5000) /\
  (c_value (happens max Backward c) = 0 /\ c_anim (happens max Backward c) = c_anim c /\ c_time (happens max Backward c) = 0).
Proof.
  intros max l c. destruct (sound_all l (sound_new max)) as (A & B & C & D & E). fold c in A, B, C, D, E. split; [|split].
  - intros H. cbn [happens]. rewrite (proj2 C H). repeat split; reflexivity.
  - split; [reflexivity|]. cbn [happens]. unfold on_forward, set_current_time. rewrite Nat.min_id, Nat.eqb_refl. cbn [c_anim]. destruct (c_anim c) eqn:Ea; split; reflexivity || exact Ea.
  - repeat split; reflexivity.
Qed.
Print Assumptions C99_jumps.

(** Playing without interruption, however often the timer ticks, shows at every tick the frame that belongs to the time passed; it ends on the last
    frame when 5 seconds have passed, and not before. *)
Theorem C99_plays : forall max l ticks, c_anim (happen max l new_control) = Stopped ->
  let c := happen max (map Tick ticks) (happens max Start (happen max l new_control)) in
  c_value c = max * Nat.min (list_sum ticks) 5000 / 5000 /\ (c_anim c = Running <-> list_sum ticks < 5000).
Proof.
  intros max l ticks H. destruct (sound_all l (sound_new max)) as (A & _). set (c0 := happen max l new_control) in *.
  assert (S0 : happens max Start c0 = mkControl Running 0 0 false true true).
  { cbn [happens]. rewrite (proj2 A) by congruence. unfold on_start. rewrite H. unfold set_current_time.
    cbn [set_anim c_anim c_time c_value c_start c_pause c_stop]. replace (Nat.eqb (Nat.min 0 duration) duration) with false by reflexivity.
    cbn [Nat.min c_anim c_time c_value]. now rewrite frame_first. }
  rewrite S0. clear S0 H A c0 l.
  assert (G : forall ticks t, t < duration ->
    let c := happen max (map Tick ticks) (mkControl Running t (frame_at max t) false true true) in
    c_value c = frame_at max (Nat.min (t + list_sum ticks) duration) /\ (c_anim c = Running <-> t + list_sum ticks < duration)).
  { clear ticks. induction ticks as [|d ticks IH]; intros t Ht; cbn [map happen fold_left].
    - change (list_sum []) with 0. cbn [c_value c_anim]. rewrite Nat.add_0_r, Nat.min_l by lia. split; [reflexivity|tauto].
    - change (list_sum (d :: ticks)) with (d + list_sum ticks). cbn [happens c_anim c_time]. unfold set_current_time.
      cbn [c_anim c_time c_value c_start c_pause c_stop].
      destruct (Nat.eqb_spec (Nat.min (t + d) duration) duration) as [E|E].
      + rewrite E. unfold on_finished, set_anim. cbn [c_anim c_time c_value c_start c_pause c_stop].
        assert (K : forall c, c_anim c = Stopped -> fold_left (fun c h => happens max h c) (map Tick ticks) c = c).
        { clear. induction ticks as [|d l IH]; intros c H; cbn; auto. rewrite H. auto. }
        rewrite K by reflexivity. cbn [c_value c_anim].
        replace (Nat.min (t + (d + list_sum ticks)) duration) with duration by lia. split; [reflexivity|]. split; [discriminate|lia].
      + assert (L : t + d < duration) by lia. rewrite Nat.min_l by lia.
        destruct (IH (t + d) L) as (X & Y). rewrite Nat.add_assoc. split; [exact X|exact Y]. }
  specialize (G ticks 0 ltac:(unfold duration; lia)). rewrite frame_first in G. cbn [Nat.add] in G. exact G.
Qed.
Print Assumptions C99_plays.

(** Pausing and starting again goes on where it was. *)
Theorem C99_pause : forall max l, c_anim (happen max l new_control) = Running ->
  let c := happen max l new_control in let c' := happen max [Pause; Start] c in
  c_anim c' = Running /\ c_time c' = c_time c /\ c_value c' = c_value c.
Proof.
  intros max l H. destruct (sound_all l (sound_new max)) as (A & B & C & D & E). cbv zeta. set (c := happen max l new_control) in *.
  cbn [happen fold_left happens]. rewrite (proj2 B H). unfold on_pause. rewrite H. unfold on_start, set_anim. cbn. auto.
Qed.
Print Assumptions C99_pause.

(** A stream of more than 5001 frames has a frame that playing never shows, whenever the timer ticks; in a shorter one every frame has its time. *)
Theorem C99_all_frames : forall max, (forall k, k <= max -> exists ms, ms <= 5000 /\ k = max * ms / 5000) <-> max <= 5000.
Proof.
  intros max. split.
  - intros H. assert (I : incl (seq 0 (max + 1)) (map (fun ms => max * ms / 5000) (seq 0 (5000 + 1)))).
    { intros k Hk. apply in_seq in Hk. destruct (H k ltac:(lia)) as (ms & Hm & ->). apply in_map_iff. exists ms. split; [reflexivity|]. apply in_seq. lia. }
    apply NoDup_incl_length in I; [|apply seq_NoDup]. rewrite map_length, !seq_length in I. lia.
  - intros H k Hk. destruct (Nat.eq_dec max 0) as [->|Hm].
    { exists 0. split; [lia|]. rewrite Nat.mul_0_l, Nat.div_0_l by lia. lia. }
    exists ((5000 * k + (max - 1)) / max). set (q := (5000 * k + (max - 1)) / max).
    assert (Q := Nat.div_mod (5000 * k + (max - 1)) max Hm). fold q in Q. assert (M := Nat.mod_upper_bound (5000 * k + (max - 1)) max Hm).
    set (m := (5000 * k + (max - 1)) mod max) in *. clearbody q m. split.
    + nia.
    + apply Nat.div_unique with (r := max * q - 5000 * k); nia.
Qed.
Print Assumptions C99_all_frames.

(** Start does not go on from the frame the timeline is on: with 100 frames, the user moves the stopped timeline to frame 50 and presses start,
    and is at frame 0; or pauses at frame 49, moves to frame 10 and presses start, and is back at frame 49 with the next tick. *)
Theorem C99_continue_refuted :
  (exists l c, c = happen 99 l new_control /\ c_anim c = Stopped /\ c_value c = 50 /\ c_value (happens 99 Start c) = 0) /\
  (exists l c, c = happen 99 l new_control /\ c_anim c = Paused /\ c_value c = 10 /\ c_value (happen 99 [Start; Tick 16] c) = 49).
Proof.
  split.
  - exists [Slide 50]. eexists. split; [reflexivity|]. repeat split; reflexivity.
  - exists [Start; Tick 2500; Pause; Slide 10]. eexists. split; [reflexivity|]. split; [vm_compute; reflexivity|]. split; vm_compute; reflexivity.
Qed.
Print Assumptions C99_continue_refuted.

(** Playing a stream of 100 frames to the end, and pausing it in the middle. *)
Example C99_case : c_value (happen 99 [Start; Tick 2000; Tick 1000] new_control) = 59 /\
  c_anim (happen 99 [Start; Tick 2000; Tick 3000] new_control) = Stopped /\ c_anim (happen 99 [Start; Tick 2000; Pause] new_control) = Paused.
Proof. repeat split; vm_compute; reflexivity. Qed.
