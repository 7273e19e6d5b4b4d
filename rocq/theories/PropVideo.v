(** Recording to a video: C101. *)
From Coq Require Import List Arith NArith Lia.
From Verif Require Import Arr ModelVideo.
Import ListNotations.
Set Implicit Arguments.

Lemma chunk A (f : nat -> list A) L : forall h s y i, (forall k, length (f k) = L) -> y < h -> i < L ->
  nth_error (flat_map f (seq s h)) (y * L + i) = nth_error (f (s + y)) i.
Proof.
  induction h as [|h IH]; intros s y i HL Hy Hi; [lia|]. cbn [seq flat_map]. destruct y as [|y].
  - rewrite Nat.mul_0_l, Nat.add_0_r. cbn [Nat.add]. apply nth_error_app1. now rewrite HL.
  - rewrite nth_error_app2 by (rewrite HL; cbn; lia). rewrite HL. replace (S y * L + i - L) with (y * L + i) by (cbn; lia).
    rewrite IH by (auto; lia). f_equal. f_equal. lia.
Qed.
Lemma chunk_length A (f : nat -> list A) L : forall h s, (forall k, length (f k) = L) -> length (flat_map f (seq s h)) = h * L.
Proof. induction h as [|h IH]; intros s H; cbn [seq flat_map]; auto. rewrite app_length, H, IH by auto. reflexivity. Qed.
Lemma swapped_length p : length (swapped p) = 3. Proof. destruct p as [[r g] b]. reflexivity. Qed.
Lemma bpl_le w : 3 * w <= bytes_per_line w /\ (w mod 4 = 0 -> bytes_per_line w = 3 * w) /\ (w mod 4 <> 0 -> 3 * w < bytes_per_line w).
Proof.
  unfold bytes_per_line. pose proof (Nat.div_mod (w * 24 + 31) 32 ltac:(lia)) as D. pose proof (Nat.mod_upper_bound (w * 24 + 31) 32 ltac:(lia)) as U.
  pose proof (Nat.div_mod w 4 ltac:(lia)) as D4. pose proof (Nat.mod_upper_bound w 4 ltac:(lia)) as U4.
  set (q := (w * 24 + 31) / 32) in *. set (r := (w * 24 + 31) mod 32) in *. clearbody q r. lia.
Qed.
Section S.
  Context (i : image).
  Lemma line_length y : length (line i y) = bytes_per_line (i_w i).
  Proof.
    unfold line. rewrite app_length, map_length, seq_length, (@chunk_length _ (fun x => swapped (i_px i x y)) 3) by (intros; apply swapped_length).
    pose proof (proj1 (bpl_le (i_w i))). lia.
  Qed.
  Lemma line_pixel x y c : x < i_w i -> c < 3 -> nth_error (line i y) (3 * x + c) = nth_error (swapped (i_px i x y)) c.
  Proof.
    intros Hx Hc. unfold line. rewrite nth_error_app1.
    - replace (3 * x + c) with (x * 3 + c) by lia. rewrite (@chunk _ (fun x => swapped (i_px i x y)) 3) by (auto using swapped_length). reflexivity.
    - rewrite (@chunk_length _ (fun x => swapped (i_px i x y)) 3) by (intros; apply swapped_length). lia.
  Qed.
  Lemma line_pad y c : c < bytes_per_line (i_w i) - 3 * i_w i -> nth_error (line i y) (3 * i_w i + c) = Some (i_pad i y c).
  Proof.
    intros Hc. unfold line. assert (L : length (flat_map (fun x => swapped (i_px i x y)) (seq 0 (i_w i))) = 3 * i_w i).
    { rewrite (@chunk_length _ (fun x => swapped (i_px i x y)) 3) by (intros; apply swapped_length). lia. }
    rewrite nth_error_app2 by lia. rewrite L. replace (3 * i_w i + c - 3 * i_w i) with c by lia.
    rewrite nth_error_map. set (m := bytes_per_line (i_w i) - 3 * i_w i) in *. clearbody m.
    assert (E : nth_error (seq 0 m) c = Some (nth c (seq 0 m) 0)) by (apply nth_error_nth'; now rewrite seq_length).
    rewrite E. cbn. now rewrite seq_nth.
  Qed.
  Lemma bits_at y c : y < i_h i -> c < bytes_per_line (i_w i) -> nth_error (bits i) (y * bytes_per_line (i_w i) + c) = nth_error (line i y) c.
  Proof. intros. unfold bits. rewrite (@chunk _ (line i) (bytes_per_line (i_w i))) by (auto using line_length). reflexivity. Qed.
  Lemma bits_length : length (bits i) = i_h i * bytes_per_line (i_w i).
  Proof. unfold bits. apply chunk_length. apply line_length. Qed.
End S.

(** The matrix never reaches beyond the bytes of the image. *)
Theorem C101_inside : forall i x y, x < i_w i -> y < i_h i -> mat_pixel (mat_of i) x y <> None.
Proof.
  intros i x y Hx Hy. unfold mat_pixel. cbn [mat_of m_cols m_data]. pose proof (proj1 (bpl_le (i_w i))) as B.
  assert (L : y * (3 * i_w i) + 3 * x + 2 < length (bits i)) by (rewrite bits_length; nia). unfold rd.
  destruct (nth_error (bits i) (y * (3 * i_w i) + 3 * x)) eqn:E1; [|apply nth_error_None in E1; lia].
  destruct (nth_error (bits i) (y * (3 * i_w i) + 3 * x + 1)) eqn:E2; [|apply nth_error_None in E2; lia].
  destruct (nth_error (bits i) (y * (3 * i_w i) + 3 * x + 2)) eqn:E3; [|apply nth_error_None in E3; lia]. discriminate.
Qed.
Print Assumptions C101_inside.

(** For which sizes of the window every picture is recorded as it is, whatever it shows: those whose width is a multiple of four (and the
    pictures of at most one line). *)
Theorem C101_pictures : forall w h,
  (forall px pad x y, x < w -> y < h -> mat_pixel (mat_of (mkImage w h px pad)) x y = Some (px x y)) <-> w mod 4 = 0 \/ h <= 1.
Proof.
  intros w h. destruct (bpl_le w) as (B0 & B1 & B2). split.
  - intros H. destruct (Nat.eq_dec (w mod 4) 0) as [|N4]; [now left|]. right. destruct (Nat.le_gt_cases h 1) as [|Hh]; auto. exfalso.
    assert (Hw : 0 < w) by (destruct w; [now cbn in N4|lia]). specialize (B2 N4).
    specialize (H (fun _ _ => (0, 0, 0)%N) (fun _ _ => 1%N) 0 1 Hw ltac:(lia)). unfold mat_pixel in H. cbn [mat_of m_cols m_data i_w i_h] in H.
    set (i := mkImage w h (fun _ _ => (0, 0, 0)%N) (fun _ _ => 1%N)) in *.
    assert (E : rd (bits i) (1 * (3 * w) + 3 * 0) = Some 1%N).
    { unfold rd. pose proof (@bits_at i 0 (3 * w) ltac:(cbn; lia) ltac:(cbn [i i_w]; lia)) as X. cbn [i_w i] in X. rewrite Nat.mul_0_l in X. cbn [Nat.add] in X.
      replace (1 * (3 * w) + 3 * 0) with (3 * w) by lia. rewrite X. pose proof (@line_pad i 0 0 ltac:(cbn [i i_w]; lia)) as Y. cbn [i_w i_pad i] in Y.
      now rewrite Nat.add_0_r in Y. }
    rewrite E in H. cbn [obind] in H. destruct (rd (bits i) (1 * (3 * w) + 3 * 0 + 1)), (rd (bits i) (1 * (3 * w) + 3 * 0 + 2)); discriminate.
  - intros H px pad x y Hx Hy. set (i := mkImage w h px pad). unfold mat_pixel. cbn [mat_of m_cols m_data].
    change (i_w i) with w.
    assert (P : forall c, c < 3 -> rd (bits i) (y * (3 * w) + 3 * x + c) = nth_error (swapped (px x y)) c).
    { intros c Hc. unfold rd. replace (y * (3 * w) + 3 * x + c) with (y * bytes_per_line w + (3 * x + c)).
      - change (bytes_per_line w) with (bytes_per_line (i_w i)). rewrite bits_at; [now apply (@line_pixel i x y c)|exact Hy|].
        change (i_w i) with w. lia.
      - destruct H as [H|H]; [rewrite (B1 H); lia|]. assert (y = 0) as -> by lia. lia. }
    rewrite <- (Nat.add_0_r (y * (3 * w) + 3 * x)) at 1. rewrite !P by lia. destruct (px x y) as [[r g] b]. reflexivity.
Qed.
Print Assumptions C101_pictures.

(** Once the file is open, every frame is written, in order; before that, frames are lost. *)
Theorem C101_frames : forall lost i rest, Forall (fun p => snd p = false) lost ->
  v_frames (record (lost ++ (i, true) :: rest)) = mat_of i :: map (fun p => mat_of (fst p)) rest.
Proof.
  intros lost i rest H. unfold record. rewrite fold_left_app.
  assert (E : fold_left (fun v p => push_frame v (fst p) (snd p)) lost (mkVideo false []) = mkVideo false []).
  { induction H as [|[j b] l Hb H IH]; cbn in *; auto. now rewrite Hb. }
  rewrite E. cbn [fold_left fst snd push_frame v_open v_frames]. rewrite app_nil_l.
  change (mat_of i :: map (fun p => mat_of (fst p)) rest) with ([mat_of i] ++ map (fun p : image * bool => mat_of (fst p)) rest).
  generalize [mat_of i] as acc. induction rest as [|[j b] rest IH]; intros acc; cbn [fold_left map fst snd]; [now rewrite app_nil_r|].
  unfold push_frame at 2. cbn [v_open v_frames]. rewrite IH. now rewrite <- app_assoc.
Qed.
Print Assumptions C101_frames.

(** A window 5 pixels wide: a picture that is black above and white below is not recorded as such; and the first frame is lost without a word if the
    file could not be opened when it came. *)
Theorem C101_refuted :
  (exists i x y, i_w i = 5 /\ x < i_w i /\ y < i_h i /\ i_px i x y = (255, 255, 255)%N /\ mat_pixel (mat_of i) x y = Some (255, 255, 0)%N) /\
  (exists i j, i_px i 0 0 <> i_px j 0 0 /\ v_frames (record [(i, false); (j, true)]) = [mat_of j]).
Proof.
  split.
  - exists (mkImage 5 2 (fun _ y => if Nat.eqb y 0 then (0, 0, 0) else (255, 255, 255))%N (fun _ _ => 0%N)), 0, 1.
    repeat split; cbn; try lia; reflexivity.
  - exists (mkImage 4 1 (fun _ _ => (0, 0, 0)%N) (fun _ _ => 0%N)), (mkImage 4 1 (fun _ _ => (1, 1, 1)%N) (fun _ _ => 0%N)). split; [discriminate|reflexivity].
Qed.
Print Assumptions C101_refuted.

(** Width 8, three lines: a pixel of the last line arrives. *)
Example C101_case : mat_pixel (mat_of (mkImage 8 3 (fun x y => (N.of_nat x, N.of_nat y, 7)%N) (fun _ _ => 0%N))) 6 2 = Some (6, 2, 7)%N.
Proof. reflexivity. Qed.
