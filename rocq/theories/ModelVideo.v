(** The recorder of videos: player/nbody_frame_compressor_opencv.cpp.

    QImage, cv::Mat and cv::VideoWriter are restated as far as the code uses them: the lines of a QImage begin at multiples of four bytes, the lines of
    a cv::Mat made without a step follow each other without a gap, the writer keeps the frames in order.  Not modelled: the encoder, its reaction to frames
    of another size, the name and the format of the file. *)
From Coq Require Import List Arith NArith.
From Verif Require Import Arr.
Import ListNotations.
Set Implicit Arguments.

(** red, green, blue *)
Notation pixel := (N * N * N)%type.
(** QImage: width, height, the pixels, and what the bytes at the end of each line happen to contain *)
Record image := mkImage { i_w : nat; i_h : nat; i_px : nat -> nat -> pixel; i_pad : nat -> nat -> N }.
(** QImageData::calculateImageParameters for 24 bits per pixel *)
Definition bytes_per_line (w : nat) : nat := (w * 24 + 31) / 32 * 4.
(** 43: the bytes of the image converted to Format_RGB888 and then [rgbSwapped]; a line of them *)
Definition swapped (p : pixel) : list N := let '(r, g, b) := p in [b; g; r].
Definition line (i : image) (y : nat) : list N :=
  flat_map (fun x => swapped (i_px i x y)) (seq 0 (i_w i)) ++ map (i_pad i y) (seq 0 (bytes_per_line (i_w i) - 3 * i_w i)).
Definition bits (i : image) : list N := flat_map (line i) (seq 0 (i_h i)).

(** 44: cv::Mat(size, CV_8UC3, data): columns, rows and the data it points to *)
Record mat := mkMat { m_cols : nat; m_rows : nat; m_data : list N }.
Definition mat_of (i : image) : mat := mkMat (i_w i) (i_h i) (bits i).
(** the pixel of a CV_8UC3 matrix with the smallest step: blue, green, red *)
Definition mat_pixel (m : mat) (x y : nat) : option pixel :=
  let p := y * (3 * m_cols m) + 3 * x in
  let* b := rd (m_data m) p in
  let* g := rd (m_data m) (p + 1) in
  let* r := rd (m_data m) (p + 2) in
  Some (r, g, b).

(** 8-12, 28-48, [push_frame]: whether the writer is open and what it has written; [opens] tells whether opening the file succeeds *)
Record video := mkVideo { v_open : bool; v_frames : list mat }.
Definition push_frame (v : video) (i : image) (opens : bool) : video :=
  if v_open v then mkVideo true (v_frames v ++ [mat_of i])
  else if opens then mkVideo true (v_frames v ++ [mat_of i])
  else v.
(** wgt_nbody_player.cpp:131-166: the frames of a recording *)
Definition record (l : list (image * bool)) : video := fold_left (fun v p => push_frame v (fst p) (snd p)) l (mkVideo false []).
