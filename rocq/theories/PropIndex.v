(** Which index files can be loaded: C91. *)
From Coq Require Import Ascii String Bool List NArith ZArith Arith Lia.
From Verif Require Import ModelText ModelStream SpecIndex LemText LemIndex.
Import ListNotations.
Set Implicit Arguments.

(** ** C91 *)

Lemma load_index T (X : TextOps T) cs fs base r0 idx : fs (make_idx_name base) = Some idx ->
  match load_lines X (read_lines idx) (reader_close r0) with
  | (r1, good) => reader_load X cs fs base r0 =
    if good then
      if orb (orb (N.eqb (r_body r1) 0) (N.eqb (r_coord r1) 0)) (N.eqb (r_box r1) 0) then (r1, false)
      else if negb (N.eqb (r_coord r1) (N.of_nat cs)) then (r1, false)
      else match r_frames r1 with
      | [] => (mkReader [] base None None (r_coord r1) (r_body r1) (r_box r1) (r_colors r1) (r_masses r1), false)
      | i :: l => let r2 f c := mkReader (i :: l) base f c (r_coord r1) (r_body r1) (r_box r1) (r_colors r1) (r_masses r1) in
        match fs (make_dat_name base (it_file i)) with
        | None => (r2 None None, false)
        | Some _ => if Z.ltb (it_pos i) 0 then (r2 None None, false) else (r2 (Some (make_dat_name base (it_file i), Z.to_nat (it_pos i))) (Some 0), true)
        end
      end
    else (r1, false)
  end.
Proof.
  intros E. destruct (load_lines X (read_lines idx) (reader_close r0)) as [r1 good] eqn:EL. unfold reader_load. rewrite E, EL.
  destruct (load_says _ _ _ EL) as (A & B & _). cbn in A, B.
  destruct good; cbn [negb]; [|reflexivity]. destruct (orb _ _); [reflexivity|]. destruct (negb _); [reflexivity|].
  unfold reader_seek. rewrite A, B. cbn [r_current r_frames r_file r_base]. destruct (r_frames r1) as [|i l] eqn:Ef; cbn [nth_error]; [reflexivity|].
  rewrite orb_true_r. destruct (fs (make_dat_name base (it_file i))); cbn [set_rfile]; [|unfold set_rfile; cbn; reflexivity].
  destruct (Z.ltb _ _); reflexivity.
Qed.

(** Whatever the files contain, a stream is loaded exactly when its index is there, every line of it is a comment or a frame, the
    headers give this program's coordinate size and a number of bodies and a box size that are not zero, there is a frame, the data
    file of the first frame is there and its position is not negative; the reader then has exactly the frames and headers written. *)
Theorem C91_load : forall (T : Type) (X : TextOps T) cs fs base r0 frames n box,
  (exists r, reader_load X cs fs base r0 = (r, true) /\ r_frames r = frames /\ r_body r = n /\ r_box r = box) <->
  (exists idx first rest, fs (make_idx_name base) = Some idx /\ index_says X (read_lines idx) frames /\
    header_value (chars "#coord_size") (read_lines idx) (r_coord r0) (N.of_nat cs) /\
    header_value (chars "#body_count") (read_lines idx) (r_body r0) n /\
    header_value (chars "#box_size") (read_lines idx) (r_box r0) box /\
    cs <> 0 /\ n <> 0%N /\ box <> 0%N /\ frames = first :: rest /\ fs (make_dat_name base (it_file first)) <> None /\ (0 <= it_pos first)%Z).
Proof.
  intros T X cs fs base r0 frames n box. split.
  - intros (r & H & <- & <- & <-). destruct (fs (make_idx_name base)) as [idx|] eqn:Ei.
    2: { unfold reader_load in H. rewrite Ei in H. discriminate. }
    pose proof (load_index X cs fs base r0 Ei) as L. rewrite H in L. destruct (load_lines X (read_lines idx) (reader_close r0)) as [r1 good] eqn:EL.
    destruct (load_says _ _ _ EL) as (_ & _ & C). destruct good; [|discriminate]. destruct C as (fr & C1 & C2 & C3 & C4 & C5).
    cbn [reader_close r_frames app] in C2. subst fr.
    destruct (N.eqb_spec (r_body r1) 0); [discriminate|]. destruct (N.eqb_spec (r_coord r1) 0); [discriminate|].
    destruct (N.eqb_spec (r_box r1) 0); [discriminate|]. cbn [orb] in L. destruct (N.eqb_spec (r_coord r1) (N.of_nat cs)) as [Hc|]; [|discriminate].
    cbn [negb] in L. destruct (r_frames r1) as [|i l] eqn:Ef; [discriminate|]. cbv zeta in L.
    destruct (fs (make_dat_name base (it_file i))) eqn:Ed; [|discriminate]. destruct (Z.ltb_spec (it_pos i) 0); [discriminate|].
    injection L as ->. cbn [r_frames r_body r_box]. rewrite Hc in C3. exists idx, i, l.
    split; [reflexivity|]. split; [exact C1|]. split; [exact C3|]. split; [exact C4|]. split; [exact C5|].
    split; [intros ->; apply n0; exact Hc|]. split; [assumption|]. split; [assumption|]. split; [reflexivity|]. split; [congruence|assumption].
  - intros (idx & i & l & Ei & C1 & C3 & C4 & C5 & N1 & N2 & N3 & -> & Ed & Ep).
    pose proof (load_index X cs fs base r0 Ei) as L. destruct (load_lines X (read_lines idx) (reader_close r0)) as [r1 good] eqn:EL.
    destruct (load_says _ _ _ EL) as (_ & _ & C). destruct free_names as (F1 & F2 & F3). destruct good.
    + destruct C as (fr & D1 & D2 & D3 & D4 & D5). cbn [reader_close r_frames app r_coord r_body r_box] in *.
      rewrite (says_fun D1 C1) in D2. rewrite (value_fun F1 D3 C3), (value_fun F2 D4 C4), (value_fun F3 D5 C5), D2 in L.
      replace (N.eqb n 0) with false in L by (symmetry; now apply N.eqb_neq).
      replace (N.eqb box 0) with false in L by (symmetry; now apply N.eqb_neq).
      replace (N.eqb (N.of_nat cs) 0) with false in L by (symmetry; apply N.eqb_neq; lia). cbn [orb] in L.
      rewrite N.eqb_refl in L. cbn [negb] in L. cbv zeta in L. destruct (fs (make_dat_name base (it_file i))); [|congruence].
      replace (Z.ltb (it_pos i) 0) with false in L by (symmetry; apply Z.ltb_ge; exact Ep). eexists. split; [exact L|].
      cbn [r_frames r_body r_box]. auto.
    + destruct C as (pre & bad & post & fr & E & B & _). rewrite E in C1. exfalso. eapply says_no_bad; eauto.
Qed.
Print Assumptions C91_load.

(** The totals a loaded reader gives are those of the last frame of its index; those of a closed reader are all zero. *)
Theorem C91_totals : forall (T : Type) (X : TextOps T) cs fs base r0 r,
  (reader_load X cs fs base r0 = (r, true) -> exists before i, r_frames r = before ++ [i] /\
    reader_frame_count r = length before + 1 /\ reader_steps_count r = it_step i /\ reader_last_file_n r = it_file i) /\
  reader_frame_count (reader_close r) = 0 /\ reader_steps_count (reader_close r) = 0%N /\ reader_last_file_n (reader_close r) = 0%N.
Proof.
  intros T X cs fs base r0 r. split; [|repeat split; reflexivity]. intros H.
  destruct (proj1 (@C91_load T X cs fs base r0 (r_frames r) (r_body r) (r_box r))) as (idx & f & rest & _ & _ & _ & _ & _ & _ & _ & _ & E & _); [eauto|].
  assert (Hne : r_frames r <> []) by (rewrite E; discriminate). destruct (exists_last Hne) as (before & i & E').
  exists before, i. split; [exact E'|]. unfold reader_frame_count, reader_steps_count, reader_last_file_n, last_item.
  rewrite E', app_length, rev_app_distr. cbn. auto.
Qed.
Print Assumptions C91_totals.

(** At the first bad line loading stops and fails, and the frames of the lines before it stay listed. *)
Theorem C91_bad_line : forall (T : Type) (X : TextOps T) cs fs base r0 idx pre bad post frames,
  fs (make_idx_name base) = Some idx -> read_lines idx = pre ++ bad :: post -> index_says X pre frames -> bad_line X bad ->
  exists r, reader_load X cs fs base r0 = (r, false) /\ r_frames r = frames.
Proof.
  intros T X cs fs base r0 idx pre bad post fr Ei El Hp Hb.
  pose proof (load_index X cs fs base r0 Ei) as L. destruct (load_lines X (read_lines idx) (reader_close r0)) as [r1 good] eqn:EL.
  destruct (load_says _ _ _ EL) as (_ & _ & C). rewrite El in C. destruct good.
  - destruct C as (fr' & C & _). exfalso. eapply says_no_bad; eauto.
  - exists r1. split; [exact L|]. destruct C as (pre' & bad' & post' & fr' & E & B & D & ->). cbn [reader_close r_frames app].
    assert (Q : pre = pre').
    { clear - Hp Hb D B E. revert pre' fr fr' Hp D E. induction pre as [|a pre IH]; intros [|a' pre'] fr fr' Hp D E; auto; cbn in E; injection E as E1 E2.
      - subst a'. exfalso. eapply (says_no_bad (X := X) []); [exact Hb|exact D].
      - subst bad'. exfalso. eapply (says_no_bad (X := X) []); [exact B|exact Hp].
      - subst a'. f_equal. inversion Hp; subst; inversion D; subst; try contradiction; eapply IH; eauto. }
    subst pre'. eapply says_fun; eauto.
Qed.
Print Assumptions C91_bad_line.

(** An index of two frames with a comment between them is loaded; with an empty line instead it is not, although the first frame stays
    listed. *)
Definition two_lines (middle : string) : text :=
  chars "#coord_size 1" ++ [newline] ++ chars "#body_count 2" ++ [newline] ++ chars "#box_size 7" ++ [newline] ++
  chars "0" ++ [tab] ++ chars "0" ++ [tab] ++ chars "0" ++ [tab] ++ chars "0" ++ [newline] ++ chars middle ++ [newline] ++
  chars "1" ++ [tab] ++ chars "3" ++ [tab] ++ chars "0" ++ [tab] ++ chars "12" ++ [newline].
Definition two_files (middle : string) : files := fun n =>
  if text_dec n (chars "s.idx") then Some (two_lines middle) else if text_dec n (chars "s0.dat") then Some (chars "abcdefghijklmnopqrstuvwx") else None.
Example C91_case :
  (exists r, reader_load (mkTextOps show_N show_N to_ulonglong) 1 (two_files "#pause") (chars "s") new_reader = (r, true) /\
    r_frames r = [mkItem 0 0%N 0 0; mkItem 1 3%N 0 12] /\ r_body r = 2%N) /\
  (exists r, reader_load (mkTextOps show_N show_N to_ulonglong) 1 (two_files "") (chars "s") new_reader = (r, false) /\
    r_frames r = [mkItem 0 0%N 0 0]).
Proof. split; eexists; (split; [vm_compute; reflexivity|]); repeat split; reflexivity. Qed.
