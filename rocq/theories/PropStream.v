(** Properties of recorded streams (C41-C47, C61, C62). *)
From Coq Require Import Ascii String List NArith ZArith Arith Lia.
From Verif Require Import Arr ModelText ModelStream SpecStream LemText LemStream LemStreamRun LemStreamRead
  LemStreamProp.
Import ListNotations.

(** Concrete data for the examples: times are natural numbers, one body, coordinates of one byte. *)
Definition Ntext : TextOps N := mkTextOps show_N show_N to_ulonglong.
Definition frm (k : N) (a b : string) : @bdata N :=
  mkBdata 1 k (3 * k)%N 7 (chars a) (chars b) (chars "M") (chars "0123456789abcdef").
Definition three : list (@bdata N) := [frm 0 "abc" "def"; frm 1 "ghi" "jkl"; frm 2 "mno" "pqr"].
Definition nothing : files := fun _ => None.
Definition base : text := chars "s".
Definition blank : @bdata N := mkBdata 1 0 0%N 0 (chars "...") (chars "...") (chars ".") (chars "................").

Lemma Nprintable : forall t, (t < 2 ^ 64)%N -> printable Ntext t.
Proof.
  intros t H. split; [apply show_free; reflexivity|]. split; [apply show_free; reflexivity|].
  exists t. now apply to_ulonglong_show.
Qed.
Lemma three_ok : sequence_ok Ntext 1 1 three.
Proof.
  assert (H : forall k a b, (3 * k < 2 ^ 64)%N -> length (chars a) = 3 -> length (chars b) = 3 ->
              frame_ok Ntext 1 1 (frm k a b)).
  { intros k a b K A B. split; [repeat split; assumption|]. split; [reflexivity|].
    split; [cbn; lia|apply Nprintable; exact K]. }
  split; [|cbn; lia]. repeat (constructor; [apply H; reflexivity|]). constructor.
Qed.

(** C41.  Whatever frames a new writer records, with any part size and over any disk, a reader loads
    the stream and replays exactly these frames. *)
Theorem C41_round_trip : forall (T : Type) (X : TextOps T) cs base max n b frames fs,
  sequence_ok X cs n (b :: frames) -> (bytes_of cs n (b :: frames) < 2 ^ 63)%N ->
  exists w' d', record_on X cs new_writer base max None (b :: frames) fs = (w', d', true) /\
    replays X cs (k_fs d') base n b (b :: frames).
Proof. intros. apply round_trip; auto. split; reflexivity. Qed.
Print Assumptions C41_round_trip.
Example C41_case : exists w' d',
  record_on Ntext 1 new_writer base 10 None three nothing = (w', d', true) /\
  k_fs d' (chars "s.idx") =
    Some (chars "#coord_size 1" ++ [newline] ++ chars "#body_count 1" ++ [newline] ++ chars "#box_size 7" ++ [newline] ++
          chars "0" ++ [tab] ++ chars "0" ++ [tab] ++ chars "0" ++ [tab] ++ chars "0" ++ [newline] ++
          chars "1" ++ [tab] ++ chars "3" ++ [tab] ++ chars "0" ++ [tab] ++ chars "6" ++ [newline] ++
          chars "2" ++ [tab] ++ chars "6" ++ [tab] ++ chars "1" ++ [tab] ++ chars "0" ++ [newline]) /\
  k_fs d' (chars "s0.dat") = Some (chars "abcdefghijkl") /\ k_fs d' (chars "s1.dat") = Some (chars "mnopqr") /\
  k_fs d' (chars "s.mass") = Some (chars "M") /\ k_fs d' (chars "s.col") = Some (chars "0123456789abcdef") /\
  replays Ntext 1 (k_fs d') base 1 (frm 0 "abc" "def") three.
Proof.
  destruct (C41_round_trip N Ntext 1 base 10 1 (frm 0 "abc" "def") (tl three) nothing three_ok) as (w' & d' & E & R).
  { reflexivity. }
  exists w', d'. split; [exact E|]. vm_compute in E. inversion E; subst. repeat split; try reflexivity. exact R.
Qed.

(** A box size of zero is recorded but cannot be loaded (data made by [add_body] or read by
    [nbody_data::load] has box size zero). *)
Theorem C41_zero_box_not_loadable : exists b : @bdata N,
  frame_ok Ntext 1 1 b /\
  let '(_, d', good) := record_on Ntext 1 new_writer base 10 None [b] nothing in
  good = true /\ snd (reader_load Ntext 1 (k_fs d') base new_reader) = false.
Proof.
  exists (mkBdata 1 5 15%N 0 (chars "abc") (chars "def") (chars "M") (chars "0123456789abcdef")).
  split; [|vm_compute; auto].
  split; [repeat constructor|]. split; [reflexivity|]. split; [reflexivity|]. now apply Nprintable.
Qed.
Print Assumptions C41_zero_box_not_loadable.

(** C42.  Every frame is in one part; a part is left only when it has reached the maximum; parts hold
    nothing but their frames. *)
Theorem C42_parts : forall (T : Type) (X : TextOps T) cs base max n b frames fs,
  sequence_ok X cs n (b :: frames) -> (bytes_of cs n (b :: frames) < 2 ^ 63)%N ->
  exists w' d' recs last,
    record_on X cs new_writer base max None (b :: frames) fs = (w', d', true) /\
    map (fun c => c_frame c) recs = b :: frames /\
    k_fs d' (make_idx_name base) = Some (index_text X cs b recs) /\
    Forall (stored (k_fs d') base) recs /\
    parts_ok max (6 * cs * n) base (k_fs d') recs last.
Proof.
  intros T X cs base max n b frames fs Hs Hb.
  destruct (@session_ok T X cs base max n b frames new_writer fs (conj eq_refl eq_refl) eq_refl Hs Hb)
    as (recs & w' & evs & E & M & O & _ & _ & _ & _ & (last & Ty) & _).
  exists w', (mkDisk (after fs evs) [] evs), recs, last. split; [exact E|]. split; [exact M|].
  split; [exact (od_idx O)|]. split; [exact (od_stored O)|]. apply tidy_parts; [exact Ty|].
  destruct Hs as (F & _). apply frames_size in F. rewrite <- M in F. rewrite Forall_forall in *.
  intros c I. apply F. apply (in_map (fun c => c_frame c)), I.
Qed.
Print Assumptions C42_parts.

(** C43.  However far recording a new stream got before a crash - any prefix of the disk operations,
    the last write cut anywhere - every frame whose line is complete in the index is there in full. *)
Theorem C43_crash : forall (T : Type) (X : TextOps T) cs base max n b frames fs,
  sequence_ok X cs n (b :: frames) -> (bytes_of cs n (b :: frames) < 2 ^ 63)%N ->
  fs (make_idx_name base) = None ->
  exists recs w' evs,
    record_on X cs new_writer base max None (b :: frames) fs = (w', mkDisk (after fs evs) [] evs, true) /\
    map (fun c => c_frame c) recs = b :: frames /\
    forall p, torn evs p ->
      starts (contents (after fs p) (make_idx_name base)) (index_text X cs b recs) /\
      (forall k, starts (index_text X cs b (firstn k recs)) (contents (after fs p) (make_idx_name base)) ->
                 Forall (stored (after fs p) base) (firstn k recs)) /\
      (forall k, contents (after fs p) (make_idx_name base) = index_text X cs b (firstn (S k) recs) ->
                 replays X cs (after fs p) base n b (firstn (S k) (b :: frames))).
Proof.
  intros T X cs base max n b frames fs Hs Hb Hn.
  destruct (@session_ok T X cs base max n b frames new_writer fs (conj eq_refl eq_refl) eq_refl Hs Hb)
    as (recs & w' & evs & E & M & O & Hh & Hr & Ne & C & _).
  exists recs, w', evs. split; [exact E|]. split; [exact M|]. intros p Q. specialize (C Hn p Q).
  split; [exact (proj1 C)|]. split.
  - intros k S. exact (crash_prefix k C S).
  - intros k K. rewrite <- M. apply (crash_replays (S k) C Hh Hr K). destruct recs; [contradiction|discriminate].
Qed.
Print Assumptions C43_crash.

(** The same for a stream that is being continued. *)
Theorem C43_crash_resumed : forall (T : Type) (X : TextOps T) cs base max n first recs frames fs c r0,
  on_disk X cs fs base first recs -> header_ok cs n first -> Forall (rec_ok X cs n) recs ->
  nth_error recs (length recs - 1) = Some c -> Forall (fun d => (c_part d <= c_part c)%N) recs ->
  Forall (frame_ok X cs n) frames ->
  (c_part c + N.of_nat (length frames) < 2 ^ 64 - 1)%N ->
  (N.of_nat (length (contents fs (make_dat_name base (c_part c)))) + bytes_of cs n frames < 2 ^ 63)%N ->
  exists r recs' w' evs,
    reader_load X cs fs base r0 = (r, true) /\
    record_on X cs new_writer base max (Some (reader_last_file_n r)) frames fs
      = (w', mkDisk (after fs evs) [] evs, true) /\
    map (fun c => c_frame c) recs' = frames /\
    forall p, torn evs p ->
      starts (contents (after fs p) (make_idx_name base)) (index_text X cs first (recs ++ recs')) /\
      (forall k, starts (index_text X cs first (firstn k (recs ++ recs'))) (contents (after fs p) (make_idx_name base)) ->
                 Forall (stored (after fs p) base) (firstn k (recs ++ recs'))).
Proof.
  intros T X cs base max n first recs frames fs c r0 O Hh Hr Hc Hp F Hn Hb.
  destruct (@resume T X cs base max n first recs frames new_writer r0 fs c (conj eq_refl eq_refl) O Hh Hr Hc Hp F Hn Hb)
    as (r & recs' & w' & evs & E & E' & M & O' & Hr' & C).
  exists r, recs', w', evs. split; [exact E|]. split; [exact E'|]. split; [exact M|]. intros p Q.
  split; [exact (proj1 (C p Q))|]. intros k S. exact (crash_prefix k (C p Q) S).
Qed.
Print Assumptions C43_crash_resumed.

(** But a cut in the middle of an index line makes the whole stream unloadable, though frames were
    complete ... *)
Definition three_log : list event :=
  k_log (snd (fst (record_on Ntext 1 new_writer base 100 None three nothing))).
Definition cut_at (k j : nat) : list event :=
  firstn k three_log ++ match nth_error three_log k with Some (App n bs) => [App n (firstn j bs)] | _ => [] end.
Lemma cut_torn : forall l k j, torn l (firstn k l ++ match nth_error l k with Some (App n bs) => [App n (firstn j bs)] | _ => [] end).
Proof.
  intros l k j. revert l. induction k as [|k IH]; intros [|e l]; cbn [firstn nth_error app]; try constructor.
  - destruct e; constructor.
  - apply IH.
Qed.
Theorem C43_torn_line_refuted : exists p r,
  torn three_log p /\
  reader_load Ntext 1 (after nothing p) base new_reader = (r, false) /\
  starts (index_text Ntext 1 (frm 0 "abc" "def") [mkRec (frm 0 "abc" "def") 0 0; mkRec (frm 1 "ghi" "jkl") 0 6])
         (contents (after nothing p) (make_idx_name base)).
Proof.
  exists (cut_at 11 3). eexists. split; [apply cut_torn|]. split; [vm_compute; reflexivity|].
  eexists. vm_compute. reflexivity.
Qed.
Print Assumptions C43_torn_line_refuted.
(** ... and a cut in the middle of the offset yields a stream that loads and replays a frame that was
    never recorded: the offset 12 cut to 1. *)
Theorem C43_bogus_frame_refuted : exists p r got,
  torn three_log p /\
  reader_load Ntext 1 (after nothing p) base new_reader = (r, true) /\
  read_times 1 (after nothing p) 3 blank r = Some got /\
  exists g, nth_error got 2 = Some g /\ d_step g = 2%N /\ d_vert g = chars "bcd" /\ d_velo g = chars "efg".
Proof.
  exists (cut_at 11 7). do 2 eexists. split; [apply cut_torn|].
  split; [vm_compute; reflexivity|]. split; [vm_compute; reflexivity|].
  eexists. split; [reflexivity|]. vm_compute. auto.
Qed.
Print Assumptions C43_bogus_frame_refuted.
(** Recording over an existing stream: the data goes before the index does, so a crash in between
    leaves an index listing frames that are gone. *)
Theorem C43_overwrite_refuted : exists fs evs p,
  fs = k_fs (snd (fst (record_on Ntext 1 new_writer base 100 None three nothing))) /\
  evs = k_log (snd (fst (record_on Ntext 1 new_writer base 100 None three fs))) /\ torn evs p /\
  contents (after fs p) (make_idx_name base) = contents fs (make_idx_name base) /\
  exists r r' b', reader_load Ntext 1 (after fs p) base new_reader = (r, true) /\
    reader_frame_count r = 3 /\
    reader_read 1 (after fs p) blank r = Some (r', b', false).
Proof.
  do 2 eexists. exists [Create (make_dat_name base 0)]. split; [reflexivity|]. split; [reflexivity|].
  split; [vm_compute; constructor; constructor|]. split; [vm_compute; reflexivity|].
  do 3 eexists. vm_compute. repeat split; reflexivity.
Qed.
Print Assumptions C43_overwrite_refuted.

(** C44.  Loading a stream and appending to it leaves a stream of all frames, the old ones first.
    Bytes left in the last part by an interrupted write do no harm, nor does a later part that was
    begun.  Any writer object without open files and any reader object will do. *)
Theorem C44_resume : forall (T : Type) (X : TextOps T) cs base max n first recs frames w0 r0 fs c,
  closed w0 ->
  on_disk X cs fs base first recs -> header_ok cs n first -> Forall (rec_ok X cs n) recs ->
  nth_error recs (length recs - 1) = Some c -> Forall (fun d => (c_part d <= c_part c)%N) recs ->
  Forall (frame_ok X cs n) frames ->
  (c_part c + N.of_nat (length frames) < 2 ^ 64 - 1)%N ->
  (N.of_nat (length (contents fs (make_dat_name base (c_part c)))) + bytes_of cs n frames < 2 ^ 63)%N ->
  exists r w' d',
    reader_load X cs fs base r0 = (r, true) /\
    record_on X cs w0 base max (Some (reader_last_file_n r)) frames fs = (w', d', true) /\
    replays X cs (k_fs d') base n first (map (fun c => c_frame c) recs ++ frames).
Proof.
  intros T X cs base max n first recs frames w0 r0 fs c Hw O Hh Hr Hc Hp F Hn Hb.
  destruct (@resume T X cs base max n first recs frames w0 r0 fs c Hw O Hh Hr Hc Hp F Hn Hb)
    as (r & recs' & w' & evs & E & E' & M & O' & Hr' & _).
  exists r, w', (mkDisk (after fs evs) [] evs). split; [exact E|]. split; [exact E'|]. cbn [k_fs].
  rewrite <- M, <- map_app. apply on_disk_replays; auto. intros K. apply app_eq_nil in K. destruct K as [K _].
  rewrite K in Hc. discriminate Hc.
Qed.
Print Assumptions C44_resume.

(** The premises of C44 hold of every stream recorded by a new writer. *)
Theorem C44_resumable : forall (T : Type) (X : TextOps T) cs base max n b frames fs,
  sequence_ok X cs n (b :: frames) -> (bytes_of cs n (b :: frames) < 2 ^ 63)%N ->
  exists w' d' recs c,
    record_on X cs new_writer base max None (b :: frames) fs = (w', d', true) /\ closed w' /\
    map (fun c => c_frame c) recs = b :: frames /\
    on_disk X cs (k_fs d') base b recs /\ header_ok cs n b /\ Forall (rec_ok X cs n) recs /\
    nth_error recs (length recs - 1) = Some c /\ Forall (fun d => (c_part d <= c_part c)%N) recs.
Proof.
  intros T X cs base max n b frames fs Hs Hb.
  destruct (@session_ok T X cs base max n b frames new_writer fs (conj eq_refl eq_refl) eq_refl Hs Hb)
    as (recs & w' & evs & E & M & O & Hh & Hr & Ne & _ & (last & Ty) & Cl1 & Cl2 & _).
  destruct (nth_error recs (length recs - 1)) as [c|] eqn:Ec.
  2:{ apply nth_error_None in Ec. destruct recs; [contradiction|]. cbn in Ec. lia. }
  exists w', (mkDisk (after fs evs) [] evs), recs, c. split; [exact E|]. split; [split; assumption|].
  split; [exact M|]. split; [exact O|]. split; [exact Hh|]. split; [exact Hr|]. split; [exact Ec|].
  apply nth_last_split in Ec. destruct Ec as (pre & ->). destruct (t_where Ty _ _ _ eq_refl) as [_ W].
  apply Forall_app. split; [exact W|]. constructor; [lia|constructor].
Qed.
Print Assumptions C44_resumable.

(** A stream that holds its header but no frame yet (and any bytes in part 0) does not load, but the reader object the load
    leaves behind can still be resumed from: the stream then replays the new frames. *)
Theorem C44_resume_no_frame : forall (T : Type) (X : TextOps T) cs base max n first frames w0 r0 fs junk,
  closed w0 -> on_disk X cs fs base first [] -> header_ok cs n first -> fs (make_dat_name base 0) = Some junk ->
  frames <> [] -> Forall (frame_ok X cs n) frames -> (N.of_nat (length frames) < 2 ^ 64 - 1)%N ->
  (N.of_nat (length junk) + bytes_of cs n frames < 2 ^ 63)%N ->
  exists r w' d',
    reader_load X cs fs base r0 = (r, false) /\
    record_on X cs w0 base max (Some (reader_last_file_n r)) frames fs = (w', d', true) /\
    replays X cs (k_fs d') base n first frames.
Proof.
  intros T X cs base max n first frames w0 r0 fs junk [Wd Wi] O Hh Hj Ne F Hn Hb.
  assert (L : exists r, reader_load X cs fs base r0 = (r, false) /\ reader_last_file_n r = 0%N).
  { unfold reader_load. rewrite (od_idx O). rewrite index_lines. rewrite read_lines_text by (apply bodies_plain; constructor).
    pose proof (@load_header T X cs n first [] (reader_close r0) Hh) as E. rewrite app_nil_r in E. rewrite E.
    cbn [load_lines negb r_body r_coord r_box]. destruct Hh as (_ & _ & Hn0 & Hcs & Hbx).
    assert ((N.of_nat n =? 0)%N = false) as -> by (apply N.eqb_neq; lia).
    assert ((N.of_nat cs =? 0)%N = false) as -> by (apply N.eqb_neq; lia).
    assert ((d_box first =? 0)%N = false) as -> by (apply N.eqb_neq; lia).
    rewrite N.eqb_refl. cbn [orb negb]. eexists. split; [reflexivity|reflexivity]. }
  destruct L as (r & L & L0).
  destruct (@append_session T X cs (6 * cs * n) base max first [] frames w0 fs 0%N junk Wd Wi O (Forall_nil _) Hj (frames_size F))
    as (recs' & w' & evs & E' & M & O' & B' & _).
  exists r, w', (mkDisk (after fs evs) [] evs). rewrite L0. split; [exact L|]. split; [exact E'|]. cbn [k_fs].
  rewrite <- M. apply on_disk_replays; auto.
  - eapply bound_recs; [exact F|exact M|exact B'|lia|exact Hb].
  - intros ->. cbn in M. congruence.
Qed.
Print Assumptions C44_resume_no_frame.
Example C44_resume_no_frame_case : exists fs,
  on_disk Ntext 1 fs base (frm 0 "abc" "def") [] /\ header_ok 1 1 (frm 0 "abc" "def") /\ fs (make_dat_name base 0) = Some (chars "ab").
Proof.
  exists (set_file (set_file (set_file (set_file nothing (make_dat_name base 0) (Some (chars "ab")))
    (make_idx_name base) (Some (header_text 1 (frm 0 "abc" "def")))) (make_col_name base) (Some (chars "0123456789abcdef")))
    (make_mass_name base) (Some (chars "M"))).
  split; [|split; [|vm_compute; reflexivity]].
  - constructor; try (vm_compute; reflexivity). constructor.
  - repeat split; cbn; lia.
Qed.

(** C45.  Every interleaving of seeks and reads on a recorded stream answers as [expect] says: a read
    returns the frame the cursor is at and moves on; a seek moves the cursor - with one exception. *)
Theorem C45_random_access : forall (T : Type) (X : TextOps T) cs base max n b frames fs ops dst,
  sequence_ok X cs n (b :: frames) -> (bytes_of cs n (b :: frames) < 2 ^ 63)%N ->
  whole cs dst -> d_count dst = n ->
  exists w' d' r l b' r',
    record_on X cs new_writer base max None (b :: frames) fs = (w', d', true) /\
    reader_load X cs (k_fs d') base new_reader = (r, true) /\
    perform_all cs (k_fs d') ops dst r = Some (l, b', r') /\
    Forall2 (agrees X (b :: frames)) (fst (expect_all (length (b :: frames)) ops (At 0))) l.
Proof.
  intros T X cs base max n b frames fs ops dst Hs Hb W Hn.
  destruct (@session_ok T X cs base max n b frames new_writer fs (conj eq_refl eq_refl) eq_refl Hs Hb)
    as (recs & w' & evs & E & M & O & Hh & Hr & Ne & _ & (last & Ty) & _).
  destruct (load_ok O Hh Hr new_reader Ne) as (r & El & L & A & _).
  destruct (perform_all_ok O Hh Hr ops (At 0) L A W Hn (tidy_ends Ty)) as (l & b' & r' & Ep & F & _).
  exists w', (mkDisk (after fs evs) [] evs), r, l, b', r'. split; [exact E|]. split; [exact El|].
  split; [exact Ep|]. rewrite <- M. rewrite map_length. exact F.
Qed.
Print Assumptions C45_random_access.

(** So seeking to a frame and reading returns that frame, whatever was done before, unless the frame
    is the last one and the reader had already read it and not moved since. *)
Theorem C45_seek_then_read : forall (T : Type) (X : TextOps T) cs base max n b frames fs ops dst k,
  sequence_ok X cs n (b :: frames) -> (bytes_of cs n (b :: frames) < 2 ^ 63)%N ->
  whole cs dst -> d_count dst = n ->
  k < length (b :: frames) ->
  snd (expect_all (length (b :: frames)) ops (At 0)) <> Past \/ k <> length frames ->
  exists w' d' r l b' r' got f,
    record_on X cs new_writer base max None (b :: frames) fs = (w', d', true) /\
    reader_load X cs (k_fs d') base new_reader = (r, true) /\
    perform_all cs (k_fs d') (ops ++ [Seek k; Read]) dst r = Some (l ++ [Answer true; Data true got], b', r') /\
    nth_error (b :: frames) k = Some f /\ same_frame X f got.
Proof.
  intros T X cs base max n b frames fs ops dst k Hs Hb W Hn Hk G.
  destruct (C45_random_access T X cs base max n b frames fs (ops ++ [Seek k; Read]) dst Hs Hb W Hn)
    as (w' & d' & r & l & b' & r' & E & El & Ep & F).
  rewrite expect_app in F. destruct (expect_all (length (b :: frames)) ops (At 0)) as [ea cur] eqn:Ea.
  cbn [snd] in G.
  assert (Q : expect_all (length (b :: frames)) [Seek k; Read] cur = ([Sought true; Frame k], snd (expect (length (b :: frames)) Read (At k)))).
  { apply Nat.ltb_lt in Hk. cbn [expect_all]. destruct cur as [j|]; cbn [expect]; rewrite Hk.
    - destruct (Nat.ltb (k + 1) (length (b :: frames))); reflexivity.
    - assert (Nat.eqb k (length (b :: frames) - 1) = false) as ->.
      { apply Nat.eqb_neq. destruct G as [G|G]; [congruence|]. cbn [length]. lia. }
      destruct (Nat.ltb (k + 1) (length (b :: frames))); reflexivity. }
  rewrite Q in F. cbn [fst] in F. apply Forall2_app_inv_l in F. destruct F as (l1 & l2 & F1 & F2 & ->).
  inversion F2 as [|? a1 ? l3 G1 F3]; subst. inversion F3 as [|? a2 ? l4 G2 F4]; subst. inversion F4; subst.
  destruct a1 as [g1|]; [|contradiction]. cbn in G1. subst g1.
  destruct a2 as [|[|] got]; [contradiction| |contradiction]. destruct G2 as (f & Ef & Sf).
  exists w', d', r, l1, b', r', got, f. split; [exact E|]. split; [exact El|]. split; [exact Ep|]. auto.
Qed.
Print Assumptions C45_seek_then_read.

(** Read the only frame, seek to it again: the second read fails. *)
Theorem C45_refuted : exists r l b' r',
  let d' := snd (fst (record_on Ntext 1 new_writer base 100 None [frm 0 "abc" "def"] nothing)) in
  reader_load Ntext 1 (k_fs d') base new_reader = (r, true) /\
  perform_all 1 (k_fs d') [Seek 0; Read; Seek 0; Read] blank r = Some (l, b', r') /\
  exists g g', l = [Answer true; Data true g; Answer true; Data false g'].
Proof. do 4 eexists. cbv zeta. split; [vm_compute; reflexivity|]. split; [vm_compute; reflexivity|]. eauto. Qed.
Print Assumptions C45_refuted.

(** C46.  A writer object that has recorded one stream never again records a loadable one: whatever
    the second stream's frames, a fresh reader refuses it, because its header is missing. *)
Theorem C46_reuse_never_loads : forall (T : Type) (X : TextOps T) cs base max n b frames fs base' max' n' frames',
  sequence_ok X cs n (b :: frames) -> (bytes_of cs n (b :: frames) < 2 ^ 63)%N ->
  Forall (frame_ok X cs n') frames' -> (0 < N.of_nat n')%N -> (bytes_of cs n' frames' < 2 ^ 63)%N ->
  exists w' d' w'' d'',
    record_on X cs new_writer base max None (b :: frames) fs = (w', d', true) /\
    record_on X cs w' base' max' None frames' (k_fs d') = (w'', d'', true) /\
    snd (reader_load X cs (k_fs d'') base' (new_reader (T:=T))) = false.
Proof.
  intros T X cs base max n b frames fs base' max' n' frames' Hs Hb F Hn Hb'.
  destruct (@session_ok T X cs base max n b frames new_writer fs (conj eq_refl eq_refl) eq_refl Hs Hb)
    as (recs & w' & evs & E & _ & _ & _ & _ & _ & _ & _ & C1 & C2 & C3).
  destruct Hs as (_ & _ & (Hc & _) & _).
  destruct (@reuse T X cs base' max' n' frames' w' (after fs evs) (conj C1 C2) C3 F Hn Hc Hb')
    as (w'' & d'' & E2 & L2).
  exists w', (mkDisk (after fs evs) [] evs), w'', d''. auto.
Qed.
Print Assumptions C46_reuse_never_loads.
Theorem C46_refuted : exists (b : @bdata N),
  let '(w', d', good) := record_on Ntext 1 new_writer base 100 None [b] nothing in
  let '(w'', d'', good') := record_on Ntext 1 w' (chars "t") 100 None [b] (k_fs d') in
  good = true /\ good' = true /\
  snd (reader_load Ntext 1 (k_fs d') base new_reader) = true /\
  snd (reader_load Ntext 1 (k_fs d'') (chars "t") new_reader) = false.
Proof. exists (frm 0 "abc" "def"). vm_compute. auto. Qed.
Print Assumptions C46_refuted.

(** C47.  A reader object that has read nothing yet may be used for another stream ... *)
Theorem C47_unused_reader : forall (T : Type) (X : TextOps T) cs fs base n first recs r0 dst,
  on_disk X cs fs base first recs -> header_ok cs n first -> Forall (rec_ok X cs n) recs -> recs <> [] ->
  whole cs dst -> d_count dst = n -> r_masses r0 = false -> r_colors r0 = false ->
  exists r got, reader_load X cs fs base r0 = (r, true) /\
    read_times cs fs (length recs) dst r = Some got /\
    Forall2 (same_frame X) (map (fun c => c_frame c) recs) got /\
    Forall (fun g => d_mass g = d_mass first /\ d_color g = d_color first) got.
Proof.
  intros T X cs fs base n first recs r0 dst O Hh Hr Ne W Hn M C.
  destruct (load_ok O Hh Hr r0 Ne) as (r & E & L & A & Cr & Mr). exists r.
  destruct (@read_times_ok T X cs fs base n first recs O Hh Hr (length recs) 0 r dst L A W Hn eq_refl) as (got & Eg & Fg & Gg).
  exists got. rewrite Cr, Mr, C, M in Gg. auto.
Qed.
Print Assumptions C47_unused_reader.
(** ... but one that has read a stream replays every other stream with masses and colours left as
    they were in the caller's object. *)
Theorem C47_used_reader : forall (T : Type) (X : TextOps T) cs fs base n first recs r0 dst,
  on_disk X cs fs base first recs -> header_ok cs n first -> Forall (rec_ok X cs n) recs -> recs <> [] ->
  whole cs dst -> d_count dst = n -> r_masses r0 = true -> r_colors r0 = true ->
  exists r got, reader_load X cs fs base r0 = (r, true) /\
    read_times cs fs (length recs) dst r = Some got /\
    Forall2 (same_frame X) (map (fun c => c_frame c) recs) got /\
    Forall (fun g => d_mass g = d_mass dst /\ d_color g = d_color dst) got.
Proof.
  intros T X cs fs base n first recs r0 dst O Hh Hr Ne W Hn M C.
  destruct (load_ok O Hh Hr r0 Ne) as (r & E & L & A & Cr & Mr). exists r.
  destruct (@read_times_ok T X cs fs base n first recs O Hh Hr (length recs) 0 r dst L A W Hn eq_refl) as (got & Eg & Fg & Gg).
  exists got. rewrite Cr, Mr, C, M in Gg. auto.
Qed.
Print Assumptions C47_used_reader.
Theorem C47_refuted : exists (b1 b2 : @bdata N) r1 r2 r2' b1' b2',
  let d1 := snd (fst (record_on Ntext 1 new_writer base 100 None [b1] nothing)) in
  let d2 := snd (fst (record_on Ntext 1 new_writer (chars "t") 100 None [b2] (k_fs d1))) in
  reader_load Ntext 1 (k_fs d2) base new_reader = (r1, true) /\
  reader_read 1 (k_fs d2) blank r1 = Some (r2, b1', true) /\ d_mass b1' = d_mass b1 /\
  exists r3 r4, reader_load Ntext 1 (k_fs d2) (chars "t") r2 = (r3, true) /\
    reader_read 1 (k_fs d2) b1' r3 = Some (r4, b2', true) /\
    d_vert b2' = d_vert b2 /\ d_mass b2' <> d_mass b2 /\ r2' = r4.
Proof.
  exists (frm 0 "abc" "def"),
    (mkBdata 1 0 0%N 7 (chars "ghi") (chars "jkl") (chars "W") (chars "0123456789abcdef")).
  do 5 eexists. cbv zeta. split; [vm_compute; reflexivity|]. split; [vm_compute; reflexivity|].
  split; [vm_compute; reflexivity|]. do 2 eexists. split; [vm_compute; reflexivity|].
  split; [vm_compute; reflexivity|]. split; [reflexivity|]. split; [vm_compute; discriminate|reflexivity].
Qed.
Print Assumptions C47_refuted.

(** C61.  A frame whose write returned is safe at once: without closing anything, another process
    replays the stream up to it - if the disk takes what it is given ... *)
Theorem C61_durable : forall (T : Type) (X : TextOps T) cs base max n b frames fs,
  sequence_ok X cs n (b :: frames) -> (bytes_of cs n (b :: frames) < 2 ^ 63)%N ->
  exists w1 d1 w' d', stream_open base max None new_writer (mkDisk fs [] []) = (w1, d1, true) /\
    write_all X cs (b :: frames) w1 d1 = (w', d', true) /\
    replays X cs (k_fs d') base n b (b :: frames).
Proof. exact @live. Qed.
Print Assumptions C61_durable.
(** ... but when it does not, write still reports success: the flush results are not looked at.  Here
    the data cannot be flushed and the index lists a frame that is not there ... *)
Theorem C61_data_flush_refuted : exists io w1 d1 w' d' r r' b',
  stream_open base 100 None new_writer (mkDisk nothing io []) = (w1, d1, true) /\
  stream_write Ntext 1 (frm 0 "abc" "def") w1 d1 = (w', d', true) /\
  reader_load Ntext 1 (k_fs d') base new_reader = (r, true) /\
  reader_read 1 (k_fs d') blank r = Some (r', b', false).
Proof.
  exists (repeat None 10 ++ [Some 0]). do 7 eexists.
  split; [vm_compute; reflexivity|]. split; [vm_compute; reflexivity|]. split; vm_compute; reflexivity.
Qed.
Print Assumptions C61_data_flush_refuted.
(** ... and here one failed index write loses every later frame, while all writes report success. *)
Theorem C61_index_flush_refuted : exists io w1 d1 w' d',
  stream_open base 100 None new_writer (mkDisk nothing io []) = (w1, d1, true) /\
  write_all Ntext 1 three w1 d1 = (w', d', true) /\
  contents (k_fs d') (make_idx_name base) = [] /\
  k_fs d' (make_dat_name base 0) = Some (chars "abcdefghijklmnopqr").
Proof.
  exists (repeat None 11 ++ [Some 0]). do 4 eexists.
  split; [vm_compute; reflexivity|]. split; [vm_compute; reflexivity|]. split; vm_compute; reflexivity.
Qed.
Print Assumptions C61_index_flush_refuted.

(** If the next part cannot be opened, the write fails and so does every later one; none of them touches the disk. *)
Theorem C61_failed_part : forall (T : Type) (X : TextOps T) cs (b : @bdata T) w d o k io,
  w_idx w <> None -> w_header w = true -> w_data w <> None -> (0 < w_max w <= Z.of_nat (w_pos w))%Z ->
  k_io d = o :: Some k :: io ->
  exists w1 d1, stream_write X cs b w d = (w1, d1, false) /\
    forall (later : list bdata) d2, fold_left (fun s x => let '(w, d, good) := stream_write X cs x (fst (fst s)) (snd (fst s)) in (w, d, orb good (snd s)))
      later (w1, d2, false) = (w1, d2, false).
Proof.
  intros T X cs b w d o k io Hi Hh Hd Hm Hk.
  destruct (w_idx w) as [i|] eqn:Ei; [|congruence]. destruct (w_data w) as [name|] eqn:Ed; [|congruence].
  unfold stream_write at 1. rewrite Ei, Hh. cbn [negb].
  replace (andb (Z.ltb 0 (w_max w)) (Z.leb (w_max w) (Z.of_nat (w_pos w)))) with true
    by (symmetry; apply andb_true_intro; split; [apply Z.ltb_lt|apply Z.leb_le]; lia).
  unfold open_data_file, close_data. cbn [set_file_n w_data]. rewrite Ed.
  unfold put, outcome. rewrite Hk. unfold open_file, outcome, happen. cbn [k_io]. cbv iota beta zeta. cbn [negb].
  eexists. eexists. split; [reflexivity|].
  match goal with |- forall later d2, fold_left _ _ (?w1, _, _) = _ => set (w1' := w1) end.
  assert (D : w_data w1' = None /\ w_pos w1' = 0%nat /\ w_header w1' = true /\ w_idx w1' = Some i).
  { unfold w1', set_data, set_file_n. cbn. auto. }
  destruct D as (D1 & D2 & D3 & D4).
  assert (F : forall x d2, stream_write X cs x w1' d2 = (w1', d2, false)).
  { intros x d2. unfold stream_write. rewrite D4, D3, D2. cbn [negb].
    replace (andb (Z.ltb 0 (w_max w1')) (Z.leb (w_max w1') (Z.of_nat 0))) with false
      by (symmetry; destruct (Z.ltb_spec 0 (w_max w1')), (Z.leb_spec (w_max w1') (Z.of_nat 0)); cbn; try reflexivity; lia).
    cbn [negb]. unfold write_data. rewrite D1. reflexivity. }
  induction later as [|x later IH]; intros d2; [reflexivity|]. cbn [fold_left fst snd]. rewrite F. cbn [orb]. apply IH.
Qed.
Print Assumptions C61_failed_part.
Example C61_failed_part_case : exists w1 d1 w2 d2,
  stream_open base 1 None new_writer (mkDisk nothing (repeat None 12 ++ [None; Some 0]) []) = (w1, d1, true) /\
  stream_write Ntext 1 (frm 0 "abc" "def") w1 d1 = (w2, d2, true) /\
  w_idx w2 <> None /\ w_header w2 = true /\ w_data w2 <> None /\ (0 < w_max w2 <= Z.of_nat (w_pos w2))%Z /\ k_io d2 = [None; Some 0].
Proof.
  do 4 eexists. split; [vm_compute; reflexivity|]. split; [vm_compute; reflexivity|]. split; [discriminate|].
  split; [reflexivity|]. split; [discriminate|]. split; [vm_compute; split; [reflexivity|discriminate]|reflexivity].
Qed.
(** If the colours or the masses cannot be written, the first write fails: no frame is stored, and the header stays due.  The next
    write starts it again, so that no frame is ever accepted before both files were. *)
Theorem C61_failed_header : forall (T : Type) (X : TextOps T) cs (b : @bdata T) w d o1 o2 o3 o4 o5 io,
  w_idx w <> None -> w_header w = false -> k_io d = o1 :: o2 :: o3 :: o4 :: o5 :: io ->
  o1 <> None \/ (exists k, o2 = Some k /\ (k < length (d_color b))%nat) \/
  o4 <> None \/ (exists k, o5 = Some k /\ (k < length (d_mass b))%nat) ->
  exists w1 d1, stream_write X cs b w d = (w1, d1, false) /\ w_header w1 = false /\ w_idx w1 = w_idx w /\
    w_data w1 = w_data w /\ w_pos w1 = w_pos w /\ w_file_n w1 = w_file_n w /\
    forall name, name <> make_col_name (w_base w) -> name <> make_mass_name (w_base w) -> k_fs d1 name = k_fs d name.
Proof.
  intros T X cs b w d o1 o2 o3 o4 o5 io Hi Hh Hk H.
  assert (SF : forall fs a c name, name <> a -> set_file fs a c name = fs name).
  { intros fs a c name D. unfold set_file. destruct (text_dec name a); [contradiction|reflexivity]. }
  assert (HS : exists w1 d1, write_header cs b w d = (w1, d1, false) /\ w_header w1 = false /\ w_idx w1 = w_idx w /\
    w_data w1 = w_data w /\ w_pos w1 = w_pos w /\ w_file_n w1 = w_file_n w /\
    forall name, name <> make_col_name (w_base w) -> name <> make_mass_name (w_base w) -> k_fs d1 name = k_fs d name).
  { unfold write_header, write_file, open_file, put, outcome. rewrite Hk. cbn [k_io happen].
    destruct o1 as [k1|].
    { do 2 eexists. split; [reflexivity|]. cbn. auto 10. }
    cbn [k_io happen].
    destruct (Nat.eqb (taken o2 (length (d_color b))) (length (d_color b))) eqn:E2.
    2:{ do 2 eexists. split; [reflexivity|]. cbn. do 5 (split; [auto|]). intros name D1 D2. now rewrite !SF. }
    cbn [k_io happen w_base set_index].
    destruct o4 as [k4|].
    { do 2 eexists. split; [reflexivity|]. cbn. do 5 (split; [auto|]). intros name D1 D2. now rewrite !SF. }
    cbn [k_io happen].
    destruct (Nat.eqb (taken o5 (length (d_mass b))) (length (d_mass b))) eqn:E5.
    - exfalso. apply Nat.eqb_eq in E2, E5.
      destruct H as [H|[(k & -> & H)|[H|(k & -> & H)]]]; try congruence; cbn in E2, E5; lia.
    - destruct io as [|o6 io]; (do 2 eexists; split; [reflexivity|]; cbn; do 5 (split; [auto|]); intros name D1 D2; now rewrite !SF). }
  destruct HS as (w1 & d1 & E & HS). exists w1, d1. split; [|exact HS].
  unfold stream_write. destruct (w_idx w) as [i|]; [|congruence]. now rewrite Hh, E.
Qed.
Print Assumptions C61_failed_header.
(** a new stream whose mass file cannot be opened *)
Example C61_failed_header_case : exists w1 d1 w2 d2,
  stream_open base 100 None new_writer (mkDisk nothing [None; None; None; None; None; Some 0%nat; None] []) = (w1, d1, true) /\
  w_idx w1 <> None /\ w_header w1 = false /\ k_io d1 = [None; None; None; Some 0%nat; None] /\
  stream_write Ntext 1 (frm 0 "abc" "def") w1 d1 = (w2, d2, false).
Proof.
  do 4 eexists. split; [vm_compute; reflexivity|]. split; [discriminate|]. split; [reflexivity|]. split; [reflexivity|vm_compute; reflexivity].
Qed.
(** ... and a stream that is not open, or that was closed, takes nothing *)
Theorem C61_not_open : forall (T : Type) (X : TextOps T) cs (b : @bdata T) w d w' d',
  stream_write X cs b new_writer d = (new_writer, d, false) /\
  (stream_close w d = (w', d') -> stream_write X cs b w' d' = (w', d', false)).
Proof.
  intros T X cs b w d w' d'. split; [reflexivity|]. unfold stream_close, close_data. cbn [w_data].
  destruct (w_data w) as [name|]; [|intros H; injection H as <- <-; reflexivity].
  destruct (put _ _ _) as [n d2]. intros H. injection H as <- <-. reflexivity.
Qed.
Print Assumptions C61_not_open.

(** C62.  Streams with different names share no file, unless one name is the other followed by digits. *)
Theorem C62_names : forall a b name, a <> b -> stream_file a name -> stream_file b name ->
  exists u, u <> [] /\ Forall is_digit u /\ (a = b ++ u \/ b = a ++ u).
Proof. exact @name_clash. Qed.
Print Assumptions C62_names.
Theorem C62_refuted : exists a b name, a <> b /\ stream_file a name /\ stream_file b name.
Proof.
  exists (chars "run"), (chars "run1"), (chars "run10.dat"). split; [discriminate|].
  split; right; right; right; [exists 10%N|exists 0%N]; reflexivity.
Qed.
Print Assumptions C62_refuted.
