(** What a recorded stream should look like on disk, and how it is used: vocabulary for PropStream.v *)
From Coq Require Import Ascii String List NArith ZArith Arith.
From Verif Require Import ModelText ModelStream.
Import ListNotations.
Set Implicit Arguments.

Section S.
  Context {T : Type} (X : TextOps T) (cs : nat).
  Notation bdata := (@bdata T).

  (** the arrays have the sizes the count says *)
  Definition whole (b : bdata) : Prop :=
    length (d_vert b) = 3 * cs * d_count b /\ length (d_velo b) = 3 * cs * d_count b /\
    length (d_mass b) = cs * d_count b /\ length (d_color b) = 16 * d_count b.

  (** the time is printed as one word and that word can be read again *)
  Definition printable (t : T) : Prop :=
    ~ In tab (t_show X t) /\ ~ In newline (t_show X t) /\ exists t', t_read X (t_show X t) = Some t'.

  (** a frame that can be recorded in a stream of [n] bodies *)
  Definition frame_ok (n : nat) (b : bdata) : Prop :=
    whole b /\ d_count b = n /\ (d_step b < 2 ^ 64)%N /\ printable (d_time b).

  (** a sequence of frames for one stream: the numbers of its header are in the range of size_t and not
      zero, and the offsets in the range of qint64 *)
  Definition sequence_ok (n : nat) (frames : list bdata) : Prop :=
    Forall (frame_ok n) frames /\
    (0 < N.of_nat n < 2 ^ 64)%N /\ (0 < N.of_nat cs < 2 ^ 64)%N /\
    match frames with [] => True | b :: _ => (0 < d_box b < 2 ^ 64)%N end.
  Definition bytes_of (n : nat) (frames : list bdata) : N := N.of_nat (length frames * (6 * cs * n)).

  (** where a frame is: bytes [image] at offset [c_off] of part [c_part] *)
  Record rec := mkRec { c_frame : bdata; c_part : N; c_off : nat }.
  Definition image (b : bdata) : text := d_vert b ++ d_velo b.
  Definition stored (fs : files) (base : text) (c : rec) : Prop :=
    exists before after,
      fs (make_dat_name base (c_part c)) = Some (before ++ image (c_frame c) ++ after) /\
      length before = c_off c.

  (** the index: three header lines, then one line per frame *)
  Definition line_of (c : rec) : text := index_line X (c_frame c) (c_part c) (c_off c).
  Definition index_text (first : bdata) (recs : list rec) : text :=
    header_text cs first ++ concat (map line_of recs).

  (** a complete stream on disk; colours and masses are those of the frame written first *)
  Record on_disk (fs : files) (base : text) (first : bdata) (recs : list rec) : Prop := {
    od_idx : fs (make_idx_name base) = Some (index_text first recs);
    od_col : fs (make_col_name base) = Some (d_color first);
    od_mass : fs (make_mass_name base) = Some (d_mass first);
    od_stored : Forall (stored fs base) recs }.

  (** ** Using the writer *)
  Fixpoint write_all (frames : list bdata) (w : writer) (d : disk) : writer * disk * bool :=
    match frames with
    | [] => (w, d, true)
    | b :: frames =>
        let '(w, d, good) := stream_write X cs b w d in
        if good then write_all frames w d else (w, d, false)
    end.
  (** open, write every frame, close; no failures *)
  Definition record_on (w : writer) (base : text) (max : Z) (append : option N) (frames : list bdata)
      (fs : files) : writer * disk * bool :=
    let '(w, d, good) := stream_open base max append w (mkDisk fs [] []) in
    if good then
      let '(w, d, good) := write_all frames w d in
      let (w, d) := stream_close w d in (w, d, good)
    else (w, d, false).

  (** ** Using the reader *)
  (** read [k] times into the same object; [None] if a read fails *)
  Fixpoint read_times (fs : files) (k : nat) (b : bdata) (r : @reader T) : option (list bdata) :=
    match k with
    | 0 => Some []
    | S k => match reader_read cs fs b r with
             | Some (r, b, true) =>
                 match read_times fs k b r with Some l => Some (b :: l) | None => None end
             | _ => None
             end
    end.

  (** the frame [got] is what was recorded as [b]: the time as printed, everything else identical *)
  Definition same_frame (b got : bdata) : Prop :=
    d_step got = d_step b /\ t_read X (t_show X (d_time b)) = Some (d_time got) /\
    d_count got = d_count b /\ d_vert got = d_vert b /\ d_velo got = d_velo b.

  (** the stream can be loaded by a fresh reader and replayed from the start: it has exactly these
      frames, with these masses and colours *)
  Definition replays (fs : files) (base : text) (n : nat) (first : bdata) (frames : list bdata) : Prop :=
    exists r, reader_load X cs fs base (new_reader (T:=T)) = (r, true) /\
      reader_frame_count r = length frames /\
      r_body r = N.of_nat n /\ r_box r = d_box first /\ r_coord r = N.of_nat cs /\
      forall dst, whole dst -> d_count dst = n ->
        exists got, read_times fs (length frames) dst r = Some got /\
          Forall2 same_frame frames got /\
          Forall (fun g => d_mass g = d_mass first /\ d_color g = d_color first) got.

  (** ** Crashes: a prefix of what was done, the last write possibly cut *)
  Inductive torn : list event -> list event -> Prop :=
  | torn_nothing : forall l, torn l []
  | torn_next : forall e l p, torn l p -> torn (e :: l) (e :: p)
  | torn_cut : forall n bs k l, torn (App n bs :: l) [App n (firstn k bs)].
  Definition after (fs : files) (p : list event) : files := fold_left apply p fs.

  Definition starts (p t : text) : Prop := exists r, t = p ++ r.
End S.

(** ** Parts *)
Section Parts.
  Context {T : Type}.
  (** the frames of one part, in order *)
  Definition part_bytes (p : N) (recs : list (@rec T)) : text :=
    concat (map (fun c => image (c_frame c)) (filter (fun c => N.eqb (c_part c) p) recs)).
  (** what the layout is, in words *)
  Record parts_ok (max : Z) (sz : nat) (base : text) (fs : files) (recs : list (@rec T)) (last : N) : Prop := {
    po_files : forall p, (p <= last)%N -> fs (make_dat_name base p) = Some (part_bytes p recs);
    po_full : forall p, (p < last)%N -> (max <= Z.of_nat (length (part_bytes p recs)))%Z;
    po_size : (0 < max)%Z -> forall p, (p <= last)%N ->
      (Z.of_nat (length (part_bytes p recs)) < max + Z.of_nat sz)%Z;
    po_one : (max <= 0)%Z -> last = 0%N;
    po_used : forall p, (p <= last)%N <-> exists c, In c recs /\ c_part c = p;
    po_order : forall pre c post, recs = pre ++ c :: post -> Forall (fun b => (c_part b <= c_part c)%N) pre }.
End Parts.

(** ** Objects and names *)
(** a writer with no file open: new, or closed *)
Definition closed (w : writer) : Prop := w_data w = None /\ w_idx w = None.
(** the files of a stream *)
Definition stream_file (base name : text) : Prop :=
  name = base ++ chars ".idx" \/ name = base ++ chars ".col" \/ name = base ++ chars ".mass" \/
  exists k, name = base ++ show_N k ++ chars ".dat".


(** ** Loaded streams *)
Section Loaded.
  Context {T : Type} (X : TextOps T) (cs : nat).
  (** numbers of a recorded frame fit their columns *)
  Definition rec_ok (n : nat) (c : @rec T) : Prop :=
    frame_ok X cs n (c_frame c) /\ (c_part c < 2 ^ 64 - 1)%N /\ (N.of_nat (c_off c) < 2 ^ 63)%N.
  (** numbers of the header fit and are not zero *)
  Definition header_ok (n : nat) (first : @bdata T) : Prop :=
    whole cs first /\ d_count first = n /\ (0 < N.of_nat n < 2 ^ 64)%N /\ (0 < N.of_nat cs < 2 ^ 64)%N /\
    (0 < d_box first < 2 ^ 64)%N.
End Loaded.

(** ** Random access: what a player should see, and what it does see *)
Inductive op := Seek (k : nat) | Read.
(** where the reader is: before frame [k], or behind the last frame *)
Inductive cursor := At (k : nat) | Past.
Inductive expected := Sought (good : bool) | Frame (k : nat) | NoFrame.
Definition expect (count : nat) (o : op) (c : cursor) : expected * cursor :=
  match o, c with
  | Read, At k => (Frame k, if Nat.ltb (k + 1) count then At (k + 1) else Past)
  | Read, Past => (NoFrame, Past)
  | Seek k, At j => if Nat.ltb k count then (Sought true, At k) else (Sought false, At j)
  | Seek k, Past =>
      if Nat.ltb k count
      then (Sought true, if Nat.eqb k (count - 1) then Past else At k)   (* sic *)
      else (Sought false, Past)
  end.
Fixpoint expect_all (count : nat) (ops : list op) (c : cursor) : list expected * cursor :=
  match ops with
  | [] => ([], c)
  | o :: ops => let (e, c) := expect count o c in
                let (es, c) := expect_all count ops c in (e :: es, c)
  end.

Section Access.
  Context {T : Type} (X : TextOps T) (cs : nat).
  Inductive answer := Answer (good : bool) | Data (good : bool) (b : @bdata T).
  Definition perform (fs : files) (o : op) (b : @bdata T) (r : @reader T)
    : option (answer * @bdata T * @reader T) :=
    match o with
    | Seek k => let (r, good) := reader_seek fs (Some k) r in Some (Answer good, b, r)
    | Read => match reader_read cs fs b r with
              | Some (r, b, good) => Some (Data good b, b, r)
              | None => None
              end
    end.
  Fixpoint perform_all (fs : files) (ops : list op) (b : @bdata T) (r : @reader T)
    : option (list answer * @bdata T * @reader T) :=
    match ops with
    | [] => Some ([], b, r)
    | o :: ops =>
        match perform fs o b r with
        | Some (a, b, r) => match perform_all fs ops b r with
                            | Some (l, b, r) => Some (a :: l, b, r)
                            | None => None
                            end
        | None => None
        end
    end.
  (** the answer is as expected, for a stream of these frames *)
  Definition agrees (frames : list (@bdata T)) (e : expected) (a : answer) : Prop :=
    match e, a with
    | Sought g, Answer g' => g = g'
    | Frame k, Data true got => exists b, nth_error frames k = Some b /\ same_frame X b got
    | NoFrame, Data false _ => True
    | _, _ => False
    end.
  (** nothing follows the last frame in its part *)
  Definition ends_there (fs : files) (base : text) (c : @rec T) : Prop :=
    length (contents fs (make_dat_name base (c_part c))) = c_off c + length (image (c_frame c)).
End Access.
