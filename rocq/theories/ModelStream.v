(** Recording and replaying simulations: nbody/nbody_data_stream.cpp and
    nbody/nbody_data_stream_reader.cpp.

    Files are lists of bytes, the disk a function from names to files.  The arrays of an
    [nbody_data] are their memory images, because the code reads and writes them as raw bytes;
    [cs] is [sizeof(nbcoord_t)].  Disk operations are logged in order, so that the states a crash can
    leave behind are the effects of the log's prefixes.  Opening or writing a file can fail: each such
    operation takes the next of the given outcomes, [Some k] being a failure after [k] bytes.

    Simplifications: [QDir::mkpath] always succeeds; nobody else touches the files; a handle opened
    for writing is positioned at the end of its file (true of both open modes used); QFile's write
    buffer reaches the disk only when flushed or closed; after a failed flush QTextStream writes
    nothing any more (its documented status); [open] starts with an empty index buffer; null
    [bdata] arguments and messages are left out, and so are the maps [m_step2frame],
    [m_time2frame], which nothing reads. *)
From Coq Require Import Ascii String List NArith ZArith Arith.
From Verif Require Import Arr ModelText.
Import ListNotations.
Set Implicit Arguments.

Inductive event :=
| Create (name : text)                (* opened with QFile::WriteOnly: now empty *)
| Touch (name : text)                 (* opened with QFile::Append: created if missing *)
| App (name : text) (bytes : text).   (* bytes reach the end of the file *)

Definition files := text -> option text.
Definition text_dec : forall a b : text, {a = b} + {a <> b} := list_eq_dec Ascii.ascii_dec.
Definition set_file (fs : files) (name : text) (c : option text) : files :=
  fun n => if text_dec n name then c else fs n.
Definition contents (fs : files) (name : text) : text :=
  match fs name with Some c => c | None => [] end.
Definition apply (fs : files) (ev : event) : files :=
  match ev with
  | Create n => set_file fs n (Some [])
  | Touch n => set_file fs n (Some (contents fs n))
  | App n bs => set_file fs n (Some (contents fs n ++ bs))
  end.

(** the disk, the outcomes of the operations to come, what was done so far *)
Record disk := mkDisk { k_fs : files; k_io : list (option nat); k_log : list event }.
Definition happen (d : disk) (ev : event) : disk :=
  mkDisk (apply (k_fs d) ev) (k_io d) (k_log d ++ [ev]).
Definition outcome (d : disk) : option nat * disk :=
  match k_io d with
  | [] => (None, d)
  | o :: r => (o, mkDisk (k_fs d) r (k_log d))
  end.
(** how many of [n] bytes are taken *)
Definition taken (o : option nat) (n : nat) : nat :=
  match o with None => n | Some k => Nat.min k n end.
(** [file.open(mode)]; [mode] is [Create] or [Touch] *)
Definition open_file (mode : text -> event) (name : text) (d : disk) : bool * disk :=
  let (o, d) := outcome d in
  match o with
  | None => (true, happen d (mode name))
  | Some _ => (false, d)
  end.
(** writing to the disk; the number of bytes taken *)
Definition put (name bytes : text) (d : disk) : nat * disk :=
  let (o, d) := outcome d in
  let n := taken o (length bytes) in
  (n, happen d (App name (firstn n bytes))).

(** nbody_data_stream.cpp:206-224 *)
Definition make_idx_name (base : text) : text := base ++ chars ".idx".
Definition make_dat_name (base : text) (n : N) : text := base ++ show_N n ++ chars ".dat".
Definition make_col_name (base : text) : text := base ++ chars ".col".
Definition make_mass_name (base : text) : text := base ++ chars ".mass".

Section Stream.
  Context {T : Type} (X : TextOps T) (cs : nat).

  (** what the streams see of an [nbody_data]: [get_count], [get_step], [get_time],
      [get_box_size], and the arrays *)
  Record bdata := mkBdata {
    d_count : nat; d_step : N; d_time : T; d_box : N;
    d_vert : text; d_velo : text; d_mass : text; d_color : text }.

  (** nbody_data_stream.cpp:10-25; [w_data] is the name of the open data file, [w_pos] its [pos()],
      [w_pend] its write buffer; [w_buf], [w_ok] are the buffer and the status of [m_idx_stream] *)
  Record writer := mkWriter {
    w_base : text; w_max : Z; w_file_n : N;
    w_data : option text; w_pos : nat; w_pend : text;
    w_idx : option text; w_buf : text; w_ok : bool;
    w_header : bool }.
  Definition new_writer : writer :=
    mkWriter [] (1024 * 1024 * 1024) 0 None 0 [] None [] true false.

  Definition set_data (w : writer) (data : option text) (pos : nat) (pend : text) : writer :=
    mkWriter (w_base w) (w_max w) (w_file_n w) data pos pend (w_idx w) (w_buf w) (w_ok w) (w_header w).
  Definition set_index (w : writer) (idx : option text) (buf : text) (ok : bool) : writer :=
    mkWriter (w_base w) (w_max w) (w_file_n w) (w_data w) (w_pos w) (w_pend w) idx buf ok (w_header w).
  Definition set_file_n (w : writer) (n : N) : writer :=
    mkWriter (w_base w) (w_max w) n (w_data w) (w_pos w) (w_pend w) (w_idx w) (w_buf w) (w_ok w)
      (w_header w).
  Definition set_header (w : writer) (h : bool) : writer :=
    mkWriter (w_base w) (w_max w) (w_file_n w) (w_data w) (w_pos w) (w_pend w) (w_idx w) (w_buf w)
      (w_ok w) h.

  (** [m_data.close()]: what is still buffered is written if possible *)
  Definition close_data (w : writer) (d : disk) : writer * disk :=
    match w_data w with
    | None => (w, d)
    | Some name => let (_, d) := put name (w_pend w) d in (set_data w None 0 [], d)
    end.

  (** nbody_data_stream.cpp:27-41, [open_data_file] *)
  Definition open_data_file (append : bool) (w : writer) (d : disk) : writer * disk * bool :=
    let (w, d) := close_data w d in
    let name := make_dat_name (w_base w) (w_file_n w) in
    let (good, d) := open_file (if append then Touch else Create) name d in
    if good then (set_data w (Some name) (length (contents (k_fs d) name)) [], d, true)
    else (w, d, false).

  (** nbody_data_stream.cpp:43-58, [open_index_file] *)
  Definition open_index_file (append : bool) (w : writer) (d : disk) : writer * disk * bool :=
    let name := make_idx_name (w_base w) in
    let (good, d) := open_file (if append then Touch else Create) name d in
    if good then (set_index w (Some name) [] true, d, true)
    else (set_index w None (w_buf w) (w_ok w), d, false).

  (** [stream << "#name " << n << "\n"] *)
  Definition header_line (name : string) (n : N) : text := chars name ++ [space] ++ show_N n ++ [newline].
  (** nbody_data_stream.cpp:62-64 *)
  Definition header_text (b : bdata) : text :=
    header_line "#coord_size" (N.of_nat cs) ++ header_line "#body_count" (N.of_nat (d_count b)) ++
    header_line "#box_size" (d_box b).

  (** a whole file written at once, nbody_data_stream.cpp:65-78, 79-92 *)
  Definition write_file (name bytes : text) (d : disk) : disk * bool :=
    let (good, d) := open_file Create name d in
    if good then
      let (o, d) := outcome d in
      let n := taken o (length bytes) in
      let (_, d) := put name (firstn n bytes) d in      (* on destruction, result unused *)
      (d, Nat.eqb n (length bytes))
    else (d, false).

  (** nbody_data_stream.cpp:60-95, [write_header] *)
  Definition write_header (b : bdata) (w : writer) (d : disk) : writer * disk * bool :=
    let w := set_index w (w_idx w) (w_buf w ++ header_text b) (w_ok w) in
    let (d, good) := write_file (make_col_name (w_base w)) (d_color b) d in
    if good then
      let (d, good) := write_file (make_mass_name (w_base w)) (d_mass b) d in
      if good then (set_header w true, d, true) else (w, d, false)
    else (w, d, false).

  (** [m_data.write(bytes, sz) == sz]: into the write buffer *)
  Definition write_data (bytes : text) (w : writer) (d : disk) : writer * disk * bool :=
    match w_data w with
    | None => (w, d, false)
    | Some name =>
        let (o, d) := outcome d in
        let n := taken o (length bytes) in
        (set_data w (Some name) (w_pos w + n) (w_pend w ++ firstn n bytes), d,
         Nat.eqb n (length bytes))
    end.
  (** [m_data.flush()], its result unused *)
  Definition flush_data (w : writer) (d : disk) : writer * disk :=
    match w_data w with
    | None => (w, d)
    | Some name => let (n, d) := put name (w_pend w) d in
                   (set_data w (Some name) (w_pos w) (skipn n (w_pend w)), d)
    end.
  (** [m_idx_stream.flush()], its result unused *)
  Definition flush_index (w : writer) (d : disk) : writer * disk :=
    match w_idx w with
    | None => (w, d)
    | Some name =>
        if w_ok w then
          let (n, d) := put name (w_buf w) d in
          (set_index w (Some name) [] (Nat.eqb n (length (w_buf w))), d)
        else (w, d)
    end.

  (** nbody_data_stream.cpp:154-157: step, time, part, position *)
  Definition index_line (b : bdata) (file_n : N) (fpos : nat) : text :=
    show_N (d_step b) ++ [tab] ++ t_show X (d_time b) ++ [tab] ++ show_N file_n ++ [tab] ++
    show_N (N.of_nat fpos) ++ [newline].

  (** nbody_data_stream.cpp:107-162, [write]; the result is whether it returns 0 *)
  Definition stream_write (b : bdata) (w : writer) (d : disk) : writer * disk * bool :=
    match w_idx w with
    | None => (w, d, false)
    | Some _ =>
        let '(w, d, good) := if w_header w then (w, d, true) else write_header b w d in
        if negb good then (w, d, false) else
        let '(w, d, good) :=
          if andb (Z.ltb 0 (w_max w)) (Z.leb (w_max w) (Z.of_nat (w_pos w)))
          then open_data_file false (set_file_n w (w_file_n w + 1)) d
          else (w, d, true) in
        if negb good then (w, d, false) else
        let fpos := w_pos w in
        let '(w, d, good) := write_data (d_vert b) w d in
        if negb good then (w, d, false) else
        let '(w, d, good) := write_data (d_velo b) w d in
        if negb good then (w, d, false) else
        let (w, d) := flush_data w d in
        let w := set_index w (w_idx w) (w_buf w ++ index_line b (w_file_n w) fpos) (w_ok w) in
        let (w, d) := flush_index w d in
        (w, d, true)
    end.

  (** nbody_data_stream.cpp:164-196, [open]; [append_to] is [append_to->get_last_file_n()] *)
  Definition stream_open (base : text) (max_part_size : Z) (append_to : option N) (w : writer) (d : disk)
    : writer * disk * bool :=
    let append := match append_to with Some _ => true | None => false end in
    let w := mkWriter base max_part_size (match append_to with Some n => n | None => 0%N end)
               (w_data w) (w_pos w) (w_pend w) (w_idx w) (w_buf w) (w_ok w)
               (orb append (w_header w)) in
    let '(w, d, good) := open_data_file append w d in
    if negb good then (w, d, false) else open_index_file append w d.

  (** nbody_data_stream.cpp:198-204, [close] *)
  Definition stream_close (w : writer) (d : disk) : writer * disk :=
    let w := mkWriter [] (w_max w) 0 (w_data w) (w_pos w) (w_pend w) None (w_buf w) (w_ok w) (w_header w) in
    close_data w d.

  (** ** The reader *)

  (** nbody_data_stream_reader.cpp:13-20; [frame] is the position in the list *)
  Record item := mkItem { it_step : N; it_time : T; it_file : N; it_pos : Z }.
  (** nbody_data_stream_reader.cpp:22-43; [r_current = None] is the value SIZE_MAX; [r_file] is the
      open file and the position in it *)
  Record reader := mkReader {
    r_frames : list item; r_base : text; r_file : option (text * nat); r_current : option nat;
    r_coord : N; r_body : N; r_box : N; r_colors : bool; r_masses : bool }.
  Definition new_reader : reader := mkReader [] [] None None 0 0 0 false false.
  (** [m_file_n], which is never assigned another value *)
  Definition r_file_n : N := 2 ^ 64 - 1.

  Definition set_rfile (r : reader) (f : option (text * nat)) (cur : option nat) : reader :=
    mkReader (r_frames r) (r_base r) f cur (r_coord r) (r_body r) (r_box r) (r_colors r) (r_masses r).

  (** nbody_data_stream_reader.cpp:45-72, [parse_header_line] *)
  Definition parse_header_line (line : text) (r : reader) : reader :=
    match split space line with
    | [name; value] =>
        match to_ulonglong value with
        | Some v =>
            if text_dec name (chars "#coord_size") then
              mkReader (r_frames r) (r_base r) (r_file r) (r_current r) v (r_body r) (r_box r)
                (r_colors r) (r_masses r)
            else if text_dec name (chars "#body_count") then
              mkReader (r_frames r) (r_base r) (r_file r) (r_current r) (r_coord r) v (r_box r)
                (r_colors r) (r_masses r)
            else if text_dec name (chars "#box_size") then
              mkReader (r_frames r) (r_base r) (r_file r) (r_current r) (r_coord r) (r_body r) v
                (r_colors r) (r_masses r)
            else r
        | None => r
        end
    | _ => r
    end.

  Definition starts_with (a : ascii) (l : text) : bool :=
    match l with b :: _ => Ascii.eqb b a | [] => false end.

  (** nbody_data_stream_reader.cpp:142-163 for one data line *)
  Definition parse_item (line : text) : option item :=
    match split tab line with
    | [p0; p1; p2; p3] =>
        match to_ulonglong p0, t_read X p1, to_ulonglong p2, to_longlong p3 with
        | Some s, Some t, Some n, Some pos => Some (mkItem s t n pos)
        | _, _, _, _ => None
        end
    | _ => None
    end.
  (** nbody_data_stream_reader.cpp:132-166: the loop over the index *)
  Fixpoint load_lines (lines : list text) (r : reader) : reader * bool :=
    match lines with
    | [] => (r, true)
    | line :: lines =>
        if starts_with "#"%char line then load_lines lines (parse_header_line line r)
        else match parse_item line with
             | Some i =>
                 load_lines lines
                   (mkReader (r_frames r ++ [i]) (r_base r) (r_file r) (r_current r) (r_coord r)
                      (r_body r) (r_box r) (r_colors r) (r_masses r))
             | None => (r, false)
             end
    end.

  (** nbody_data_stream_reader.cpp:188-197, [close] *)
  Definition reader_close (r : reader) : reader :=
    mkReader [] [] None None (r_coord r) (r_body r) (r_box r) (r_colors r) (r_masses r).

  (** nbody_data_stream_reader.cpp:222-259, [seek]; the result is whether it returns 0 *)
  Definition reader_seek (fs : files) (frame : option nat) (r : reader) : reader * bool :=
    let same := match frame, r_current r with
                | Some a, Some b => Nat.eqb a b
                | None, None => true
                | _, _ => false
                end in
    if same then (r, true) else
    match frame with
    | None => (r, false)
    | Some n =>
        match nth_error (r_frames r) n with
        | None => (r, false)
        | Some i =>
            let is_open := match r_file r with Some _ => true | None => false end in
            let f :=
              if orb (negb (N.eqb r_file_n (it_file i))) (negb is_open) then
                let name := make_dat_name (r_base r) (it_file i) in
                match fs name with Some _ => Some (name, 0) | None => None end
              else r_file r in
            match f with
            | None => (set_rfile r None (r_current r), false)
            | Some (name, _) =>
                if Z.ltb (it_pos i) 0 then (set_rfile r None (r_current r), false)
                else (set_rfile r (Some (name, Z.to_nat (it_pos i))) (Some n), true)
            end
        end
    end.

  (** nbody_data_stream_reader.cpp:118-186, [load]; the result is whether it returns 0 *)
  Definition reader_load (fs : files) (base : text) (r : reader) : reader * bool :=
    let r := reader_close r in
    match fs (make_idx_name base) with
    | None => (r, false)
    | Some idx =>
        let (r, good) := load_lines (read_lines idx) r in
        if negb good then (r, false) else
        if orb (orb (N.eqb (r_body r) 0) (N.eqb (r_coord r) 0)) (N.eqb (r_box r) 0) then (r, false)
        else if negb (N.eqb (r_coord r) (N.of_nat cs)) then (r, false)
        else reader_seek fs (Some 0)
               (mkReader (r_frames r) base (r_file r) (r_current r) (r_coord r) (r_body r) (r_box r)
                  (r_colors r) (r_masses r))
    end.

  (** nbody_data_stream_reader.cpp:199-211, 281-288: the getters *)
  Definition reader_frame_count (r : reader) : nat := length (r_frames r).
  Definition last_item (r : reader) : option item := nth_error (rev (r_frames r)) 0.
  Definition reader_steps_count (r : reader) : N :=
    match last_item r with Some i => it_step i | None => 0%N end.
  Definition reader_last_file_n (r : reader) : N :=
    match last_item r with Some i => it_file i | None => 0%N end.

  (** [read(buffer, n) == n]: the first bytes of [buffer] are overwritten by what there is *)
  Definition read_bytes (fs : files) (name : text) (pos n : nat) (buffer : text) : text * nat * bool :=
    let got := firstn n (skipn pos (contents fs name)) in
    (got ++ skipn (length got) buffer, pos + length got, Nat.eqb (length got) n).

  (** nbody_data_stream_reader.cpp:74-89, 91-106, [read_colors], [read_masses] *)
  Definition read_array (fs : files) (name : text) (n : nat) (buffer : text) : text * bool :=
    match fs name with
    | None => (buffer, false)
    | Some _ => let '(b, _, good) := read_bytes fs name 0 n buffer in (b, good)
    end.

  (** nbody_data_stream_reader.cpp:290-349, [read]; the boolean is whether it returns 0 *)
  Definition reader_read (fs : files) (b : bdata) (r : reader) : option (reader * bdata * bool) :=
    if negb (N.eqb (N.of_nat (d_count b)) (r_body r)) then Some (r, b, false) else
    let (r, good) := reader_seek fs (r_current r) r in
    if negb good then Some (r, b, false) else
    match r_current r with
    | None => None                                      (* m_frames[SIZE_MAX] *)
    | Some cur =>
        let* frame := rd (r_frames r) cur in
        match r_file r with
        | None => Some (r, b, false)
        | Some (name, pos) =>
            let sz := 3 * cs * d_count b in
            let '(vert, pos, good) := read_bytes fs name pos sz (d_vert b) in
            let b := mkBdata (d_count b) (d_step b) (d_time b) (d_box b) vert (d_velo b) (d_mass b) (d_color b) in
            let r := set_rfile r (Some (name, pos)) (r_current r) in
            if negb good then Some (r, b, false) else
            let '(velo, pos, good) := read_bytes fs name pos sz (d_velo b) in
            let b := mkBdata (d_count b) (d_step b) (d_time b) (d_box b) vert velo (d_mass b) (d_color b) in
            let r := set_rfile r (Some (name, pos)) (r_current r) in
            if negb good then Some (r, b, false) else
            let b := mkBdata (d_count b) (it_step frame) (it_time frame) (d_box b) (d_vert b) (d_velo b)
                       (d_mass b) (d_color b) in
            let (r, _) := if Nat.ltb cur (length (r_frames r) - 1)
                          then reader_seek fs (Some (cur + 1)) r else (r, true) in
            let (color, good) :=
              if r_colors r then (d_color b, true)
              else read_array fs (make_col_name (r_base r)) (16 * d_count b) (d_color b) in
            let r := mkReader (r_frames r) (r_base r) (r_file r) (r_current r) (r_coord r) (r_body r)
                       (r_box r) (orb (r_colors r) good) (r_masses r) in
            let (mass, good) :=
              if r_masses r then (d_mass b, true)
              else read_array fs (make_mass_name (r_base r)) (cs * d_count b) (d_mass b) in
            let r := mkReader (r_frames r) (r_base r) (r_file r) (r_current r) (r_coord r) (r_body r)
                       (r_box r) (r_colors r) (orb (r_masses r) good) in
            Some (r, mkBdata (d_count b) (d_step b) (d_time b) (d_box b) (d_vert b) (d_velo b) mass color,
                  true)
        end
    end.
End Stream.
