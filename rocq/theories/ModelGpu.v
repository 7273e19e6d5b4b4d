(** Several devices: how the CUDA and OpenCL engines bring the copies of a buffer together.
    nbody/nbody_engine_cuda.cpp and nbody/nbody_engine_opencl.cpp.

    A device buffer ([smemory]) has one copy per device: the copies are the arrays of a [mem]
    (array number = device number).  A transfer command is split into one program per cell, so
    that the commands of one round may interleave in every way; a round ends where the code waits
    ([stream_sync], [cl::Event::waitForEvents]).  Sizes and offsets count cells; the code counts
    bytes, so for [synchronize_y] and [synchronize_f] the cells are bytes.
    The branches that call the NCCL library are not modelled. *)
From Coq Require Import ZArith NArith List Arith Bool.
From Verif Require Import Num Arr ModelParallel.
Import ListNotations.
Set Implicit Arguments.

Section Copy.
  Context {A : Type}.

  (** source array and index, destination array and index *)
  Record cell := Cell { c_src : nat; c_si : nat; c_dst : nat; c_di : nat }.
  Definition cell_copy (c : cell) : prog A :=
    PRd (c_src c) (c_si c) (fun v => PWr (c_dst c) (c_di c) v PRet).
End Copy.

(** [cudaMemcpyAsync(dst + off, src + off, n)], [enqueueCopyBuffer(src, dst, off, off, n)] *)
Definition copy_1d (src dst off n : nat) : list cell :=
  map (fun i => Cell src (off + i) dst (off + i)) (seq 0 n).

(** [cudaMemcpy2DAsync(dst + off, pitch, src + off, pitch, width, rows)],
    [enqueueCopyBufferRect(src, dst, {off,0,0}, {off,0,0}, {width,rows,1}, pitch, 0, pitch, 0)] *)
Definition copy_2d (src dst off pitch width rows : nat) : list cell :=
  flat_map (fun row => copy_1d src dst (off + row * pitch) width) (seq 0 rows).

(** One round of the exchange: nbody_engine_cuda.cpp:646-668 and 704-727,
    nbody_engine_opencl.cpp:776-801 and 832-857.  [copy src dst off width] is the transfer
    command; [width] is [device_data_size] or [rect_row_size]. *)
Definition exchange_round (copy : nat -> nat -> nat -> nat -> list cell)
  (device_count shift_n width : nat) : list cell :=
  let group_size := 2 * shift_n in
  let group_count := device_count / group_size in
  flat_map (fun group =>
    let off1 := 2 * group * width in
    let off2 := off1 + width in
    flat_map (fun k =>
      let dev_n1 := group * group_size + k in
      let dev_n2 := dev_n1 + shift_n in
      copy dev_n1 dev_n2 off1 width ++ copy dev_n2 dev_n1 off2 width)
      (seq 0 shift_n)) (seq 0 group_count).

(** [for(shift_n = 1; shift_n < device_count; shift_n *= 2) { round; width *= 2; wait }].  The
    loop runs fewer than [device_count] times, which is the fuel given below. *)
Fixpoint exchange_loop (copy : nat -> nat -> nat -> nat -> list cell)
  (fuel device_count shift_n width : nat) : list (list cell) :=
  match fuel with
  | O => []
  | S fuel =>
      if Nat.ltb shift_n device_count then
        exchange_round copy device_count shift_n width ::
        exchange_loop copy fuel device_count (shift_n * 2) (width * 2)
      else []
  end.

(** nbody_engine_cuda.cpp:618-670 and nbody_engine_opencl.cpp:823-857, [synchronize_y] *)
Definition sync_y_cells (device_count size : nat) : list (list cell) :=
  exchange_loop copy_1d device_count device_count 1 (size / device_count).
(** nbody_engine_cuda.cpp:672-729 and nbody_engine_opencl.cpp:742-802, [synchronize_f] *)
Definition sync_f_cells (device_count data_size : nat) : list (list cell) :=
  let row_count := 6 in
  let device_data_size := data_size / device_count in
  let row_size := data_size / row_count in
  let rect_row_size := device_data_size / row_count in
  exchange_loop (fun src dst off width => copy_2d src dst off row_size width row_count)
    device_count device_count 1 rect_row_size.

Section Sync.
  Context {A : Type}.
  Definition sync_y (device_count size : nat) : list (list (prog A)) :=
    map (map cell_copy) (sync_y_cells device_count size).
  Definition sync_f (device_count size : nat) : list (list (prog A)) :=
    map (map cell_copy) (sync_f_cells device_count size).
End Sync.

(** nbody_engine_opencl.cpp:328-332 and 487-491: the device counts accepted by [select_devices].
    The CUDA engine (nbody_engine_cuda.cpp:576-616) accepts every count but zero. *)
Definition is_power_of_two (val : N) : bool :=
  (N.ltb 0 val && N.eqb (N.land val (val - 1)) 0)%bool.

(** [synchronize_sum].  Arrays [0 .. D-1] are the copies of [f], arrays [D .. 2D-1] those of
    [m_f_sync]. *)
Section Sum.
  Context {T : Type} (U : NumOps T).

  (** nbody_engine_cuda.cpp:762-769, nbody_engine_opencl.cpp:907-918 *)
  Definition sum_copy_cells (device_count size shift_n : nat) : list cell :=
    flat_map (fun dev_n1 =>
      let dev_n2 := (dev_n1 + shift_n) mod device_count in
      map (fun i => Cell dev_n1 i (device_count + dev_n2) i) (seq 0 size)) (seq 0 device_count).
  (** nbody_engine_cuda.cpp:770-778, nbody_engine_opencl.cpp:919-932: [f += f_sync * 1] on every
      device; [launched] is the number of threads of the kernel *)
  Definition sum_add_progs (device_count launched : nat) : list (prog T) :=
    flat_map (fun dev_n =>
      map (omp_fmadd_inplace U dev_n (device_count + dev_n) (nlit U 1)) (seq 0 launched))
      (seq 0 device_count).
  Fixpoint sum_loop (fuel device_count size launched shift_n : nat) : list (list (prog T)) :=
    match fuel with
    | O => []
    | S fuel =>
        if Nat.ltb shift_n device_count then
          map cell_copy (sum_copy_cells device_count size shift_n) ::
          sum_add_progs device_count launched ::
          sum_loop fuel device_count size launched (shift_n * 2)
        else []
    end.
  (** nbody_engine_cuda_impl.cu, [fmadd_inplace]: blocks of NBODY_DATA_BLOCK_SIZE = 64 threads,
      [count / 64] of them *)
  Definition cuda_launched (count : nat) : nat := count / 64 * 64.
  (** nbody_engine_cuda.cpp:731-782 *)
  Definition cuda_sync_sum (device_count size : nat) : list (list (prog T)) :=
    sum_loop device_count device_count size (cuda_launched size) 1.
  (** nbody_engine_opencl.cpp:866-934; the global range is [problem_size()] *)
  Definition opencl_sync_sum (device_count size problem_size : nat) : list (list (prog T)) :=
    sum_loop device_count device_count size problem_size 1.
End Sum.

(** The devices of OpenCL may lie in different contexts: the exchange then goes through the
    host. *)
Section Host.
  Context {T : Type} (U : NumOps T).

  (** copy [n] cells from [src + off] to [dst + off] *)
  Definition copy_range (dst src : list T) (off n : nat) : option (list T) :=
    for_ n off (fun i d => let* v := rd src i in wr d i v) dst.

  (** nbody_engine_opencl.cpp, [read_buffer]; nbody_engine_cuda.cpp, [read_buffer]: each device
      delivers its own segment of [size / D] cells *)
  Definition gpu_read_buffer (devs : mem T) (host : list T) : option (list T) :=
    let device_count := length devs in
    for_ device_count 0
      (fun dev_n h =>
         let* b := rd devs dev_n in
         let device_data_size := length b / device_count in
         copy_range h b (dev_n * device_data_size) device_data_size) host.

  (** [write_buffer] of both engines: the whole host buffer goes to every device *)
  Definition gpu_write_buffer (devs : mem T) (host : list T) : option (mem T) :=
    for_ (length devs) 0
      (fun dev_n m =>
         let* b := rd m dev_n in
         let* b := copy_range b host 0 (length b) in
         wr m dev_n b) devs.

  (** nbody_engine_opencl.cpp:858-863; [garbage] is the uninitialised host buffer *)
  Definition host_sync_y (devs : mem T) (garbage : list T) : option (mem T) :=
    let* h := gpu_read_buffer devs garbage in gpu_write_buffer devs h.

  (** nbody_engine_opencl.cpp:803-820 *)
  Definition read_rect (h b : list T) (off pitch width rows : nat) : option (list T) :=
    for_ rows 0 (fun row h => copy_range h b (off + row * pitch) width) h.
  Definition host_sync_f (devs : mem T) (garbage : list T) : option (mem T) :=
    let device_count := length devs in
    let* h :=
      for_ device_count 0
        (fun dev_n h =>
           let* b := rd devs dev_n in
           let row_size := length b / 6 in
           let rect_row_size := length b / device_count / 6 in
           read_rect h b (dev_n * rect_row_size) row_size rect_row_size 6) garbage in
    gpu_write_buffer devs h.

  (** nbody_engine_opencl.cpp:936-957 *)
  Definition host_sum_cell (bufs : mem T) (i : nat) (b0 : list T) : option (list T) :=
    for_ (length bufs - 1) 1
      (fun dev_n b0 =>
         let* x := rd b0 i in
         let* b := rd bufs dev_n in
         let* v := rd b i in
         wr b0 i (nadd U x v)) b0.
  Definition host_sync_sum (devs : mem T) (size : nat) : option (mem T) :=
    let* b0 := rd devs 0 in
    let* s := for_ size 0 (host_sum_cell devs) b0 in
    gpu_write_buffer devs s.
End Host.
