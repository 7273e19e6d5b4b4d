(** The buffer operations of the CUDA and OpenCL engines on several devices:
    nbody/nbody_engine_cuda.cpp:249-503 with nbody/nbody_engine_cuda_impl.cu:716-817, and
    nbody/nbody_engine_opencl.cpp:714-741, 1210-1493 with nbody/nbody_engine_opencl.cl:510-593.

    A device's memory is the list of its copies of all buffers (array number = buffer number).  A
    kernel is one program per thread; one kernel is one round.  The checks that an argument is not
    null and belongs to this engine are not modelled; index arithmetic is in [nat].  The OpenCL
    program is compiled with relaxed floating-point rules; its arithmetic is that of [U] here. *)
From Coq Require Import ZArith List Arith Bool.
From Verif Require Import Num Arr ModelEngine ModelParallel SpecPar SpecGpu ModelGpu ModelGpuForce.
Import ListNotations.
Set Implicit Arguments.

Section Kernels.
  Context {T : Type} (U : NumOps T).

  (** nbody_engine_cuda_impl.cu:743-746, 758-762, 782-786, 800-804: [count / 64] blocks of 64
      threads; the pointers passed are shifted by [off] *)
  Definition cuda_kernel (P : nat -> prog T) (off count : nat) : list (prog T) :=
    map (fun i => P (off + i)) (seq 0 (cuda_launched count)).
  (** [cl::EnqueueArgs(queue, global_range, local_range)]: refused by the run time ([None]) when
      the local range does not divide the global range *)
  Definition opencl_kernel (local : nat) (P : nat -> prog T) (off count : nat) : option (list (prog T)) :=
    if Nat.eqb (count mod local) 0 then Some (map (fun i => P (off + i)) (seq 0 count)) else None.

  (** nbody_engine_cuda_impl.cu:766-777, nbody_engine_opencl.cl:545-556 *)
  Definition k_fmadd_inplace_corr (a corr b : nat) (c : T) (i : nat) : prog T :=
    PRd b i (fun bi =>
      let term := nmul U bi c in
      PRd a i (fun ai => PRd corr i (fun ci =>
        let corrected := nsub U term ci in
        let new_sum := nadd U ai corrected in
        PWr corr i (nsub U (nsub U new_sum ai) corrected) (PWr a i new_sum PRet)))).

  (** nbody_engine_opencl.cl:567-592; array 0 is [a], array 1 is [result].  The loop runs
      [block] times; [r] starts from the first cell. *)
  Fixpoint k_max_loop (alast cnt aindex : nat) (r : T) (k : T -> prog T) : prog T :=
    match cnt with
    | O => k r
    | S cnt =>
        if Nat.ltb aindex alast then
          PRd 0 aindex (fun v =>
            let v := nabs U v in
            k_max_loop alast cnt (S aindex) (if nltb U r v then v else r) k)
        else k_max_loop alast cnt (S aindex) r k
    end.
  Definition k_fmaxabs (block aoff alast roff i : nat) : prog T :=
    let first := i * block + aoff in
    if Nat.leb alast first then PRet
    else PRd 0 first (fun v =>
      k_max_loop alast block first (nabs U v) (fun r => PWr 1 (i + roff) r PRet)).
End Kernels.

(** What a solver asks of an engine (nbody/nbody_engine.h); buffers are given by number.
    [fmaddn] and [fmaddn_inplace] are not in the list: both engines inherit them from
    nbody_engine.cpp:47-113, where they are sequences of the operations below. *)
Inductive gop {T : Type} : Type :=
| OFill (a : nat) (value : T)
| OCopy (a b : nat)
| OFmaddInplace (a b : nat) (c : T)
| OFmadd (a b c : nat) (d : T)
| OFmaddnCorr (a corr : nat) (b : list nat) (c : list T)
| OClamp (y : nat) (b : T)
| OFcompute (y f : nat).
Arguments gop : clear implicits.

(** A solver as the sequence of its requests; what it does next may depend on the numbers it got
    back ([fmaxabs], [read_buffer]). *)
Inductive client {T : Type} : Type :=
| Done : client
| Do (o : gop T) (k : client) : client
| MaxAbs (a : nat) (k : T -> client) : client
| ReadBuffer (a : nat) (k : list T -> client) : client.
Arguments client : clear implicits.

(** The CPU engine (nbody/nbody_engine_simple.cpp) serving such a client; [force y f] is its
    [fcompute]. *)
Section Cpu.
  Context {T : Type} (U : NumOps T) (count : nat) (force : list T -> list T -> option (list T)).
  Let ps := problem_size count.

  Fixpoint rds (s : mem T) (l : list nat) : option (list (list T)) :=
    match l with
    | [] => Some []
    | a :: l => let* x := rd s a in let* r := rds s l in Some (x :: r)
    end.
  Definition cpu_op (o : gop T) (s : mem T) : option (mem T) :=
    match o with
    | OFill a v => let* x := rd s a in let* x := fill_buffer x v in wr s a x
    | OCopy a b => let* x := rd s a in let* y := rd s b in let* x := copy_buffer ps x y in wr s a x
    | OFmaddInplace a b c =>
        let* x := rd s a in let* y := rd s b in let* x := fmadd_inplace U ps x y c in wr s a x
    | OFmadd a b c d =>
        let* x := rd s a in let* y := rd s b in let* z := rd s c in
        let* x := fmadd U ps x y z d in wr s a x
    | OFmaddnCorr a corr b c =>
        let* x := rd s a in let* w := rd s corr in let* ys := rds s b in
        let* r := fmaddn_corr U ps x w ys c (length c) in
        let* s := wr s a (fst r) in wr s corr (snd r)
    | OClamp y b => let* x := rd s y in let* x := engine_clamp U count b x in wr s y x
    | OFcompute y f =>
        let* x := rd s y in let* w := rd s f in let* w := force x w in wr s f w
    end.
  Fixpoint cpu_run (p : client T) (s : mem T) : option (mem T) :=
    match p with
    | Done => Some s
    | Do o k => let* s := cpu_op o s in cpu_run k s
    | MaxAbs a k => let* x := rd s a in let* r := fmaxabs U ps x in cpu_run (k r) s
    | ReadBuffer a k => let* x := rd s a in cpu_run (k x) s
    end.
End Cpu.

(** The devices serving the same client *)
Inductive engine_kind : Type :=
| Cuda
(** [same_context]: [is_all_in_same_context()], nbody_engine_opencl.cpp:521-524 *)
| OpenCL (same_context : bool).

Section Devices.
  Context {T : Type} (U : NumOps T) (kind : engine_kind) (device_count count block : nat)
          (mass : list T).
  Let size := problem_size count.
  Let dev_count := size / device_count.

  (** the kernel on the cells that belong to device [dev_n] *)
  Definition own_kernel (P : nat -> prog T) (dev_n : nat) : option (list (prog T)) :=
    match kind with
    | Cuda => Some (cuda_kernel P (dev_count * dev_n) dev_count)
    | OpenCL _ => opencl_kernel block P (dev_n * dev_count) dev_count
    end.
  (** nbody_engine_opencl.cpp:212-216, [alloc_size], in cells *)
  Definition alloc_cells (n : nat) : nat := 64 * (1 + (n - 1) / 64).

  Fixpoint corr_kernels (a corr : nat) (bs : list nat) (cs : list T) (dev_n : nat)
    : option (list (list (prog T))) :=
    match cs, bs with
    | c :: cs, b :: bs =>
        let* r := corr_kernels a corr bs cs dev_n in
        if neqb U c (nlit U 0) then Some r
        else let* k := own_kernel (k_fmadd_inplace_corr U a corr b c) dev_n in Some (k :: r)
    | _, _ => Some []
    end.

  (** The kernels one device runs; [None]: refused. *)
  Definition device_rounds (o : gop T) (dev_n : nat) : option (list (list (prog T))) :=
    match o with
    | OFill a v =>
        match kind with
        (* nbody_engine_cuda.cpp:357-374, nbody_engine_cuda_impl.cu:716-721 *)
        | Cuda => Some [map (omp_fill a v) (seq 0 size)]
        (* nbody_engine_opencl.cpp:1306-1330, nbody_engine_opencl.cl:527-534 *)
        | OpenCL _ => let* k := opencl_kernel block (omp_fill a v) 0 (alloc_cells size) in Some [k]
        end
    | OCopy a b =>
        (* nbody_engine_cuda.cpp:326-355; nbody_engine_opencl.cpp:1284-1296 *)
        Some [map (omp_copy a b) (seq 0 size)]
    | OFmaddInplace a b c =>
        (* nbody_engine_cuda.cpp:376-403; nbody_engine_opencl.cpp:1332-1364 *)
        let* k := own_kernel (omp_fmadd_inplace U a b c) dev_n in Some [k]
    | OFmadd a b c d =>
        (* nbody_engine_cuda.cpp:456-490; nbody_engine_opencl.cpp:1366-1404 *)
        let* k := own_kernel (omp_fmadd U a b c d) dev_n in Some [k]
    | OFmaddnCorr a corr b c =>
        (* nbody_engine_cuda.cpp:405-454; nbody_engine_opencl.cpp:1406-1459 *)
        if Nat.ltb (length b) (length c) then Some [] else corr_kernels a corr b c dev_n
    | OClamp y b =>
        match kind with
        (* nbody_engine_cuda.cpp:249-265, nbody_engine_cuda_impl.cu:724-747 *)
        | Cuda => Some [cuda_kernel (omp_clamp U y count b) 0 count]
        (* nbody_engine_opencl.cpp:714-740, nbody_engine_opencl.cl:511-524 *)
        | OpenCL _ => let* k := opencl_kernel block (omp_clamp U y count b) 0 count in Some [k]
        end
    | OFcompute _ _ => None
    end.

  Definition all_some {A} (f : nat -> option A) (good : list A -> Prop) : Prop :=
    exists l, length l = device_count /\
      (forall dev, dev < device_count -> f dev = nth_error l dev) /\ good l.

  (** every device runs its rounds on its own memory *)
  Definition run_kernels (rounds : nat -> option (list (list (prog T)))) (ms : list (mem T))
    (good : list (mem T) -> Prop) : Prop :=
    all_some rounds (fun rs => every_device (combine rs ms) good).

  (** the device memories with buffer [a] replaced by [bufs] (one copy per device) *)
  Definition put (a : nat) (bufs : mem T) (ms : list (mem T)) : list (mem T) :=
    map (fun bm => match wr (snd bm) a (fst bm) with Some m => m | None => snd bm end)
      (combine bufs ms).
  (** [copy_buffer] through the host, nbody_engine_opencl.cpp:1297-1303 *)
  Definition host_copy (a b : nat) (ms : list (mem T)) (good : list (mem T) -> Prop) : Prop :=
    forall host, length host = size ->
    exists h bufs,
      gpu_read_buffer (map (fun m => nth b m []) ms) host = Some h /\
      gpu_write_buffer (map (fun m => nth a m []) ms) h = Some bufs /\
      good (put a bufs ms).

  (** nbody_engine_cuda.cpp:217-221, 242-245; nbody_engine_opencl.cpp:682-686, 708-712: by
      device-to-device transfers or through the host, and only if there are several devices *)
  Definition run_sync_y (ys : mem T) (good : mem T -> Prop) : Prop :=
    if Nat.ltb 1 device_count then
      match kind with
      | OpenCL false => forall host, length host = size ->
          exists ys', host_sync_y ys host = Some ys' /\ good ys'
      | _ => every_round (sync_y device_count size) ys good
      end
    else good ys.
  Definition run_sync_f (fs : mem T) (good : mem T -> Prop) : Prop :=
    if Nat.ltb 1 device_count then
      match kind with
      | OpenCL false => forall host, length host = size ->
          exists fs', host_sync_f fs host = Some fs' /\ good fs'
      | _ => every_round (sync_f device_count size) fs good
      end
    else good fs.
  (** nbody_engine_cuda.cpp:201-247, nbody_engine_opencl.cpp:654-713 *)
  Definition force_kernels (dev_n : nat) : option (list (list (prog T))) :=
    match kind with
    | Cuda => Some (cuda_device U count block device_count dev_n)
    | OpenCL _ => opencl_device U count block device_count dev_n
    end.
  Definition run_fcompute (y f : nat) (ms : list (mem T)) (good : list (mem T) -> Prop) : Prop :=
    forall scratch : nat -> list (list T), (forall dev, buffers (scratch dev) 13 block) ->
    run_sync_y (map (fun m => nth y m []) ms) (fun ys =>
      all_some force_kernels (fun rs =>
        every_device
          (map (fun dev => (nth dev rs [],
             device_memory (nth dev ys []) (nth f (nth dev ms []) []) mass (scratch dev)))
             (seq 0 device_count))
          (fun ds =>
            run_sync_f (map (fun m => nth aF m []) ds) (fun fs =>
              good (put f fs (put y (map (fun m => nth aY m []) ds) ms)))))).

  Definition run_op (o : gop T) (ms : list (mem T)) (good : list (mem T) -> Prop) : Prop :=
    match o, kind with
    | OFcompute y f, _ => run_fcompute y f ms good
    | OCopy a b, OpenCL false => host_copy a b ms good
    | _, _ => run_kernels (device_rounds o) ms good
    end.

  (** [std::max_element] over a non-empty range *)
  Definition max_element (l : list T) : option T :=
    match l with
    | [] => None
    | x :: l => Some (fold_left (fun r v => if nltb U r v then v else r) l x)
    end.
  (** [thrust::minmax_element] over a non-empty range, and nbody_engine_cuda_impl.cu:808-817 *)
  Definition minmax_abs (l : list T) : option T :=
    match l with
    | [] => None
    | x :: l =>
        let mn := fold_left (fun r v => if nltb U v r then v else r) l x in
        let mx := fold_left (fun r v => if nltb U r v then v else r) l x in
        let p := nabs U mn in let q := nabs U mx in
        Some (if nltb U p q then q else p)
    end.
  (** nbody_engine_cuda.cpp:492-524; each device looks at its own cells *)
  Definition cuda_fmaxabs (a : nat) (ms : list (mem T)) (good : T -> Prop) : Prop :=
    if Nat.eqb size 0 then good (nlit U 0)
    else
      all_some (fun dev => minmax_abs (firstn dev_count (skipn (dev_count * dev) (nth a (nth dev ms []) []))))
        (fun devmax => exists r, max_element devmax = Some r /\ good r).
  (** nbody_engine_opencl.cpp:1461-1493; [out] is a fresh buffer on every device *)
  Definition opencl_fmaxabs (a : nat) (ms : list (mem T)) (good : T -> Prop) : Prop :=
    let rsize := size / block in
    let rdev := rsize / device_count in
    forall (out : mem T) (host : list T), buffers out device_count rsize -> length host = rsize ->
    all_some (fun dev =>
        opencl_kernel 4 (k_fmaxabs U block (dev * dev_count) (dev * dev_count + dev_count) (dev * rdev))
          0 rsize)
      (fun rs => every_device
        (map (fun dev => ([nth dev rs []], [nth a (nth dev ms []) []; nth dev out []])) (seq 0 device_count))
        (fun ds => exists h r, gpu_read_buffer (map (fun m => nth 1 m []) ds) host = Some h /\
                               max_element h = Some r /\ good r)).
  Definition run_max (a : nat) (ms : list (mem T)) (good : T -> Prop) : Prop :=
    match kind with
    | Cuda => cuda_fmaxabs a ms good
    | OpenCL _ => opencl_fmaxabs a ms good
    end.

  (** the client, from device memories [ms]; [good] holds of the memories it leaves, whatever the
      schedules *)
  Fixpoint gpu_run (p : client T) (ms : list (mem T)) (good : list (mem T) -> Prop) : Prop :=
    match p with
    | Done => good ms
    | Do o k => run_op o ms (fun ms => gpu_run k ms good)
    | MaxAbs a k => run_max a ms (fun r => gpu_run (k r) ms good)
    | ReadBuffer a k => forall host, length host = size ->
        exists h, gpu_read_buffer (map (fun m => nth a m []) ms) host = Some h /\ gpu_run (k h) ms good
    end.
End Devices.
