(** The dense force kernels: nbody/nbody_engine_cuda_impl.cu ([kfcompute], [kfcompute_xyz]) and
    nbody/nbody_engine_opencl.cl ([ComputeBlockLocal]).

    One thread block runs in rounds separated by its barriers ([__syncthreads], [barrier]); within
    a round the actions of its threads interleave in every way.  A thread's registers are cells
    that only this thread uses.  The blocks of a grid run one after another here; ModelGpuGrid.v
    has the same grids with blocks that run at the same time, and C87 proves the two agree.  Index arithmetic is in [nat]: the
    32-bit [int] of the kernels does not overflow. *)
From Coq Require Import ZArith List Arith.
From Verif Require Import Num Arr ModelVertex ModelParallel ModelGpu.
Import ListNotations.
Set Implicit Arguments.

(** the memory of one device as its kernels see it: [y], [f], the masses, and the shared memory and
    registers of the running block (nothing is known of their initial contents) *)
Definition device_memory {T} (y f mass : list T) (scratch : list (list T)) : mem T :=
  y :: f :: mass :: scratch.

(** arrays of one device: global memory, *)
Definition aY : nat := 0.
Definition aF : nat := 1.
Definition aM : nat := 2.
(** the block's shared memory x2, y2, z2, m2 (one cell per thread), *)
Definition sX : nat := 3.
Definition sY : nat := 4.
Definition sZ : nat := 5.
Definition sM : nat := 6.
(** and the registers x1, y1, z1, res_x, res_y, res_z, local_res_x, local_res_y, local_res_z of
    all threads of the block *)
Definition gX : nat := 7.
Definition gY : nat := 8.
Definition gZ : nat := 9.
Definition rX : nat := 10.
Definition rY : nat := 11.
Definition rZ : nat := 12.
Definition lX : nat := 13.
Definition lY : nat := 14.
Definition lZ : nat := 15.

Section Kernel.
  Context {T : Type} (U : NumOps T).

  (** nbody_engine_cuda_impl.cu:83-104, nbody_engine_opencl.cl:56-78: the contribution of one
      body of the tile *)
  Definition gpu_pair (v1 v2 : vec3 T) (m2 : T) (local_res : vec3 T) : vec3 T :=
    let dx := nsub U (vx v1) (vx v2) in
    let dy := nsub U (vy v1) (vy v2) in
    let dz := nsub U (vz v1) (vz v2) in
    let r2 := nadd U (nadd U (nmul U dx dx) (nmul U dy dy)) (nmul U dz dz) in
    let r2 := if nltb U r2 (nmind U) then nmind U else r2 in
    let r := nsqrt U r2 in
    let coeff := ndiv U m2 (nmul U r r2) in
    V3 (nsub U (vx local_res) (nmul U dx coeff))
       (nsub U (vy local_res) (nmul U dy coeff))
       (nsub U (vz local_res) (nmul U dz coeff)).

  Variables (stride block_dim : nat).

  (** nbody_engine_cuda_impl.cu:40-52, nbody_engine_opencl.cl:26-32 *)
  Definition k_init (n1 tid : nat) (k : prog T) : prog T :=
    PRd aY n1 (fun v => PWr gX tid v (
    PRd aY (stride + n1) (fun v => PWr gY tid v (
    PRd aY (2 * stride + n1) (fun v => PWr gZ tid v (
    PWr rX tid (nlit U 0) (PWr rY tid (nlit U 0) (PWr rZ tid (nlit U 0) k)))))))).

  (** nbody_engine_cuda_impl.cu:63-69, nbody_engine_opencl.cl:42-48: each thread copies one body of
      the tile that starts at [b2] ([offset_n2] is 0 in the only call,
      nbody_engine_opencl.cpp:690-693) *)
  Definition k_load (b2 tid : nat) (k : prog T) : prog T :=
    let n2 := b2 + tid in
    PRd aY n2 (fun v => PWr sX tid v (
    PRd aY (stride + n2) (fun v => PWr sY tid v (
    PRd aY (2 * stride + n2) (fun v => PWr sZ tid v (
    PRd aM n2 (fun v => PWr sM tid v k))))))).

  (** nbody_engine_cuda_impl.cu:74-105, nbody_engine_opencl.cl:53-79 *)
  Fixpoint k_tile (v1 : vec3 T) (cnt n2 : nat) (local_res : vec3 T) (k : vec3 T -> prog T) : prog T :=
    match cnt with
    | O => k local_res
    | S cnt =>
        PRd sX n2 (fun x => PRd sY n2 (fun y => PRd sZ n2 (fun z => PRd sM n2 (fun m =>
          k_tile v1 cnt (S n2) (gpu_pair v1 (V3 x y z) m local_res) k))))
    end.
  Definition k_compute (tid : nat) : prog T :=
    PRd gX tid (fun x => PRd gY tid (fun y => PRd gZ tid (fun z =>
      k_tile (V3 x y z) block_dim 0 (vzero U) (fun l =>
        PWr lX tid (vx l) (PWr lY tid (vy l) (PWr lZ tid (vz l) PRet)))))).

  (** nbody_engine_cuda_impl.cu:110-112, nbody_engine_opencl.cl:84-86 *)
  Definition k_accum (tid : nat) (k : prog T) : prog T :=
    PRd rX tid (fun r => PRd lX tid (fun l => PWr rX tid (nadd U r l) (
    PRd rY tid (fun r => PRd lY tid (fun l => PWr rY tid (nadd U r l) (
    PRd rZ tid (fun r => PRd lZ tid (fun l => PWr rZ tid (nadd U r l) k)))))))).

  (** nbody_engine_cuda_impl.cu:115-117, nbody_engine_opencl.cl:92-94 *)
  Definition k_store_v (n1 tid : nat) (k : prog T) : prog T :=
    PRd rX tid (fun r => PWr aF (n1 + 3 * stride) r (
    PRd rY tid (fun r => PWr aF (n1 + 4 * stride) r (
    PRd rZ tid (fun r => PWr aF (n1 + 5 * stride) r k))))).
  (** nbody_engine_opencl.cl:89-91, nbody_engine_cuda_impl.cu:22-24 (there [y] and [f] are shifted
      by the device's offset) *)
  Definition k_store_r (n1 : nat) (k : prog T) : prog T :=
    PRd aY (3 * stride + n1) (fun v => PWr aF n1 v (
    PRd aY (4 * stride + n1) (fun v => PWr aF (stride + n1) v (
    PRd aY (5 * stride + n1) (fun v => PWr aF (2 * stride + n1) v k))))).

  (** the loop over tiles: [rest] tiles remain, the one at [b2] is loaded *)
  Fixpoint k_tiles (store : nat -> prog T) (rest b2 : nat) : list (nat -> prog T) :=
    match rest with
    | O => []
    | S rest =>
        k_compute ::
        (fun tid => k_accum tid
           (match rest with O => store tid | S _ => k_load (b2 + block_dim) tid PRet end)) ::
        k_tiles store rest (b2 + block_dim)
    end.
  (** one block; [for(b2 = 0; b2 < points_count; b2 += blockDim.x)] runs
      ceil(points_count / block_dim) times *)
  Definition k_block (store : nat -> nat -> prog T) (points_count first_n1 : nat)
    : list (list (prog T)) :=
    let tiles := (points_count + block_dim - 1) / block_dim in
    let store := fun tid => store (first_n1 + tid) tid in
    map (fun P => map P (seq 0 block_dim))
      ((fun tid => k_init (first_n1 + tid) tid
          (match tiles with O => store tid | S _ => k_load 0 tid PRet end))
       :: k_tiles store tiles 0).

  (** nbody_engine_cuda_impl.cu:27-35, [fcompute_xyz], called with [y + dev_off], [f + dev_off] *)
  Definition cuda_xyz (dev_off dev_count : nat) : list (list (prog T)) :=
    [map (fun i => k_store_r (dev_off + i) PRet) (seq 0 (dev_count / block_dim * block_dim))].
  (** nbody_engine_cuda_impl.cu:120-129, [fcompute_block] *)
  Definition cuda_block (dev_off dev_count : nat) : list (list (prog T)) :=
    flat_map (fun b => k_block (fun n1 tid => k_store_v n1 tid PRet) stride
                         (block_dim * b + dev_off)) (seq 0 (dev_count / block_dim)).
  (** nbody_engine_cuda.cpp:224-240: the work of device [dev_n] out of [device_count] *)
  Definition cuda_device (device_count dev_n : nat) : list (list (prog T)) :=
    let dev_count := stride / device_count in
    let dev_off := dev_count * dev_n in
    cuda_block dev_off dev_count ++ cuda_xyz dev_off dev_count.

  (** nbody_engine_opencl.cpp:680-695: the same with one kernel.  A global range that is not a
      multiple of the local range is refused by the run time ([None]). *)
  Definition opencl_device (device_count dev_n : nat) : option (list (list (prog T))) :=
    let device_data_size := stride / device_count in
    let offset := dev_n * device_data_size in
    if Nat.eqb (device_data_size mod block_dim) 0 then
      Some (flat_map (fun b => k_block (fun n1 tid => k_store_r n1 (k_store_v n1 tid PRet)) stride
                                 (block_dim * b + offset)) (seq 0 (device_data_size / block_dim)))
    else None.
End Kernel.
