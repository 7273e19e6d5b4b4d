(** The grids of the dense force kernels: the same launches as in ModelGpuForce.v, block by block.  Each entry is the list of
    rounds of one block; SpecGrid.v says how blocks run at the same time. *)
From Coq Require Import List Arith.
From Verif Require Import Num ModelParallel ModelGpuForce.
Import ListNotations.
Set Implicit Arguments.

Section Grid.
  Context {T : Type} (U : NumOps T).
  Variables (stride block_dim : nat).

  (** nbody_engine_cuda_impl.cu:120-129 ([fcompute_block]): [count / block_size] blocks of [kfcompute] *)
  Definition cuda_block_grid (dev_off dev_count : nat) : list (list (list (prog T))) :=
    map (fun b => k_block U stride block_dim (fun n1 tid => k_store_v stride n1 tid PRet) stride (block_dim * b + dev_off))
      (seq 0 (dev_count / block_dim)).
  (** nbody_engine_cuda_impl.cu:10-35 ([kfcompute_xyz], [fcompute_xyz]), called with [y + dev_off], [f + dev_off] *)
  Definition cuda_xyz_grid (dev_off dev_count : nat) : list (list (list (prog T))) :=
    map (fun b => [map (fun tid => k_store_r stride (dev_off + (block_dim * b + tid)) PRet) (seq 0 block_dim)])
      (seq 0 (dev_count / block_dim)).
  (** nbody_engine_cuda.cpp:224-240: both kernels of device [dev_n]; the second one is queued behind the first, here their
      blocks may even run at the same time *)
  Definition cuda_grid (device_count dev_n : nat) : list (list (list (prog T))) :=
    let dev_count := stride / device_count in
    let dev_off := dev_count * dev_n in
    cuda_block_grid dev_off dev_count ++ cuda_xyz_grid dev_off dev_count.
  (** nbody_engine_opencl.cpp:680-695 *)
  Definition opencl_grid (device_count dev_n : nat) : option (list (list (list (prog T)))) :=
    let device_data_size := stride / device_count in
    let offset := dev_n * device_data_size in
    if Nat.eqb (device_data_size mod block_dim) 0 then
      Some (map (fun b => k_block U stride block_dim (fun n1 tid => k_store_r stride n1 (k_store_v stride n1 tid PRet)) stride
                            (block_dim * b + offset)) (seq 0 (device_data_size / block_dim)))
    else None.
End Grid.
