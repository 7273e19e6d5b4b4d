(** The GPU engine asked for on the command line: vocabulary. *)
From Coq Require Import Ascii String List NArith ZArith.
From Verif Require Import Num ModelText ModelData ModelBH ModelArgs ModelGpuArgs SpecArgs.
From Verif Require ModelDevices SpecDevices.
Import ListNotations.
Set Implicit Arguments.

(** an [int]: a decimal numeral means itself, a text that is no number means 0 *)
Definition wants_int (args : list text) (k : string) (default n : Z) : Prop :=
  (silent args k -> n = default) /\
  (forall w, (w < 2 ^ 31)%N -> says args k (show_N w) -> n = Z.of_N w) /\
  (forall w, (0 < w <= 2 ^ 31)%N -> says args k ("-"%char :: show_N w) -> n = (- Z.of_N w)%Z) /\
  (forall v, says args k v -> to_longlong v = None -> n = 0%Z).

(** devices that exist and work, named by the argument "device" *)
Definition wants_cuda (w : machine) (args : list text) (ids : list Z) : Prop :=
  exists s n, says_or args "device" (chars "0") s /\ mc_cuda w = Some n /\ SpecDevices.cuda_list n s ids.
Definition wants_opencl (w : machine) (args : list text) (devs : list ModelDevices.device) (same : bool) : Prop :=
  exists s entries gs, says_or args "device" (chars "0:0") s /\
    SpecDevices.words_of ";"%char s entries /\ Forall2 (SpecDevices.opencl_entry (mc_platforms w)) entries gs /\
    devs = SpecDevices.devices_from 0 gs /\
    (forall d, In d devs -> mc_works w (ModelDevices.dv_platform d) (ModelDevices.dv_number d) = true) /\
    (exists k, length devs = 2 ^ k) /\ (same = true <-> length gs = 1).
(** a tree in an array, with or without links *)
Definition wants_layout (args : list text) (tl : tree_layout) : Prop :=
  exists s, says_or args "tree_layout" (chars "heap") s /\
    (s = chars "heap" /\ tl = etl_heap \/ s = chars "heap_stackless" /\ tl = etl_heap_stackless).
Definition wants_traverse (args : list text) (tv : traverse_type) : Prop :=
  exists s, says_or args "traverse_type" (chars "cycle") s /\
    (s = chars "cycle" /\ tv = ett_cycle \/ s = chars "nested_tree" /\ tv = ett_nested_tree).

Section S.
  Context {T : Type} (U : NumOps T) (X : TextOps T).
  Inductive wants_gpu (cuda opencl : bool) (w : machine) (args : list text) : @gpu_object T -> Prop :=
  | wants_g_cuda ids b nccl : cuda = true -> says args "engine" (chars "cuda") ->
      wants_cuda w args ids -> wants_int args "block_size" 64 b -> wants_flag args "use_nccl" nccl ->
      wants_gpu cuda opencl w args (GCuda ids b nccl)
  | wants_g_cuda_bh ids b nccl ratio rate : cuda = true -> says args "engine" (chars "cuda_bh") ->
      wants_cuda w args ids -> wants_int args "block_size" 64 b -> wants_flag args "use_nccl" nccl ->
      wants_number U X args "distance_to_node_radius_ratio" (nlit U 10) ratio -> wants_N (2 ^ 64) args "tree_build_rate" 0 rate ->
      wants_gpu cuda opencl w args (GCudaBh ids b nccl ratio rate)
  | wants_g_cuda_bh_tex ids b nccl ratio rate tl : cuda = true -> says args "engine" (chars "cuda_bh_tex") ->
      wants_cuda w args ids -> wants_int args "block_size" 64 b -> wants_flag args "use_nccl" nccl ->
      wants_number U X args "distance_to_node_radius_ratio" (nlit U 10) ratio -> wants_N (2 ^ 64) args "tree_build_rate" 0 rate ->
      wants_layout args tl ->
      wants_gpu cuda opencl w args (GCudaBhTex ids b nccl ratio rate tl)
  | wants_g_opencl devs same b : opencl = true -> says args "engine" (chars "opencl") ->
      wants_opencl w args devs same -> wants_int args "block_size" 64 b ->
      wants_gpu cuda opencl w args (GOpencl devs same b)
  | wants_g_opencl_bh devs same b ratio tv rate tl : opencl = true -> says args "engine" (chars "opencl_bh") ->
      wants_opencl w args devs same -> wants_int args "block_size" 64 b ->
      wants_number U X args "distance_to_node_radius_ratio" (nlit U 10) ratio -> wants_N (2 ^ 64) args "tree_build_rate" 0 rate ->
      wants_layout args tl -> wants_traverse args tv ->
      wants_gpu cuda opencl w args (GOpenclBh devs same b ratio tv rate tl).
End S.
(** the number of work items of a block, by which the number of bodies is divided *)
Definition block_size {T : Type} (g : @gpu_object T) : Z :=
  match g with
  | GCuda _ b _ => b | GCudaBh _ b _ _ _ => b | GCudaBhTex _ b _ _ _ _ => b | GOpencl _ _ b => b | GOpenclBh _ _ b _ _ _ _ => b
  end.
