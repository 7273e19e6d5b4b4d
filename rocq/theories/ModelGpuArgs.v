(** The engine factory in a build with CUDA or OpenCL: nbody/nbody_engines.cpp:4-193.

    What the machine has: the number of CUDA devices ([None] when asking for it fails), the numbers of devices of the OpenCL platforms
    and which of them work.  Left out: the switches verbose and oclprof. *)
From Coq Require Import Ascii String List NArith ZArith Bool.
From Verif Require Import Num Arr ModelText ModelData ModelBH ModelArgs.
From Verif Require ModelDevices.
Import ListNotations.
Set Implicit Arguments.

Record machine := mkMachine { mc_cuda : option Z; mc_platforms : list nat; mc_works : nat -> nat -> bool }.

Section Factory.
  Context {T : Type} (U : NumOps T) (X : TextOps T).

  (** the engine objects of a GPU, with the devices, the block size and the arguments of their constructors *)
  Inductive gpu_object :=
  | GCuda (ids : list Z) (block_size : Z) (nccl : bool)
  | GCudaBh (ids : list Z) (block_size : Z) (nccl : bool) (ratio : T) (rate : N)
  | GCudaBhTex (ids : list Z) (block_size : Z) (nccl : bool) (ratio : T) (rate : N) (tl : tree_layout)
  | GOpencl (devs : list ModelDevices.device) (same_context : bool) (block_size : Z)
  | GOpenclBh (devs : list ModelDevices.device) (same_context : bool) (block_size : Z) (ratio : T) (tv : traverse_type) (rate : N) (tl : tree_layout).

  (** [param.value("block_size", NBODY_DATA_BLOCK_SIZE).toInt()]; nbtype.h:77 *)
  Definition block_size_of (m : params) : Z :=
    match lookup (chars "block_size") m with Some v => to_int v | None => 64%Z end.
  Definition ratio_of (m : params) : T := number U X m "distance_to_node_radius_ratio" (nlit U 10).
  Definition rate_of (m : params) : N := match lookup (chars "tree_build_rate") m with Some v => to_ull v | None => 0%N end.
  (** [tl != etl_heap && tl != etl_heap_stackless] *)
  Definition heap_layout (tl : tree_layout) : bool := match tl with etl_heap | etl_heap_stackless => true | _ => false end.
  (** nbody_engine_cuda.cpp:50: a new engine has the device 0 *)
  Definition new_cuda (w : machine) (devices : text) : option (list Z) :=
    let (ids, good) := ModelDevices.cuda_select (mc_cuda w) devices [0%Z] in if good then Some ids else None.
  (** nbody_engine_opencl.cpp:303-306 *)
  Definition new_opencl (w : machine) (devices : text) : option (list ModelDevices.device * bool) :=
    let (st, good) := ModelDevices.opencl_select (mc_platforms w) (mc_works w) devices ([], false) in if good then Some st else None.

  (** nbody_engines.cpp:21-39 *)
  Definition create_cuda (w : machine) (m : params) : option gpu_object :=
    let* ids := new_cuda w (value m "device" (chars "0")) in
    Some (GCuda ids (block_size_of m) (flag m "use_nccl" false)).
  (** 40-57 *)
  Definition create_cuda_bh (w : machine) (m : params) : option gpu_object :=
    let* ids := new_cuda w (value m "device" (chars "0")) in
    Some (GCudaBh ids (block_size_of m) (flag m "use_nccl" false) (ratio_of m) (rate_of m)).
  (** 58-87 *)
  Definition create_cuda_bh_tex (w : machine) (m : params) : option gpu_object :=
    let tl := tree_layout_from_str (value m "tree_layout" (chars "heap")) in
    if negb (heap_layout tl) then None else
    let* ids := new_cuda w (value m "device" (chars "0")) in
    Some (GCudaBhTex ids (block_size_of m) (flag m "use_nccl" false) (ratio_of m) (rate_of m) tl).
  (** 90-106 *)
  Definition create_opencl (w : machine) (m : params) : option gpu_object :=
    let* st := new_opencl w (value m "device" (chars "0:0")) in
    Some (GOpencl (fst st) (snd st) (block_size_of m)).
  (** 107-150 *)
  Definition create_opencl_bh (w : machine) (m : params) : option gpu_object :=
    let strtt := value m "traverse_type" (chars "cycle") in
    let tl := tree_layout_from_str (value m "tree_layout" (chars "heap")) in
    if negb (heap_layout tl) then None else
    let* tv := if text_eqb strtt (chars "cycle") then Some ett_cycle
               else if text_eqb strtt (chars "nested_tree") then Some ett_nested_tree
               else None in
    let* st := new_opencl w (value m "device" (chars "0:0")) in
    Some (GOpenclBh (fst st) (snd st) (block_size_of m) (ratio_of m) tv (rate_of m) tl).

  (** 4-193; [cuda] and [opencl] say whether HAVE_CUDA and HAVE_OPENCL are defined *)
  Definition create_any (cuda opencl : bool) (w : machine) (m : params) : option (@engine_object T + gpu_object) :=
    let type := value m "engine" [] in
    let is (s : string) := text_eqb type (chars s) in
    let gpu (o : option gpu_object) := let* g := o in Some (inr g) in
    if andb cuda (is "cuda"%string) then gpu (create_cuda w m)
    else if andb cuda (is "cuda_bh"%string) then gpu (create_cuda_bh w m)
    else if andb cuda (is "cuda_bh_tex"%string) then gpu (create_cuda_bh_tex w m)
    else if andb opencl (is "opencl"%string) then gpu (create_opencl w m)
    else if andb opencl (is "opencl_bh"%string) then gpu (create_opencl_bh w m)
    else let* e := create_engine U X m in Some (inl e).
End Factory.
