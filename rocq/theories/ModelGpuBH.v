(** The Barnes-Hut engines of CUDA and OpenCL: nbody/nbody_engine_cuda_impl.cu:130-714 with
    nbody/nbody_engine_cuda_bh.cpp and nbody/nbody_engine_cuda_bh_tex.cpp, and
    nbody/nbody_engine_opencl.cl:96-508 with nbody/nbody_engine_opencl.cpp:959-1193 and
    nbody/nbody_engine_opencl_bh.cpp.

    The tree is built on the host ([heap_build]) and copied to every device; between two builds
    every device refreshes its own copy.  Kernels are one program per thread, one kernel is one
    round (see ModelGpuForce, ModelGpuOps).  Index arithmetic is in [nat]; [min] and [max] of the
    devices are taken to be those of the C++ library. *)
From Coq Require Import ZArith List Arith Bool.
From Verif Require Import Num Arr ModelVertex ModelEngine ModelTree ModelHeap ModelBH ModelParallel SpecPar
  SpecGpu ModelGpu ModelGpuForce ModelGpuOps.
Import ListNotations.
Set Implicit Arguments.

(** arrays of one device: [y], [f] (as in ModelGpuForce), then the copy of the tree: *)
Definition tX : nat := 2.   (* tree_cmx, or tree_xyzr *)
Definition tY : nat := 3.   (* tree_cmy *)
Definition tZ : nat := 4.   (* tree_cmz *)
Definition tR : nat := 5.   (* tree_crit_r2 *)
Definition tM : nat := 6.   (* tree_mass *)
Definition nX : nat := 7.   (* bmin_cmx .. bmin_cmz *)
Definition nY : nat := 8.
Definition nZ : nat := 9.
Definition xX : nat := 10.  (* bmax_cmx .. bmax_cmz *)
Definition xY : nat := 11.
Definition xZ : nat := 12.
(** no such array: what a thread accesses when the code would run into undefined behaviour *)
Definition nowhere : nat := 13.

(** where the centre and the critical radius of a node are: (array, index) *)
Record layout : Type := Layout { at_x : nat -> nat * nat; at_y : nat -> nat * nat;
                                 at_z : nat -> nat * nat; at_r : nat -> nat * nat }.
(** one array per coordinate: OpenCL and nbody_engine_cuda_bh *)
Definition plain : layout :=
  Layout (fun i => (tX, i)) (fun i => (tY, i)) (fun i => (tZ, i)) (fun i => (tR, i)).
(** vectors (x, y, z, r2) in one array, read as a texture: nbody_engine_cuda_bh_tex
    (arrays [tY], [tZ], [tR] are not used) *)
Definition texture : layout :=
  Layout (fun i => (tX, 4 * i)) (fun i => (tX, 4 * i + 1)) (fun i => (tX, 4 * i + 2))
         (fun i => (tX, 4 * i + 3)).

Section Kernels.
  Context {T : Type} (U : NumOps T) (lay : layout).

  Definition ld (l : nat * nat) (k : T -> prog T) : prog T := PRd (fst l) (snd l) k.
  Definition st (l : nat * nat) (v : T) (k : prog T) : prog T := PWr (fst l) (snd l) v k.
  Definition stuck : prog T := PRd nowhere 0 (fun _ => PRet).

  (** nbody_engine_opencl.cl:140-163 (and the same lines of the other kernels),
      nbody_engine_cuda_impl.cu:166-189, 282-306, 369-393: one node of the walk; [yes] goes on
      with the new sum, [no] is taken when the node is too close *)
  Definition bh_node (v1 : vec3 T) (curr : nat) (res : vec3 T) (yes : vec3 T -> prog T) (no : prog T)
    : prog T :=
    ld (at_x lay curr) (fun x => ld (at_y lay curr) (fun y => ld (at_z lay curr) (fun z =>
    let dx := nsub U (vx v1) x in
    let dy := nsub U (vy v1) y in
    let dz := nsub U (vz v1) z in
    let r2 := nadd U (nadd U (nmul U dx dx) (nmul U dy dy)) (nmul U dz dz) in
    ld (at_r lay curr) (fun crit_r2 =>
      if nltb U crit_r2 r2 then
        let r2 := if nltb U r2 (nmind U) then nmind U else r2 in
        let r := nsqrt U r2 in
        PRd tM curr (fun m =>
          let coeff := ndiv U m (nmul U r r2) in
          yes (V3 (nsub U (vx res) (nmul U dx coeff))
                  (nsub U (vy res) (nmul U dy coeff))
                  (nsub U (vz res) (nmul U dz coeff))))
      else no)))).

  (** [if(idx < tree_size) stack_data[stack++] = idx] on an array of MAX_STACK_SIZE = 64 entries
      (nbody_engine_opencl.cl:96, nbody_engine_cuda_impl.cu:130) *)
  Definition push_if (idx tree_size : nat) (stack : list nat) : option (list nat) :=
    if Nat.ltb idx tree_size then push idx stack else Some stack.

  (** nbody_engine_opencl.cl:131-178, nbody_engine_cuda_impl.cu:157-204, 273-321: left is pushed
      before right.  Every iteration visits another node: [tree_size] of them are enough. *)
  Fixpoint walk_stack (v1 : vec3 T) (tree_size fuel : nat) (stack : list nat) (res : vec3 T)
    (k : vec3 T -> prog T) : prog T :=
    match stack with
    | [] => k res
    | curr :: stack =>
        match fuel with
        | O => stuck
        | S fuel =>
            bh_node v1 curr res
              (fun res => walk_stack v1 tree_size fuel stack res k)
              (match push_if (left_idx curr) tree_size stack with
               | None => stuck
               | Some stack =>
                   match push_if (rght_idx curr) tree_size stack with
                   | None => stuck
                   | Some stack => walk_stack v1 tree_size fuel stack res k
                   end
               end)
        end
    end.
  (** nbody_engine_opencl.cl:224-258, nbody_engine_cuda_impl.cu:365-400; [nd] is the device's
      [next_down] *)
  Fixpoint walk_stackless (nd : nat -> option nat) (v1 : vec3 T) (tree_size fuel curr : nat)
    (res : vec3 T) (k : vec3 T -> prog T) : prog T :=
    match fuel with
    | O => stuck
    | S fuel =>
        let go_on (next : option nat) (res : vec3 T) : prog T :=
          match next with
          | None => stuck
          | Some next =>
              if Nat.eqb next ROOT then k res else walk_stackless nd v1 tree_size fuel next res k
          end in
        bh_node v1 curr res (go_on (nd curr))
          (go_on (if Nat.ltb (left_idx curr) tree_size then Some (left_idx curr) else nd curr) res)
    end.

  Inductive walk_kind : Type := WStack | WStackless (nd : nat -> option nat).
  Definition bh_walk (w : walk_kind) (v1 : vec3 T) (tree_size : nat) (k : vec3 T -> prog T) : prog T :=
    match w with
    | WStack => walk_stack v1 tree_size tree_size [ROOT] (vzero U) k
    | WStackless nd => walk_stackless nd v1 tree_size tree_size ROOT (vzero U) k
    end.

  Variables (stride tree_size : nat).

  (** the last lines of every kernel, e.g. nbody_engine_opencl.cl:180-185 *)
  Definition bh_store (n1 : nat) (res : vec3 T) : prog T :=
    PRd aY (3 * stride + n1) (fun v => PWr aF n1 v (
    PRd aY (4 * stride + n1) (fun v => PWr aF (stride + n1) v (
    PRd aY (5 * stride + n1) (fun v => PWr aF (2 * stride + n1) v (
    PWr aF (3 * stride + n1) (vx res) (
    PWr aF (4 * stride + n1) (vy res) (
    PWr aF (5 * stride + n1) (vz res) PRet)))))))).

  (** nbody_engine_opencl.cl:101-186 [ComputeTreeBH] and 191-266 [ComputeTreeBHSL] *)
  Definition k_tree_bh (w : walk_kind) (n1 : nat) : prog T :=
    PRd aY n1 (fun x => PRd aY (stride + n1) (fun y => PRd aY (2 * stride + n1) (fun z =>
      bh_walk w (V3 x y z) tree_size (bh_store n1)))).

  (** [body_n]: filled on the host, read by the kernels; [None] is TREE_NO_BODY = -1 *)
  Variable body_n : list (option nat).
  Definition ld_body (idx : nat) (k : nat -> prog T) : prog T :=
    match rd body_n idx with Some (Some b) => k b | _ => stuck end.

  (** nbody_engine_opencl.cl:271-349 [ComputeHeapBH], 354-430 [ComputeHeapBHSL],
      nbody_engine_cuda_impl.cu:134-213 [kfcompute_heap_bh], 251-329 [.._tex], 348-408
      [.._stackless]; [i] is the number of the thread plus [offset_n1] *)
  Definition k_heap_bh (w : walk_kind) (i : nat) : prog T :=
    let tn1 := i + (stride - 1 + ROOT) in
    ld_body tn1 (fun n1 =>
      ld (at_x lay tn1) (fun x => ld (at_y lay tn1) (fun y => ld (at_z lay tn1) (fun z =>
        bh_walk w (V3 x y z) tree_size (bh_store n1))))).

  (** nbody_engine_opencl.cl:433-453, nbody_engine_cuda_impl.cu:457-477, 503-521; a chain of
      assignments writes from right to left *)
  Definition k_leaf (i : nat) : prog T :=
    let idx := i + (stride - 1 + ROOT) in
    ld_body idx (fun n =>
      PRd aY (0 * stride + n) (fun v => st (at_x lay idx) v (PWr xX idx v (PWr nX idx v (
      PRd aY (1 * stride + n) (fun v => st (at_y lay idx) v (PWr xY idx v (PWr nY idx v (
      PRd aY (2 * stride + n) (fun v => st (at_z lay idx) v (PWr xZ idx v (PWr nZ idx v
        PRet)))))))))))).

  (** [distance], nbody_engine_cuda_impl.cu:430-436 and the function of OpenCL *)
  Definition gpu_distance (a b : vec3 T) : T :=
    let dx := nsub U (vx a) (vx b) in
    let dy := nsub U (vy a) (vy b) in
    let dz := nsub U (vz a) (vz b) in
    nsqrt U (nadd U (nadd U (nmul U dx dx) (nmul U dy dy)) (nmul U dz dz)).

  (** (centre, mass, bounds) of a child *)
  Definition ld_child (i : nat) (k : vec3 T -> T -> vec3 T -> vec3 T -> prog T) : prog T :=
    PRd tM i (fun m =>
    ld (at_x lay i) (fun cx => ld (at_y lay i) (fun cy => ld (at_z lay i) (fun cz =>
    PRd nX i (fun lx => PRd nY i (fun ly => PRd nZ i (fun lz =>
    PRd xX i (fun hx => PRd xY i (fun hy => PRd xZ i (fun hz =>
      k (V3 cx cy cz) m (V3 lx ly lz) (V3 hx hy hz))))))))))).

  (** nbody_engine_opencl.cl:456-508, nbody_engine_cuda_impl.cu:551-605, 636-688 *)
  Definition k_node (level_size : nat) (ratio_sqr : T) (i : nat) : prog T :=
    let idx := i + level_size in
    if Nat.leb (2 * level_size) idx then PRet
    else
      ld_child (left_idx idx) (fun lc lm lmin lmax => ld_child (rght_idx idx) (fun rc rm rmin rmax =>
        let mass := nadd U lm rm in
        let mc f := ndiv U (nadd U (nmul U (f lc) lm) (nmul U (f rc) rm)) mass in
        let c := V3 (mc (@vx T)) (mc (@vy T)) (mc (@vz T)) in
        let bmin := vmin U lmin rmin in
        let bmax := vmax U lmax rmax in
        let mid := V3 (ndiv U (nadd U (vx bmin) (vx bmax)) (nlit U 2))
                      (ndiv U (nadd U (vy bmin) (vy bmax)) (nlit U 2))
                      (ndiv U (nadd U (vz bmin) (vz bmax)) (nlit U 2)) in
        let r := nadd U (ndiv U (gpu_distance bmin bmax) (nlit U 2)) (gpu_distance mid c) in
        PWr tM idx mass (
        st (at_x lay idx) (vx c) (st (at_y lay idx) (vy c) (st (at_z lay idx) (vz c) (
        PWr nX idx (vx bmin) (PWr nY idx (vy bmin) (PWr nZ idx (vz bmin) (
        PWr xX idx (vx bmax) (PWr xY idx (vy bmax) (PWr xZ idx (vz bmax) (
        st (at_r lay idx) (nmul U (nmul U r r) ratio_sqr) PRet)))))))))))).
End Kernels.

(** The engines *)
Inductive bh_engine : Type :=
(** nbody_engine_opencl_bh: context, [cycle_traverse], [stackless]; [cl2]: the kernels are compiled
    as OpenCL C 2.0 or later (nbody_space_heap_func_priv.h:41-42) *)
| BOpenCL (same_context cycle stackless cl2 : bool)
(** nbody_engine_cuda_bh *)
| BCuda
(** nbody_engine_cuda_bh_tex *)
| BCudaTex (stackless : bool).
Definition kind_of (e : bh_engine) : engine_kind :=
  match e with BOpenCL ctx _ _ _ => OpenCL ctx | _ => Cuda end.
Definition layout_of (e : bh_engine) : layout :=
  match e with BCudaTex _ => texture | _ => plain end.
(** OpenCL below 2.0 compiles the loop of [next_down], CUDA and OpenCL 2.0 the bit trick on 32-bit
    indices ([__ffs(~idx) - 1], [ctz(~idx)]) *)
Definition next_down_device (i : nat) : option nat := option_map N.to_nat (next_down_cuda (N.of_nat i)).
Definition walk_of (e : bh_engine) : walk_kind :=
  match e with
  | BOpenCL _ _ true false => WStackless next_down
  | BOpenCL _ _ true true | BCudaTex true => WStackless next_down_device
  | _ => WStack
  end.
Definition is_cycle (e : bh_engine) : bool := match e with BOpenCL _ c _ _ => c | _ => false end.

Section Engine.
  Context {T : Type} (U : NumOps T) (e : bh_engine) (device_count count block : nat)
          (mass : list T) (ratio : T).
  Let size := problem_size count.
  Let kind := kind_of e.
  Let lay := layout_of e.

  (** a kernel of [global] threads with the local range (block size) of the engine *)
  Definition block_kernel (P : nat -> prog T) (off global : nat) : option (list (prog T)) :=
    match kind with
    | OpenCL _ => opencl_kernel block P off global
    | Cuda => Some (map (fun i => P (off + i)) (seq 0 (global / block * block)))
    end.

  (** *** Refreshing the copies of the tree *)
  (** nbody_engine_opencl.cpp:1027-1049; nbody_engine_cuda_impl.cu:479-500 *)
  Definition leaf_round (body_n : list (option nat)) : option (list (prog T)) :=
    match kind with
    | OpenCL _ => opencl_kernel block (k_leaf lay count body_n) 0 count
    | Cuda => Some (cuda_kernel (k_leaf lay count body_n) 0 count)
    end.
  (** nbody_engine_opencl.cpp:1054-1073; nbody_engine_cuda_impl.cu:621-624 *)
  Definition node_round (level_size : nat) : option (list (prog T)) :=
    let P := k_node U lay level_size (nmul U ratio ratio) in
    match kind with
    | OpenCL _ => opencl_kernel block P 0 (Nat.max level_size block)
    | Cuda => Some (map P (seq 0 (Nat.max 1 (level_size / 64) * 64)))
    end.
  (** nbody_engine_opencl.cpp:1050-1076, nbody_engine_cuda_bh.cpp:150-171: [level_count] is halved
      until it is 0; [fuel = count] is enough *)
  Fixpoint node_rounds (fuel level_count : nat) : option (list (list (prog T))) :=
    match level_count with
    | O => Some []
    | S _ =>
        match fuel with
        | O => None
        | S fuel =>
            let* r := node_round (level_count / 2) in
            let* rs := node_rounds fuel (level_count / 2) in
            Some (r :: rs)
        end
    end.
  Definition update_rounds (body_n : list (option nat)) : option (list (list (prog T))) :=
    let* r := leaf_round body_n in
    let* rs := node_rounds count count in
    Some (r :: rs).

  (** *** Copying a new tree to a device
      nbody_engine_opencl.cpp:1000-1021, nbody_engine_cuda_bh.cpp:108-128,
      nbody_engine_cuda_bh_tex.cpp:112-130.  The bounds are not copied: they keep what they hold.
      (All device arrays are taken to exist from the start, with unknown contents.) *)
  Definition upload (h : heap (T := T)) (tree : mem T) : mem T :=
    let c := map (@c_pay T) h in
    match e with
    | BCudaTex _ =>
        flat_map (fun p => [vx (p_center p); vy (p_center p); vz (p_center p); p_rad p]) c ::
        [] :: [] :: [] :: map (@p_mass T) c :: skipn 5 tree
    | _ =>
        map (fun p => vx (p_center p)) c :: map (fun p => vy (p_center p)) c ::
        map (fun p => vz (p_center p)) c :: map (@p_rad T) c :: map (@p_mass T) c :: skipn 5 tree
    end.

  Definition bh_memory (y f : list T) (tree : mem T) : mem T := y :: f :: tree.

  (** *** The state of the engine between two evaluations: the heap on the host and the copies of
      the tree on the devices.  [indites] always holds the body numbers of that heap. *)
  Record bh_state : Type := BHState { s_heap : heap (T := T); s_trees : list (mem T) }.

  (** nbody_engine_opencl.cpp:959-1021 [rebuild_tree], nbody_engine_cuda_bh.cpp:82-128: the state
      vector is read back from the devices ([host] is the uninitialised host buffer) *)
  Definition run_build (split : nat -> nat -> list nat -> list nat) (ys : mem T) (s : bh_state)
    (good : bh_state -> Prop) : Prop :=
    forall host, length host = size ->
    exists y h, gpu_read_buffer ys host = Some y /\
      heap_build U split count y mass ratio (s_heap s) = Some h /\
      good (BHState h (map (upload h) (s_trees s))).
  (** nbody_engine_opencl.cpp:1023-1077 [update_tree], nbody_engine_cuda_bh.cpp:130-172 *)
  Definition run_update (ys fs : mem T) (s : bh_state) (good : bh_state -> Prop) : Prop :=
    all_some device_count (fun _ => update_rounds (map (@c_body T) (s_heap s))) (fun rs =>
      every_device
        (map (fun dev => (nth dev rs [], bh_memory (nth dev ys []) (nth dev fs []) (nth dev (s_trees s) [])))
          (seq 0 device_count))
        (fun ds => good (BHState (s_heap s) (map (skipn 2) ds)))).

  (** nbody_engine_opencl.cpp:1135-1157, 1164-1186; nbody_engine_cuda_bh.cpp:174-200 *)
  Definition force_round (body_n : list (option nat)) (dev_n : nat) : option (list (prog T)) :=
    let device_data_size := count / device_count in
    let tree_size := length body_n in
    let offset := dev_n * device_data_size in
    block_kernel
      (if is_cycle e then k_tree_bh U lay count tree_size (walk_of e)
       else k_heap_bh U lay count tree_size body_n (walk_of e))
      offset device_data_size.

  (** [fill_buffer(f, 0)], only when the threads follow the order of the tree *)
  Definition run_clear (fs : mem T) (good : mem T -> Prop) : Prop :=
    if is_cycle e then good fs
    else run_kernels device_count (device_rounds U kind device_count count block (OFill 0 (nlit U 0)))
           (map (fun f => [f]) fs) (fun ms => good (map (fun m => nth 0 m []) ms)).

  (** bringing the parts of [f] together, if there are several devices: [synchronize_f] after a
      cycle over the bodies, [synchronize_sum] otherwise ([f_sync] is the engine's extra buffer) *)
  Definition run_join (fs : mem T) (good : mem T -> Prop) : Prop :=
    if is_cycle e then run_sync_f kind device_count count fs good
    else if Nat.ltb 1 device_count then
      match kind with
      | OpenCL false => exists fs', host_sync_sum U fs size = Some fs' /\ good fs'
      | OpenCL true => forall f_sync, buffers f_sync device_count size ->
          Nat.eqb (size mod block) 0 = true /\
          every_round (opencl_sync_sum U device_count size size) (fs ++ f_sync)
            (fun m => good (firstn device_count m))
      | Cuda => forall f_sync, buffers f_sync device_count size ->
          every_round (cuda_sync_sum U device_count size) (fs ++ f_sync)
            (fun m => good (firstn device_count m))
      end
    else good fs.

  (** nbody_engine_opencl.cpp:1078-1193 [fcompute_bh_impl], nbody_engine_cuda_bh.cpp:50-206 and
      nbody_engine_cuda_bh_tex.cpp:45-218 [fcompute]: from the copies [ys], [fs] of the two buffers;
      [good] holds of what is left, whatever the schedules *)
  Definition bh_fcompute (split : nat -> nat -> list nat -> list nat) (rate step : nat) (s : bh_state)
    (ys fs : mem T) (good : bh_state -> mem T -> mem T -> Prop) : Prop :=
    run_sync_y kind device_count count ys (fun ys =>
      (if build_now rate step (Nat.eqb (length (s_heap s)) 0)
       then run_build split ys s else run_update ys fs s)
      (fun s => run_clear fs (fun fs =>
        all_some device_count (force_round (map (@c_body T) (s_heap s))) (fun rs =>
          every_device
            (map (fun dev => ([nth dev rs []],
               bh_memory (nth dev ys []) (nth dev fs []) (nth dev (s_trees s) []))) (seq 0 device_count))
            (fun ds => run_join (map (fun m => nth aF m []) ds) (fun fs =>
               good (BHState (s_heap s) (map (skipn 2) ds)) (map (fun m => nth aY m []) ds) fs)))))).
End Engine.
