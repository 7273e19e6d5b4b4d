(** C01-C09: pair force, direct-sum engines, openmp schedules, block and Ahmad-Cohen engines. *)
From Coq Require Import ZArith SpecFloat Reals List Arith Lia Lra Permutation.
From Verif Require Import Num Arr ArrLemmas SpecPhys SpecEngine SpecPar RLemmas ModelVertex
  ModelForce ModelSum ModelEngine ModelBlock ModelAH ModelParallel
  LemEngine LemPhys LemBlock LemAH LemBuffers LemOmp LemMisc LemStat LemSpec LemForce SpecFloatForce LemFloatForce.
Import ListNotations.
Local Open Scope R_scope.

(** ** C01 *)

Theorem C01_third_law : forall mind v1 v2 m1 m2,
  force (Rops mind) v1 v2 m1 m2 = vopp (Rops mind) (force (Rops mind) v2 v1 m2 m1).
Proof. exact force_third_law. Qed.
Print Assumptions C01_third_law.

(** central, attractive for m1*m2 >= 0, with the exact softened magnitude; the divisor is never 0 *)
Theorem C01_central_softened : forall mind v1 v2 m1 m2, 0 < mind ->
  let d2 := (vx v1 - vx v2) ^ 2 + (vy v1 - vy v2) ^ 2 + (vz v1 - vz v2) ^ 2 in
  let F := force (Rops mind) v1 v2 m1 m2 in
  let w := m1 * m2 / (Rmax mind d2 * sqrt (Rmax mind d2)) in
  vx F = (vx v2 - vx v1) * w /\ vy F = (vy v2 - vy v1) * w /\ vz F = (vz v2 - vz v1) * w /\
  0 < Rmax mind d2 * sqrt (Rmax mind d2) /\ (0 <= m1 * m2 -> 0 <= w) /\
  (mind <= d2 -> vlength (Rops mind) F = Rabs (m1 * m2) / d2) /\
  (v1 = v2 -> F = V3 0 0 0).
Proof. exact force_central. Qed.
Print Assumptions C01_central_softened.

Example C01_example : 0 < 1 / 100000000 /\
  1 / 100000000 <= (3 - 0) ^ 2 + (4 - 0) ^ 2 + (0 - 0) ^ 2 /\
  vlength (Rops (1 / 100000000)) (force (Rops (1 / 100000000)) (V3 3 4 0) (V3 0 0 0) 2 5) = 2 / 5.
Proof.
  assert (H : 0 < 1 / 100000000) by lra. assert (H2 : 1 / 100000000 <= (3 - 0) ^ 2 + (4 - 0) ^ 2 + (0 - 0) ^ 2) by lra.
  repeat split; auto.
  destruct (C01_central_softened (1 / 100000000) (V3 3 4 0) (V3 0 0 0) 2 5 H) as (_ & _ & _ & _ & _ & E & _).
  cbn [vx vy vz] in E. rewrite E by auto. rewrite Rabs_right by lra. lra.
Qed.

(** The same in the arithmetic the program uses: the two computed forces of a pair are exactly opposite (zeros of either sign), also when something overflows or is not a number; masses are any doubles *)
Theorem C01_third_law_binary64 : forall v1 v2 m1 m2, valid_binary F_prec F_emax m1 = true -> valid_binary F_prec F_emax m2 = true ->
  opposite3 (force Fops v1 v2 m1 m2) (force Fops v2 v1 m2 m1).
Proof. exact third_law. Qed.
Print Assumptions C01_third_law_binary64.

(** masses 1/10 and 3, bodies at (1/3, 2, 0) and (5, 1/10, 0): the forces are finite and not zero *)
Example C01_binary64_case :
  let q (a b : Z) := SFdiv F_prec F_emax (F_of_Z a) (F_of_Z b) in
  let F := force Fops (V3 (q 1%Z 3%Z) (q 2%Z 1%Z) (q 0%Z 1%Z)) (V3 (q 5%Z 1%Z) (q 1%Z 10%Z) (q 0%Z 1%Z)) (q 1%Z 10%Z) (q 3%Z 1%Z) in
  valid_binary F_prec F_emax (q 1%Z 10%Z) = true /\ valid_binary F_prec F_emax (q 3%Z 1%Z) = true /\ (exists m e, vx F = S754_finite false m e) /\ (exists m e, vy F = S754_finite true m e).
Proof. cbv zeta. split; [|split]; [vm_compute; reflexivity|vm_compute; reflexivity|split; vm_compute; eauto]. Qed.

(** ** C02, C03: no net force and no net torque *)

Theorem C02_simple_no_net_force : forall mind n mass y f f' k,
  0 < mind -> length y = (6 * n)%nat -> length mass = n -> length f = (6 * n)%nat ->
  (forall i, (i < n)%nat -> nth i mass 0 <> 0) ->
  simple_fcompute (Rops mind) n mass y f = Some f' -> (k < 3)%nat ->
  rsum n (fun i => nth i mass 0 * comp f' n (k + 3) i) = 0.
Proof. exact simple_net_force. Qed.
Print Assumptions C02_simple_no_net_force.

Theorem C02_block_no_net_force : forall mind q mass y f f' k,
  let n := (q * 64)%nat in
  length y = (6 * n)%nat -> length mass = n -> length f = (6 * n)%nat ->
  block_fcompute (Rops mind) n mass y f = Some f' -> (k < 3)%nat ->
  rsum n (fun i => nth i mass 0 * comp f' n (k + 3) i) = 0.
Proof. exact block_net_force. Qed.
Print Assumptions C02_block_no_net_force.

Theorem C02_ah_no_net_force : forall mind D F n mass y f s f' s' k,
  0 < mind -> length y = (6 * n)%nat -> length mass = n -> length f = (6 * n)%nat ->
  (forall i, (i < n)%nat -> nth i mass 0 <> 0) ->
  ah_full (Rops mind) D F n mass y f s = Some (f', s') -> (k < 3)%nat ->
  rsum n (fun i => nth i mass 0 * comp f' n (k + 3) i) = 0.
Proof. exact ah_net_force. Qed.
Print Assumptions C02_ah_no_net_force.

(** component of sum m_i (r_i x a_i) normal to the axes [a] and [b] *)
Theorem C03_simple_no_net_torque : forall mind n mass y f f' a b,
  0 < mind -> length y = (6 * n)%nat -> length mass = n -> length f = (6 * n)%nat ->
  (forall i, (i < n)%nat -> nth i mass 0 <> 0) ->
  simple_fcompute (Rops mind) n mass y f = Some f' -> (a < 3)%nat -> (b < 3)%nat ->
  rsum n (fun i => nth i mass 0 *
    (comp y n a i * comp f' n (b + 3) i - comp y n b i * comp f' n (a + 3) i)) = 0.
Proof. exact simple_net_torque. Qed.
Print Assumptions C03_simple_no_net_torque.

Theorem C03_block_no_net_torque : forall mind q mass y f f' a b,
  let n := (q * 64)%nat in
  length y = (6 * n)%nat -> length mass = n -> length f = (6 * n)%nat ->
  block_fcompute (Rops mind) n mass y f = Some f' -> (a < 3)%nat -> (b < 3)%nat ->
  rsum n (fun i => nth i mass 0 *
    (comp y n a i * comp f' n (b + 3) i - comp y n b i * comp f' n (a + 3) i)) = 0.
Proof. exact block_net_torque. Qed.
Print Assumptions C03_block_no_net_torque.

Theorem C03_ah_no_net_torque : forall mind D F n mass y f s f' s' a b,
  0 < mind -> length y = (6 * n)%nat -> length mass = n -> length f = (6 * n)%nat ->
  (forall i, (i < n)%nat -> nth i mass 0 <> 0) ->
  ah_full (Rops mind) D F n mass y f s = Some (f', s') -> (a < 3)%nat -> (b < 3)%nat ->
  rsum n (fun i => nth i mass 0 *
    (comp y n a i * comp f' n (b + 3) i - comp y n b i * comp f' n (a + 3) i)) = 0.
Proof. exact ah_net_torque. Qed.
Print Assumptions C03_ah_no_net_torque.

(** two bodies, masses 1 and 2, at (0,0,0) and (1,0,2), moving: the hypotheses hold and a
    derivative exists *)
Definition ex_mass : list R := [1; 2].
Definition ex_y : list R := [0; 1;  0; 0;  0; 2;  3; 0;  0; 1;  0; 0].
Example C02_example :
  length ex_y = (6 * 2)%nat /\ length ex_mass = 2%nat /\
  (forall i, (i < 2)%nat -> nth i ex_mass 0 <> 0) /\
  exists f', simple_fcompute (Rops 1) 2 ex_mass ex_y (repeat 0 12) = Some f' /\
             newton_rhs 1 2 ex_mass ex_y f'.
Proof.
  split; [reflexivity|]. split; [reflexivity|].
  assert (H : forall i, (i < 2)%nat -> nth i ex_mass 0 <> 0).
  { intros [|[|i]] Hi; cbn; try lra. lia. }
  split; [exact H|]. apply simple_rhs; auto. lra.
Qed.

(** ** C04: the Newtonian right-hand side; the result exists (no access out of bounds) for every
    count *)

Theorem C04_newtonian_rhs : forall mind n mass y f,
  0 < mind -> length y = (6 * n)%nat -> length mass = n -> length f = (6 * n)%nat ->
  (forall i, (i < n)%nat -> nth i mass 0 <> 0) ->
  exists f', simple_fcompute (Rops mind) n mass y f = Some f' /\ newton_rhs mind n mass y f'.
Proof. exact simple_rhs. Qed.
Print Assumptions C04_newtonian_rhs.

(** any arithmetic: in bounds, positions' derivatives are the velocities bit for bit, nothing is
    written beyond the 6*count result cells *)
Theorem C04_layout : forall (T : Type) (N : NumOps T) n mass y f,
  (6 * n <= length y)%nat -> (n <= length mass)%nat -> (6 * n <= length f)%nat ->
  exists f', simple_fcompute N n mass y f = Some f' /\ length f' = length f /\
    (forall j, (j < 3 * n)%nat -> nth_error f' j = nth_error y (3 * n + j)) /\
    (forall j, (6 * n <= j)%nat -> nth_error f' j = nth_error f j).
Proof. exact simple_layout. Qed.
Print Assumptions C04_layout.

Example C04_example :
  simple_fcompute Zops 2 [1; 2]%Z [0; 10; 0; 0; 0; 0; 7; 8; 9; 10; 11; 12]%Z (repeat 0 13)%Z
  = Some [7; 8; 9; 10; 11; 12; 10; -5; 0; 0; 0; 0; 0]%Z.
Proof. reflexivity. Qed.

(** ** C05: each parallel loop of the openmp engine, for every schedule and interleaving.
    [A], [B], ... are the buffers; [m] is the whole memory. *)

Theorem C05_copy : forall (T : Type) (N : NumOps T) A B n (m : mem T) a b,
  rd m A = Some a -> rd m B = Some b -> (n <= length a)%nat -> (n <= length b)%nat ->
  exists a', copy_buffer n a b = Some a' /\
    every_schedule (map (omp_copy A B) (seq 0 n)) m (fun m' => m' = upd m A a').
Proof.
  intros T N A B n m a b H1 H2 H3 H4.
  destruct (omp_copy_ok N _ _ _ H1 H2 H3 H4) as (a' & E & S & _). eauto.
Qed.
Print Assumptions C05_copy.

Theorem C05_fill : forall (T : Type) A (m : mem T) a v,
  rd m A = Some a ->
  exists a', fill_buffer a v = Some a' /\
    every_schedule (map (omp_fill A v) (seq 0 (length a))) m (fun m' => m' = upd m A a').
Proof.
  intros T A m a v H1. destruct (omp_fill_ok _ _ v H1) as (a' & E & S & _). eauto.
Qed.
Print Assumptions C05_fill.

Theorem C05_fmadd_inplace : forall (T : Type) (N : NumOps T) A B n (m : mem T) a b c,
  rd m A = Some a -> rd m B = Some b -> (n <= length a)%nat -> (n <= length b)%nat ->
  exists a', fmadd_inplace N n a b c = Some a' /\
    every_schedule (map (omp_fmadd_inplace N A B c) (seq 0 n)) m (fun m' => m' = upd m A a').
Proof.
  intros T N A B n m a b c H1 H2 H3 H4.
  destruct (omp_fmadd_inplace_ok N _ _ _ c H1 H2 H3 H4) as (a' & E & S & _). eauto.
Qed.
Print Assumptions C05_fmadd_inplace.

Theorem C05_fmadd : forall (T : Type) (N : NumOps T) A B C n (m : mem T) a b c d,
  rd m A = Some a -> rd m B = Some b -> rd m C = Some c ->
  (n <= length a)%nat -> (n <= length b)%nat -> (n <= length c)%nat ->
  exists a', fmadd N n a b c d = Some a' /\
    every_schedule (map (omp_fmadd N A B C d) (seq 0 n)) m (fun m' => m' = upd m A a').
Proof.
  intros T N A B C n m a b c d H1 H2 H3 H4 H5 H6.
  destruct (omp_fmadd_ok N _ _ _ _ d H1 H2 H3 H4 H5 H6) as (a' & E & S & _). eauto.
Qed.
Print Assumptions C05_fmadd.

Theorem C05_fcompute : forall (T : Type) (N : NumOps T) A B C n (m : mem T) f y mass,
  A <> B -> A <> C -> rd m A = Some f -> rd m B = Some y -> rd m C = Some mass ->
  (6 * n <= length f)%nat -> (6 * n <= length y)%nat -> (n <= length mass)%nat ->
  exists f', simple_fcompute N n mass y f = Some f' /\
    every_schedule (map (omp_fcompute N A B C n) (seq 0 n)) m (fun m' => m' = upd m A f').
Proof.
  intros T N A B C n m f y mass H1 H2 H3 H4 H5 H6 H7 H8.
  destruct (omp_fcompute_ok N _ H1 H2 H3 H4 H5 H6 H7 H8) as (a' & E & S & _). eauto.
Qed.
Print Assumptions C05_fcompute.

Theorem C05_clamp : forall (T : Type) (N : NumOps T) A n b (m : mem T) a,
  rd m A = Some a -> (3 * n <= length a)%nat ->
  exists a', engine_clamp N n b a = Some a' /\
    every_schedule (map (omp_clamp N A n b) (seq 0 n)) m (fun m' => m' = upd m A a').
Proof.
  intros T N A n b m a H1 H2. destruct (@omp_clamp_ok T N A n b m a H1 H2) as (a' & E & S & _). eauto.
Qed.
Print Assumptions C05_clamp.

(** [ids] are the numbers of the weighted buffers, [bufs id] their contents *)
Theorem C05_fmaddn_corr :
  forall (T : Type) (N : NumOps T) A B n (m : mem T) a corr c ids (bufs : nat -> list T),
  A <> B -> rd m A = Some a -> rd m B = Some corr ->
  (n <= length a)%nat -> (n <= length corr)%nat -> length ids = length c ->
  (forall id, In id ids -> id <> A /\ id <> B /\ rd m id = Some (bufs id) /\ (n <= length (bufs id))%nat) ->
  exists a' corr', fmaddn_corr N n a corr (map bufs ids) c (length c) = Some (a', corr') /\
    every_schedule (map (omp_fmaddn_corr N A B (combine c ids)) (seq 0 n)) m
      (fun m' => m' = upd (upd m A a') B corr').
Proof.
  intros T N A B n m a corr c ids bufs H1 H2 H3 H4 H5 H6 H7.
  destruct (@omp_fmaddn_corr_ok T N A B n m a corr c ids bufs H1 H2 H3 H4 H5 H6 H7) as (a' & corr' & E & S & _). eauto.
Qed.
Print Assumptions C05_fmaddn_corr.

(** a memory with three distinct buffers: a schedule exists and reaches the sequential result *)
Example C05_example :
  exec_seq (map (omp_fmadd Zops 0 1 2 3%Z) (seq 0 2)) [[0; 0; 7]; [1; 2]; [10; 20]]%Z
  = Some [[31; 62; 7]; [1; 2]; [10; 20]]%Z.
Proof. reflexivity. Qed.

(** ** C06, C07: block engine *)

Theorem C06_block_equals_simple : forall mind q mass y f,
  let n := (q * 64)%nat in
  0 < mind -> length y = (6 * n)%nat -> length mass = n -> length f = (6 * n)%nat ->
  (forall i, (i < n)%nat -> nth i mass 0 <> 0) ->
  exists f', block_fcompute (Rops mind) n mass y f = Some f' /\
             simple_fcompute (Rops mind) n mass y f = Some f' /\ newton_rhs mind n mass y f'.
Proof. exact block_equals_simple. Qed.
Print Assumptions C06_block_equals_simple.

(** exactly the multiples of 64 are safe, in any arithmetic *)
Theorem C07_block_safe_iff : forall (T : Type) (N : NumOps T) n mass y f,
  length y = (6 * n)%nat -> length mass = n -> length f = (6 * n)%nat ->
  ((exists f', block_fcompute N n mass y f = Some f') <-> (n mod 64 = 0)%nat).
Proof. exact block_safe_iff. Qed.
Print Assumptions C07_block_safe_iff.

Theorem C07_block_memory_safety_refuted : exists n (mass y f : list Z),
  length y = (6 * n)%nat /\ length mass = n /\ length f = (6 * n)%nat /\
  block_fcompute Zops n mass y f = None.
Proof.
  exists 1%nat, [1%Z], (repeat 0%Z 6), (repeat 0%Z 6). repeat split; auto.
Qed.
Print Assumptions C07_block_memory_safety_refuted.

Example C06_example :
  exists f', block_fcompute (Rops 1) (2 * 64) (repeat 1 128) (repeat 0 768) (repeat 0 768) = Some f'.
Proof. apply C07_block_safe_iff; rewrite ?repeat_length; reflexivity. Qed.

(** ** C08, C09: Ahmad-Cohen engine *)

Theorem C08_full_and_immediate_sparse : forall mind max_dist min_force n mass y f s,
  0 < mind -> length y = (6 * n)%nat -> length mass = n -> length f = (6 * n)%nat ->
  (forall i, (i < n)%nat -> nth i mass 0 <> 0) ->
  exists f' s', ah_full (Rops mind) max_dist min_force n mass y f s = Some (f', s') /\
    newton_rhs mind n mass y f' /\ simple_fcompute (Rops mind) n mass y f = Some f' /\
    forall g, length g = (6 * n)%nat -> ah_sparse (Rops mind) n mass y g s' = Some f'.
Proof. exact ah_full_simple. Qed.
Print Assumptions C08_full_and_immediate_sparse.

(** every history of a fresh engine is defined exactly when it starts at a multiple of the rate *)
Theorem C09_neighbour_data_iff :
  forall (T : Type) (N : NumOps T) max_dist min_force rate n mass (c : call) (calls : list call),
  (0 < rate)%nat -> (0 < n)%nat -> (n <= length mass)%nat ->
  Forall (fun c => 6 * n <= length (c_y c) /\ 6 * n <= length (c_f c))%nat (c :: calls) ->
  ((exists r, ah_run N max_dist min_force rate n mass (c :: calls) ah_init = Some r) <->
   (c_step c mod rate = 0)%nat).
Proof. exact ah_run_iff. Qed.
Print Assumptions C09_neighbour_data_iff.

Theorem C09_neighbour_data_refuted : exists rate n mass (c : call (T := Z)),
  (0 < rate)%nat /\ length mass = n /\ length (c_y c) = (6 * n)%nat /\
  length (c_f c) = (6 * n)%nat /\
  ah_run Zops 10%Z 1%Z rate n mass [c] ah_init = None.
Proof.
  exists 10%nat, 1%nat, [1%Z], (mkCall 5 (repeat 0%Z 6) (repeat 0%Z 6)). repeat split; auto. lia.
Qed.
Print Assumptions C09_neighbour_data_refuted.

Example C09_example : exists r,
  ah_run Zops 10%Z 1%Z 2 1 [1%Z] [mkCall 4 (repeat 0%Z 6) (repeat 0%Z 6);
                              mkCall 5 (repeat 1%Z 6) (repeat 0%Z 6)] ah_init = Some r.
Proof. eexists. reflexivity. Qed.
