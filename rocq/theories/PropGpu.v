(** C56: several devices *)
From Coq Require Import ZArith NArith Reals SpecFloat List Arith Lia Lra Bool.
From Verif Require Import Num Arr ArrLemmas SpecPhys RLemmas ModelParallel SpecPar LemParallel LemOmp
  ModelGpu SpecGpu LemGpu LemGpuSum LemGpuHost.
Import ListNotations.

(** ** C56 *)

(** The OpenCL engine accepts exactly the powers of two. *)
Theorem C56_accepted : forall n : N,
  is_power_of_two n = true <-> exists d, n = (2 ^ d)%N.
Proof.
  intros n. unfold is_power_of_two. rewrite andb_true_iff, N.ltb_lt, N.eqb_eq. split.
  - intros [Hp Hl]. exists (N.log2 n).
    assert (HS := N.log2_spec n Hp). destruct HS as [H1 H2].
    destruct (N.eq_dec n (2 ^ N.log2 n)) as [E|E]; auto. exfalso.
    assert (B1 : N.testbit n (N.log2 n) = true) by (apply N.bit_log2; lia).
    assert (L1 : N.log2 (n - 1) = N.log2 n).
    { apply N.log2_unique; [lia|]. split; lia. }
    assert (B2 : N.testbit (n - 1) (N.log2 n) = true).
    { rewrite <- L1. apply N.bit_log2. assert (H3 := N.pow_nonzero 2 (N.log2 n) ltac:(lia)). lia. }
    assert (X : N.testbit (N.land n (n - 1)) (N.log2 n) = false) by (rewrite Hl; apply N.bits_0).
    rewrite N.land_spec, B1, B2 in X. discriminate.
  - intros [d ->]. assert (H := N.pow_nonzero 2 d ltac:(lia)). split; [lia|].
    apply N.bits_inj. intros k. rewrite N.land_spec, N.bits_0, N.pow2_bits_eqb.
    replace (2 ^ d - 1)%N with (N.pred (2 ^ d))%N by lia. rewrite <- N.ones_equiv.
    destruct (N.eqb_spec d k) as [->|]; auto. rewrite N.ones_spec_high by lia. reflexivity.
Qed.
Print Assumptions C56_accepted.
Example C56_accepted_ex : is_power_of_two 8 = true /\ is_power_of_two 6 = false /\ is_power_of_two 0 = false.
Proof. vm_compute. auto. Qed.

(** [synchronize_y]: whatever the buffers contain and however the transfers of a round
    interleave, every device ends up with every device's segment. *)
Theorem C56_y : forall (A : Type) (d size : nat) (m : mem A),
  let D := 2 ^ d in
  buffers m D size ->
  every_round (sync_y D size) m (fun m' =>
    buffers m' D size /\
    forall dev i, dev < D -> i < D * (size / D) -> mrd m' dev i = mrd m (i / (size / D)) i).
Proof.
  intros A d size m D HB.
  assert (HD : D <> 0) by (apply Nat.pow_nonzero; lia).
  assert (EL : sync_y D size =
    map (map (@cell_copy A)) (exchange_loop (fun s t o w => copy_2d s t o 0 w 1) D D 1 (size / D))).
  { unfold sync_y, sync_y_cells. f_equal. generalize (size / D) as w. generalize 1 at 1 3 as s.
    generalize D at 1 3 as fuel. induction fuel as [|fuel IH]; intros s w; simpl; auto.
    destruct (s <? D); auto. f_equal; [|apply IH].
    unfold exchange_round. apply flat_map_ext. intros g. apply flat_map_ext. intros k.
    unfold copy_2d. simpl. rewrite !app_nil_r, !Nat.add_0_r. reflexivity. }
  rewrite EL. eapply round_weaken; [|apply (@exchange_all A 1 0 D size (size / D)) with (d := d); auto].
  - cbv beta. intros m' [H1 H2]. split; auto. intros j i Hj Hi.
    apply (H2 j 0 i); auto.
  - intros _. simpl. apply Nat.mul_div_le. lia.
Qed.
Print Assumptions C56_y.
Example C56_y_ex :
  let m := [[10;11;0;0;0;0;0;0];[0;0;12;13;0;0;0;0];[0;0;0;0;14;15;0;0];[0;0;0;0;0;0;16;17]] in
  buffers m 4 8 /\
  fold_left (fun m ps => match m with Some m => exec_seq ps m | None => None end)
    (sync_y 4 8) (Some m) =
  Some [[10;11;12;13;14;15;16;17];[10;11;12;13;14;15;16;17];
        [10;11;12;13;14;15;16;17];[10;11;12;13;14;15;16;17]].
Proof. split; [|vm_compute; reflexivity]. split; [reflexivity|repeat constructor]. Qed.

(** [synchronize_f]: the same for each of the six rows of the buffer. *)
Theorem C56_f : forall (A : Type) (d size : nat) (m : mem A),
  let D := 2 ^ d in
  let row := size / 6 in
  let rect := size / D / 6 in
  buffers m D size ->
  every_round (sync_f D size) m (fun m' =>
    buffers m' D size /\
    forall dev r c, dev < D -> r < 6 -> c < D * rect ->
      mrd m' dev (r * row + c) = mrd m (c / rect) (r * row + c)).
Proof.
  intros A d size m D row rect HB.
  assert (HD : D <> 0) by (apply Nat.pow_nonzero; lia).
  assert (B1 : 6 * row <= size) by (apply Nat.mul_div_le; lia).
  assert (B2 : D * rect <= row).
  { unfold row, rect. rewrite Nat.div_div by lia. rewrite (Nat.mul_comm D 6), <- Nat.div_div by lia.
    apply Nat.mul_div_le. lia. }
  apply (@exchange_all A 6 row D size rect) with (d := d); auto.
  intros _. clearbody row rect D. lia.
Qed.
Print Assumptions C56_f.
Example C56_f_ex :
  let a := repeat 1 12 in let b := repeat 2 12 in
  buffers [a; b] 2 12 /\
  fold_left (fun m ps => match m with Some m => exec_seq ps m | None => None end)
    (sync_f 2 12) (Some [a; b]) =
  Some [[1;2;1;2;1;2;1;2;1;2;1;2];[1;2;1;2;1;2;1;2;1;2;1;2]].
Proof. split; [|vm_compute; reflexivity]. split; [reflexivity|repeat constructor]. Qed.

(** [synchronize_sum] in exact arithmetic: every device ends up with the sum over all devices of
    every cell the kernel is launched for. *)
Theorem C56_sum : forall mind (d size launched : nat) (m : mem R) (f : nat -> nat -> R),
  let D := 2 ^ d in
  launched <= size ->
  buffers m (2 * D) size ->
  (forall dev i, dev < D -> i < size -> mrd m dev i = Some (f dev i)) ->
  every_round (sum_loop (Rops mind) D D size launched 1) m (fun m' =>
    buffers m' (2 * D) size /\
    forall dev i, dev < D -> i < size ->
      mrd m' dev i = Some (if i <? launched then rsum D (fun q => f q i) else f dev i)).
Proof.
  intros mind d size launched m f D HL HB Hf.
  eapply round_weaken; [|apply (@sum_all R (Rops mind) D size launched HL d eq_refl f m HB Hf)].
  cbv beta. intros m' [H1 H2]. split; auto. intros j i Hj Hi. rewrite H2 by auto.
  destruct (i <? launched); auto. f_equal.
  apply (@ring_full mind D d (fun q => f q i) j); auto.
Qed.
Print Assumptions C56_sum.

(** The kernel of the CUDA engine covers the buffer when its size is a multiple of 64; that of
    the OpenCL engine covers the problem size. *)
Theorem C56_sum_covers : forall size,
  cuda_launched size <= size /\ (size mod 64 = 0 -> cuda_launched size = size).
Proof.
  intros size. unfold cuda_launched. assert (E := Nat.div_mod size 64 ltac:(lia)). lia.
Qed.
Print Assumptions C56_sum_covers.

Example C56_sum_ex :
  let m := map (fun v => repeat v 64) [1; 20; 300; 4000; 0; 0; 0; 0]%Z in
  buffers m (2 * 4) 64 /\
  run_rounds (cuda_sync_sum Zops 4 64) m =
  Some (map (fun v => repeat v 64) [4321; 4321; 4321; 4321; 320; 4300; 4001; 21]%Z).
Proof. split; [|vm_compute; reflexivity]. split; [reflexivity|repeat constructor]. Qed.

(** The exchanges through the host (OpenCL devices in different contexts) do the same, for every
    number of devices. *)
Theorem C56_host_y : forall (A : Type) (D size : nat) (m : mem A) (garbage : list A),
  0 < D -> buffers m D size -> length garbage = size ->
  exists m', host_sync_y m garbage = Some m' /\ buffers m' D size /\
    forall dev i, dev < D -> i < D * (size / D) -> mrd m' dev i = mrd m (i / (size / D)) i.
Proof. intros A D size m garbage HD HB HG. apply host_sync_y_ok; auto. lia. Qed.
Print Assumptions C56_host_y.
Theorem C56_host_f : forall (A : Type) (D size : nat) (m : mem A) (garbage : list A),
  let row := size / 6 in
  let rect := size / D / 6 in
  0 < D -> buffers m D size -> length garbage = size ->
  exists m', host_sync_f m garbage = Some m' /\ buffers m' D size /\
    forall dev r c, dev < D -> r < 6 -> c < D * rect ->
      mrd m' dev (r * row + c) = mrd m (c / rect) (r * row + c).
Proof. intros A D size m garbage row rect HD HB HG. apply host_sync_f_ok; auto. lia. Qed.
Print Assumptions C56_host_f.
Theorem C56_host_sum : forall mind (D size : nat) (m : mem R) (f : nat -> nat -> R),
  0 < D -> buffers m D size ->
  (forall dev i, dev < D -> i < size -> mrd m dev i = Some (f dev i)) ->
  exists m', host_sync_sum (Rops mind) m size = Some m' /\ buffers m' D size /\
    forall dev i, dev < D -> i < size -> mrd m' dev i = Some (rsum D (fun q => f q i)).
Proof.
  intros mind D size m f HD HB Hf.
  destruct (@host_sync_sum_ok R (Rops mind) m D size f HD HB Hf) as (m' & E & HB' & H).
  exists m'. split; auto. split; auto. intros j i Hj Hi. rewrite H by auto. f_equal.
  rewrite (fold_left_rsum_gen (fun q => f q i) 1 (D - 1)).
  replace D with (1 + (D - 1)) at 2 by lia. rewrite rsum_app. cbn [rsum]. lra.
Qed.
Print Assumptions C56_host_sum.
Example C56_host_ex :
  host_sync_y [[1;0;0];[0;2;0];[0;0;3]] [9;9;9] = Some [[1;2;3];[1;2;3];[1;2;3]] /\
  host_sync_f [[1;1;1;1;1;1;1;1;1;1;1;1];[2;2;2;2;2;2;2;2;2;2;2;2]] (repeat 9 12) =
    Some [[1;2;1;2;1;2;1;2;1;2;1;2];[1;2;1;2;1;2;1;2;1;2;1;2]] /\
  host_sync_sum Zops [[1;2];[10;20];[100;200]]%Z 2 = Some [[111;222];[111;222];[111;222]]%Z.
Proof. vm_compute. auto. Qed.

(** Three devices, which the CUDA engine accepts: the third segment never leaves its device and
    two devices never receive it; in the sum some device counts twice. *)
Theorem C56_refuted :
  (exists (D size : nat) (m : mem nat), buffers m D size /\
     ~ every_round (sync_y D size) m (fun m' =>
         forall dev i, dev < D -> i < D * (size / D) -> mrd m' dev i = mrd m (i / (size / D)) i)) /\
  (exists (D size : nat) (m : mem nat), buffers m D size /\
     ~ every_round (sync_f D size) m (fun m' =>
         forall dev r c, dev < D -> r < 6 -> c < D * (size / D / 6) ->
           mrd m' dev (r * (size / 6) + c) = mrd m (c / (size / D / 6)) (r * (size / 6) + c))) /\
  (exists (D size : nat) (m : mem Z) (f : nat -> nat -> Z), buffers m (2 * D) size /\
     (forall dev i, dev < D -> i < size -> mrd m dev i = Some (f dev i)) /\
     ~ every_round (cuda_sync_sum Zops D size) m (fun m' =>
         forall dev i, dev < D -> i < size ->
           mrd m' dev i = Some (fold_left (fun s q => (s + f q i)%Z) (seq 0 D) 0%Z))).
Proof.
  split; [|split].
  - exists 3, 3, [[1;0;0];[0;2;0];[0;0;3]]. split; [split; [reflexivity|repeat constructor]|].
    intros H. eapply every_round_run in H; [|vm_compute; reflexivity].
    specialize (H 0 2 ltac:(lia) ltac:(vm_compute; lia)). vm_compute in H. discriminate.
  - exists 3, 18, (map (fun v => repeat v 18) [1; 2; 3]).
    split; [split; [reflexivity|repeat constructor]|].
    intros H. eapply every_round_run in H; [|vm_compute; reflexivity].
    specialize (H 0 0 2 ltac:(lia) ltac:(lia) ltac:(vm_compute; lia)). vm_compute in H. discriminate.
  - exists 3, 64, (map (fun v => repeat v 64) [1; 20; 300; 0; 0; 0]%Z),
      (fun dev _ => nth dev [1; 20; 300]%Z 0%Z).
    split; [split; [reflexivity|repeat constructor]|]. split.
    + intros dev i Hd Hi. assert (X : dev = 0 \/ dev = 1 \/ dev = 2) by lia.
      destruct X as [->|[->| ->]]; unfold mrd, rd; cbn [map nth_error obind nth];
        apply nth_error_repeat; lia.
    + intros H. eapply every_round_run in H; [|vm_compute; reflexivity].
      specialize (H 0 0 ltac:(lia) ltac:(lia)). vm_compute in H. discriminate.
Qed.
Print Assumptions C56_refuted.

(** In binary64 the devices add in different orders: from four devices on they may end up with
    different sums. *)
Theorem C56_sum_float_refuted :
  exists (d size : nat) (m : mem spec_float), buffers m (2 * 2 ^ d) size /\
    ~ every_round (cuda_sync_sum Fops (2 ^ d) size) m (fun m' =>
        forall dev dev' i, dev < 2 ^ d -> dev' < 2 ^ d -> i < size -> mrd m' dev i = mrd m' dev' i).
Proof.
  exists 2, 64, (map (fun v => repeat (F_of_Z v) 64) [9007199254740992; 0; 1; 1; 0; 0; 0; 0]%Z).
  split; [split; [reflexivity|vm_compute; repeat constructor]|].
  intros H. eapply every_round_run in H; [|vm_compute; reflexivity].
  specialize (H 0 1 0 ltac:(simpl; lia) ltac:(simpl; lia) ltac:(lia)). vm_compute in H. discriminate.
Qed.
Print Assumptions C56_sum_float_refuted.
