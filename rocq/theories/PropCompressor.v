(** C78: recording frames to PNG files *)
From Coq Require Import Bool Ascii String List NArith Arith Lia Permutation.
From Verif Require Import ModelText ModelCompressor SpecCompressor LemCompressor.
Import ListNotations.

(** In a directory without markers in its name, every image gets the file with its number; different images
    get different files, and up to 10^8 images the files are listed in the order of the images. *)
Theorem C78_names : forall local d, unmarked d ->
  (forall n, file_of d n (frame_name local d n)) /\
  (forall m n, frame_name local d m = frame_name local d n -> m = n) /\
  (forall m n, (m < n)%N -> (n < 10 ^ 8)%N -> listed_before (frame_name local d m) (frame_name local d n)).
Proof.
  intros local d Hd. assert (F : forall n, file_of d n (frame_name local d n)) by (intros; now apply frame_file).
  split; [exact F|]. split.
  - intros m n E. apply (file_inj d m n (frame_name local d m)); [apply F|rewrite E; apply F].
  - intros m n L U. destruct (file_short _ _ _ (F m) ltac:(lia)) as (w & -> & R & W).
    destruct (file_short _ _ _ (F n) U) as (w' & -> & R' & W').
    apply listed_app. apply rest_differs. eapply digits_listed; eauto. congruence.
Qed.
Print Assumptions C78_names.

(** Whatever the thread pool does: after every push at most [cores] jobs are waited for, and once the
    compressor is gone all its jobs are finished; and if every job is finished some day, the compressor
    does get there. *)
Theorem C78_queue : forall fin cores count, settles fin ->
  (forall fuel done q t, done <= count -> push_jobs fin fuel cores 0 done ([], 0) = Some (q, t) ->
     List.length q <= cores /\ forall j, j < done -> In j q \/ fin t j = true) /\
  (forall fuel q t, compress fin fuel cores count = Some (q, t) -> q = [] /\ forall j, j < count -> fin t j = true) /\
  (finishes fin -> exists fuel r, compress fin fuel cores count = Some r).
Proof.
  intros fin cores count St. 
  assert (P : forall fuel done q t, push_jobs fin fuel cores 0 done ([], 0) = Some (q, t) ->
     List.length q <= cores /\ forall j, j < done -> In j q \/ fin t j = true).
  { intros fuel done q t E. destruct (push_jobs_ok fin St _ _ _ _ _ _ E) as (A & _ & B); cbn [fst snd List.length] in *; [lia|lia|].
    split; [auto|]. intros j Hj. now apply B. }
  split; [intros; eapply P; eauto|]. split; [|intros Fi; now apply compress_ends].
  intros fuel q t E. unfold compress in E. destruct (push_jobs fin fuel cores 0 count ([], 0)) as [[q1 t1]|] eqn:E1; [|discriminate].
  destruct (P _ _ _ _ E1) as (_ & B). cbn [fst snd] in E. destruct (wait_ok _ St _ _ _ _ _ _ E) as (A & L & _ & D).
  assert (q = []) by (destruct q; [auto|cbn in A; lia]). subst q. split; [auto|].
  intros j Hj. destruct (B j Hj) as [I|F]; [destruct (D j I) as [[]|F]; exact F|eapply St; eauto].
Qed.
Print Assumptions C78_queue.

(** In whatever order the jobs are executed: afterwards every image is in its file and no other file has
    changed. *)
Theorem C78_files : forall I local there d (images : list (nat * I)) jobs before,
  unmarked d -> there d = true -> NoDup (map fst images) -> Permutation (frame_jobs local d images) jobs ->
  let after := written there before jobs in
  (forall n i, In (n, i) images -> exists f, file_of d (N.of_nat n) f /\ content after f = Some i) /\
  (forall f, (forall n, In n (map fst images) -> ~ file_of d (N.of_nat n) f) -> content after f = content before f).
Proof.
  intros I local there d images jobs before Hd Ht ND Pm after.
  destruct (C78_names local d Hd) as (F & Inj & _).
  assert (ND' : NoDup (map fst jobs)).
  { apply (Permutation_NoDup (Permutation_map fst Pm)). unfold frame_jobs. rewrite map_map. cbn [fst].
    clear - ND Inj. induction images as [|[n i] images IH]; [constructor|]. cbn in *. inversion ND as [|? ? N0 ND0]; subst.
    constructor; [|auto]. intros X. apply in_map_iff in X. destruct X as ([n' i'] & E & X). cbn in E. apply Inj in E.
    apply Nat2N.inj in E. subst n'. apply N0. apply in_map_iff. now exists (n, i'). }
  assert (Fd : Forall (fun j => there (dir_of (fst j)) = true) jobs).
  { apply Forall_forall. intros j Hj. apply (Permutation_in _ (Permutation_sym Pm)) in Hj. unfold frame_jobs in Hj.
    apply in_map_iff in Hj. destruct Hj as (x & <- & _). cbn [fst]. now rewrite dir_frame. }
  split.
  - intros n i Hi. exists (frame_name local d (N.of_nat n)). split; [apply F|].
    apply (written_content there jobs before _ ND' Fd). apply (Permutation_in _ Pm).
    unfold frame_jobs. apply in_map_iff. exists (n, i). auto.
  - intros f Hf. apply (written_content there jobs before f ND' Fd). intros X.
    apply (Permutation_in _ (Permutation_sym (Permutation_map fst Pm))) in X.
    unfold frame_jobs in X. rewrite map_map in X. apply in_map_iff in X. destruct X as ([n i] & E & X). cbn [fst snd] in E.
    apply (Hf n); [apply in_map_iff; now exists (n, i)|]. rewrite <- E. apply F.
Qed.
Print Assumptions C78_files.

(** "Every recording to a directory that could be made leaves its files" is false: markers in the name of the
    directory are replaced too, the files belong to directories that are not there, and the failure is
    not noticed. *)
Theorem C78_refuted : exists d (images : list (nat * nat)), forall local,
  let there := fun e => if list_eq_dec ascii_dec e d then true else false in
  there d = true /\ images <> [] /\ NoDup (map fst images) /\
  forall jobs, Permutation (frame_jobs local d images) jobs -> written there [] jobs = [].
Proof.
  exists (chars "run%1"), [(0, 7); (1, 8)]. intros local there. split; [reflexivity|]. split; [discriminate|].
  split; [constructor; [cbn; lia|constructor; [intros []|constructor]]|]. intros jobs Pm.
  assert (A : Forall (fun j => there (dir_of (fst j)) = false) jobs).
  { apply Forall_forall. intros j Hj. apply (Permutation_in _ (Permutation_sym Pm)) in Hj.
    destruct Hj as [<-|[<-|[]]]; reflexivity. }
  unfold written. clear Pm. induction A as [|j jobs Hj _ IH]; [reflexivity|]. cbn [fold_left].
  unfold frame_writer at 2. rewrite Hj. exact IH.
Qed.
Print Assumptions C78_refuted.
(** hypotheses are met: a name with harmless percent signs; a pool that finishes job [j] at question [3 j] *)
Example C78_case :
  unmarked (chars "100%/run%25") /\
  frame_name (fun _ => []) (chars "100%/run%25") 42 = chars "100%/run%25/00000042.png" /\
  settles (fun t j => 3 * j <=? t) /\ finishes (fun t j => 3 * j <=? t) /\
  exists t, compress (fun t j => 3 * j <=? t) 40 2 6 = Some ([], t).
Proof.
  split.
  { intros a c b E. destruct a as [|a1 a]; [discriminate E|].
    do 11 (destruct a as [|? a]; [cbn in E; try discriminate E; injection E; intros; subst; repeat split; discriminate|]; cbn in E; try discriminate E). }
  split; [reflexivity|]. split; [intros t t' j L; rewrite !Nat.leb_le; lia|].
  split; [intros j; exists (3 * j); apply Nat.leb_refl|]. eexists. vm_compute. reflexivity.
Qed.
