(** Which devices the GPU engines use: C92. *)
From Coq Require Import Ascii String Bool List NArith ZArith Arith Lia.
From Verif Require Import ModelText ModelDevices SpecDevices LemText LemArgs LemDevices.
Import ListNotations.
Set Implicit Arguments.

(** ** C92 *)

(** CUDA: a selection succeeds exactly when the text lists device numbers that exist, and gives them in the order of the text, repeats
    included, whatever was selected before; a failed one changes nothing. *)
Theorem C92_cuda : forall count devices old ids,
  (cuda_select (Some count) devices old = (ids, true) <-> cuda_list count devices ids) /\
  (forall c, cuda_select c devices old = (ids, false) -> ids = old) /\
  snd (cuda_select None devices old) = false.
Proof.
  intros count devices old ids. unfold cuda_select, cuda_list. split; [|split].
  - split.
    + intros H. exists (split ","%char devices). split; [now apply split_words|]. fold (split_skip ","%char devices).
      destruct (split_skip ","%char devices) as [|w ws]; [discriminate|]. cbn [is_nil] in H.
      destruct (cuda_ids count (w :: ws)) as [l|] eqn:E; [|discriminate]. injection H as <-. apply cuda_ids_spec in E.
      split; [intros ->; inversion E|exact E].
    + intros (ws & A & B & C). apply split_words in A.
      assert (D : Forall2 (fun w i => to_int w = Some i /\ (0 <= i < count)%Z) (split_skip ","%char devices) ids) by (unfold split_skip; rewrite A; exact C).
      destruct (split_skip ","%char devices) as [|w l]; [inversion D; congruence|]. cbn [is_nil]. apply cuda_ids_spec in D. now rewrite D.
  - intros c H. destruct (is_nil _); [congruence|]. destruct c as [n|]; [|congruence]. destruct (cuda_ids n _); congruence.
  - destruct (is_nil _); reflexivity.
Qed.
Print Assumptions C92_cuda.

(** OpenCL: the selection of a new engine succeeds exactly when the text lists existing devices of existing platforms, all of them work
    and their number is a power of two; it gives them in the order of the text with one context for each entry, and the engine copies
    between devices directly exactly when there is one entry. *)
Theorem C92_opencl : forall platforms works devices same devs same',
  opencl_select platforms works devices ([], same) = ((devs, same'), true) <->
  exists entries gs, words_of ";"%char devices entries /\ Forall2 (opencl_entry platforms) entries gs /\ devs = devices_from 0 gs /\
    (forall d, In d devs -> works (dv_platform d) (dv_number d) = true) /\ (exists k, length devs = 2 ^ k) /\ (same' = true <-> length gs = 1).
Proof.
  intros platforms works devices same devs same'. unfold opencl_select. cbn [fst snd]. split.
  - intros H. destruct (opencl_entries platforms works 0 (split ";"%char devices) []) as [out good] eqn:E. destruct good; [|discriminate].
    cbn [negb] in H. destruct (is_power_of_two (N.of_nat (length out))) eqn:P; [|discriminate]. cbn [negb] in H. injection H as <- <-.
    apply entries_spec in E. destruct E as (gs & A & B & C). cbn [app] in B. subst out. exists (split ";"%char devices), gs.
    split; [now apply split_words|]. split; [exact A|]. split; [reflexivity|]. split; [now apply Forall_forall|]. split; [now apply power_of_two|].
    rewrite (Forall2_len A). apply Nat.eqb_eq.
  - intros (entries & gs & W & A & -> & B & P & Q). apply split_words in W. rewrite W.
    assert (E : opencl_entries platforms works 0 entries [] = (devices_from 0 gs, true)).
    { apply entries_spec. exists gs. split; [exact A|]. split; [reflexivity|]. now apply Forall_forall. }
    rewrite E. cbn [negb]. apply power_of_two in P. rewrite P. cbn [negb]. repeat f_equal. rewrite (Forall2_len A).
    destruct (Nat.eqb_spec (length gs) 1), same'; auto; try tauto; destruct Q; auto; intuition congruence.
Qed.
Print Assumptions C92_opencl.

(** A CUDA selection may have a number of devices that is not a power of two, for which the exchange between devices is wrong (C56). *)
Theorem C92_cuda_count_refuted : exists devices ids, cuda_select (Some 4%Z) devices [] = (ids, true) /\ forall k, length ids <> 2 ^ k.
Proof.
  exists (chars "0,1,2"), [0; 1; 2]%Z. split; [reflexivity|]. intros [|[|k]]; cbn; [lia|lia|]. pose proof (Nat.pow_nonzero 2 k). lia.
Qed.
Print Assumptions C92_cuda_count_refuted.

(** A second selection of an OpenCL engine does not replace the first, and a failed one leaves the devices it got to. *)
Theorem C92_opencl_again_refuted : exists platforms works,
  (exists st st', opencl_select platforms works (chars "0:0") ([], true) = (st, true) /\
    opencl_select platforms works (chars "0:1") st = (st', true) /\ fst st' = [mkDevice 0 0 0; mkDevice 0 1 0]) /\
  (exists st, opencl_select platforms works (chars "0:1;7:0") ([], true) = (st, false) /\ fst st = [mkDevice 0 1 0]).
Proof.
  exists [2], (fun _ _ => true). split; [do 2 eexists|eexists]; repeat split; reflexivity.
Qed.
Print Assumptions C92_opencl_again_refuted.

(** What the devices are after any number of selections: everything that was ever added, in order. *)
Theorem C92_opencl_grows : forall platforms works devices st,
  exists more, fst (fst (opencl_select platforms works devices st)) = fst st ++ more.
Proof.
  intros platforms works devices [devs same]. unfold opencl_select. cbn [fst snd].
  assert (G : forall entries n devs, exists more, fst (opencl_entries platforms works n entries devs) = devs ++ more).
  { induction entries as [|e entries IH]; intros n ds; cbn [opencl_entries].
    - exists []. now rewrite app_nil_r.
    - assert (Z : exists more, ds = ds ++ more) by (exists []; now rewrite app_nil_r).
      destruct (split ":"%char e) as [|a [|b [|x l]]]; auto. destruct (to_unsigned a) as [p|]; auto. destruct (N.leb _ _); auto.
      destruct (device_ids _ _) as [ids|]; auto. pose proof (add_spec works (N.to_nat p) n ids ds) as A.
      destruct (forallb (works (N.to_nat p)) ids).
      + rewrite A. destruct (IH (S n) (ds ++ map (fun i => mkDevice (N.to_nat p) i n) ids)) as (m & ->). rewrite <- app_assoc. eauto.
      + destruct A as (l & ->). cbn. eauto. }
  destruct (G (split ";"%char devices) 0 devs) as (m & H). destruct (opencl_entries _ _ _ _ _) as [out good]. cbn in H. subst out.
  exists m. destruct (negb good); [reflexivity|]. destruct (negb _); reflexivity.
Qed.
Print Assumptions C92_opencl_grows.

(** What counts as a number in these texts: the decimal digits of [n] are the CUDA device [n] up to the largest [int] and no device
    beyond, after a minus sign the number is the negative one, and for OpenCL [n] has to be an [unsigned int]. *)
Theorem C92_numbers : forall n, (n < 2 ^ 63)%N ->
  (to_int (show_N n) = if (n <? 2 ^ 31)%N then Some (Z.of_N n) else None) /\
  (to_int ("-"%char :: show_N n) = if (n <=? 2 ^ 31)%N then Some (- Z.of_N n)%Z else None) /\
  (to_unsigned (show_N n) = if (n <? 2 ^ 32)%N then Some n else None).
Proof.
  intros n H. unfold to_int, to_unsigned. rewrite to_longlong_show by exact H. rewrite to_longlong_minus by lia. rewrite to_ulonglong_show by lia.
  split; [|split; [|reflexivity]].
  - destruct (N.ltb_spec n (2 ^ 31)); destruct (Z.leb_spec (- 2 ^ 31) (Z.of_N n)); destruct (Z.leb_spec (Z.of_N n) (2 ^ 31 - 1)); cbn [andb];
      auto; exfalso; lia.
  - destruct (N.leb_spec n (2 ^ 31)); destruct (Z.leb_spec (- 2 ^ 31) (- Z.of_N n)); destruct (Z.leb_spec (- Z.of_N n) (2 ^ 31 - 1)); cbn [andb];
      auto; exfalso; lia.
Qed.
Print Assumptions C92_numbers.

(** Two platforms with two and three devices. *)
Example C92_case :
  cuda_select (Some 4%Z) (chars "2,,0, 3") [1%Z] = ([2; 0; 3]%Z, true) /\ cuda_select (Some 4%Z) (chars "4") [1%Z] = ([1%Z], false) /\
  opencl_select [2; 3] (fun _ _ => true) (chars "1:2,2;0:1,0") ([], false) =
    (([mkDevice 1 2 0; mkDevice 1 2 0; mkDevice 0 1 1; mkDevice 0 0 1], false), true) /\
  opencl_select [2; 3] (fun _ _ => true) (chars "1:0,1,2") ([], false) = (([mkDevice 1 0 0; mkDevice 1 1 0; mkDevice 1 2 0], false), false) /\
  snd (opencl_select [2; 3] (fun _ _ => true) (chars "1:") ([], false)) = false.
Proof. repeat split; vm_compute; reflexivity. Qed.
