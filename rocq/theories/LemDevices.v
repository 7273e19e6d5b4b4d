(** Reading lists of devices. *)
From Coq Require Import Ascii String Bool List NArith ZArith Arith Lia.
From Verif Require Import ModelText ModelDevices SpecDevices LemText LemIndex.
Import ListNotations.
Set Implicit Arguments.

Lemma split_words c s ws : split c s = ws <-> words_of c s ws.
Proof.
  split.
  - revert s. induction ws as [|w ws IH]; intros s H; [now apply split_nonnil in H|].
    apply split_inv in H. destruct H as [A B]. destruct ws as [|w2 ws].
    + subst. split; [discriminate|]. split; [|reflexivity]. intros w' [<-|[]]. exact A.
    + destruct B as (s' & -> & B). destruct (IH s' B) as (_ & C & D). split; [discriminate|]. split; [|now rewrite D].
      intros w' [<-|I]; auto.
  - intros (A & B & ->). induction ws as [|w ws IH]; [congruence|]. destruct ws as [|w2 ws].
    + apply split_free. apply B. now left.
    + change (join c (w :: w2 :: ws)) with (w ++ c :: join c (w2 :: ws)). rewrite split_cons by (apply B; now left). f_equal. apply IH; [discriminate|].
      intros w' I. apply B. now right.
Qed.

Lemma Forall2_len A B (P : A -> B -> Prop) l m : Forall2 P l m -> length l = length m.
Proof. induction 1; cbn; congruence. Qed.
Lemma cuda_ids_spec n ws : forall l, cuda_ids n ws = Some l <-> Forall2 (fun w i => to_int w = Some i /\ (0 <= i < n)%Z) ws l.
Proof.
  induction ws as [|w ws IH]; intros l; cbn [cuda_ids]; split; intros H.
  - injection H as <-. constructor.
  - inversion H. reflexivity.
  - destruct (to_int w) as [i|] eqn:E; [|discriminate]. destruct (Z.ltb_spec i 0); [discriminate|]. destruct (Z.leb_spec n i); [discriminate|].
    cbn [orb] in H. destruct (cuda_ids n ws) as [l'|]; [|discriminate]. injection H as <-. constructor; [split; [exact E|lia]|now apply IH].
  - inversion H as [|? i ? l' [A B] C]; subst. rewrite A. destruct (Z.ltb_spec i 0); [lia|]. destruct (Z.leb_spec n i); [lia|]. cbn [orb].
    apply IH in C. now rewrite C.
Qed.
Lemma device_ids_spec n ws : forall l, device_ids n ws = Some l <-> Forall2 (fun w i => to_unsigned w = Some (N.of_nat i) /\ i < n) ws l.
Proof.
  induction ws as [|w ws IH]; intros l; cbn [device_ids]; split; intros H.
  - injection H as <-. constructor.
  - inversion H. reflexivity.
  - destruct (to_unsigned w) as [i|] eqn:E; [|discriminate]. destruct (N.leb_spec (N.of_nat n) i); [discriminate|].
    destruct (device_ids n ws) as [l'|]; [|discriminate]. injection H as <-. constructor; [split; [now rewrite N2Nat.id|lia]|now apply IH].
  - inversion H as [|? i ? l' [A B] C]; subst. rewrite A. destruct (N.leb_spec (N.of_nat n) (N.of_nat i)); [lia|].
    apply IH in C. rewrite C, Nat2N.id. reflexivity.
Qed.

Section Entries.
  Context (platforms : list nat) (works : nat -> nat -> bool).
  Lemma add_spec p n ids : forall devs,
    if forallb (works p) ids then add_devices works p n ids devs = (devs ++ map (fun i => mkDevice p i n) ids, true)
    else exists l, add_devices works p n ids devs = (devs ++ l, false).
  Proof.
    induction ids as [|i ids IH]; intros devs; cbn [forallb add_devices map]; [now rewrite app_nil_r|].
    destruct (works p i); cbn [andb]; [|exists []; now rewrite app_nil_r].
    specialize (IH (devs ++ [mkDevice p i n])). destruct (forallb (works p) ids).
    - rewrite IH, <- app_assoc. reflexivity.
    - destruct IH as (l & ->). exists (mkDevice p i n :: l). rewrite <- app_assoc. reflexivity.
  Qed.
  Definition all_work (l : list device) : Prop := Forall (fun d => works (dv_platform d) (dv_number d) = true) l.
  Lemma entries_spec entries : forall n devs out, opencl_entries platforms works n entries devs = (out, true) <->
    exists gs, Forall2 (opencl_entry platforms) entries gs /\ out = devs ++ devices_from n gs /\ all_work (devices_from n gs).
  Proof.
    induction entries as [|entry entries IH]; intros n devs out; cbn [opencl_entries].
    - split.
      + intros H. injection H as <-. exists []. cbn. rewrite app_nil_r. split; [constructor|]. split; [reflexivity|constructor].
      + intros (gs & A & -> & _). inversion A; subst. cbn. now rewrite app_nil_r.
    - split.
      + intros H. destruct (split ":"%char entry) as [|a [|b [|x l]]] eqn:E; try discriminate.
        destruct (to_unsigned a) as [p|] eqn:Ea; [|discriminate]. destruct (N.leb_spec (N.of_nat (length platforms)) p); [discriminate|].
        destruct (device_ids (nth (N.to_nat p) platforms 0) (split ","%char b)) as [ids|] eqn:Ei; [|discriminate].
        pose proof (add_spec (N.to_nat p) n ids devs) as A. destruct (forallb (works (N.to_nat p)) ids) eqn:Ew.
        2: { destruct A as (l & A). rewrite A in H. discriminate. }
        rewrite A in H. apply IH in H. destruct H as (gs & B & -> & C). exists ((N.to_nat p, ids) :: gs). cbn [devices_from fst snd]. split; [constructor; [|exact B]|].
        * exists a, b, (split ","%char b). cbn [fst snd]. rewrite N2Nat.id. split; [now apply split_words|]. split; [exact Ea|]. split; [lia|].
          split; [now apply split_words|now apply device_ids_spec].
        * rewrite app_assoc. split; [reflexivity|]. apply Forall_app. split; [|exact C]. apply Forall_map. cbn.
          rewrite forallb_forall in Ew. now apply Forall_forall.
      + intros (gs & A & -> & W). inversion A as [|? g ? gs' B C]; subst. destruct B as (a & b & ws & B1 & B2 & B3 & B4 & B5). destruct g as [p ids].
        cbn [fst snd devices_from] in *. apply split_words in B1, B4. rewrite B1, B2, B4. destruct (N.leb_spec (N.of_nat (length platforms)) (N.of_nat p)); [lia|].
        rewrite Nat2N.id. apply device_ids_spec in B5. rewrite B5. apply Forall_app in W. destruct W as [W1 W2].
        pose proof (add_spec p n ids devs) as D. replace (forallb (works p) ids) with true in D.
        2: { symmetry. apply forallb_forall. apply Forall_map in W1. cbn in W1. now apply Forall_forall. }
        rewrite D. apply IH. exists gs'. split; [exact C|]. rewrite app_assoc. auto.
  Qed.
End Entries.

Lemma power_pos p : N.land (N.pos p) (N.pos p - 1) = 0%N <-> exists k, N.pos p = (2 ^ k)%N.
Proof.
  induction p as [p _|p IH|].
  - split.
    + intros H. exfalso. change (N.pos p~1 - 1)%N with (N.pos p~0) in H. change (N.land (N.pos p~1) (N.pos p~0)) with (N.double (N.land (N.pos p) (N.pos p))) in H. rewrite N.land_diag in H. discriminate.
    + intros (k & H). exfalso. destruct k as [|k] using N.peano_ind; [discriminate|]. rewrite N.pow_succ_r' in H. lia.
  - assert (E : N.land (N.pos p~0) (N.pos p~0 - 1) = N.double (N.land (N.pos p) (N.pos p - 1))) by (destruct p; reflexivity).
    rewrite E. split.
    + intros H. destruct IH as [IH _]. destruct IH as (k & IH); [lia|]. exists (N.succ k). rewrite N.pow_succ_r', <- IH. reflexivity.
    + intros (k & H). destruct k as [|k] using N.peano_ind; [discriminate|]. rewrite N.pow_succ_r' in H.
      destruct IH as [_ IH]. rewrite IH; [reflexivity|]. exists k. lia.
  - split; [exists 0%N; reflexivity|reflexivity].
Qed.
Lemma power_of_two n : is_power_of_two (N.of_nat n) = true <-> exists k, n = 2 ^ k.
Proof.
  unfold is_power_of_two. destruct (N.of_nat n) as [|p] eqn:E.
  - cbn. split; [discriminate|]. intros (k & ->). pose proof (Nat.pow_nonzero 2 k). lia.
  - cbn [N.ltb N.compare andb]. rewrite N.eqb_eq, power_pos. split; intros (k & H).
    + exists (N.to_nat k). apply Nat2N.inj. rewrite Nat2N.inj_pow, N2Nat.id. lia.
    + exists (N.of_nat k). rewrite <- E, H, Nat2N.inj_pow. reflexivity.
Qed.
