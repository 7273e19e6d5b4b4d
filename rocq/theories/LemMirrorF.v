(** Opposite numbers in IEEE arithmetic: lemmas for mirror images. *)
From Coq Require Import ZArith SpecFloat Bool List Arith Lia.
From Verif Require Import Num Arr ArrLemmas ModelEngine ModelSolverBase ModelSolver ModelBlock SpecSolver SpecFloatForce SpecMirror LemErase LemFloatForce LemSym LemMirror.
Import ListNotations.

Lemma normalize_opp : forall p e z ex, opposite (binary_normalize p e z ex false) (binary_normalize p e (- z) ex false).
Proof.
  intros p e [|q|q] ex; cbn [binary_normalize Z.opp].
  - right. eauto.
  - left. exact (round_opp p e false q _).
  - left. rewrite <- (round_opp p e true q). reflexivity.
Qed.
Lemma add_opposite : forall p e a b c d, opposite a b -> opposite c d -> opposite (SFadd p e a c) (SFadd p e b d).
Proof.
  intros p e a b c d [->|(s & t & -> & ->)] [->|(u & v & -> & ->)].
  - destruct a as [sa|sa| |sa ma ea], c as [sc|sc| |sc mc ec]; try (left; reflexivity);
      try (destruct sa, sc; (left; reflexivity) || (right; cbn; eauto); fail).
    cbn [SFadd SFopp]. set (x := cond_Zopp sa _). set (y := cond_Zopp sc _).
    replace (cond_Zopp (negb sa) _) with (- x)%Z by (unfold x; destruct sa; cbn [cond_Zopp negb]; lia).
    replace (cond_Zopp (negb sc) _) with (- y)%Z by (unfold y; destruct sc; cbn [cond_Zopp negb]; lia).
    replace (- x + - y)%Z with (- (x + y))%Z by ring. apply normalize_opp.
  - destruct a as [sa|sa| |sa ma ea]; try (left; reflexivity). right. destruct sa, u, v; cbn; eauto.
  - destruct c as [sc|sc| |sc mc ec]; try (left; reflexivity). right. destruct sc, s, t; cbn; eauto.
  - right. destruct s, t, u, v; cbn; eauto.
Qed.
Lemma sub_opposite : forall p e a b c d, opposite a b -> opposite c d -> opposite (SFsub p e a c) (SFsub p e b d).
Proof.
  intros p e a b c d [->|(s & t & -> & ->)] [->|(u & v & -> & ->)].
  - destruct a as [sa|sa| |sa ma ea], c as [sc|sc| |sc mc ec]; try (left; reflexivity);
      try (destruct sa, sc; (left; reflexivity) || (right; cbn; eauto); fail).
    cbn [SFsub SFopp]. set (x := cond_Zopp sa _). set (y := cond_Zopp sc _).
    replace (cond_Zopp (negb sa) _) with (- x)%Z by (unfold x; destruct sa; cbn [cond_Zopp negb]; lia).
    replace (cond_Zopp (negb sc) _) with (- y)%Z by (unfold y; destruct sc; cbn [cond_Zopp negb]; lia).
    replace (- x - - y)%Z with (- (x - y))%Z by ring. apply normalize_opp.
  - destruct a as [sa|sa| |sa ma ea]; try (left; reflexivity). right. destruct sa, u, v; cbn; eauto.
  - destruct c as [sc|sc| |sc mc ec]; try (left; reflexivity). right. destruct sc, s, t; cbn; eauto.
  - right. destruct s, t, u, v; cbn; eauto.
Qed.
Lemma div_opposite : forall p e a b c, opposite a b -> opposite (SFdiv p e a c) (SFdiv p e b c).
Proof.
  intros p e a b c [->|(s & t & -> & ->)].
  - destruct a as [sa|sa| |sa ma ea], c as [sc|sc| |sc mc ec]; try (left; reflexivity);
      try (destruct sa, sc; left; reflexivity).
    left. cbn [SFdiv SFopp]. rewrite <- negb_xorb_l. destruct (SFdiv_core_binary p e _ ea _ ec) as [[mz ez] lz]. apply round_aux_opp.
  - destruct c as [u|u| |u m ex]; cbn; [left; reflexivity|right; eauto|left; reflexivity|right; eauto].
Qed.
Lemma abs_opposite : forall a b, opposite a b -> SFabs a = SFabs b.
Proof. intros a b [->|(s & t & -> & ->)]; [now destruct a|reflexivity]. Qed.
Lemma opposite_zero : forall x, opposite x x -> x = S754_nan \/ exists s, x = S754_zero s.
Proof.
  intros x [H|(s & t & -> & _)]; [|eauto]. destruct x as [s|s| |s m e]; eauto; cbn in H; injection H as H; destruct s; discriminate.
Qed.

(** the relation of one component *)
Definition fax (flip : nat -> bool) (k : nat) (x x' : spec_float) : Prop := if flip k then opposite x x' else x' = x.
Section F.
  Variables (flip : nat -> bool) (n : nat) (mass : list spec_float).
  Notation ax := (fax flip).
  Hypothesis Hn : 0 < n.
  Lemma f_add i x x' y y' : ax i x x' -> ax i y y' -> ax i (nadd Fops x y) (nadd Fops x' y').
  Proof. unfold fax. destruct (flip i); [apply add_opposite|congruence]. Qed.
  Lemma f_sub i x x' y y' : ax i x x' -> ax i y y' -> ax i (nsub Fops x y) (nsub Fops x' y').
  Proof. unfold fax. destruct (flip i); [apply sub_opposite|congruence]. Qed.
  Lemma f_mul i x x' d : ax i x x' -> ax i (nmul Fops x d) (nmul Fops x' d).
  Proof. unfold fax. destruct (flip i); [apply mul_opposite|congruence]. Qed.
  Lemma f_div i x x' d : ax i x x' -> ax i (ndiv Fops x d) (ndiv Fops x' d).
  Proof. unfold fax. destruct (flip i); [apply div_opposite|congruence]. Qed.
  Lemma f_sq i x x' : ax i x x' -> nmul Fops x x = nmul Fops x' x'.
  Proof. unfold fax. destruct (flip i); [apply square_opposite|congruence]. Qed.
  Lemma f_zero i : ax i (nlit Fops 0) (nlit Fops 0).
  Proof. unfold fax. destruct (flip i); [right; exists false, false; split; reflexivity|reflexivity]. Qed.
  Lemma f_abs i x x' : ax i x x' -> nabs Fops x = nabs Fops x'.
  Proof. unfold fax. destruct (flip i); [apply abs_opposite|congruence]. Qed.
  Notation W := (cW (arel ax n)).
  Lemma W_of y y' : mirrored flip n y y' -> W y y'.
  Proof.
    intros (L & L' & H). split; [congruence|]. intros q x x' E E'.
    assert (Hq : q < 6 * n) by (rewrite <- L; apply nth_error_Some; congruence).
    pose proof (Nat.div_mod q n ltac:(lia)) as D. pose proof (Nat.mod_upper_bound q n ltac:(lia)) as M.
    assert (K : q / n < 6) by (apply Nat.div_lt_upper_bound; lia).
    rewrite D, (Nat.mul_comm n) in E, E'. exact (H _ _ x x' K M E E').
  Qed.
  Lemma of_W y y' : W y y' -> length y = 6 * n -> mirrored flip n y y'.
  Proof.
    intros [L H] Hl. split; [auto|]. split; [congruence|]. intros k j x x' Hk Hj E E'. specialize (H _ _ _ E E').
    rewrite (@arel_at _ ax n k j Hj) in H. exact H.
  Qed.
  (** the image of anything *)
  Definition image (y : list spec_float) : list spec_float :=
    map (fun q => let x := nth q y S754_nan in if flip ((q / n) mod 3) then SFopp x else x) (seq 0 (length y)).
  Lemma image_W y : W y (image y).
  Proof.
    split; [unfold image; now rewrite map_length, seq_length|]. intros q x x' E E'.
    assert (Hq : q < length y) by (apply nth_error_Some; congruence). unfold image in E'. rewrite nth_error_map in E'.
    assert (S1 : nth_error (seq 0 (length y)) q = Some q).
    { rewrite (nth_error_nth' _ 0) by (now rewrite seq_length). now rewrite seq_nth. }
    rewrite S1 in E'. cbn [option_map] in E'. injection E' as <-. rewrite (nth_error_nth _ _ S754_nan E). unfold arel, fax.
    destruct (flip _); [now left|reflexivity].
  Qed.
  Lemma image_length y : length (image y) = length y. Proof. unfold image. now rewrite map_length, seq_length. Qed.
  Lemma mirror_all E ef (g g' : nat -> list spec_float) dts s (e e' : @eng spec_float E) r :
    (forall q step t y y' f f', W y y' -> W f f' -> sim (ef q step t y f) (ef q step t y' f') (fun a b => fst a = fst b /\ W (snd a) (snd b))) ->
    (forall k, W (g k) (g' k)) -> fresh s -> W (e_y e) (e_y e') -> e_time e = e_time e' -> e_step e = e_step e' -> e_priv e = e_priv e' ->
    e_nbuf e = e_nbuf e' -> advise_all Fops (6 * n) ef g dts s e = Some r ->
    exists r', advise_all Fops (6 * n) ef g' dts s e' = Some r' /\ W (e_y (snd r)) (e_y (snd r')) /\ e_time (snd r') = e_time (snd r) /\
      e_step (snd r') = e_step (snd r).
  Proof.
    apply c_all; unfold arel.
    - intros i. apply f_add.
    - intros i. apply f_sub.
    - intros i. apply f_mul.
    - intros i. apply f_zero.
    - intros i x x'. apply f_abs.
  Qed.
End F.
