(** Bodies without mass: C100. *)
From Coq Require Import ZArith SpecFloat Reals List Arith Lia Lra.
From Verif Require Import Num Arr ArrLemmas SpecPhys SpecEngine RLemmas ModelVertex ModelForce ModelSum ModelEngine ModelBlock ModelSolverBase ModelButcher ModelExtrap
  ModelSolver SpecSolver SpecSym SpecMassless LemEngine LemBlock LemErase LemSym LemMirror PropSolver ModelParallel SpecPar PropForce.
Import ListNotations.
Set Implicit Arguments.
Local Open Scope nat_scope.

(** ** buffers keep their length *)
Section L.
  Context {T : Type} (N : NumOps T) (ps : nat) (rel : nat -> T -> T -> Prop).
  Lemma for_keep St (Q : St -> Prop) n : forall i (b : nat -> St -> option St) s r, (forall k s s', Q s -> b k s = Some s' -> Q s') -> Q s ->
    for_ n i b s = Some r -> Q r.
  Proof.
    induction n as [|n IH]; intros i b s r HB H E; cbn in E; [now injection E as <-|].
    destruct (b i s) as [s'|] eqn:Es; [|discriminate].
    exact (IH (S i) b s' r HB (HB _ _ _ H Es) E).
  Qed.
  Lemma wr_keep (a r : list T) i x : wr a i x = Some r -> length r = length a.
  Proof. rewrite wr_upd. destruct (Nat.ltb i (length a)); [|discriminate]. intros E. injection E as <-. apply upd_length. Qed.
  Ltac bind E := repeat match type of E with obind ?o _ = Some _ => destruct o; cbn [obind] in E; [|discriminate E] end.
  Lemma fmadd_keep a b x d r : length a = ps -> fmadd N ps a b x d = Some r -> length r = ps.
  Proof.
    unfold fmadd. intros L. apply (for_keep (fun l => length l = ps)); auto. intros k s s' Hs E. unfold fmadd_body in E. bind E.
    apply wr_keep in E. congruence.
  Qed.
  Lemma fmi_keep a b d r : length a = ps -> fmadd_inplace N ps a b d = Some r -> length r = ps.
  Proof.
    unfold fmadd_inplace. intros L. apply (for_keep (fun l => length l = ps)); auto. intros k s s' Hs E. unfold fmadd_inplace_body in E. bind E.
    apply wr_keep in E. congruence.
  Qed.
  Lemma copy_keep (a b r : list T) : length a = ps -> copy_buffer ps a b = Some r -> length r = ps.
  Proof.
    unfold copy_buffer. intros L. apply (for_keep (fun l => length l = ps)); auto. intros k s s' Hs E. unfold copy_body in E. bind E.
    apply wr_keep in E. congruence.
  Qed.
  Lemma fill_keep (a r : list T) v : length a = ps -> fill_buffer a v = Some r -> length r = ps.
  Proof.
    unfold fill_buffer. intros L. apply (for_keep (fun l => length l = ps)); auto. intros k s s' Hs E. unfold fill_body in E.
    apply wr_keep in E. congruence.
  Qed.
  Lemma corr_keep a k b d n r : length a = ps -> fmaddn_corr N ps a k b d n = Some r -> length (fst r) = ps /\ length (snd r) = length k.
  Proof.
    unfold fmaddn_corr. intros L. destruct (Nat.ltb (length b) n); [intros E; injection E as <-; auto|].
    apply (for_keep (fun l => length (fst l) = ps /\ length (snd l) = length k)); [|auto].
    intros q s s' [Hs Hk] E. destruct s as [a0 k0]. cbn [fst snd] in *. unfold fmaddn_corr_body in E.
    repeat match type of E with obind ?o _ = Some _ => let E2 := fresh in destruct o eqn:E2; cbn [obind] in E; [|discriminate E] end.
    injection E as <-. cbn.
    repeat match goal with H : wr _ _ _ = Some _ |- _ => apply wr_keep in H end. split; congruence.
  Qed.
  (** ** the relation of states: equal where [rel] says so, of full length *)
  Definition lW (a a' : list T) : Prop := cW rel a a' /\ length a = ps.
  Lemma sim_and A (x y : option A) (Q : A -> A -> Prop) (P : A -> Prop) : sim x y Q -> (forall a, x = Some a -> P a) -> sim x y (fun a b => Q a b /\ P a).
  Proof. unfold sim. destruct x, y; auto. Qed.
  Lemma lW_nil : Forall2 (fun a b : list T => cW rel a b) [] []. Proof. constructor. Qed.
  Lemma lWs l l' : Forall2 lW l l' -> Forall2 (cW rel) l l'.
  Proof. induction 1 as [|a b l l' [H _] _ IH]; constructor; auto. Qed.
  Lemma lWn a a' : Wn lW a a' -> Wn (cW rel) a a'.
  Proof. intros [[H _]|H]; [now left|now right]. Qed.
  Lemma copy_empty (b r : list T) : copy_buffer ps [] b = Some r -> ps = 0.
  Proof.
    unfold copy_buffer. destruct ps as [|m]; auto. cbn. unfold copy_body at 1. destruct (rd b 0); cbn; discriminate.
  Qed.

  Hypothesis Hadd : forall i x x' y y', rel i x x' -> rel i y y' -> rel i (nadd N x y) (nadd N x' y').
  Hypothesis Hsub : forall i x x' y y', rel i x x' -> rel i y y' -> rel i (nsub N x y) (nsub N x' y').
  Hypothesis Hmul : forall i x x' d, rel i x x' -> rel i (nmul N x d) (nmul N x' d).
  Hypothesis Hrefl : forall i x, rel i x x.

  (** runs of solvers without a step control, from related states *)
  Theorem l_all E ef (g : nat -> list T) dts s (e e' : @eng T E) r :
    (forall q step t y y' f f', lW y y' -> lW f f' -> sim (ef q step t y f) (ef q step t y' f') (fun a b => fst a = fst b /\ lW (snd a) (snd b))) ->
    (forall k, length (g k) = ps) -> fresh s -> ~ adaptive s -> lW (e_y e) (e_y e') -> e_time e = e_time e' -> e_step e = e_step e' -> e_priv e = e_priv e' ->
    e_nbuf e = e_nbuf e' -> advise_all N ps ef g dts s e = Some r ->
    exists r', advise_all N ps ef g dts s e' = Some r' /\ lW (e_y (snd r)) (e_y (snd r')).
  Proof.
    intros Hef Hg Hf Ha Hy Ht Hs Hp Hn Er.
    assert (HR : srel lW s s).
    { clear -Hf. induction s as [b|b|b|b|rf b|p b|p b|p st IH b step]; cbn in Hf |- *; subst; cbn; auto.
      destruct Hf as (A & -> & ->). cbn. auto. }
    pose proof (@sy_all T E E N ps ef ef g g eq lW eq) as X.
    assert (Y : sim (advise_all N ps ef g dts s e) (advise_all N ps ef g dts s e') (Xe eq lW eq (srel lW))).
    { apply X; auto; clear X.
      - intros; subst; auto.
      - intros k. split; auto. split; auto. intros i x x' A B. rewrite A in B. injection B as <-. apply Hrefl.
      - intros a a' b b' x x' d [A LA] [B _] [C _]. apply sim_and; [now apply c_fmadd|]. intros u. now apply fmadd_keep.
      - intros a a' b b' d [A LA] [B _]. apply sim_and; [now apply c_fmi|]. intros u. now apply fmi_keep.
      - intros a a' b b' [A LA] [B _]. apply sim_and; [now apply c_copy|]. intros u. now apply copy_keep.
      - intros a a' b b' A B. apply sim_and; [apply c_copyn; now apply lWn|]. intros u Eu.
        destruct A as [[_ LA]|[-> _]]; [eapply copy_keep; eauto|]. pose proof (copy_empty _ Eu) as Z. eapply copy_keep; [|exact Eu]. now rewrite Z.
      - intros a a' [A LA]. apply sim_and; [apply c_fill; auto|]. intros u. now apply fill_keep.
      - intros a a' k k' b b' d n [A LA] K B. 
        assert (Z := @c_corr T N rel Hadd Hsub Hmul ps a a' k k' b b' d n A (lWn K) (lWs B)).
        destruct (fmaddn_corr N ps a k b d n) as [u|] eqn:E1; [|exact I].
        destruct (fmaddn_corr N ps a' k' b' d n) as [u'|] eqn:E2; [|exact Z]. cbn in Z |- *. destruct Z as [Z1 Z2].
        destruct (corr_keep _ _ _ _ _ LA E1) as [L1 L2]. split; [split; auto|].
        destruct Z2 as [Z2|Z2]; [|now right]. destruct K as [[_ LK]|[-> _]]; [left; split; [exact Z2|congruence]|].
        right. cbn in L2. destruct (snd u); [|discriminate]. destruct Z2 as [Z2 _]. destruct (snd u'); [auto|discriminate].
      - intros t t' d ->. reflexivity.
      - intros H. contradiction.
      - red. auto. }
    rewrite Er in Y. unfold sim in Y. destruct (advise_all N ps ef g dts s e') as [r'|]; [|contradiction].
    exists r'. split; auto. apply Y.
  Qed.
End L.

(** ** the forces of massive bodies only *)
Lemma acc_agree mind keep n mass y y' i k : agree keep n y y' -> (forall j, j < n -> nth j mass 0%R <> 0%R -> keep j) -> keep i -> i < n -> k < 3 ->
  newton_acc mind n (fun j => nth j mass 0%R) (comp y n 0) (comp y n 1) (comp y n 2) (comp y n k) i =
  newton_acc mind n (fun j => nth j mass 0%R) (comp y' n 0) (comp y' n 1) (comp y' n 2) (comp y' n k) i.
Proof.
  intros (L & L' & H) HK Hi Ki Kk.
  assert (C : forall c j, c < 6 -> j < n -> keep j -> comp y n c j = comp y' n c j).
  { intros c j Hc Hj Hkj. unfold comp. specialize (H c j Hc Hj Hkj). rewrite (@nth_error_nth' _ y (c * n + j) 0%R) in H by nia.
    rewrite (@nth_error_nth' _ y' (c * n + j) 0%R) in H by nia. congruence. }
  unfold newton_acc. f_equal. apply rsum_ext. intros j Hj. destruct (Nat.eqb i j); auto.
  destruct (Req_dec (nth j mass 0%R) 0%R) as [->|Hm]; [unfold Rdiv; ring|].
  assert (keep j) by auto. unfold dist2. now rewrite !(C 0), !(C 1), !(C 2), !(C k) by (auto; lia).
Qed.

Section R.
  Context (keep : nat -> Prop) (n : nat).
  Notation kr := (fun j (x x' : R) => keep (j mod n) -> x = x').
  Lemma agree_lW y y' : 0 < n -> agree keep n y y' <-> lW (6 * n) kr y y'.
  Proof.
    intros Hn. split.
    - intros (L & L' & H). split; [|exact L]. split; [congruence|]. intros j x x' E E' K.
      assert (Hj : j < 6 * n) by (rewrite <- L; apply nth_error_Some; congruence).
      pose proof (Nat.div_mod j n ltac:(lia)) as D. specialize (H (j / n) (j mod n)). rewrite Nat.mul_comm, <- D in H.
      rewrite H in E; try congruence; try (apply Nat.mod_upper_bound; lia); auto. apply Nat.div_lt_upper_bound; lia.
    - intros [[LL H] L]. split; [exact L|]. split; [congruence|]. intros k i Hk Hi K.
      destruct (nth_error y (k * n + i)) as [x|] eqn:E; [|apply nth_error_None in E; nia].
      destruct (nth_error y' (k * n + i)) as [x'|] eqn:E'; [|apply nth_error_None in E'; nia].
      f_equal. apply (H _ _ _ E E'). rewrite Nat.add_comm, Nat.mod_add by lia. now rewrite Nat.mod_small.
  Qed.
End R.

(** Exact arithmetic, the block engine, any solver without a step control, any memory.  Let [keep] contain every body that has mass; then how these
    bodies move does not depend on where the other bodies, which have none, are and how fast they are. *)
Theorem C100_test_bodies : forall mind q mass (keep : nat -> Prop) garbage dts (s : @solver R) (y y' : list R) t k u b, let n := q * 64 in
  0 < n -> length mass = n -> (forall j, j < n -> nth j mass 0%R <> 0%R -> keep j) ->
  (forall k, length (garbage k) = 6 * n) -> solver_ok s -> fresh s -> ~ adaptive s -> agree keep n y y' ->
  exists r r', advise_all (Rops mind) (6 * n) (block_ef (Rops mind) n mass) garbage dts s (mkEng y t k u b) = Some r /\
    advise_all (Rops mind) (6 * n) (block_ef (Rops mind) n mass) garbage dts s (mkEng y' t k u b) = Some r' /\
    agree keep n (e_y (snd r)) (e_y (snd r')).
Proof.
  intros mind q mass keep garbage dts s y y' t k u b n Hn Hm HK Hg HO Hf Ha HA.
  destruct (@C28_momentum_block mind q mass garbage dts s (mkEng y t k u b) Hn Hm Hg (proj1 HA) HO Hf) as (r & Er & _). fold n in Er.
  destruct (@l_all R (Rops mind) (6 * n) (fun j x x' => keep (j mod n) -> x = x')) with (E := unit) (ef := block_ef (Rops mind) n mass) (g := garbage)
    (dts := dts) (s := s) (e := mkEng y t k u b) (e' := mkEng y' t k u b) (r := r) as (r' & Er' & W); auto.
  - cbn. intros i x x' z z' A B C. now rewrite A, B.
  - cbn. intros i x x' z z' A B C. now rewrite A, B.
  - cbn. intros i x x' d A C. now rewrite A.
  - intros p step t0 z z' f f' HZ HF. pose proof HZ as HZ'. apply agree_lW in HZ'; auto.
    assert (Lz := proj1 HZ'). assert (Lz' := proj1 (proj2 HZ')).
    destruct HF as [[LL _] LF]. unfold block_ef.
    destruct (@block_rhs mind q mass z f Lz Hm LF) as (f1 & E1 & L1 & G1). fold n in E1, L1, G1. rewrite E1. cbn [obind].
    destruct (@block_rhs mind q mass z' f' Lz' Hm ltac:(fold n; congruence)) as (f2 & E2 & L2 & G2). fold n in E2, L2, G2. rewrite E2. cbn [obind sim].
    cbn [fst snd]. split; [reflexivity|]. apply agree_lW; auto. split; [exact L1|]. split; [exact L2|]. intros c i Hc Hi Ki.
    assert (c < 3 \/ exists c', c' < 3 /\ c = c' + 3) as [H3|(c' & H3 & ->)].
    { destruct (Nat.lt_ge_cases c 3); [now left|]. right. exists (c - 3). lia. }
    + rewrite (proj1 (G1 i c Hi H3)), (proj1 (G2 i c Hi H3)). f_equal. destruct HZ' as (_ & _ & HZ'). specialize (HZ' (c + 3) i ltac:(lia) Hi Ki).
      unfold comp. rewrite (@nth_error_nth' _ z _ 0%R), (@nth_error_nth' _ z' _ 0%R) in HZ' by nia. congruence.
    + rewrite (proj2 (G1 i c' Hi H3)), (proj2 (G2 i c' Hi H3)). f_equal. eapply acc_agree; eauto.
  - now apply agree_lW.
  - exists r, r'. split; [exact Er|]. split; [exact Er'|]. now apply agree_lW.
Qed.
Print Assumptions C100_test_bodies.

(** The block engine gives every body, of whatever mass, the acceleration of the field at its place. *)
Theorem C100_field : forall mind q mass y f, let n := q * 64 in
  length y = 6 * n -> length mass = n -> length f = 6 * n ->
  exists f', block_fcompute (Rops mind) n mass y f = Some f' /\ newton_rhs mind n mass y f'.
Proof. intros mind q mass y f n. exact (@block_rhs mind q mass y f). Qed.
Print Assumptions C100_field.

(** ** binary64: what the other engines do *)
Definition zn (x : spec_float) : Prop := x = S754_nan \/ exists s, x = S754_zero s.
Lemma zn_mul x y : zn x -> zn (nmul Fops x y).
Proof. unfold zn. intros [->|[s ->]]; destruct y; cbn; eauto. Qed.
Lemma zn_mul_r x y : zn y -> zn (nmul Fops x y).
Proof. unfold zn. intros [->|[s ->]]; destruct x; cbn; eauto. Qed.
Lemma zn_div x y : zn x -> zn (ndiv Fops x y).
Proof. unfold zn. intros [->|[s ->]]; destruct y; cbn; eauto. Qed.
Lemma zn_add x y : zn x -> zn y -> zn (nadd Fops x y).
Proof. unfold zn. intros [->|[s ->]] [->|[t ->]]; cbn; eauto. destruct s, t; cbn; eauto. Qed.
Lemma zn_nan x s : zn x -> ndiv Fops x (S754_zero s) = S754_nan.
Proof. intros [->|[t ->]]; reflexivity. Qed.
Definition vzn (v : vec3 spec_float) : Prop := zn (vx v) /\ zn (vy v) /\ zn (vz v).
Lemma vzn_scale v c : zn c -> vzn (vscale Fops v c).
Proof. intros H. destruct v as [a b d]. unfold vscale, vzn. cbn [vx vy vz]. split; [|split]; now apply zn_mul_r. Qed.
Lemma vzn_force v1 v2 m1 m2 : zn m1 -> vzn (force Fops v1 v2 m1 m2).
Proof.
  intros H. unfold force. apply vzn_scale, zn_div, zn_mul. now apply zn_mul_r.
Qed.
Lemma vzn_acc n y mass i : zn (nth i mass (nlit Fops 0)) -> vzn (acc_fold Fops n y mass i).
Proof.
  intros H. unfold acc_fold. assert (Z : vzn (vzero Fops)) by (repeat split; right; eexists; reflexivity).
  revert Z. generalize (vzero Fops). induction (seq 0 n) as [|j l IH]; intros v Z; cbn [fold_left]; auto.
  apply IH. destruct (Nat.eqb i j); auto. destruct (vzn_force (cv Fops y n 0 i) (cv Fops y n 0 j) (nth j mass (nlit Fops 0)) H) as (A & B & C).
  destruct Z as (Z1 & Z2 & Z3). repeat split; cbn [vadd vx vy vz]; now apply zn_add.
Qed.

(** The engine simple divides the force on a body by its mass: whatever the state, the acceleration of a body of mass zero is not a number. *)
Theorem C100_nan : forall n mass y f f' i s k, 6 * n <= length y -> n <= length mass -> 6 * n <= length f -> i < n -> k < 3 ->
  nth_error mass i = Some (S754_zero s) -> simple_fcompute Fops n mass y f = Some f' -> nth_error f' ((k + 3) * n + i) = Some S754_nan.
Proof.
  intros n mass y f f' i s k Hy Hm Hf Hi Hk Em E.
  destruct (@simple_fcompute_cells _ Fops n y mass f Hy Hm Hf) as (f1 & E1 & _ & C & _). rewrite E in E1. injection E1 as <-.
  destruct (C i Hi) as [_ (A & B & D)]. apply (nth_error_nth _ _ (nlit Fops 0)) in Em.
  assert (Z : zn (nth i mass (nlit Fops 0))) by (rewrite Em; right; eauto). apply (vzn_acc n y) in Z. destruct Z as (Z1 & Z2 & Z3).
  rewrite Em in A, B, D. cbn [vdivs vx vy vz] in A, B, D. rewrite (zn_nan s Z1) in A. rewrite (zn_nan s Z2) in B. rewrite (zn_nan s Z3) in D.
  destruct k as [|[|[|k]]]; [exact A|exact B|exact D|lia].
Qed.
Print Assumptions C100_nan.

(** The engine openmp does the same under every schedule of its threads. *)
Theorem C100_nan_openmp : forall A B C n (m : mem spec_float) f y mass i s k,
  A <> B -> A <> C -> rd m A = Some f -> rd m B = Some y -> rd m C = Some mass ->
  6 * n <= length f -> 6 * n <= length y -> n <= length mass -> i < n -> k < 3 -> nth_error mass i = Some (S754_zero s) ->
  every_schedule (map (omp_fcompute Fops A B C n) (seq 0 n)) m
    (fun m' => exists f', rd m' A = Some f' /\ nth_error f' ((k + 3) * n + i) = Some S754_nan).
Proof.
  intros A B C n m f y mass i s k H1 H2 H3 H4 H5 H6 H7 H8 Hi Hk Em.
  destruct (@C05_fcompute _ Fops A B C n m f y mass H1 H2 H3 H4 H5 H6 H7 H8) as (f' & E & S).
  pose proof (@C100_nan n mass y f f' i s k H7 H8 H6 Hi Hk Em E) as K.
  destruct S as [F S]. split; [exact F|]. intros ps m1 R1. destruct (S ps m1 R1) as (S1 & S2 & S3). split; [exact S1|]. split; [exact S2|].
  intros Q. destruct (S3 Q) as [Q1 ->]. split; [exact Q1|]. exists f'. split; [|exact K].
  apply upd_nth_same. apply nth_error_Some. unfold rd in H3. congruence.
Qed.
Print Assumptions C100_nan_openmp.

(** ... and it spreads: three bodies at different places, the third of mass zero, all numbers small integers.  After four steps of the explicit Euler
    method the positions of the two others are not numbers. *)
Theorem C100_others_refuted : exists mass y r,
  nth_error mass 2 = Some (nlit Fops 0) /\ Forall (fun x => nltb Fops x (nlit Fops 10) = true) y /\ agree (fun _ => True) 3 y y /\
  advise_all Fops 18 (simple_ef Fops 3 mass) (fun _ => repeat (nlit Fops 0) 18) (repeat (nlit Fops 1) 4) (SEuler None)
    (mkEng y (nlit Fops 0) 0 tt 0) = Some r /\
  nth_error (e_y (snd r)) 0 = Some S754_nan /\ nth_error (e_y (snd r)) 1 = Some S754_nan.
Proof.
  exists (map (nlit Fops) [3; 5; 0]%Z), (map (nlit Fops) [0; 4; 0; 0; 0; 5; 0; 0; 0; 0; 0; 1; 1; -1; 0; 0; 0; 0]%Z).
  eexists. split; [reflexivity|]. split; [repeat constructor|]. split; [repeat split; reflexivity|]. split; [vm_compute; reflexivity|]. split; vm_compute; reflexivity.
Qed.
Print Assumptions C100_others_refuted.

(** Sixty-four bodies, the first of mass 1, the others of mass 0: two states that put the others at different places, and the explicit Euler
    method, meet the hypotheses of [C100_test_bodies]. *)
Example C100_case : let mass := 1%R :: repeat 0%R 63 in let y := repeat 0%R 384 in let y' := 0%R :: repeat 1%R 63 ++ repeat 0%R 320 in
  (forall j, j < 64 -> nth j mass 0%R <> 0%R -> j = 0) /\ solver_ok (@SEuler R None) /\ fresh (@SEuler R None) /\ ~ adaptive (@SEuler R None) /\
  agree (fun j => j = 0) 64 y y' /\ y <> y'.
Proof.
  cbv zeta. split; [|split; [exact I|split; [reflexivity|split; [cbn; tauto|split]]]].
  - intros j Hj H. destruct j as [|j]; auto. exfalso. apply H. cbn [nth]. apply nth_repeat.
  - split; [reflexivity|]. split; [reflexivity|]. intros k i Hk Hi ->. do 6 (destruct k as [|k]; [reflexivity|]). lia.
  - cbn [repeat app]. intros H. injection H as H. lra.
Qed.
