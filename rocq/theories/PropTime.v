(** The time at which a simulation starts: C98. *)
From Coq Require Import ZArith SpecFloat List Arith Lia Reals Lra.
From Verif Require Import Num Arr ModelEngine ModelSolverBase ModelButcher ModelExtrap ModelSolver ModelStream ModelArgs ModelObject SpecSolver SpecResume
  LemErase LemSym PropUninit PropMirror.
Import ListNotations.

Local Open Scope nat_scope.

Section S.
  Context {T : Type} (N : NumOps T) (ps : nat).
  Lemma sim_refl A (x : option A) (R : A -> A -> Prop) : (forall a, R a a) -> sim x x R.
  Proof. destruct x; cbn; auto. Qed.
  Lemma Ws_eq (l l' : list (list T)) : Forall2 eq l l' -> l = l'.
  Proof. induction 1; congruence. Qed.
  Lemma eq_Ws (l : list (list T)) : Forall2 eq l l.
  Proof. induction l; constructor; auto. Qed.
  Lemma Wn_eq (a b : list T) : Wn eq a b -> a = b.
  Proof. intros [H|[-> ->]]; auto. Qed.
  Lemma eq_Wn (a : list T) : Wn eq a a. Proof. now left. Qed.
  Lemma r_st_refl (m : @stetter T) : r_st eq m m.
  Proof. unfold r_st. repeat split; auto using eq_Ws. Qed.
  Lemma r_st_eq (m m' : @stetter T) : r_st eq m m' -> m = m'.
  Proof. destruct m, m'. intros (A & B & C & D & E). cbn in *. apply Ws_eq in C, D. congruence. Qed.
  Lemma srel_refl (s : @solver T) : srel eq s s.
  Proof.
    induction s as [b|b|b|b|rf b|p b|p b|p st IH b step]; cbn; repeat split; auto; destruct b as [b|]; cbn; auto;
      unfold r_mid, r_rk4, r_tz, r_rk, r_bs, r_ad, r_ne; repeat split; auto using eq_Ws, eq_Wn, r_st_refl.
    destruct (bb_int b); cbn; auto using r_st_refl.
  Qed.
  Lemma srel_eq (s : @solver T) : forall s', srel eq s s' -> s = s'.
  Proof.
    induction s as [b|b|b|b|rf b|p b|p b|p st IH b step]; intros [b'|b'|b'|b'|rf' b'|p' b'|p' b'|p' st' b' step'] H; cbn in H; try contradiction.
    - destruct b, b'; cbn in H; try contradiction; congruence.
    - destruct b as [[]|], b' as [[]|]; cbn in H; try contradiction; auto. destruct H as (A & B & C). cbn in *. congruence.
    - destruct b as [m|], b' as [m'|]; cbn in H; try contradiction; auto. apply r_st_eq in H. congruence.
    - destruct b as [[]|], b' as [[]|]; cbn in H; try contradiction; auto. destruct H as (A & B). cbn in *. apply Ws_eq in A. congruence.
    - destruct H as (-> & H). destruct b as [[]|], b' as [[]|]; cbn in H; try contradiction; auto. destruct H as (A & B). cbn in *. apply Ws_eq in A. congruence.
    - destruct H as (-> & H). destruct b as [[]|], b' as [[]|]; cbn in H; try contradiction; auto. destruct H as (A & B & C & D & E & F). cbn in *.
      apply Ws_eq in A, F. apply Wn_eq in D, E. congruence.
    - destruct H as (-> & H). destruct b as [[y0 i [a b c]]|], b' as [[y0' i' [a' b' c']]|]; cbn in H; try contradiction; auto.
      destruct H as (A & B & C & D & E). cbn in *. apply Ws_eq in C, D. destruct i as [i|], i' as [i'|]; cbn in B; try contradiction; [apply r_st_eq in B|]; congruence.
    - destruct H as (-> & -> & H & HB). rewrite (IH _ H). destruct b as [[]|], b' as [[]|]; cbn in HB; try contradiction; auto. destruct HB as (A & B).
      cbn in *. apply Ws_eq in A. apply Wn_eq in B. congruence.
  Qed.

  Theorem any_time E (Tm : T -> T -> Prop) (ef : E -> nat -> T -> list T -> list T -> option (E * list T)) g dts s (e : @eng T E) t' r :
    (forall q step t t' y f, ef q step t y f = ef q step t' y f) -> (forall t t' d, Tm t t' -> Tm (nadd N t d) (nadd N t' d)) ->
    Tm (e_time e) t' -> advise_all N ps ef g dts s e = Some r ->
    exists r', advise_all N ps ef g dts s (set_time e t') = Some r' /\ fst r' = fst r /\ e_y (snd r') = e_y (snd r) /\ e_step (snd r') = e_step (snd r) /\
      e_priv (snd r') = e_priv (snd r) /\ Tm (e_time (snd r)) (e_time (snd r')).
  Proof.
    intros Hef Htm Ht Er.
    pose proof (@sy_all T E E N ps ef ef g g eq eq Tm) as X.
    assert (Y : sim (advise_all N ps ef g dts s e) (advise_all N ps ef g dts s (set_time e t')) (Xe eq eq Tm (srel eq))).
    { apply X; auto.
      - intros p q step t u y y' f f' -> -> -> _. rewrite (Hef q step t u). apply sim_refl. auto.
      - intros a a' b b' x x' d -> -> ->. now apply sim_refl.
      - intros a a' b b' d -> ->. now apply sim_refl.
      - intros a a' b b' -> ->. now apply sim_refl.
      - intros a a' b b' A B. apply Wn_eq in A, B. subst. now apply sim_refl.
      - intros a a' ->. now apply sim_refl.
      - intros a a' k k' b b' d n -> A B. apply Wn_eq in A. apply Ws_eq in B. subst. apply sim_refl. auto using eq_Wn.
      - intros _ a a' ->. now apply sim_refl.
      - apply srel_refl.
      - repeat split; auto. }
    rewrite Er in Y. unfold sim in Y. destruct (advise_all N ps ef g dts s (set_time e t')) as [r'|]; [|contradiction].
    exists r'. destruct Y as (A & B & G & C & D & F). apply srel_eq in A. auto 10.
  Qed.
End S.

(** Every engine of the CPU, every solver in whatever state, any numbers (binary64 included), any memory: a run that starts at another time
    goes through the same states, bit by bit.  Where the parallel build of a tree may choose an order, the choice must not depend on the time. *)
Theorem C98_any_time : forall (T : Type) (N : NumOps T) n mass split o garbage dts s y t t' k q r,
  (forall step t t' y, split step t y = split step t' y) ->
  advise_all N (6 * n) (object_ef N n mass split o) garbage dts s (mkEng y t k q 0) = Some r ->
  exists r', advise_all N (6 * n) (object_ef N n mass split o) garbage dts s (mkEng y t' k q 0) = Some r' /\
    fst r' = fst r /\ e_y (snd r') = e_y (snd r) /\ e_step (snd r') = e_step (snd r) /\ e_priv (snd r') = e_priv (snd r).
Proof.
  intros T N n mass split o garbage dts s y t t' k q r Hs Er.
  destruct (@any_time T N (6 * n) _ (fun _ _ => True) (object_ef N n mass split o) garbage dts s (mkEng y t k q 0) t' r) as (r' & E & A & B & C & D & _); auto.
  - intros p step u u' z f. unfold object_ef. destruct o, p; auto; now rewrite (Hs step u u' z).
  - exists r'. auto.
Qed.
Print Assumptions C98_any_time.

(** In real arithmetic the two clocks stay the same distance apart. *)
Theorem C98_clock : forall mind n mass split o garbage dts s y t t' k q r r',
  (forall step t t' y, split step t y = split step t' y) ->
  advise_all (Rops mind) (6 * n) (object_ef (Rops mind) n mass split o) garbage dts s (mkEng y t k q 0) = Some r ->
  advise_all (Rops mind) (6 * n) (object_ef (Rops mind) n mass split o) garbage dts s (mkEng y t' k q 0) = Some r' ->
  (e_time (snd r') - e_time (snd r) = t' - t)%R.
Proof.
  intros mind n mass split o garbage dts s y t t' k q r r' Hs Er Er'.
  destruct (@any_time R (Rops mind) (6 * n) _ (fun a b => (b - a = t' - t)%R) (object_ef (Rops mind) n mass split o) garbage dts s (mkEng y t k q 0) t' r)
    as (r1 & E & _ & _ & _ & _ & D); auto.
  - intros p step u u' z f. unfold object_ef. destruct o, p; auto; now rewrite (Hs step u u' z).
  - cbn. intros. lra.
  - change (set_time (mkEng y t k q 0) t') with (mkEng y t' k q 0) in E. rewrite Er' in E. injection E as <-. exact D.
Qed.
Print Assumptions C98_clock.

(** Two bodies in binary64 with the solver of [C95_ex], started at time 0 and at time 2^80: the second clock stands still, the bodies move
    alike. *)
Definition ex_run (t : spec_float) : option (@solver spec_float * @eng spec_float object_state) :=
  advise_all Fops 12 (object_ef Fops 2 [nlit Fops 3; nlit Fops 5] (fun _ _ _ _ _ l => l) ESimple) (fun _ => repeat S754_nan 12) ex_dts ex_solver
    (mkEng (ex_y 1) t 0 (object_start ESimple) 0).
Example C98_case : exists r r', ex_run (nlit Fops 0) = Some r /\ ex_run (nlit Fops (2 ^ 80)) = Some r' /\
  e_y (snd r') = e_y (snd r) /\ e_y (snd r) <> ex_y 1 /\ e_time (snd r) <> nlit Fops 0 /\ e_time (snd r') = nlit Fops (2 ^ 80).
Proof.
  eexists. eexists. split; [vm_compute; reflexivity|]. split; [vm_compute; reflexivity|]. split; [vm_compute; reflexivity|].
  split; [vm_compute; discriminate|]. split; [vm_compute; discriminate|vm_compute; reflexivity].
Qed.
