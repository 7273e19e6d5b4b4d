(** Mirror images of simulations in IEEE arithmetic: C96. *)
From Coq Require Import ZArith SpecFloat List Arith Lia.
From Verif Require Import Num Arr ModelEngine ModelBlock ModelSolverBase ModelButcher ModelExtrap ModelSolver ModelStream ModelArgs ModelObject SpecSolver SpecResume
  SpecFloatForce SpecMirror LemErase LemSym LemMirror LemMirrorF PropResume PropUninit.
Import ListNotations.

(** In binary64, any solver with legal parameters (adaptive ones and ones with correction included), the simple engine, the OpenMP engine, or the
    block engine for a multiple of 64 bodies, any set of mirrors perpendicular to the axes, any memory: the run from the mirror image
    goes through the mirror image of the run. *)
Theorem C96_mirror : forall flip n mass split o garbage garbage' dts s y y' t k q,
  0 < n -> length mass = n -> o = ESimple \/ o = EOpenmp \/ o = EBlock /\ n mod 64 = 0 ->
  (forall k, length (garbage k) = 6 * n) -> (forall k, length (garbage' k) = 6 * n) ->
  solver_ok s -> fresh s -> Forall (fun dt => set_stages Fops dt s) dts -> mirrored flip n y y' ->
  exists r r', advise_all Fops (6 * n) (object_ef Fops n mass split o) garbage dts s (mkEng y t k q 0) = Some r /\
    advise_all Fops (6 * n) (object_ef Fops n mass split o) garbage' dts s (mkEng y' t k q 0) = Some r' /\
    mirrored flip n (e_y (snd r)) (e_y (snd r')) /\ e_time (snd r') = e_time (snd r) /\ e_step (snd r') = e_step (snd r).
Proof.
  intros flip n mass split o garbage garbage' dts s y y' t k q Hn Hm Ho G G' HO Hf HS HM.
  pose proof (@C79_engines _ Fops n mass split o Hm Ho) as SL.
  pose proof HM as (L & L' & _).
  set (ef := object_ef Fops n mass split o) in *.
  destruct (@C95_memory _ _ Fops (6 * n) ef garbage garbage dts s (mkEng y t k q 0) ltac:(lia) SL G G HO Hf HS L)
    as (r & _ & E & _ & LR & _).
  assert (Gi : forall k, length (image flip n (garbage k)) = 6 * n) by (intros; now rewrite image_length).
  destruct (@C95_memory _ _ Fops (6 * n) ef (fun k => image flip n (garbage k)) garbage' dts s (mkEng y' t k q 0) ltac:(lia) SL Gi G' HO Hf HS L')
    as (r1 & r' & E1 & E2 & _ & Y & TT & K).
  destruct (@mirror_all flip n _ ef garbage (fun k => image flip n (garbage k)) dts s (mkEng y t k q 0) (mkEng y' t k q 0) r)
    as (r1' & E1' & WY & WT & WK); auto.
  - intros p step u z z' f f' Hz Hff. unfold ef, object_ef.
    assert (X : sim (simple_fcompute Fops n mass z f) (simple_fcompute Fops n mass z' f') (cW (arel (fax flip) n))).
    { apply a_simple; auto; intros; try apply f_zero; eauto using f_add, f_sub, f_mul, f_div, f_sq. }
    destruct Ho as [-> |[-> |[-> Hb]]]; try (eapply sim_bind; [exact X|]; intros; cbn; auto).
    eapply sim_bind; [|intros a b H; cbn; split; [reflexivity|exact H]].
    unfold block_fcompute, NBODY_DATA_BLOCK_SIZE.
    apply a_blocked; auto; try lia; intros; try apply f_zero; eauto using f_add, f_sub, f_mul, f_div, f_sq.
  - intros j. apply image_W.
  - now apply W_of.
  - rewrite E1 in E1'. injection E1' as <-. exists r, r'. split; [exact E|]. split; [exact E2|].
    rewrite Y, TT, K. split; [|auto]. apply of_W; auto.
Qed.
Print Assumptions C96_mirror.

(** If all bodies are in a coordinate plane and move in it, then they stay in it: the components perpendicular to it are zeros for ever (or "not a
    number", if the numbers overflowed). *)
Theorem C96_planar : forall axis n mass split o garbage dts s y t k q r j x,
  axis < 3 -> 0 < n -> length mass = n -> o = ESimple \/ o = EOpenmp \/ o = EBlock /\ n mod 64 = 0 ->
  (forall k, length (garbage k) = 6 * n) -> solver_ok s -> fresh s -> Forall (fun dt => set_stages Fops dt s) dts ->
  length y = 6 * n -> planar axis n y ->
  advise_all Fops (6 * n) (object_ef Fops n mass split o) garbage dts s (mkEng y t k q 0) = Some r ->
  j < n -> nth_error (e_y (snd r)) (axis * n + j) = Some x \/ nth_error (e_y (snd r)) ((axis + 3) * n + j) = Some x ->
  x = S754_nan \/ exists s, x = S754_zero s.
Proof.
  intros axis n mass split o garbage dts s y t k q r j x Ha Hn Hm Ho G HO Hf HS L HP Er Hj Hx.
  destruct (@C96_mirror (Nat.eqb axis) n mass split o garbage garbage dts s y y t k q Hn Hm Ho G G HO Hf HS)
    as (r1 & r2 & E1 & E2 & (_ & _ & H) & _).
  { split; [exact L|]. split; [exact L|]. intros i l u u' Hi Hl E E'. rewrite E in E'. injection E' as <-.
    destruct (Nat.eqb_spec axis (i mod 3)) as [Ea|]; [|reflexivity].
    assert (Z : exists s, u = S754_zero s).
    { apply (HP l u Hl). assert (i = axis \/ i = axis + 3) as [-> | ->]; auto.
      pose proof (Nat.div_mod i 3 ltac:(lia)). assert (i / 3 < 2) by (apply Nat.div_lt_upper_bound; lia). lia. }
    destruct Z as [z ->]. right. eauto. }
  rewrite Er in E1, E2. injection E1 as <-. injection E2 as <-.
  apply opposite_zero. destruct Hx as [Hx|Hx].
  - specialize (H axis j x x ltac:(lia) Hj Hx Hx). rewrite Nat.mod_small, Nat.eqb_refl in H by lia. exact H.
  - specialize (H (axis + 3) j x x ltac:(lia) Hj Hx Hx).
    replace ((axis + 3) mod 3) with axis in H; [now rewrite Nat.eqb_refl in H|].
    rewrite <- (Nat.mul_1_l 3) at 1. rewrite Nat.mod_add by lia. now rewrite Nat.mod_small by lia.
Qed.
Print Assumptions C96_planar.

(** Two bodies, mirrors perpendicular to the first and the third axis, the solver of [C95_ex] (Adams-Bashforth with correction, started by an
    adaptive method), memories full of "not a number" and of 7: the hypotheses hold, and the velocities along the first axis end with different signs. *)
Definition ex_y (z : Z) : list spec_float := map (nlit Fops) [0; 0; 0; 4; 3 * z; 0; z; 0; 0; -1; 0; z]%Z.
Definition ex_after (g : spec_float) (z : Z) : option (@solver spec_float * @eng spec_float object_state) :=
  advise_all Fops 12 (object_ef Fops 2 [nlit Fops 3; nlit Fops 5] (fun _ _ _ _ _ l => l) ESimple) (fun _ => repeat g 12) ex_dts ex_solver
    (mkEng (ex_y z) (nlit Fops 0) 0 (object_start ESimple) 0).
Example C96_ex :
  mirrored (fun k => negb (Nat.eqb k 1)) 2 (ex_y 1) (ex_y (-1)) /\ solver_ok ex_solver /\ fresh ex_solver /\
  Forall (fun dt => set_stages Fops dt ex_solver) ex_dts /\
  exists r r', ex_after S754_nan 1 = Some r /\ ex_after (nlit Fops 7) (-1) = Some r' /\
    option_map (nltb Fops (nlit Fops 0)) (nth_error (e_y (snd r)) 6) = Some true /\
    option_map (fun x => nltb Fops x (nlit Fops 0)) (nth_error (e_y (snd r')) 6) = Some true.
Proof.
  destruct C95_ex as (_ & A & B & C & _).
  split; [|split; [exact A|split; [exact B|split; [exact C|]]]].
  - split; [reflexivity|]. split; [reflexivity|]. intros k j x x' Hk Hj E E'.
    do 6 (destruct k as [|k]; [destruct j as [|[|j]]; [| |lia]; vm_compute in E, E'; injection E as <-; injection E' as <-; cbn;
      first [reflexivity | left; reflexivity | right; do 2 eexists; split; reflexivity]|]). lia.
  - eexists. eexists. split; [vm_compute; reflexivity|]. split; [vm_compute; reflexivity|]. split; vm_compute; reflexivity.
Qed.
(** ... and a plane: the third axis, with the same solver *)
Example C96_planar_ex : planar 2 2 (map (nlit Fops) [0; 3; 0; 4; 0; 0; 1; 0; 0; -1; 0; 0]%Z).
Proof.
  intros j x Hj H. destruct j as [|[|j]]; [| |lia]; vm_compute in H; destruct H as [H|H]; injection H as <-; eauto.
Qed.
