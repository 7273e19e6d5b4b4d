(** How often the solvers evaluate the forces: C90. *)
From Coq Require Import ZArith List Arith Lia.
From Verif Require Import Num Arr ModelEngine ModelSolverBase ModelButcher ModelExtrap ModelSolver ModelCount SpecSolver SpecCost LemErase LemCost.
Import ListNotations.
Set Implicit Arguments.

(** ** C90 *)

(** In any arithmetic, with any engine and any history of steps, the counter of force evaluations advances by an amount that the
    solver and the number of steps confine: step lengths, state and accelerations enter only through the step control of the embedded
    Runge-Kutta methods and of Bulirsch-Stoer, whose worst case is finite. *)
Theorem C90_cost : forall (T E : Type) (U : NumOps T) ps (ef : E -> nat -> T -> list T -> list T -> option (E * list T)) garbage dts s e r,
  fresh s -> advise_all U ps (metered ef) garbage dts s e = Some r ->
  get_compute_count e + sum (map (least s) (seq 0 (length dts))) <= get_compute_count (snd r) <=
  get_compute_count e + sum (map (most s) (seq 0 (length dts))).
Proof.
  intros T E U ps ef g dts s e [s' e'] Hf H. cbn [snd]. apply (@c_all T E U ps ef g dts s 0 e s' e'); auto. now apply fresh_aged.
Qed.
Print Assumptions C90_cost.

(** Without step control the count is exact. *)
Theorem C90_exact : forall (T E : Type) (U : NumOps T) ps (ef : E -> nat -> T -> list T -> list T -> option (E * list T)) garbage dts s e r,
  fresh s -> fixed_cost s -> advise_all U ps (metered ef) garbage dts s e = Some r ->
  get_compute_count (snd r) = get_compute_count e + sum (map (most s) (seq 0 (length dts))).
Proof.
  intros T E U ps ef g dts s e r Hf Hc H. pose proof (@C90_cost _ _ _ _ _ _ _ _ _ _ Hf H) as A.
  rewrite (map_ext (least s) (most s)) in A by (now apply fixed_eq). lia.
Qed.
Print Assumptions C90_exact.

(** The multistep methods pay for their order at the start only: from the step number [rank + 1] on every step is one evaluation. *)
Theorem C90_multistep : forall (T E : Type) (U : NumOps T) ps (ef : E -> nat -> T -> list T -> list T -> option (E * list T)) garbage
    dts1 dts2 p starter e r1 r2,
  fresh starter -> length dts1 = S (ap_rank p) ->
  advise_all U ps (metered ef) garbage dts1 (SAdams p starter None 0) e = Some r1 ->
  advise_all U ps (metered ef) garbage dts2 (fst r1) (snd r1) = Some r2 ->
  get_compute_count (snd r2) = get_compute_count (snd r1) + length dts2.
Proof.
  intros T E U ps ef g dts1 dts2 p st e [s1 e1] [s2 e2] Hf Hl H1 H2. cbn [fst snd] in *.
  assert (A0 : aged 0 (SAdams p st None 0)) by (split; [reflexivity|intros _; now apply fresh_aged]).
  destruct (@c_aged_all T E U ps ef g _ _ _ _ _ _ A0 H1) as [A1 A2].
  pose proof (@c_all T E U ps ef g _ _ _ _ _ _ A1 H2) as B.
  rewrite (map_ext (least s1) (least (SAdams p st None 0))) in B by (intros j; apply (A2 j)).
  rewrite (map_ext (most s1) (most (SAdams p st None 0))) in B by (intros j; apply (A2 j)).
  assert (C : forall n k, ap_rank p < k -> sum (map (least (SAdams p st None 0)) (seq k n)) = n /\ sum (map (most (SAdams p st None 0)) (seq k n)) = n).
  { induction n as [|n IH]; intros k Hk; [split; reflexivity|]. destruct (IH (S k)) as [C1 C2]; [lia|].
    unfold sum in *. cbn [seq map fold_right] in *. rewrite C1, C2. cbn [least most].
    replace (Nat.leb k (ap_rank p)) with false by (symmetry; apply Nat.leb_gt; lia). lia. }
  destruct (C (length dts2) (0 + length dts1)) as [C1 C2]; [lia|]. lia.
Qed.
Print Assumptions C90_multistep.

(** Counting changes nothing: the run of the engine with its counter is the run without. *)
Theorem C90_same_run : forall (T E : Type) (U : NumOps T) ps (ef : E -> nat -> T -> list T -> list T -> option (E * list T)) garbage dts s y t st p n c s' e',
  advise_all U ps ef garbage dts s (mkEng y t st p n) = Some (s', e') <->
  exists c', advise_all U ps (metered ef) garbage dts s (mkEng y t st (p, c) n) =
    Some (s', mkEng (e_y e') (e_time e') (e_step e') (e_priv e', c') (e_nbuf e')).
Proof.
  intros T E U ps ef g dts s y t st p n c s' e'. split.
  - intros H. pose proof (@era_all T E (E * nat) U ps ef (metered ef) g (fun p q => p = fst q)) as A.
    specialize (A ltac:(intros p0 [q k] step t0 y0 f H0; cbn in H0; subst; unfold metered; cbn [fst]; destruct (ef q step t0 y0 f) as [[? ?]|]; cbn; auto)).
    specialize (A dts s (mkEng y t st p n) (mkEng y t st (p, c) n) ltac:(constructor; reflexivity)). rewrite H in A. cbn in A.
    destruct (advise_all U ps (metered ef) g dts s _) as [[s2 e2]|]; [|contradiction]. destruct A as [A B]. cbn in A, B. subst s2.
    destruct B as [y1 t1 st1 p1 q1 n1 B]. destruct q1 as [q1 k]. cbn in B. subst q1. exists k. reflexivity.
  - intros [c' H]. pose proof (@era_all T (E * nat) E U ps (metered ef) ef g (fun q p => p = fst q)) as A.
    specialize (A ltac:(intros [q k] p0 step t0 y0 f H0; cbn in H0; subst; unfold metered; cbn [fst]; destruct (ef q step t0 y0 f) as [[? ?]|]; cbn; auto)).
    specialize (A dts s (mkEng y t st (p, c) n) (mkEng y t st p n) ltac:(constructor; reflexivity)). rewrite H in A. cbn in A.
    destruct (advise_all U ps ef g dts s _) as [[s2 e2]|]; [|contradiction]. destruct A as [A B]. cbn in A, B. subst s2.
    inversion B; subst. cbn in *. subst. destruct e'; reflexivity.
Qed.
Print Assumptions C90_same_run.

(** Ten steps of rk4 evaluate the forces 40 times, ten steps of Adams of rank 3 started by rk4 26 times. *)
Example C90_case : forall (U : NumOps Z) ef garbage y t st,
  (forall dts r, length dts = 10 -> advise_all U 12 (metered ef) garbage dts (SRk4 None) (mkEng y t st (tt, 0) 0) = Some r ->
    get_compute_count (snd r) = 40) /\
  (forall dts r, length dts = 10 -> advise_all U 12 (metered ef) garbage dts (SAdams (mkAdamsParams 3 false) (SRk4 None) None 0) (mkEng y t st (tt, 0) 0) = Some r ->
    get_compute_count (snd r) = 26).
Proof.
  intros U ef g y t st. split; intros dts r Hl H.
  - rewrite (fun A B => @C90_exact _ _ _ _ _ _ _ _ _ _ A B H), Hl by (cbn; auto). reflexivity.
  - rewrite (fun A B => @C90_exact _ _ _ _ _ _ _ _ _ _ A B H), Hl by (cbn; auto). reflexivity.
Qed.
(** The hypothesis is met: a run of two bodies succeeds. *)
Example C90_runs : exists r,
  advise_all Zops 12 (metered (fun p _ _ y _ => Some (p, y))) (fun _ => repeat 0%Z 12) [1%Z; 2%Z; 1%Z] (SAdams (mkAdamsParams 1 false) (SStetter None) None 0)
    (mkEng (repeat 1%Z 12) 0%Z 0 (tt, 0) 0) = Some r /\ get_compute_count (snd r) = 8.
Proof. eexists. split; [vm_compute; reflexivity|reflexivity]. Qed.
