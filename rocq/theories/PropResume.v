(** Stopping a run and resuming it from the last frame it wrote: C79. *)
From Coq Require Import ZArith QArith Reals SpecFloat List Arith Lia Lra.
From Verif Require Import Num Arr ModelEngine ModelSolverBase ModelButcher ModelFeagin ModelExtrap ModelSolver ModelRun ModelArgs ModelObject SpecSolver
  SpecRun SpecResume LemOrder LemResume.
Import ListNotations.
Set Implicit Arguments.
Local Open Scope nat_scope.

(** Any engine without memory, any solver without memory, any arithmetic.  A run to [rn_max_time p1] wrote
    the frames [D ++ [f]].  A new process with a fresh solver on an engine that holds [f] (and anything in
    its private state and its buffers) runs on to a later end.  It ends in the state in which the run that
    was never stopped ends, and its frames are the frames that are missing; only if [f] is the frame of a
    time not after 0, it writes [f] again. *)
Theorem C79_resume : forall (T E W W' : Type) (U : NumOps T) ps
    (ef : E -> nat -> T -> list T -> list T -> option (E * list T)) garbage count
    (write : W -> frame T -> W * bool) (write' : W' -> frame T -> W' * bool)
    p1 p2 s s' e e' w w' fuel1 fuel2 st1 st D f,
  0 < ps -> (forall k, length (garbage k) = ps) -> stateless ps ef ->
  rn_dt p1 = rn_dt p2 -> rn_dump_dt p1 = rn_dump_dt p2 -> rn_check_dt p1 = rn_check_dt p2 ->
  rn_clamp p1 = rn_clamp p2 -> rn_box p1 = rn_box p2 ->
  (forall t, nltb U t (rn_max_time p1) = true -> nltb U t (rn_max_time p2) = true) ->
  (rn_clamp p1 = true -> 3 * count <= ps) ->
  memoryless U (rn_dt p1) s -> solver_ok s -> fresh s -> fresh s' -> same_kind s s' ->
  length (e_y e) = ps -> (forall w f, snd (write' w f) = true) ->
  run U ps ef garbage count write fuel1 p1 s e (Some w) = Some (Returned 0 st1) ->
  run U ps ef garbage count write fuel2 p2 s e (Some w) = Some (Returned 0 st) ->
  rs_dumps st1 = D ++ [f] -> holds_frame e' f ->
  exists st2,
    run U ps ef garbage count write' fuel2 p2 s' e' (Some w') = Some (Returned 0 st2) /\
    frame_of (rs_e st2) = frame_of (rs_e st) /\
    rs_dumps st = (if nleb U (fr_time f) (nlit U 0) then D else D ++ [f]) ++ rs_dumps st2.
Proof.
  intros T E W W' U ps ef garbage count write write' p1 p2 s s' e e' w w' fuel1 fuel2 st1 st D f
    H1 H2 H3 B1 B2 B3 B4 B5 H4 H5 H6 H7 H8 H9 H10 H11 H12 H13 H14 H15 H16.
  exact (@resumes T E U ps ef garbage count H1 H2 H3 W W' write write' p1 p2 s s' e e' w w' fuel1 fuel2 st1 st D f
    (conj B1 (conj B2 (conj B3 (conj B4 B5)))) H4 H5 H6 H7 H8 H9 H10 H11 H12 H13 H14 H15 H16).
Qed.
Print Assumptions C79_resume.

(** The engines without memory: the simple one, the OpenMP one (in its sequential form, see C74) and, for a
    multiple of 64 bodies, the blocked one. *)
Theorem C79_engines : forall T (U : NumOps T) n mass split o, length mass = n ->
  o = ESimple \/ o = EOpenmp \/ o = EBlock /\ n mod 64 = 0 -> stateless (6 * n) (object_ef U n mass split o).
Proof. intros. now apply object_stateless. Qed.
Print Assumptions C79_engines.

Theorem C79_simple : forall T (U : NumOps T) n mass, length mass = n -> stateless (6 * n) (simple_ef U n mass).
Proof. intros. now apply simple_stateless. Qed.
Print Assumptions C79_simple.

Ltac nonzero := unfold dec, q; cbn [ndiv nlit Rops]; first
  [ exact R1_neq_R0
  | unfold Rdiv; apply Rmult_integral_contrapositive_currified; [|apply Rinv_neq_0_compat]; apply not_0_IZR; vm_compute; discriminate
  | apply not_0_IZR; vm_compute; discriminate ].
Ltac try_live HZ HS j := eexists; exists j; eexists; split; [reflexivity|]; split; [lia|]; split; [reflexivity|];
  apply HZ; [exact HS|nonzero].
Ltac find_live HZ HS := first [ try_live HZ HS 0 | try_live HZ HS 1 | try_live HZ HS 2 | try_live HZ HS 3
  | try_live HZ HS 4 | try_live HZ HS 5 ].

(** The tableau solvers without memory, on the reals: the explicit tables of the code, any step but 0. *)
Theorem C79_tables : forall mind t k dt max_rec n thr refine min_step,
  In t [tab_rk4 (Rops mind); tab_rkf (Rops mind); tab_rkck (Rops mind); tab_rkdp (Rops mind); tab_rkdverk (Rops mind);
        tab_rkfeagin10 (Rops mind); tab_rkfeagin12 (Rops mind); tab_rkfeagin14 (Rops mind)] ->
  dt <> 0%R -> 0 < n ->
  memoryless (Rops mind) dt (SButcher (mkRkParams t max_rec n thr refine false min_step) k).
Proof.
  intros mind t k dt mr n thr refine ms Ht Hd Hn. cbn [memoryless rp_table rp_correction rp_max_recursion rp_subdivisions].
  assert (HS : forall k dt, dt <> 0%R -> subdivided (Rops mind) n k dt <> 0%R).
  { clear dt Hd k. intros k. induction k as [|k IH]; intros dt Hd; cbn [subdivided]; auto. apply IH.
    cbn [ndiv Rops nnat nlit]. unfold nnat. cbn [nlit Rops]. unfold Rdiv. apply Rmult_integral_contrapositive_currified; auto.
    apply Rinv_neq_0_compat. rewrite <- INR_IZR_INZ. apply not_0_INR. lia. }
  assert (HZ : forall d a, d <> 0%R -> a <> 0%R -> neqb (Rops mind) (nmul (Rops mind) d a) (nlit (Rops mind) 0) = false).
  { intros d a Hd' Ha. cbn [neqb nmul nlit Rops]. destruct (Req_EM_T (d * a) 0) as [X|X]; auto.
    apply Rmult_integral in X. tauto. }
  cbn [In] in Ht. decompose [or] Ht; try contradiction; subst t; (split; [reflexivity|]; split; [reflexivity|]);
    intros j _ i Hi; specialize (HS j dt Hd); revert HS Hi; generalize (subdivided (Rops mind) n j dt);
    intros d HS [Hi Hi']; cbn [bt_steps tab_rk4 tab_rkf tab_rkck tab_rkdp tab_rkdverk tab_rkfeagin10 tab_rkfeagin12 tab_rkfeagin14] in Hi';
    do 35 (destruct i as [|i]; [first [exfalso; lia | find_live HZ HS]|]); exfalso; lia.
Qed.
Print Assumptions C79_tables.

(** ** solvers with memory *)

(** [s] is run to the times 1 and 4 in steps of 1 with a frame every step, on one variable, and resumed at 1 *)
Section Experiment.
  Context {T : Type} (U : NumOps T) (y' : T -> T) (y0 : T).
  Definition self_ef (q : unit) (step : nat) (t : T) (y f : list T) : option (unit * list T) := Some (q, map y' y).
  Definition write_ok (w : unit) (f : frame T) : unit * bool := (w, true).
  Definition until (k : Z) : @run_params T := mkRunParams (nlit U 1) (nlit U k) (nlit U 1) (nlit U 0) false (nlit U 1).
  Definition start : @eng T unit := mkEng [y0] (nlit U 0) 0 tt 0.
  Definition runs (k : Z) (s : @solver T) (e : @eng T unit) : option (@run_result T unit unit) :=
    run U 1 self_ef (fun _ => [nlit U 7]) 0 write_ok 5 (until k) s e (Some tt).

  (** the run that is stopped and the one that is not return 0, the resumed one returns 0 too, but in a
      different state *)
  Definition forgets (s : @solver T) : Prop := exists st1 st st2 D f e',
    runs 1 s start = Some (Returned 0 st1) /\ runs 4 s start = Some (Returned 0 st) /\
    rs_dumps st1 = D ++ [f] /\ nleb U (fr_time f) (nlit U 0) = false /\ holds_frame e' f /\
    runs 4 s e' = Some (Returned 0 st2) /\
    length (rs_dumps st) = length (rs_dumps st1 ++ rs_dumps st2) /\
    forall x x2, e_y (rs_e st) = [x] -> e_y (rs_e st2) = [x2] -> neqb U x x2 = false.
End Experiment.

Ltac forget := unfold forgets;
  match goal with |- exists st1 st st2 D f e', runs ?U ?d ?k1 ?s ?e = _ /\ runs _ _ ?k2 _ _ = _ /\ _ =>
    let r1 := eval vm_compute in (runs U d k1 s e) in
    let r := eval vm_compute in (runs U d k2 s e) in
    match r1 with Some (Returned _ ?st1) => match r with Some (Returned _ ?st) =>
      let D := eval vm_compute in (removelast (rs_dumps st1)) in
      let f := eval vm_compute in (last (rs_dumps st1) (mkFrame (nlit U 0) 0 [])) in
      let e' := eval vm_compute in (mkEng (fr_y f) (fr_time f) (fr_step f) tt 0) in
      let r2 := eval vm_compute in (runs U d k2 s e') in
      match r2 with Some (Returned _ ?st2) =>
        exists st1, st, st2, D, f, e';
        split; [vm_compute; reflexivity|]; split; [vm_compute; reflexivity|]; split; [vm_compute; reflexivity|];
        split; [vm_compute; reflexivity|]; split; [vm_compute; now split|]; split; [vm_compute; reflexivity|];
        split; [vm_compute; reflexivity|];
        let A := fresh in let B := fresh in
        intros ? ? A; cbn [e_y rs_e] in A; injection A as <-; intros B; cbn [e_y rs_e] in B; injection B as <-; vm_compute; reflexivity
      end end end
  end.

(** The solvers with memory do not: midpoint-st keeps the derivative and the half-step state of the step
    before, an Adams solver the derivatives of the last steps, an implicit tableau the stages the iteration starts
    from (y' = y in exact arithmetic), and the compensated summation the digits that did not fit (y' = 0.4 ulp in
    binary64). *)
Theorem C79_memory_refuted :
  forgets Qops (fun y => y) 1%Q (SStetter None) /\
  forgets Qops (fun y => y) 1%Q (SAdams (mkAdamsParams 2 false) (SEuler None) None 0) /\
  forgets Qops (fun y => y) 1%Q (SButcher (mkRkParams (tab_rklc Qops) 0 8 1%Q 1 false 1%Q) None) /\
  forgets Fops (fun _ => ndiv Fops (nlit Fops 4) (nlit Fops (10 * 2 ^ 52))) (nlit Fops 1)
    (SButcher (mkRkParams (tab_rk4 Fops) 0 8 (nlit Fops 1) 1 true (nlit Fops 1)) None).
Proof. split; [forget|]. split; [forget|]. split; [forget|]. forget. Qed.
Print Assumptions C79_memory_refuted.

(** ** examples *)

(** A run of two bodies on the simple engine in binary64, stopped after 2 of 5 steps and resumed in another
    process (another private buffer counter, other buffers): the hypotheses hold, and the frames are the same. *)
Definition ex_run (k : Z) (e : @eng spec_float unit) : option (@run_result spec_float unit unit) :=
  run Fops 12 (simple_ef Fops 2 [nlit Fops 3; nlit Fops 5]) (fun _ => repeat (nlit Fops 7) 12) 2 (@write_ok spec_float)
    9 (until Fops k) (SRk4 None) e (Some tt).
Definition ex_start : @eng spec_float unit :=
  mkEng (map (nlit Fops) [0; 0; 0; 4; 3; 0; 1; 0; 0; -1; 0; 1]%Z) (nlit Fops 0) 0 tt 0.
Example C79_ex : exists st1 st D f,
  ex_run 2 ex_start = Some (Returned 0 st1) /\ ex_run 5 ex_start = Some (Returned 0 st) /\
  rs_dumps st1 = D ++ [f] /\ length D = 2 /\ length (rs_dumps st) = 6 /\
  stateless 12 (simple_ef Fops 2 [nlit Fops 3; nlit Fops 5]) /\ memoryless Fops (nlit Fops 1) (SRk4 None) /\
  exists st2, ex_run 5 (mkEng (fr_y f) (fr_time f) (fr_step f) tt 40) = Some (Returned 0 st2) /\
    rs_dumps st1 ++ rs_dumps st2 = rs_dumps st.
Proof.
  match goal with |- exists st1 st D f, ?a = _ /\ ?b = _ /\ _ =>
    let ra := eval vm_compute in a in let rb := eval vm_compute in b in
    match ra with Some (Returned _ ?st1) => match rb with Some (Returned _ ?st) =>
      let D := eval vm_compute in (removelast (rs_dumps st1)) in
      let f := eval vm_compute in (last (rs_dumps st1) (mkFrame (nlit Fops 0) 0 [])) in
      exists st1, st, D, f end end end.
  split; [vm_compute; reflexivity|]. split; [vm_compute; reflexivity|]. split; [vm_compute; reflexivity|].
  split; [vm_compute; reflexivity|]. split; [vm_compute; reflexivity|].
  split; [now apply (@C79_simple _ Fops 2)|]. split; [exact I|].
  eexists. split; vm_compute; reflexivity.
Qed.
(** A tableau solver without memory in binary64, with step division *)
Example C79_tables_f : memoryless Fops (ndiv Fops (nlit Fops 1) (nlit Fops 100))
  (SButcher (mkRkParams (tab_rkck Fops) 1 8 (nlit Fops 0) 1 false (nlit Fops 0)) None).
Proof.
  split; [reflexivity|]. split; [reflexivity|]. intros k Hk i [Hi Hi']. cbn in Hk, Hi'.
  do 2 (destruct k as [|k]; [do 6 (destruct i as [|i]; [first [lia|eexists; exists 0; eexists; split; [reflexivity|];
    split; [lia|]; split; [reflexivity|]; vm_compute; reflexivity]|]); lia|]). lia.
Qed.
