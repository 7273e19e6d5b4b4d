(** The simulation loop: C39, C40. *)
From Coq Require Import ZArith Reals List Arith Lia Lra.
From Verif Require Import Num Arr SpecPhys ModelEngine ModelSolverBase ModelSolver ModelRun SpecSolver SpecRun
  LemOk LemSolverPhys LemRun.
Import ListNotations.
Set Implicit Arguments.
Local Open Scope R_scope.

(** ** C39: a run ends.  Any engine whose force computation is defined; any solver; any stream (a
    failed write is the return value -1).  [k] is the number of steps. *)
Theorem C39_run_ends : forall (E W : Type) mind n
    (ef : E -> nat -> R -> list R -> list R -> option (E * list R)) garbage write p s e (w : option W),
  (0 < n)%nat -> (forall k, length (garbage k) = (6 * n)%nat) ->
  (forall q step t y f, length y = (6 * n)%nat -> length f = (6 * n)%nat ->
     exists q' f', ef q step t y f = Some (q', f') /\ length f' = (6 * n)%nat) ->
  0 < rn_dt p -> (rn_clamp p = true -> 0 <= rn_box p) ->
  fresh s -> solver_ok s -> length (e_y e) = (6 * n)%nat ->
  exists fuel code st,
    run (Rops mind) (6 * n) ef garbage n write fuel p s e w = Some (Returned code st) /\
    (code = 0%Z \/ code = (-1)%Z) /\
    (code = 0%Z -> exists k,
       e_time (rs_e st) = e_time e + INR k * rn_dt p /\
       rn_max_time p <= e_time (rs_e st) /\
       (k = O \/ e_time (rs_e st) < rn_max_time p + rn_dt p) /\
       (rn_max_time p <= e_time e -> k = O) /\
       (e_step e + k <= e_step (rs_e st))%nat /\
       (~ uses_bs s -> e_step (rs_e st) = (e_step e + k)%nat)).
Proof. intros. eapply run_reaches; eauto. Qed.
Print Assumptions C39_run_ends.

Theorem C39_run_ends_simple : forall (W : Type) mind n mass garbage write p s e (w : option W),
  0 < mind -> (0 < n)%nat -> length mass = n -> (forall i, (i < n)%nat -> nth i mass 0 <> 0) ->
  (forall k, length (garbage k) = (6 * n)%nat) ->
  0 < rn_dt p -> (rn_clamp p = true -> 0 <= rn_box p) ->
  fresh s -> solver_ok s -> length (e_y e) = (6 * n)%nat ->
  exists fuel code st,
    run (Rops mind) (6 * n) (simple_ef (Rops mind) n mass) garbage n write fuel p s e w
      = Some (Returned code st) /\
    (code = 0%Z \/ code = (-1)%Z) /\
    (code = 0%Z -> exists k,
       e_time (rs_e st) = e_time e + INR k * rn_dt p /\
       rn_max_time p <= e_time (rs_e st) /\
       (k = O \/ e_time (rs_e st) < rn_max_time p + rn_dt p) /\
       (rn_max_time p <= e_time e -> k = O) /\
       (e_step e + k <= e_step (rs_e st))%nat /\
       (~ uses_bs s -> e_step (rs_e st) = (e_step e + k)%nat)).
Proof.
  intros W mind n mass garbage write p s e w H1 H2 H3 H4 H5 H6 H7 H8 H9 H10.
  apply C39_run_ends; auto. intros q step t y f Hy Hf.
  pose proof (@simple_ef_ok mind n mass H1 H3 H4 q step t y f I Hy Hf) as K.
  destruct (simple_ef (Rops mind) n mass q step t y f) as [[q' f']|]; [|contradiction].
  exists q', f'. split; auto. apply K.
Qed.
Print Assumptions C39_run_ends_simple.

(** In binary64 the same loop need not end: at time 2^53 a step of 1 is absorbed.  No number of
    iterations is enough. *)
Definition still (u : unit) (step : nat) (t : SpecFloat.spec_float) (y f : list SpecFloat.spec_float)
  : option (unit * list SpecFloat.spec_float) := Some (u, map (fun _ => nlit Fops 0) f).
Theorem C39_binary64_endless : forall fuel,
  let z := nlit Fops 0 in
  exists st,
  run Fops 6 still (fun _ => repeat z 6) 1 (fun (w : unit) _ => (w, true)) fuel
    (mkRunParams (nlit Fops 1) (nlit Fops (2 ^ 53 + 2)) z z false z)
    (SEuler None) (mkEng (repeat z 6) (nlit Fops (2 ^ 53)) 0 tt 0) None = Some (Unfinished st) /\
  e_time (rs_e st) = nlit Fops (2 ^ 53).
Proof.
  intros fuel z. unfold run, run_start.
  set (p := mkRunParams _ _ _ _ _ _). 
  assert (L : forall fuel st, (exists b, rs_s st = SEuler b /\ (b = None \/ b = Some (repeat z 6))) ->
    rs_w st = None -> e_y (rs_e st) = repeat z 6 -> e_time (rs_e st) = nlit Fops (2 ^ 53) ->
    exists st', run_loop Fops 6 still (fun _ => repeat z 6) 1 (fun (w : unit) _ => (w, true)) fuel p st
      = Some (Unfinished st') /\ e_time (rs_e st') = nlit Fops (2 ^ 53)).
  { clear fuel. induction fuel as [|fuel IH]; intros st (b & Hb & Hb') Hw Hy Ht; cbn [run_loop]; rewrite Ht;
      replace (nltb Fops (nlit Fops (2 ^ 53)) (rn_max_time p)) with true by (vm_compute; reflexivity).
    - exists st. auto.
    - destruct st as [s e w lc ld ch du]. destruct e as [y t stp pr nb].
      cbn [rs_s rs_w rs_e e_y e_time] in *. subst s w y t.
      unfold run_iter. cbn [rn_clamp p obind rs_s rs_e].
      replace (advise Fops 6 still (fun _ => repeat z 6) (rn_dt p) (SEuler b)
        {| e_y := repeat z 6; e_time := nlit Fops (2 ^ 53); e_step := stp; e_priv := pr; e_nbuf := nb |})
        with (Some (SEuler (Some (repeat z 6)),
          mkEng (repeat z 6) (nlit Fops (2 ^ 53)) (S stp) pr (match b with None => S nb | _ => nb end))).
      2:{ destruct Hb' as [-> | ->]; vm_compute; reflexivity. }
      cbn [obind]. destruct (if andb _ _ then _ else _) as [lc' ch']. cbn [rs_w].
      apply IH; cbn [rs_s rs_w rs_e e_y e_time]; auto. exists (Some (repeat z 6)). auto. }
  apply L; auto. exists None. auto.
Qed.
Print Assumptions C39_binary64_endless.

(** two bodies, Euler, seven tenths of a time unit in steps of a quarter: three steps *)
Example C39_example : exists fuel code st,
  run (Rops (1/100)) 12 (simple_ef (Rops (1/100)) 2 [2; 3]) (fun _ => repeat 7 12) 2
    (fun (w : unit) _ => (w, true)) fuel (mkRunParams (1/4) (7/10) 0 0 true 10) (SEuler None)
    (mkEng [0; 1; 0; 2; 0; 3; 1; 0; 0; 0; 0; 0] 0 5 tt 0) (Some tt) = Some (Returned code st) /\
  (code = 0%Z -> e_time (rs_e st) = 3/4 /\ e_step (rs_e st) = 8%nat).
Proof.
  destruct (@C39_run_ends_simple unit (1/100) 2 [2; 3] (fun _ => repeat 7 12) (fun w _ => (w, true))
    (mkRunParams (1/4) (7/10) 0 0 true 10) (SEuler None) (mkEng [0; 1; 0; 2; 0; 3; 1; 0; 0; 0; 0; 0] 0 5 tt 0) (Some tt))
    as (fuel & code & st & H & _ & K); cbn [rn_dt rn_clamp rn_box]; auto; try lra.
  - intros i Hi. destruct i as [|[|i]]; cbn; try lra. lia.
  - reflexivity.
  - exact I.
  - exists fuel, code, st. split; [exact H|]. intros Hc. destruct (K Hc) as (k & A & B & C & D & _ & F).
    cbn [rn_dt rn_max_time e_time e_step] in *. specialize (F ltac:(cbn; tauto)).
    assert (k = 3)%nat.
    { destruct C as [-> |C]; [cbn in A; lra|].
      destruct (Nat.lt_trichotomy k 3) as [X|[X|X]]; auto; exfalso.
      - assert (INR k <= 2) by (change 2 with (INR 2); apply le_INR; lia). lra.
      - assert (4 <= INR k) by (replace 4 with (INR 4) by (cbn; lra); apply le_INR; lia). lra. }
    subst k. cbn in A. split; [lra|]. rewrite F. reflexivity.
Qed.

(** ** C40: what is written, when, and what a failed write does.  Any arithmetic, engine, solver and
    stream; [frames] are the states after the steps of the run. *)
Theorem C40_outputs : forall (T E W : Type) (N : NumOps T) ps
    (ef : E -> nat -> T -> list T -> list T -> option (E * list T)) garbage count write fuel p s e
    (w : option W) r,
  run N ps ef garbage count write fuel p s e w = Some r ->
  let st := final r in
  let due interval last t :=
    nleb N (nsub N (nadd N last interval) (nmul N (rn_dt p) (ndiv N (nlit N 1) (nlit N 10)))) t = true in
  let wanted interval := nltb N (nlit N 0) interval in
  exists frames dumps checks,
    (* the run is a plain simulation *)
    simulates N ps ef garbage count (rn_clamp p) (rn_box p) (rn_dt p) s e frames (rs_s st) (rs_e st) /\
    (* that stops as soon as the end time is reached, or a write fails *)
    (frames <> [] -> nltb N (e_time e) (rn_max_time p) = true) /\
    Forall (fun f => nltb N (fr_time f) (rn_max_time p) = true) (removelast frames) /\
    match r with
    | Returned code _ => (code = 0%Z \/ code = (-1)%Z) /\
        (code = 0%Z -> nltb N (e_time (rs_e st)) (rn_max_time p) = false)
    | Unfinished _ => length frames = fuel /\ nltb N (e_time (rs_e st)) (rn_max_time p) = true
    end /\
    (* checks *)
    rs_checks st = map (@fr_time T) checks /\
    (if wanted (rn_check_dt p)
     then cadence (@fr_time T) (due (rn_check_dt p)) (e_time e) frames checks
     else checks = []) /\
    (* frames written: the initial one if nothing can have been written before, then the due ones *)
    rs_dumps st =
      match w with
      | Some _ => if andb (wanted (rn_dump_dt p)) (nleb N (e_time e) (nlit N 0))
                  then [mkFrame (e_time e) (e_step e) (e_y e)] else []
      | None => []
      end ++ dumps /\
    (w <> None ->
     if wanted (rn_dump_dt p)
     then cadence (@fr_time T) (due (rn_dump_dt p)) (e_time e) frames dumps
     else dumps = []) /\
    (* they reach the stream in this order; -1 means that the last of them failed *)
    fed write w (rs_dumps st) (rs_w st) (succeeded r).
Proof.
  intros T E W N ps ef garbage count write fuel p s e w r H. cbn zeta.
  destruct (@run_spec T E W N ps ef garbage count write fuel p s e w r H)
    as (fr & d & c & S1 & S2 & S3 & S4 & S5 & S6 & S7 & S8 & S9).
  exists fr, d, c. split; [exact S1|]. split; [exact S2|]. split; [exact S3|]. split; [exact S4|].
  split; [exact S5|]. split; [exact S6|]. split; [exact S7|]. split; [exact S9|exact S8].
Qed.
Print Assumptions C40_outputs.

(** an output interval of [k] steps, in real arithmetic: exactly every [k]-th state is picked *)
Theorem C40_every : forall E mind ps (ef : E -> nat -> R -> list R -> list R -> option (E * list R))
    garbage n clamp box dt s e frames s' e' k picked,
  0 < dt -> (0 < k)%nat ->
  simulates (Rops mind) ps ef garbage n clamp box dt s e frames s' e' ->
  cadence (@fr_time R) (fun last t => nleb (Rops mind) (last + INR k * dt - dt * (1 / 10)) t = true)
    (e_time e) frames picked ->
  picked = every k frames.
Proof.
  intros E mind ps ef garbage n clamp box dt s e frames s' e' k picked H1 H2 H3 H4.
  exact (@every_dump E mind ps ef garbage n (mkRunParams dt 0 0 0 clamp box) s e frames s' e' k picked _ H1 H2 eq_refl H3 H4).
Qed.
Print Assumptions C40_every.

(** any interval of at least a step: outputs are never closer than the interval less a tenth of a
    step, never further apart than the interval plus nine tenths *)
Theorem C40_spacing : forall E mind ps (ef : E -> nat -> R -> list R -> list R -> option (E * list R))
    garbage n clamp box dt s e frames s' e' i picked,
  0 < dt -> dt <= i ->
  simulates (Rops mind) ps ef garbage n clamp box dt s e frames s' e' ->
  cadence (@fr_time R) (fun last t => nleb (Rops mind) (last + i - dt * (1 / 10)) t = true)
    (e_time e) frames picked ->
  spaced (@fr_time R) (i - dt / 10) (i + 9 * dt / 10) (e_time e) picked.
Proof.
  intros E mind ps ef garbage n clamp box dt s e frames s' e' i picked H1 H2 H3 H4.
  eapply cadence_spaced; [exact H1|exact H2|eapply sim_times; exact H3|].
  eapply cadence_ext; [|exact H4]. intros a b. exact (@due_R mind (mkRunParams dt 0 0 0 clamp box) a i b).
Qed.
Print Assumptions C40_spacing.

(** seven steps of length 10, output every 20, a stream that takes two frames and then fails; the
    run stops there with -1 *)
Example C40_example : exists st,
  run Zops 2 (fun (u : unit) _ _ _ f => Some (u, repeat 2%Z (length f))) (fun _ => [0; 0]%Z) 0
    (fun w (f : frame Z) => (S w, Nat.ltb w 2)) 100
    (mkRunParams 10 70 20 30 false 0)%Z (SEuler None) (mkEng [5; 7]%Z 0%Z 0 tt 0) (Some O)
    = Some (Returned (-1) st) /\
  rs_dumps st = [mkFrame 0%Z 0 [5; 7]%Z; mkFrame 20%Z 2 [45; 47]%Z; mkFrame 40%Z 4 [85; 87]%Z] /\
  rs_checks st = [30]%Z.
Proof. eexists. split; [vm_compute; reflexivity|]. split; reflexivity. Qed.
(** the same run with a stream that takes everything *)
Example C40_example_all : exists st,
  run Zops 2 (fun (u : unit) _ _ _ f => Some (u, repeat 2%Z (length f))) (fun _ => [0; 0]%Z) 0
    (fun (w : list (frame Z)) f => (w ++ [f], true)) 100
    (mkRunParams 10 70 20 30 false 0)%Z (SEuler None) (mkEng [5; 7]%Z 0%Z 0 tt 0) (Some [])
    = Some (Returned 0 st) /\
  map (@fr_time Z) (rs_dumps st) = [0; 20; 40; 60]%Z /\ rs_w st = Some (rs_dumps st) /\
  rs_checks st = [30; 60]%Z.
Proof. eexists. split; [vm_compute; reflexivity|]. repeat split. Qed.
