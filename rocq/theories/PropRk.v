(** Properties of single solvers: C30, C31 (adaptive substeps), C34, C35 (Adams-Bashforth), C57 and C60
    (textbook formulas). *)
From Coq Require Import ZArith Reals List Arith Lia Lra.
From Verif Require Import Num Arr SpecPhys ModelSolverBase ModelButcher ModelExtrap ModelSolver SpecSolver
  LemOk LemBufR LemSolver LemRk LemExact LemAdams.
Import ListNotations.
Set Implicit Arguments.

(** ** C31: any number type, any engine, any state.  [nltb a b = false] is "not a < b". *)
Theorem C31_threshold : forall (T E : Type) (N : NumOps T) ps
    (ef : E -> nat -> T -> list T -> list T -> option (E * list T)) garbage p dt s e b e' tr,
  bt_embedded (rp_table p) = true ->
  rk_step N ps ef garbage p dt s e = Some (b, e', tr) ->
  rk_advise N ps ef garbage p dt s e = Some (Some b, e') /\
  forall a, In a tr ->
    nltb N (rp_threshold p) (ac_err a) = false \/ ac_level a = rp_max_recursion p \/
    nltb N (rp_min_step p) (ac_dt a) = false.
Proof.
  intros T E N ps ef garbage p dt s e b e' tr HE H. split.
  - unfold rk_advise. now rewrite H.
  - intros a Ha. pose proof (@rk_step_acc _ _ _ _ _ _ _ _ _ _ _ H) as X.
    rewrite Forall_forall in X. specialize (X a Ha). unfold good_acc in X. rewrite HE in X.
    destruct X as [X|[X|[X|X]]]; auto. discriminate.
Qed.
Print Assumptions C31_threshold.

(** ** C30: over the reals, any engine *)
Local Open Scope R_scope.
Theorem C30_cover : forall (E : Type) mind ps (ef : E -> nat -> R -> list R -> list R -> option (E * list R))
    garbage p dt s e b e' tr,
  (1 <= rp_subdivisions p)%nat ->
  rk_step (Rops mind) ps ef garbage p dt s e = Some (b, e', tr) ->
  rk_advise (Rops mind) ps ef garbage p dt s e = Some (Some b, e') /\
  covers (e_time e) tr (e_time e + dt) /\
  fold_right Rplus 0 (map ac_dt tr) = dt /\
  (length tr <= rp_subdivisions p ^ rp_max_recursion p)%nat /\
  forall a, In a tr -> (ac_level a <= rp_max_recursion p)%nat /\
                       ac_dt a = dt / INR (rp_subdivisions p) ^ ac_level a.
Proof.
  intros E mind ps ef garbage p dt s e b e' tr Hm H.
  pose proof (@rk_step_covers _ mind ps ef garbage p Hm dt s e _ H) as (A & B & C & D). cbn [snd] in *.
  split; [unfold rk_advise; now rewrite H|]. split; auto. split; auto. split; auto.
  now apply Forall_forall.
Qed.
Print Assumptions C30_cover.

(** For a right-hand side that is a function, the state reached is the composition of the textbook
    Runge-Kutta steps of the accepted substeps, with the recorded errors the differences of the two
    rows.  Hypotheses: explicit table, a non-zero coefficient in every row after the first or
    correction on, a non-zero step. *)
Theorem C30_replay : forall (E : Type) mind ps (ef : E -> nat -> R -> list R -> list R -> option (E * list R))
    garbage F p h (e : @eng R E),
  (0 < ps)%nat -> (forall n, length (garbage n) = ps) ->
  (forall t y, length y = ps -> length (F t y) = ps) ->
  (forall q step t y f, length y = ps -> length f = ps -> ef q step t y f = Some (q, F t y)) ->
  table_wf (rp_table p) -> bt_implicit (rp_table p) = false ->
  rp_correction p = true \/ explicit_rows (rp_table p) ->
  (1 <= rp_subdivisions p)%nat -> h <> 0 -> length (e_y e) = ps ->
  exists b e' tr, rk_step (Rops mind) ps ef garbage p h None e = Some (b, e', tr) /\
    rk_replay ps F (rp_table p) (e_y e) tr (e_y e').
Proof.
  intros E mind ps ef garbage F p h e H1 H2 H3 H4 H5 H6 H7 H8 H9 H10.
  assert (H7' : rp_correction p = true \/ forall i, (0 < i < bt_steps (rp_table p))%nat ->
       exists j, (j < i)%nat /\ nth j (nth i (bt_a (rp_table p)) []) 0 <> 0).
  { destruct H7 as [H7|[_ H7]]; auto. }
  pose proof (@rk_step_x E mind ps ef garbage F H1 H2 H3 H4 p H5 H6 H7' H8 h None e H9 H10) as X.
  destruct (rk_step _ _ _ _ _ _ _ _) as [[[b e'] tr]|].
  - exists b, e', tr. split; auto. apply X. discriminate.
  - exfalso. apply X. discriminate.
Qed.
Print Assumptions C30_replay.

(** the explicit tables of the code meet the hypotheses *)
Theorem C30_tables : forall mind bt,
  In bt [tab_rk4 (Rops mind); tab_rkf (Rops mind); tab_rkck (Rops mind); tab_rkdp (Rops mind);
         tab_rkdverk (Rops mind)] ->
  table_wf bt /\ explicit_rows bt.
Proof.
  intros mind bt H. cbn [In] in H.
  Ltac stg j := exists j; split; [lia|]; cbn; unfold Rdiv; lra.
  repeat destruct H as [<-|H]; try contradiction; split.
  1,3,5,7,9: (split; [cbn; lia|]); split; [|cbn; repeat split; lia];
    intros i row Hi Hrow; cbn in Hi;
    (do 14 (destruct i as [|i]; [try lia; cbn in Hrow; injection Hrow as <-; cbn; lia|])); lia.
  all: split; [reflexivity|];
    intros i Hi; cbn [bt_steps tab_rk4 tab_rkf tab_rkck tab_rkdp tab_rkdverk] in Hi;
    (do 14 (destruct i as [|i]; [try lia; stg 0%nat || stg 1%nat || stg 2%nat|])); lia.
Qed.
Print Assumptions C30_tables.

(** y' = (y1, t^2), threshold 20, two subdivisions, three levels: the first half is accepted by its
    error, the second is split down to the recursion limit (time, length, error, level) *)
Definition demo_ef (u : unit) (step : nat) (t : Z) (y f : list Z) : option (unit * list Z) :=
  Some (u, [nth 1 y 0; t * t]%Z).
Definition demo_table : table Z :=
  {| bt_steps := 2; bt_a := [[0]; [1; 0]]%Z; bt_b1 := [1; 0]%Z; bt_b2 := [0; 1]%Z; bt_c := [0; 1]%Z;
     bt_implicit := false; bt_embedded := true |}.
Example C31_example :
  exists b e' tr, rk_step Zops 2 demo_ef (fun _ => [7; 7]%Z) (mkRkParams demo_table 3 2 20%Z 1 true 1%Z) 8%Z None
    (mkEng [0; 0]%Z 0%Z 0 tt 0) = Some (b, e', tr) /\
  map (fun a => (ac_t a, ac_dt a, ac_err a, ac_level a)) tr =
    [(0, 4, 16, 1%nat); (4, 1, 16, 3%nat); (5, 1, 25, 3%nat); (6, 1, 36, 3%nat); (7, 1, 49, 3%nat)]%Z.
Proof. do 3 eexists. split; [vm_compute; reflexivity|]. vm_compute. reflexivity. Qed.

(** ** C57, C60: the hand-written one-step solvers compute their textbook formula at every step of
    every history.  [fixed_value] is defined for euler, midpoint, midpoint-st (Stetter), rk4 and
    trapeze. *)
Theorem C60_fixed_solvers : forall (E : Type) mind ps
    (ef : E -> nat -> R -> list R -> list R -> option (E * list R)) garbage F s (e : @eng R E) dts y',
  (0 < ps)%nat -> (forall n, length (garbage n) = ps) ->
  (forall t y, length y = ps -> length (F t y) = ps) ->
  (forall q step t y f, length y = ps -> length f = ps -> ef q step t y f = Some (q, F t y)) ->
  fresh s -> length (e_y e) = ps ->
  fixed_value ps F s (e_time e) (e_y e) dts = Some y' ->
  exists r, advise_all (Rops mind) ps ef garbage dts s e = Some r /\ e_y (snd r) = y'.
Proof.
  intros E mind ps ef garbage F s e dts y' H1 H2 H3 H4 H5 H6 H7. apply ok_exists.
  exact (@fixed_x E mind ps ef garbage F H1 H2 H3 H4 s e dts y' H5 H6 H7).
Qed.
Print Assumptions C60_fixed_solvers.

Theorem C57_rk4_textbook : forall (E : Type) mind ps
    (ef : E -> nat -> R -> list R -> list R -> option (E * list R)) garbage F (e : @eng R E) dts,
  (0 < ps)%nat -> (forall n, length (garbage n) = ps) ->
  (forall t y, length y = ps -> length (F t y) = ps) ->
  (forall q step t y f, length y = ps -> length f = ps -> ef q step t y f = Some (q, F t y)) ->
  length (e_y e) = ps ->
  exists r, advise_all (Rops mind) ps ef garbage dts (SRk4 None) e = Some r /\
    e_y (snd r) = run_steps (rk4_value ps F) (e_time e) (e_y e) dts.
Proof.
  intros E mind ps ef garbage F e dts H1 H2 H3 H4 H6. apply ok_exists.
  exact (@fixed_x E mind ps ef garbage F H1 H2 H3 H4 (SRk4 None) e dts _ eq_refl H6 eq_refl).
Qed.
Print Assumptions C57_rk4_textbook.

(** the tableau solver with the rk4 table (any parameters, with or without correction) and the
    hand-written solver reach the same state after any history of non-zero steps *)
Theorem C57_rk4_equals_tableau : forall (E : Type) mind ps
    (ef : E -> nat -> R -> list R -> list R -> option (E * list R)) garbage F (e : @eng R E) dts p,
  (0 < ps)%nat -> (forall n, length (garbage n) = ps) ->
  (forall t y, length y = ps -> length (F t y) = ps) ->
  (forall q step t y f, length y = ps -> length f = ps -> ef q step t y f = Some (q, F t y)) ->
  length (e_y e) = ps ->
  rp_table p = tab_rk4 (Rops mind) -> (1 <= rp_subdivisions p)%nat -> Forall (fun h => h <> 0) dts ->
  exists r r', advise_all (Rops mind) ps ef garbage dts (SRk4 None) e = Some r /\
    advise_all (Rops mind) ps ef garbage dts (SButcher p None) e = Some r' /\
    e_y (snd r) = e_y (snd r').
Proof.
  intros E mind ps ef garbage F e dts p H1 H2 H3 H4 H6 Ht Hs Hd.
  destruct (@C57_rk4_textbook E mind ps ef garbage F e dts) as (r & A & B); auto.
  destruct (@C30_tables mind (tab_rk4 (Rops mind))) as [W1 W2]; [cbn; auto|].
  assert (X : exists r', advise_all (Rops mind) ps ef garbage dts (SButcher p None) e = Some r' /\
     e_y (snd r') = run_steps (rk_value ps F (rp_table p)) (e_time e) (e_y e) dts).
  { apply ok_exists. apply butcher_all; auto; try discriminate; rewrite Ht; auto. right. apply W2. }
  destruct X as (r' & C & D). exists r, r'. split; auto. split; auto. rewrite B, D, Ht. symmetry.
  apply (@run_steps_ext ps); auto. intros t h y Hy. split.
  - now apply rk4_value_table.
  - apply lincomb_V.
Qed.
Print Assumptions C57_rk4_equals_tableau.

(** y' = -y, one step of length 1 from 24: 24 (1 - 1 + 1/2 - 1/6 + 1/24) = 9, by rk4, by the tableau
    solver and by the formula *)
Definition decay (t : R) (y : list R) : list R := map Ropp y.
Example C57_example : rk4_value 1 decay 0 1 [24] = [9] /\ rk_value 1 decay (tab_rk4 (Rops 1)) 0 1 [24] = [9] /\
  midpoint_value 1 decay 0 1 [24] = [12] /\ euler_value 1 decay 0 1 [24] = [0] /\
  trapeze_value 1 decay 0 0 1 [24] = [12] /\ trapeze_value 1 decay 1 0 1 [24] = [6] /\
  stetter_value 1 decay 0 1 ([24], [24]) = ([12], [6]).
Proof.
  repeat split; cbv -[Rplus Rmult Ropp Rdiv IZR]; repeat match goal with |- _ :: _ = _ => apply f_equal2 | |- (_, _) = _ => apply f_equal2 end;
    try reflexivity; lra.
Qed.

(** ** C34 *)
Theorem C34_history : forall (E : Type) mind ps
    (ef : E -> nat -> R -> list R -> list R -> option (E * list R)) garbage F p st (e : @eng R E) dts,
  (0 < ps)%nat -> (forall n, length (garbage n) = ps) ->
  (forall t y, length y = ps -> length (F t y) = ps) ->
  (forall q step t y f, length y = ps -> length f = ps -> ef q step t y f = Some (q, F t y)) ->
  length (e_y e) = ps -> fresh st -> solver_ok st -> (1 <= ap_rank p <= 5)%nat ->
  exists tr, trajectory (Rops mind) ps ef garbage dts (SAdams p st None 0) e = Some tr /\
    length tr = S (length dts) /\ nth 0 tr (0, []) = (e_time e, e_y e) /\
    forall m, (ap_rank p < m < length dts)%nat ->
      snd (nth (S m) tr (0, [])) =
      lincomb ps (snd (nth m tr (0, []))) (nth m dts 0) (ap_rank p)
        (fun k => nth k (ab_coeff (ap_rank p)) 0)
        (map (fun k => F (fst (nth (m - k)%nat tr (0, []))) (snd (nth (m - k)%nat tr (0, []))))
             (seq 0 (ap_rank p))).
Proof.
  intros E mind ps ef garbage F p st e dts H1 H2 H3 H4 H5 H6 H7 H8. apply ok_exists.
  exact (@adams_fresh_x E mind ps ef garbage F H1 H2 H3 H4 p st e dts H6 (conj H8 H7) H5).
Qed.
Print Assumptions C34_history.

(** the first rank + 1 steps are those of the starter, called on the same time and state: any number
    type, any engine *)
Theorem C34_starter : forall (T E : Type) (N : NumOps T) ps
    (ef : E -> nat -> T -> list T -> list T -> option (E * list T)) garbage dt p st b step e r,
  (step <= ap_rank p)%nat ->
  advise N ps ef garbage dt (SAdams p st b step) e = Some r ->
  exists e0 st' b', advise N ps ef garbage dt st e0 = Some (st', snd r) /\
    fst r = SAdams p st' b' (S step) /\
    e_time e0 = e_time e /\ e_y e0 = e_y e /\ e_step e0 = e_step e.
Proof. exact @adams_starter_phase. Qed.
Print Assumptions C34_starter.

(** y' = 1 over the integers would need 1/2; rank 1 with Euler as starter: y' = t, steps 1 from t = 0
    give 0, 0, 1, 3, 6, 10 *)
Example C34_example :
  option_map (map snd) (trajectory Zops 1 (fun (u : unit) _ t _ _ => Some (u, [t])) (fun _ => [7]%Z)
    [1; 1; 1; 1; 1]%Z (SAdams (mkAdamsParams 1 true) (SEuler None) None 0) (mkEng [0]%Z 0%Z 0 tt 0)) =
  Some [[0]; [0]; [1]; [3]; [6]; [10]]%Z.
Proof. vm_compute. reflexivity. Qed.

(** ** C35: [Y] is any antiderivative of the polynomial [c] of degree < r *)
Theorem C35_polynomials : forall (Y : R -> R) r c t h, (1 <= r <= 5)%nat -> (length c <= r)%nat ->
  (forall x, derivable_pt_lim Y x (poly c x)) ->
  Y (t + h) = Y t + h * rsum r (fun k => nth k (ab_coeff r) 0 * poly c (t - INR k * h)).
Proof. exact ab_exact. Qed.
Print Assumptions C35_polynomials.

(** the rows in the code *)
Theorem C35_rows : forall mind r, (1 <= r <= 5)%nat ->
  nth_error (adams_rows (Rops mind)) r = Some (ab_coeff r).
Proof. exact adams_rows_ab. Qed.
Print Assumptions C35_rows.

(** the solver on y_q' = c_q(t), equal steps: when the states up to the first rank + 1 steps lie on
    the solution, all states do *)
Theorem C35_solver : forall (E : Type) mind ps
    (ef : E -> nat -> R -> list R -> list R -> option (E * list R)) garbage (c : nat -> list R) (Y : nat -> R -> R)
    p st (e : @eng R E) h n,
  (0 < ps)%nat -> (forall n, length (garbage n) = ps) ->
  (forall q step t y f, length y = ps -> length f = ps ->
    ef q step t y f = Some (q, map (fun q => poly (c q) t) (seq 0 ps))) ->
  (forall q x, (q < ps)%nat -> derivable_pt_lim (Y q) x (poly (c q) x)) ->
  fresh st -> solver_ok (SAdams p st None 0) -> length (e_y e) = ps ->
  (forall q, (q < ps)%nat -> (length (c q) <= ap_rank p)%nat) ->
  exists tr, trajectory (Rops mind) ps ef garbage (repeat h n) (SAdams p st None 0) e = Some tr /\
    length tr = S n /\
    ((forall m q, (m <= S (ap_rank p))%nat -> (m <= n)%nat -> (q < ps)%nat ->
        nth q (snd (nth m tr (0, []))) 0 = Y q (fst (nth m tr (0, [])))) ->
     forall m q, (m <= n)%nat -> (q < ps)%nat ->
        nth q (snd (nth m tr (0, []))) 0 = Y q (fst (nth m tr (0, [])))).
Proof.
  intros E mind ps ef garbage c Y p st e h n H1 H2 H3 H4 H5 H6 H7 H8.
  exact (@adams_poly E mind ps ef garbage c Y H1 H2 H3 H4 p st e h n H5 H6 H7 H8).
Qed.
Print Assumptions C35_solver.

(** 1 + 2 x + 3 x^2 with antiderivative x + x^2 + x^3, rank 3, from t = 2, h = 1: 39 - 14 *)
Example C35_example : (forall x, derivable_pt_lim (fun x => x + x * x + x * x * x) x (poly [1; 2; 3] x)) /\
  1 * rsum 3 (fun k => nth k (ab_coeff 3) 0 * poly [1; 2; 3] (2 - INR k * 1)) = 39 - 14.
Proof.
  split.
  - intros x. apply (derivable_pt_lim_ext (anti 1 [1; 2; 3])).
    + intros z. cbn. field.
    + apply anti_lim1.
  - cbn [rsum ab_coeff nth poly]. rewrite ?S_INR. cbn [INR]. lra.
Qed.
