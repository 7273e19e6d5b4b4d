(** C82 for the solvers the command line can name, and what the defect does. *)
From Coq Require Import Ascii String ZArith NArith Reals List Arith Lia Lra.
From Verif Require Import Num Arr ArrLemmas SpecPhys SpecEngine RLemmas ModelText ModelSolverBase ModelButcher ModelFeagin ModelExtrap
  ModelArgs SpecArgs LemText LemArgs PropArgs
  ModelEngine ModelSolver LemOk LemBufR SpecSolver SpecImplicit SpecOrder SpecConv PropSolver PropRk PropImplicit PropFeagin PropFeagin14
  LemConv LemExact LemSolver PropConv.
Import ListNotations.
Set Implicit Arguments.
Local Open Scope R_scope.

(** ** C82 *)

Lemma dec_nz mind n k : n <> 0%Z -> (0 <= k)%Z -> dec (Rops mind) n k <> 0.
Proof.
  intros Hn Hk. unfold dec, q. cbn [Rops ndiv nlit]. apply Rmult_integral_contrapositive. split.
  - now apply IZR_neq.
  - apply Rinv_neq_0_compat. apply IZR_neq. apply Z.pow_nonzero; lia.
Qed.

Fixpoint rows_ok (k : nat) (l : list (list R)) : Prop :=
  match l with [] => True | r :: l => ((k <= length r)%nat /\ (k = 0%nat \/ nth 0 r 0 <> 0)) /\ rows_ok (S k) l end.
Lemma rows_ok_nth : forall l k i row, rows_ok k l -> nth_error l i = Some row ->
  (k + i <= length row)%nat /\ ((k + i = 0)%nat \/ nth 0 row 0 <> 0).
Proof.
  induction l as [|r l IH]; intros k [|i] row H E; cbn [nth_error] in E; try discriminate.
  - injection E as <-. rewrite Nat.add_0_r. apply H.
  - replace (k + S i)%nat with (S k + i)%nat by lia. apply IH; [apply H|exact E].
Qed.
Lemma rows_ok_table bt : rows_ok 0 (bt_a bt) -> bt_implicit bt = false -> (bt_steps bt <= length (bt_a bt))%nat ->
  (bt_steps bt <= length (bt_b2 bt))%nat -> (bt_steps bt <= length (bt_c bt))%nat -> (bt_steps bt <= length (bt_b1 bt))%nat ->
  table_wf bt /\ explicit_rows bt.
Proof.
  intros H I L1 L2 L3 L4. split; [split; [exact L1|split; [|auto]]|split; [exact I|]].
  - intros i row Hi Hr. rewrite I. apply (rows_ok_nth _ _ _ H Hr).
  - intros i Hi. exists 0%nat. split; [lia|].
    destruct (nth_error (bt_a bt) i) as [row|] eqn:Er; [|apply nth_error_None in Er; lia].
    rewrite (nth_error_nth _ _ _ Er). destruct (rows_ok_nth _ _ _ H Er) as [_ [X|X]]; [lia|exact X].
Qed.
Lemma feagin_rows mind bt : In bt [tab_rkfeagin10 (Rops mind); tab_rkfeagin12 (Rops mind); tab_rkfeagin14 (Rops mind)] ->
  table_wf bt /\ explicit_rows bt.
Proof.
  Ltac lens := cbn [bt_a bt_b1 bt_b2 bt_c bt_steps tab_rkfeagin10 tab_rkfeagin12 tab_rkfeagin14]; apply Nat.leb_le; reflexivity.
  intros H. cbn [In] in H.
  repeat destruct H as [<-|H]; try contradiction; (apply rows_ok_table; [|reflexivity|lens|lens|lens|lens]);
    unfold tab_rkfeagin10, tab_rkfeagin12, tab_rkfeagin14; cbn [bt_a];
    repeat (first [exact I|apply conj; [apply conj; [apply Nat.leb_le; reflexivity|first [left; reflexivity|right; cbn [nth]; apply dec_nz; [discriminate|lia]]]|]]).
Qed.

Lemma nearly_defect bt p eps : nearly_order bt (bt_b2 bt) p eps -> (1 <= p)%nat ->
  Rabs (rsum (bt_steps bt) (fun i => nth i (bt_b2 bt) 0) - 1) <= eps.
Proof.
  intros H Hp. specialize (H (Node []) Hp). cbn in H.
  rewrite (rsum_ext (bt_steps bt) _ (fun i => nth i (bt_b2 bt) 0)) in H by (intros; ring).
  replace (1 / (1 * 1)) with 1 in H by field. exact H.
Qed.

(** the smallest bound that covers all of them: Feagin's weights are printed with sixty digits *)
Lemma tables_defect mind bt : In bt [tab_rkf (Rops mind); tab_rkck (Rops mind); tab_rkdp (Rops mind); tab_rkdverk (Rops mind);
    tab_rkgl (Rops mind); tab_rklc (Rops mind); tab_rkfeagin10 (Rops mind); tab_rkfeagin12 (Rops mind); tab_rkfeagin14 (Rops mind)] ->
  Rabs (rsum (bt_steps bt) (fun i => nth i (bt_b2 bt) 0) - 1) <= 1 / 10 ^ 9.
Proof.
  intros H.
  assert (P : 0 <= 1 / 10 ^ 9) by (cbn [pow]; lra).
  assert (P2 : 1 / 10 ^ 12 <= 1 / 10 ^ 9) by (cbn [pow]; lra).
  assert (Z : In bt [tab_rk4 (Rops mind); tab_rkf (Rops mind); tab_rkck (Rops mind); tab_rkdp (Rops mind);
    tab_rkdverk (Rops mind); tab_rkgl (Rops mind); tab_rklc (Rops mind)] ->
    Rabs (rsum (bt_steps bt) (fun i => nth i (bt_b2 bt) 0) - 1) <= 1 / 10 ^ 9).
  { intros Hb. pose proof (@C29_tables_consistent mind bt (mkRkParams bt 8 8 0 1 false 0) Hb eq_refl ltac:(cbn; lia)) as [X _].
    cbn [rp_table] in X. rewrite X. rewrite Rminus_diag_eq by reflexivity. rewrite Rabs_R0. exact P. }
  cbn [In] in H. repeat destruct H as [<-|H]; try contradiction; try (apply Z; cbn [In]; tauto).
  - eapply Rle_trans; [|exact P2]. eapply nearly_defect; [apply (proj1 (C81_rkfeagin10 mind))|lia].
  - eapply Rle_trans; [|exact P2]. eapply nearly_defect; [apply (proj1 (C81_rkfeagin12 mind))|lia].
  - eapply nearly_defect; [apply (proj1 (C81_rkfeagin14 mind))|lia].
Qed.

(** what the parameters of the command line have to be *)
Local Definition works (m : params) : Prop :=
  (1 <= unsigned m "substep_subdivisions" 8)%N /\ (1 <= unsigned m "refine_steps_count" 1)%N /\ (1 <= unsigned m "max_level" 8)%N /\
  (1 <= match lookup (chars "rank") m with Some v => to_size_t (to_int v) | None => 1%N end <= 5)%N.

Lemma works_assign v m : works m -> works (assign (chars "solver") v m).
Proof. unfold works, unsigned. rewrite !lookup_assign. exact (fun x => x). Qed.

Lemma butcher_good mind X m bt : works m ->
  In bt [tab_rkf (Rops mind); tab_rkck (Rops mind); tab_rkdp (Rops mind); tab_rkdverk (Rops mind);
    tab_rkgl (Rops mind); tab_rklc (Rops mind); tab_rkfeagin10 (Rops mind); tab_rkfeagin12 (Rops mind); tab_rkfeagin14 (Rops mind)] ->
  let s := create_butcher_solver (Rops mind) X bt m in fresh s /\ convergent s /\ defect s <= 1 / 10 ^ 9.
Proof.
  intros (W1 & W2 & W3 & W4) H s. split; [reflexivity|]. split; [|now apply (@tables_defect mind)].
  unfold s, create_butcher_solver. cbn [convergent rp_table rp_subdivisions rp_refine rp_correction].
  assert (A : (table_wf bt /\ explicit_rows bt) \/ (table_wf bt /\ implicit_rows bt)).
  { pose proof (C69_tables mind) as ((G1 & G2 & _) & L1 & L2 & _).
    cbn [In] in H. repeat destruct H as [<-|H]; try contradiction;
    first [ left; apply (@C30_tables mind); cbn [In]; tauto | right; split; assumption | left; apply (@feagin_rows mind); cbn [In]; tauto ]. }
  destruct A as [[A1 [A2 A3]]|[A1 A2]]; (split; [exact A1|]); (split; [lia|]).
  - left. split; auto.
  - right. split; [exact A2|lia].
Qed.

Lemma factory_good mind X : forall fuel m c, works m -> create_solver (Rops mind) X fuel m = Some (Some c) ->
  fresh (cr_solver c) /\ convergent (cr_solver c) /\ defect (cr_solver c) <= 1 / 10 ^ 9.
Proof.
  assert (P : 0 <= 1 / 10 ^ 9) by (cbn [pow]; lra).
  induction fuel as [|fuel IH]; intros m c W E; [discriminate|].
  cbn [create_solver] in E. cbv zeta in E.
  match type of E with obind ?x _ = _ => destruct x as [[s|]|] eqn:Es; cbn [obind] in E; try discriminate end.
  injection E as <-. cbn [cr_solver].
  repeat match type of Es with
    | (if ?b then _ else _) = _ => destruct b
    end; try discriminate.
  1: { destruct (create_solver (Rops mind) X fuel _) as [[c|]|] eqn:Ec; cbn [obind] in Es; try discriminate.
       apply IH in Ec; [|now apply works_assign]. destruct Ec as (F1 & F2 & F3).
       injection Es as <-. cbn [fresh convergent defect ap_rank]. destruct W as (W1 & W2 & W3 & W4).
       split; [auto|]. split; [|exact F3]. split; [|exact F2]. revert W4. set (rk := match lookup _ m with Some _ => _ | None => _ end). clearbody rk. lia. }
  all: injection Es as <-; try (apply (@butcher_good mind X); [exact W|cbn [In]; tauto]);
    cbn [fresh convergent defect bp_max_level]; destruct W as (W1 & W2 & W3 & W4); (split; [reflexivity|]); (split; [try exact I; try lia|exact P]).
Qed.

(** Every solver the command line can name, with parameters that leave it a method, converges up to a billionth. *)
Theorem C82_factory : forall mind X args fuel c,
  create_solver (Rops mind) X fuel (parse_arguments args) = Some (Some c) ->
  asked args "substep_subdivisions" 1 (2 ^ 31 - 1) -> asked args "refine_steps_count" 1 (2 ^ 31 - 1) ->
  asked args "max_level" 1 (2 ^ 31 - 1) -> asked args "rank" 1 5 ->
  fresh (cr_solver c) /\ convergent (cr_solver c) /\ defect (cr_solver c) <= 1 / 10 ^ 9.
Proof.
  intros mind X args fuel c E A1 A2 A3 A4. eapply factory_good; [|exact E].
  assert (G : forall k d, (1 <= d)%N -> asked args k 1 (2 ^ 31 - 1) -> (1 <= unsigned (parse_arguments args) k d)%N).
  { intros k d Hd HA. destruct (unsigned_wanted args k d) as (U1 & U2 & _). destruct HA as [HA|(w & Hw & HA)].
    - now rewrite U1.
    - rewrite (U2 w); [apply Hw| |exact HA]. change (2 ^ 32)%N with 4294967296%N. change (2 ^ 31 - 1)%N with 2147483647%N in Hw. lia. }
  split; [apply G; [lia|exact A1]|]. split; [apply G; [lia|exact A2]|]. split; [apply G; [lia|exact A3]|].
  destruct (rank_wanted args) as (U1 & U2 & _). destruct A4 as [HA|(w & Hw & HA)].
  - rewrite U1 by exact HA. lia.
  - rewrite (U2 w); [exact Hw| |exact HA]. change (2 ^ 31)%N with 2147483648%N. lia.
Qed.
Print Assumptions C82_factory.

(** Adams of rank 5 started by a method of Feagin *)
Example C82_factory_case : let args := map chars ["--solver=adams"; "--starter_solver=rkfeagin14"; "--rank=5"; "--refine_steps_count=3"]%string in
  (forall mind X, exists c, create_solver (Rops mind) X 2 (parse_arguments args) = Some (Some c)) /\
  asked args "rank" 1 5 /\ asked args "refine_steps_count" 1 (2 ^ 31 - 1) /\ asked args "substep_subdivisions" 1 (2 ^ 31 - 1) /\
  asked args "max_level" 1 (2 ^ 31 - 1).
Proof.
  intros args. split; [|split; [|split; [|split]]].
  - intros mind X. eexists. reflexivity.
  - right. exists 5%N. split; [lia|]. refine (proj1 (lookup_iff _ _ _) _). reflexivity.
  - right. exists 3%N. split; [change (2 ^ 31 - 1)%N with 2147483647%N; lia|]. refine (proj1 (lookup_iff _ _ _) _). reflexivity.
  - left. refine (proj1 (lookup_none_iff _ _) _). reflexivity.
  - left. refine (proj1 (lookup_none_iff _ _) _). reflexivity.
Qed.

(** The defect cannot be left out: on y' = 1 the error of a tableau without embedded weights is the elapsed time times the
    defect, whatever the steps. *)
Theorem C82_defect_stays : forall mind garbage p (e : @eng R unit) dts,
  (forall n, length (garbage n) = 1%nat) -> length (e_y e) = 1%nat ->
  table_wf (rp_table p) -> explicit_rows (rp_table p) -> bt_embedded (rp_table p) = false -> (1 <= rp_subdivisions p)%nat ->
  Forall (fun h => 0 < h) dts ->
  exists r, advise_all (Rops mind) 1 (fun q _ _ _ _ => Some (q, [1])) garbage dts (SButcher p None) e = Some r /\
    Rabs (nth 0 (e_y (snd r)) 0 - (nth 0 (e_y e) 0 + total dts)) = total dts * defect (SButcher p None).
Proof.
  intros mind garbage p e dts H1 H2 H3 [H4 H4'] H5 H6 H7.
  set (F := fun (_ : R) (_ : list R) => [1]).
  assert (Hd : Forall (fun h => h <> 0) dts) by (eapply Forall_impl; [|exact H7]; cbn; intros; lra).
  pose proof (@butcher_all unit mind 1 (fun q _ _ _ _ => Some (q, [1])) garbage F ltac:(lia) H1 (fun _ _ _ => eq_refl)
    (fun q _ _ _ _ _ _ => eq_refl) p dts H3 H4 (or_intror H4') H6 H5 Hd None e H2 ltac:(discriminate)) as X.
  apply ok_exists in X. destruct X as (r & Er & Hr). exists r. split; [exact Er|]. rewrite Hr. cbn [defect].
  set (bt := rp_table p) in *. clearbody bt.
  assert (St : forall t h y n j, (j < n)%nat -> nth j (rk_stages 1 F bt t h y n) [] = [1]).
  { intros t h y n. assert (Len : length (rk_stages 1 F bt t h y n) = n).
    { clear. induction n as [|n IH]; cbn [rk_stages]; auto. rewrite app_length, IH. cbn. lia. }
    induction n as [|n IH]; intros j Hj; [lia|]. cbn [rk_stages] in *.
    rewrite app_length in Len. cbn [length] in Len.
    destruct (Nat.eq_dec j n) as [->|Hn].
    - rewrite app_nth2 by lia. replace (n - _)%nat with 0%nat by lia. reflexivity.
    - rewrite app_nth1 by lia. apply IH; lia. }
  set (w := rsum (bt_steps bt) (fun i => nth i (bt_b2 bt) 0)).
  assert (V1 : forall t h y, rk_value 1 F bt t h y = [nth 0 y 0 + h * w]).
  { intros t h y. unfold rk_value, lincomb. cbn [seq map]. do 3 f_equal. unfold w. apply rsum_ext.
    intros i Hi. rewrite St by exact Hi. cbn [nth]. ring. }
  assert (G : forall l t y, nth 0 (run_steps (rk_value 1 F bt) t y l) 0 = nth 0 y 0 + total l * w).
  { induction l as [|h l IH]; intros t y; cbn [run_steps total fold_right]; [ring|]. rewrite IH, V1. cbn [nth]. unfold total. ring. }
  rewrite G. replace (nth 0 (e_y e) 0 + total dts * w - (nth 0 (e_y e) 0 + total dts)) with (total dts * (w - 1)) by ring.
  rewrite Rabs_mult. f_equal. apply Rabs_right. apply Rle_ge.
  clear - H7. induction H7; cbn; [lra|]. unfold total in *. lra.
Qed.
Print Assumptions C82_defect_stays.
(** one stage of weight 2: the error is the time itself *)
Example C82_defect_case : let p := mkRkParams {| bt_steps := 1; bt_a := [[0]]; bt_b1 := []; bt_b2 := [2]; bt_c := [0];
    bt_implicit := false; bt_embedded := false |} 8 8 0 1 false 0 in
  table_wf (rp_table p) /\ explicit_rows (rp_table p) /\ defect (SButcher p None) = 1.
Proof.
  split; [|split].
  - split; [cbn; lia|]. split; [|cbn; repeat split; try lia; discriminate]. intros i row Hi. cbn in *. lia.
  - split; [reflexivity|]. cbn. intros; lia.
  - cbn. unfold Rabs. destruct Rcase_abs; lra.
Qed.

(** Together: whichever solver the command line names, the run stays within C (d + h + 1e-9) of the motion. *)
Theorem C82_command_line : forall mind n mass garbage t0 T Y X args fuel c,
  0 < mind -> (0 < n)%nat -> length mass = n -> (forall i, (i < n)%nat -> nth i mass 0 <> 0) ->
  (forall k, length (garbage k) = (6 * n)%nat) ->
  0 <= T -> exact_on (6 * n) (newton_field mind n mass) t0 T Y ->
  create_solver (Rops mind) X fuel (parse_arguments args) = Some (Some c) ->
  asked args "substep_subdivisions" 1 (2 ^ 31 - 1) -> asked args "refine_steps_count" 1 (2 ^ 31 - 1) ->
  asked args "max_level" 1 (2 ^ 31 - 1) -> asked args "rank" 1 5 ->
  exists C h0, 0 <= C /\ 0 < h0 /\ forall (e : @eng R unit) dts h d, e_time e = t0 -> length (e_y e) = (6 * n)%nat -> 0 <= d ->
    near (6 * n) (e_y e) (Y t0) d -> 0 <= h <= h0 -> Forall (fun dt => 0 < dt <= h) dts -> total dts <= T ->
    exists r, advise_all (Rops mind) (6 * n) (simple_ef (Rops mind) n mass) garbage dts (cr_solver c) e = Some r /\
      near (6 * n) (e_y (snd r)) (Y (t0 + total dts)) (C * (d + h + 1 / 10 ^ 9)).
Proof.
  intros mind n mass garbage t0 T Y X args fuel c H1 H2 H3 H4 H5 HT HY Ec A1 A2 A3 A4.
  destruct (@C82_factory mind X args fuel c Ec A1 A2 A3 A4) as (F1 & F2 & F3).
  destruct (@C82_newton mind n mass garbage t0 T Y (cr_solver c) H1 H2 H3 H4 H5 HT HY F1 F2) as (C & h0 & HC & Hh & H).
  exists C, h0. split; auto. split; auto. intros e dts h d G1 G2 G3 G4 G5 G6 G7.
  destruct (H e dts h d G1 G2 G3 G4 G5 G6 G7) as (r & Er & Hr). exists r. split; auto.
  eapply near_mono; [exact Hr|]. apply Rmult_le_compat_l; auto. lra.
Qed.
Print Assumptions C82_command_line.
