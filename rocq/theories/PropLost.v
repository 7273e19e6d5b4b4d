(** Errors that are not numbers: C102. *)
From Coq Require Import ZArith Reals SpecFloat List Arith Lia Lra.
From Verif Require Import Num Arr ArrLemmas SpecPhys SpecBench RLemmas ModelVertex ModelEngine ModelParallel ModelButcher ModelSolverBase ModelSolver ModelArgs ModelBench
  LemMisc LemStat LemSpec LemBufProp.
Import ListNotations.
Local Open Scope nat_scope.

Lemma abs_nan x : SFabs x = S754_nan <-> x = S754_nan.
Proof. destruct x; cbn; split; congruence. Qed.
Lemma ltb_nan x : SFltb x S754_nan = false.
Proof. destruct x as [s|s| |s m e]; try destruct s; reflexivity. Qed.
Lemma nan_ltb x : SFltb S754_nan x = false.
Proof. reflexivity. Qed.
Lemma fold_nan l : fold_left (omp_max Fops) l S754_nan = S754_nan.
Proof. induction l as [|v l IH]; cbn [fold_left]; auto. Qed.
Definition number_b (x : spec_float) : bool := match x with S754_nan => false | _ => true end.
Lemma fold_skip l : forall x, fold_left (omp_max Fops) (map SFabs l) x = fold_left (omp_max Fops) (map SFabs (filter number_b l)) x.
Proof.
  induction l as [|v l IH]; intros x; cbn [map fold_left filter]; auto. destruct (number_b v) eqn:E; cbn [map fold_left]; [apply IH|].
  destruct v; try discriminate. rewrite <- IH. f_equal. unfold omp_max. cbn [nltb Fops SFabs]. now rewrite ltb_nan.
Qed.

(** What the measure of errors does in binary64 with components that are not numbers: one in front is reported, all the others are left out. *)
Theorem C102_max : forall a x m, nth_error a 0 = Some x -> fmaxabs Fops (length a) a = Some m ->
  (x = S754_nan -> m = S754_nan) /\
  (x <> S754_nan -> (exists v, In v a /\ v <> S754_nan /\ m = SFabs v) /\ forall v, In v a -> v <> S754_nan -> SFltb m (SFabs v) = false).
Proof.
  intros a x m E0 E. destruct a as [|x0 a]; [discriminate|]. injection E0 as ->.
  rewrite (fmaxabs_fold Fops (x :: a)) in E by (cbn; lia). rewrite firstn_all in E. change (nabs Fops) with SFabs in E. cbn [nth] in E.
  assert (Em : m = fold_left (omp_max Fops) (map SFabs (x :: a)) (SFabs x)) by congruence. clear E. rewrite Em. clear Em m. split.
  - intros ->. apply fold_nan.
  - intros Hx. rewrite fold_skip. set (l := filter number_b (x :: a)).
    assert (HL : Forall f_ok (map SFabs l)).
    { apply Forall_forall. intros v Hv. apply in_map_iff in Hv. destruct Hv as (u & <- & Hu). apply filter_In in Hu. destruct Hu as [_ Hu].
      apply SFabs_ok. destruct u; try discriminate. }
    destruct (@fold_max_ok spec_float Fops f_ok SFcmp_irr SFcmp_trans SFcmp_total (SFabs x) (map SFabs l) (SFabs_ok Hx) HL) as [(I & _ & M) _].
    set (m := fold_left _ _ _) in *. split.
    + destruct I as [I|I]; [exists x; split; [now left|split; [exact Hx|exact I]]|]. apply in_map_iff in I. destruct I as (v & Ev & Hv). apply filter_In in Hv.
      exists v. split; [tauto|]. split; [|auto]. intros ->. destruct Hv. discriminate.
    + intros v Hv Hn. apply M. apply in_map. apply filter_In. split; auto. destruct v; auto.
Qed.
Print Assumptions C102_max.

(** ... so that a component that is not a number can go unnoticed. *)
Theorem C102_max_refuted : exists a, In S754_nan a /\ fmaxabs Fops (length a) a = Some (nlit Fops 0).
Proof. exists [nlit Fops 0; S754_nan; nlit Fops 0]. split; [right; left; reflexivity|reflexivity]. Qed.
Print Assumptions C102_max_refuted.

(** A step whose error estimate is not a number is accepted although it could have been divided: two bodies of masses 3 and 5 that move fast in the same
    direction, Runge-Kutta-Fehlberg with the default parameters, an error threshold of 1/10000.  All numbers are finite before, and the first position is not a number after. *)
Definition lost_params : rk_params := mkRkParams (tab_rkf Fops) 8 8 (ndiv Fops (nlit Fops 1) (nlit Fops 10000)) 1 false (nlit Fops 0).
Theorem C102_step_refuted : exists y dt b e tr,
  Forall (fun x => SFltb (SFabs x) (S754_infinity false) = true) y /\
  rk_step Fops 12 (simple_ef Fops 2 [nlit Fops 3; nlit Fops 5]) (fun _ => repeat (nlit Fops 0) 12) lost_params dt None (mkEng y (nlit Fops 0) 0 tt 0) = Some (b, e, tr) /\
  (exists a, tr = [a] /\ ac_err a = S754_nan /\ ac_level a < rp_max_recursion lost_params /\ nltb Fops (rp_min_step lost_params) (ac_dt a) = true) /\
  nth_error (e_y e) 0 = Some S754_nan.
Proof.
  exists (map (nlit Fops) [0; 4; 0; 0; 0; 0; 10 ^ 308; 10 ^ 308; 0; 0; 0; 0]%Z), (nlit Fops 100). do 3 eexists. split.
  { cbn [map]. repeat (apply Forall_cons; [vm_compute; reflexivity|]). apply Forall_nil. }
  split; [vm_compute; reflexivity|]. split; [eexists; split; [reflexivity|]; split; [reflexivity|]; split; [vm_compute; lia|vm_compute; reflexivity]|reflexivity].
Qed.
Print Assumptions C102_step_refuted.

(** ** the benchmark *)
Lemma gap_pos a b i : (0 <= gap a b i)%R. Proof. apply sqrt_pos. Qed.

(** Exact arithmetic: the mean and the largest of the distances; the largest is zero only for equal states. *)
Theorem C102_compare : forall mind a b n, 0 < n -> length a = n -> length b = n ->
  exists mean largest, compare_data (Rops mind) a b n = Some (mean, largest) /\ mean = (rsum n (gap a b) / INR n)%R /\
    (exists i, i < n /\ largest = gap a b i) /\ (forall i, i < n -> (gap a b i <= largest)%R) /\ (largest = 0%R <-> a = b).
Proof.
  intros mind a b n Hn La Lb.
  assert (G : forall k, k <= n -> exists M, for_ k 0 (compare_body (Rops mind) a b) (nlit (Rops mind) 0, nlit (Rops mind) 0) = Some (rsum k (gap a b), M) /\
    (0 <= M)%R /\ (M = 0%R \/ exists i, i < k /\ M = gap a b i) /\ forall i, i < k -> (gap a b i <= M)%R).
  { intros k Hk.
    destruct (@for_inv _ (fun j st => j <= n /\ fst st = rsum j (gap a b) /\ (0 <= snd st)%R /\ (snd st = 0%R \/ exists i, i < j /\ snd st = gap a b i) /\
      forall i, i < j -> (gap a b i <= snd st)%R) k 0 (compare_body (Rops mind) a b) (nlit (Rops mind) 0, nlit (Rops mind) 0)) as ([t M] & E & _ & P1 & P2 & P3 & P4).
    - cbn. repeat split; try lia; try lra; auto.
    - intros j [t M] Hj (P0 & P1 & P2 & P3 & P4). cbn [fst snd] in *. unfold compare_body.
      rewrite (rd_nth a (V3 0 0 0)%R) by lia. cbn [obind]. rewrite (rd_nth b (V3 0 0 0)%R) by lia. cbn [obind fst snd].
      change (vlength (Rops mind) (vsub (Rops mind) (nth j a (V3 0 0 0)%R) (nth j b (V3 0 0 0)%R))) with (gap a b j).
      eexists. split; [reflexivity|]. cbn [fst snd]. split; [lia|]. split; [cbn; now rewrite P1|].
      unfold std_max. destruct (nltb (Rops mind) M (gap a b j)) eqn:El.
      + apply nltb_R in El. split; [apply gap_pos|]. split; [right; exists j; auto|]. intros i Hi. destruct (Nat.eq_dec i j) as [->|]; [lra|].
        specialize (P4 i ltac:(lia)). lra.
      + apply nltb_R_false in El. split; [exact P2|]. split.
        * destruct P3 as [P3|(i & Hi & P3)]; [now left|right; exists i; auto].
        * intros i Hi. destruct (Nat.eq_dec i j) as [->|]; [lra|]. apply P4. lia.
    - cbn [fst snd] in *. cbn [Nat.add] in *. exists M. rewrite E. rewrite P1. auto. }
  destruct (G n (le_n _)) as (M & E & P2 & P3 & P4). unfold compare_data. rewrite E. cbn [obind]. eexists. exists M. split; [reflexivity|].
  split; [cbn; now rewrite <- INR_IZR_INZ|]. split.
  { destruct P3 as [->|P3]; auto. exists 0. split; auto. specialize (P4 0 Hn). pose proof (gap_pos a b 0). lra. }
  split; [exact P4|]. split.
  - intros ->. apply nth_ext with (d := V3 0%R 0%R 0%R) (d' := V3 0%R 0%R 0%R); [congruence|]. intros i Hi. specialize (P4 i ltac:(lia)). pose proof (gap_pos a b i) as Z.
    assert (Q : gap a b i = 0%R) by lra. unfold gap in Q. destruct (nth i a _) as [ux uy uz], (nth i b _) as [wx wy wz]. cbn [vx vy vz] in Q.
    set (p := (ux - wx)%R) in *. set (q := (uy - wy)%R) in *. set (r := (uz - wz)%R) in *.
    assert (A1 := Rle_0_sqr p). assert (A2 := Rle_0_sqr q). assert (A3 := Rle_0_sqr r). unfold Rsqr in A1, A2, A3.
    apply sqrt_eq_0 in Q; [|lra]. assert (p = 0%R /\ q = 0%R /\ r = 0%R) as (B1 & B2 & B3).
    { repeat split; apply Rsqr_0_uniq; unfold Rsqr; lra. }
    unfold p in B1. unfold q in B2. unfold r in B3. f_equal; lra.
  - intros ->. destruct P3 as [->|(i & Hi & ->)]; auto. unfold gap. rewrite !Rminus_diag_eq by reflexivity. rewrite !Rmult_0_l, !Rplus_0_l. apply sqrt_0.
Qed.
Print Assumptions C102_compare.

(** In binary64 a state of which nothing is left is reported with a largest deviation of 0. *)
Theorem C102_compare_refuted : exists a b m, compare_data Fops a b 1 = Some (m, nlit Fops 0) /\ a = [V3 S754_nan S754_nan S754_nan] /\
  b = [V3 (nlit Fops 1) (nlit Fops 2) (nlit Fops 3)].
Proof. do 3 eexists. split; [|split; reflexivity]. vm_compute. reflexivity. Qed.
Print Assumptions C102_compare_refuted.

(** A buffer with a component that is not a number behind others, and two states at distances 5 and 0. *)
Example C102_case : fmaxabs Fops 3 [nlit Fops 2; S754_nan; nlit Fops (-7)] = Some (nlit Fops 7) /\
  compare_data Fops [V3 (nlit Fops 3) (nlit Fops 4) (nlit Fops 0); V3 (nlit Fops 1) (nlit Fops 1) (nlit Fops 1)]
    [V3 (nlit Fops 0) (nlit Fops 0) (nlit Fops 0); V3 (nlit Fops 1) (nlit Fops 1) (nlit Fops 1)] 2 =
    Some (ndiv Fops (nlit Fops 5) (nlit Fops 2), nlit Fops 5).
Proof. split; vm_compute; reflexivity. Qed.
