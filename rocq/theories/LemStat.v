(** Compensated sums over the reals and the physics report. *)
From Coq Require Import ZArith Reals List Arith Lia Lra Bool.
From Verif Require Import Num Arr ArrLemmas SpecPhys SpecStat RLemmas ModelVertex ModelForce
  ModelSum ModelStat.
Import ListNotations.
Local Open Scope R_scope.

(** The compensated step keeps (sum - correction) exact in any structure where the two algebraic
    facts below hold; scalars and vectors over R are two instances. *)
Section KahanExact.
  Context {W : Type} (add sub : W -> W -> W) (zero : W).
  Hypothesis H_step : forall a b c, sub (add a (sub b c)) (sub (sub (add a (sub b c)) a) (sub b c))
                                    = add (sub a c) b.
  Hypothesis H_zero : forall a b c, sub (sub (add a (sub b c)) a) (sub b c) = zero.
  Hypothesis H_sub0 : forall a, sub a zero = a.
  Hypothesis H_add0 : forall a, add zero a = a.

  Lemma kahan_for (g : nat -> option W) (c : nat -> W) k i s corr :
    (forall j, (i <= j < i + k)%nat -> g j = Some (c j)) ->
    exists s' corr',
      for_ k i (fun i st => let* x := g i in Some (summation_step add sub (fst st) x (snd st)))
        (s, corr) = Some (s', corr') /\
      sub s' corr' = fold_left (fun a j => add a (c j)) (seq i k) (sub s corr) /\
      ((k <> 0)%nat -> corr' = zero) /\ ((k = 0)%nat -> corr' = corr).
  Proof.
    induction k as [|k IH]; intros Hg.
    - exists s, corr. simpl. repeat split; auto. congruence.
    - destruct IH as (s' & corr' & E & H1 & H2 & H3); [intros; apply Hg; lia|].
      rewrite for_succ, E. cbn [obind]. rewrite Hg by lia. cbn [obind fst snd].
      unfold summation_step. do 2 eexists. split; [reflexivity|]. split.
      + rewrite H_step, H1, seq_S, fold_left_app. reflexivity.
      + split; [intros _; apply H_zero|congruence].
  Qed.

  Lemma kahan_range (g : nat -> option W) (c : nat -> W) b e corr :
    (b <= e)%nat -> (forall j, (b <= j < e)%nat -> g j = Some (c j)) ->
    exists s' corr',
      summation_range add sub zero g b e corr = Some (s', corr') /\
      ((b = e)%nat -> s' = zero /\ corr' = corr) /\
      ((S b = e)%nat -> s' = c b /\ corr' = corr) /\
      ((S b < e)%nat -> corr' = zero /\
         s' = fold_left (fun a j => add a (c j)) (seq (S b) (e - S b)) (sub (c b) corr)).
  Proof.
    intros Hbe Hg. unfold summation_range. destruct (Nat.eqb_spec b e) as [->|Hne].
    - do 2 eexists. split; [reflexivity|]. repeat split; auto; intros; lia.
    - rewrite Hg by lia. cbn [obind].
      destruct (@kahan_for g c (e - S b) (S b) (c b) corr) as (s' & corr' & E & H1 & H2 & H3).
      { intros j Hj. apply Hg. lia. }
      exists s', corr'. split; [exact E|]. split; [intros; lia|].
      destruct (Nat.eq_dec (S b) e) as [He|He].
      + replace (e - S b)%nat with 0%nat in * by lia. rewrite H3 in * by auto. cbn in E.
        injection E as <-. split; [auto|intros; lia].
      + split; [intros; lia|]. intros _.
        rewrite H2 in * by lia. split; auto. now rewrite H_sub0 in H1.
  Qed.

  Lemma summation_exact (g : nat -> option W) (c : nat -> W) n :
    (forall j, (j < n)%nat -> g j = Some (c j)) ->
    summation add sub zero g n = Some (fold_left (fun a j => add a (c j)) (seq 0 n) zero).
  Proof.
    intros Hg. unfold summation.
    destruct (@kahan_range g c 0 n zero) as (s' & corr' & E & H0 & H1 & H2); [lia|intros; apply Hg; lia|].
    rewrite E. cbn [obind fst]. destruct n as [|[|n]].
    - destruct H0 as [-> _]; auto.
    - destruct H1 as [-> _]; auto. cbn. now rewrite H_add0.
    - destruct H2 as [_ ->]; [lia|]. rewrite H_sub0. cbn [seq fold_left].
      now rewrite H_add0.
  Qed.
End KahanExact.

Lemma summation_R mind (g : nat -> option R) (c : nat -> R) n :
  (forall j, (j < n)%nat -> g j = Some (c j)) ->
  summation (nadd (Rops mind)) (nsub (Rops mind)) (nlit (Rops mind) 0) g n = Some (rsum n c).
Proof.
  intros Hg. rewrite (summation_exact (nadd (Rops mind)) (nsub (Rops mind)) (nlit (Rops mind) 0))
    with (c := c); auto; cbn [nadd nsub nlit Rops]; try (intros; lra).
  rewrite fold_left_rsum. f_equal. lra.
Qed.

Lemma summation_V mind (g : nat -> option (vec3 R)) (c : nat -> vec3 R) n :
  (forall j, (j < n)%nat -> g j = Some (c j)) ->
  summation (vadd (Rops mind)) (vsub (Rops mind)) (vzero (Rops mind)) g n = Some (vsumR n c).
Proof.
  intros Hg.
  assert (A0 : forall a, vadd (Rops mind) (vzero (Rops mind)) a = a).
  { intros [a1 a2 a3]. unfold vadd, vzero. cbn. f_equal; lra. }
  rewrite (summation_exact (vadd (Rops mind)) (vsub (Rops mind)) (vzero (Rops mind)))
    with (c := c); auto.
  - rewrite fold_left_vadd, A0. reflexivity.
  - intros [] [] []. unfold vadd, vsub. cbn. f_equal; lra.
  - intros [] [] []. unfold vadd, vsub, vzero. cbn. f_equal; lra.
  - intros []. unfold vsub, vzero. cbn. f_equal; lra.
Qed.

(** range version: the contract of the two-argument correction form *)
Lemma summation_range_R mind (c : nat -> R) b e corr :
  (b <= e)%nat ->
  exists s corr', summation_range (nadd (Rops mind)) (nsub (Rops mind)) (nlit (Rops mind) 0)
                    (fun i => Some (c i)) b e corr = Some (s, corr') /\
    ((b = e)%nat -> s = 0 /\ corr' = corr) /\
    ((b < e)%nat -> s - corr' = rsum (e - b) (fun k => c (b + k)%nat) - corr).
Proof.
  intros Hbe.
  destruct (@kahan_range R (nadd (Rops mind)) (nsub (Rops mind)) (nlit (Rops mind) 0)) with
    (g := fun i => Some (c i)) (c := c) (b := b) (e := e) (corr := corr)
    as (s & corr' & E & H0 & H1 & H2); auto; cbn [nadd nsub nlit Rops]; try (intros; lra).
  exists s, corr'. split; [exact E|]. split; [exact H0|]. intros Hlt.
  destruct (Nat.eq_dec (S b) e) as [He|He].
  - destruct H1 as [-> ->]; auto. replace (e - b)%nat with 1%nat by lia. cbn.
    rewrite Nat.add_0_r. lra.
  - destruct H2 as [-> ->]; [lia|]. cbn [nadd nsub nlit Rops].
    rewrite fold_left_rsum_gen. replace (e - b)%nat with (S (e - S b)) by lia.
    assert (G : forall k, rsum (S k) (fun i => c (b + i)%nat) =
                          c b + rsum k (fun i => c (S b + i)%nat)).
    { clear. induction k as [|k IH]; [cbn; rewrite Nat.add_0_r; lra|].
      change (rsum (S (S k)) (fun i => c (b + i)%nat)) with
        (rsum (S k) (fun i => c (b + i)%nat) + c (b + S k)%nat).
      rewrite IH. cbn [rsum]. replace (b + S k)%nat with (S b + k)%nat by lia. lra. }
    rewrite G. lra.
Qed.

(** rows of an n x n table enumerated by one index *)
Lemma rsum_div_mod n m f : (n <> 0)%nat ->
  rsum (m * n) (fun k => f (k / n)%nat (k mod n)%nat) = rsum m (fun i => rsum n (fun j => f i j)).
Proof.
  intros Hn. induction m as [|m IH]; auto. cbn [rsum].
  rewrite <- IH. replace (S m * n)%nat with (m * n + n)%nat by lia.
  assert (G : forall k, (k <= n)%nat -> rsum (m * n + k) (fun k => f (k / n)%nat (k mod n)%nat) =
    rsum (m * n) (fun k => f (k / n)%nat (k mod n)%nat) + rsum k (fun j => f m j)).
  { induction k as [|k IHk]; intros Hk; [rewrite Nat.add_0_r; cbn; lra|].
    rewrite Nat.add_succ_r. cbn [rsum]. rewrite IHk by lia.
    replace ((m * n + k) / n)%nat with m.
    2:{ rewrite Nat.div_add_l by lia. rewrite Nat.div_small by lia. lia. }
    replace ((m * n + k) mod n)%nat with k.
    2:{ rewrite Nat.add_comm, Nat.mod_add by lia. rewrite Nat.mod_small; lia. }
    lra. }
  apply G. lia.
Qed.

Lemma rsum_split_lt n (i : nat) f : (i < n)%nat ->
  rsum n f = rsum i f + f i + rsum (n - S i) (fun k => f (S i + k)%nat).
Proof.
  intros Hi. induction n as [|n IH]; [lia|].
  destruct (Nat.eq_dec i n) as [->|Hne].
  - replace (S n - S n)%nat with 0%nat by lia. cbn. lra.
  - cbn [rsum]. rewrite IH by lia. replace (S n - S i)%nat with (S (n - S i)) by lia.
    cbn [rsum]. replace (S i + (n - S i))%nat with n by lia. lra.
Qed.

Lemma sym_pairs n f :
  (forall i j, f i j = f j i) ->
  rsum n (fun i => rsum n (fun j => if Nat.eqb i j then 0 else f i j)) = 2 * pair_sum n f.
Proof.
  intros Hs. unfold pair_sum. induction n as [|n IH]; [cbn; lra|].
  cbn [rsum].
  rewrite (rsum_ext n (fun i => rsum n (fun j => if Nat.eqb i j then 0 else f i j) +
       (if Nat.eqb i n then 0 else f i n))
     (fun i => rsum n (fun j => if Nat.eqb i j then 0 else f i j) + f i n)).
  2:{ intros i Hi. replace (Nat.eqb i n) with false by (symmetry; apply Nat.eqb_neq; lia). reflexivity. }
  rewrite rsum_plus, IH, Nat.eqb_refl.
  rewrite (rsum_ext n (fun j => if Nat.eqb n j then 0 else f n j) (fun i => f i n)).
  2:{ intros j Hj. replace (Nat.eqb n j) with false by (symmetry; apply Nat.eqb_neq; lia). apply Hs. }
  lra.
Qed.

Section Report.
  Variable mind : R.
  Hypothesis Hmind : 0 < mind.
  Let N := Rops mind.

  Lemma rd_cm (l : list R) i : (i < length l)%nat -> rd l i = Some (cm l i).
  Proof. intros. now apply rd_nth. Qed.
  Lemma rd_cv3 (l : list (vec3 R)) i : (i < length l)%nat ->
    rd l i = Some (V3 (cx l i) (cy l i) (cz l i)).
  Proof.
    intros. rewrite (rd_nth l (V3 0 0 0)) by auto. unfold cx, cy, cz.
    now destruct (nth i l (V3 0 0 0)).
  Qed.

  Lemma totals_R n vrt vel mass :
    length vrt = n -> length vel = n -> length mass = n ->
    exists r, totals N (Chk true true true true) n vrt vel mass = Some r /\
      rep_P r = V3 (tot_impulse n (cm mass) (cx vel)) (tot_impulse n (cm mass) (cy vel))
                   (tot_impulse n (cm mass) (cz vel)) /\
      rep_L r = V3 (tot_ang n (cm mass) (cy vrt) (cz vrt) (cy vel) (cz vel))
                   (tot_ang n (cm mass) (cz vrt) (cx vrt) (cz vel) (cx vel))
                   (tot_ang n (cm mass) (cx vrt) (cy vrt) (cx vel) (cy vel)) /\
      rep_V r = V3 (mass_centre n (cm mass) (cx vrt)) (mass_centre n (cm mass) (cy vrt))
                   (mass_centre n (cm mass) (cz vrt)) /\
      rep_K r = tot_kinetic n (cm mass) (cx vel) (cy vel) (cz vel) /\
      rep_U r = tot_potential n (cm mass) (cx vrt) (cy vrt) (cz vrt) mind.
  Proof.
    intros L1 L2 L3. unfold totals. cbn [chk_P chk_L chk_E chk_V]. unfold N.
    rewrite (summation_V mind _ (fun i => V3 (cx vel i * cm mass i) (cy vel i * cm mass i) (cz vel i * cm mass i))).
    2:{ intros j Hj. unfold impulce_proxy. rewrite rd_cv3, rd_cm by lia. reflexivity. }
    cbn [obind].
    rewrite (summation_V mind _ (fun i => vcross (Rops mind) (V3 (cx vrt i) (cy vrt i) (cz vrt i))
               (V3 (cx vel i * cm mass i) (cy vel i * cm mass i) (cz vel i * cm mass i)))).
    2:{ intros j Hj. unfold impulce_moment_proxy. rewrite !rd_cv3, rd_cm by lia. reflexivity. }
    cbn [obind].
    rewrite (summation_R mind _ (fun i => (cx vel i * cx vel i + cy vel i * cy vel i + cz vel i * cz vel i) * cm mass i)).
    2:{ intros j Hj. unfold kinetic_energy_proxy. rewrite rd_cv3, rd_cm by lia. reflexivity. }
    cbn [obind].
    pose (pe := fun i j => if Rlt_dec (dist2 (cx vrt) (cy vrt) (cz vrt) i j) mind then 0
                           else - (cm mass i * cm mass j) / sqrt (dist2 (cx vrt) (cy vrt) (cz vrt) i j)).
    rewrite (summation_R mind _ (fun k => if Nat.eqb (k / n) (k mod n) then 0 else pe (k / n)%nat (k mod n)%nat)).
    2:{ intros j Hj. unfold potential_energy_proxy.
        assert (n <> 0)%nat by (intros ->; lia).
        replace (Nat.eqb n 0) with false by (symmetry; now apply Nat.eqb_neq).
        destruct (Nat.eqb (j / n) (j mod n)) eqn:E; [reflexivity|].
        assert (j / n < n)%nat by (apply Nat.div_lt_upper_bound; lia).
        assert (j mod n < n)%nat by (apply Nat.mod_upper_bound; lia).
        unfold potential_energy. rewrite !rd_cv3 by lia. cbn [obind].
        unfold vnorm, vsub. cbn [vx vy vz nltb nmind nadd nmul nsub ndiv nopp nsqrt nlit Rops gravity_const].
        unfold pe, dist2.
        destruct (Rlt_dec _ mind); [reflexivity|].
        rewrite !rd_cm by lia. cbn [obind]. unfold gravity_const. cbn [nlit Rops]. f_equal. f_equal. f_equal. ring. }
    cbn [obind].
    rewrite (summation_R mind _ (cm mass)) by (intros; apply rd_cm; lia).
    cbn [obind].
    rewrite (summation_V mind _ (fun i => V3 (cx vrt i * cm mass i) (cy vrt i * cm mass i) (cz vrt i * cm mass i))).
    2:{ intros j Hj. unfold mass_center_proxy. rewrite rd_cv3, rd_cm by lia. reflexivity. }
    cbn [obind fst snd]. eexists. split; [reflexivity|]. cbn [rep_P rep_L rep_V rep_K rep_U].
    unfold vsumR, vcross, vdivs, tot_impulse, tot_ang, mass_centre, tot_mass, tot_kinetic, tot_potential.
    cbn [vx vy vz nsub nmul ndiv nlit Rops].
    split; [apply vec3_eq; cbn [vx vy vz]; apply rsum_ext; intros; ring|].
    split; [apply vec3_eq; cbn [vx vy vz]; apply rsum_ext; intros; ring|].
    split; [apply vec3_eq; cbn [vx vy vz]; f_equal; apply rsum_ext; intros; ring|].
    split; [unfold Rdiv; rewrite <- rsum_scal_r; apply rsum_ext; intros; field|].
    fold pe. destruct n as [|n0]; [cbn; lra|]. set (n := S n0) in *.
    rewrite (rsum_div_mod n n (fun i j => if Nat.eqb i j then 0 else pe i j)) by (unfold n; lia).
    rewrite sym_pairs; [lra|].
    intros i j. unfold pe.
    replace (dist2 (cx vrt) (cy vrt) (cz vrt) i j) with (dist2 (cx vrt) (cy vrt) (cz vrt) j i)
      by (unfold dist2; ring).
    destruct (Rlt_dec _ _); auto. f_equal. ring.
  Qed.
End Report.

Lemma totals_some {T} (N : NumOps T) chk n vrt vel mass r :
  totals N (Chk true true true true) n vrt vel mass = Some r ->
  totals N chk n vrt vel mass =
  Some (Rep (if chk_P chk then rep_P r else vzero N) (if chk_L chk then rep_L r else vzero N)
            (if chk_V chk then rep_V r else vzero N)
            (if chk_E chk then rep_K r else nlit N 0) (if chk_E chk then rep_U r else nlit N 0)).
Proof.
  unfold totals. cbn [chk_P chk_L chk_E chk_V].
  destruct (summation (vadd N) (vsub N) (vzero N) (impulce_proxy N vel mass) n) as [p|]; [|discriminate].
  cbn [obind].
  destruct (summation (vadd N) (vsub N) (vzero N) (impulce_moment_proxy N vrt vel mass) n) as [l|]; [|discriminate].
  cbn [obind].
  destruct (summation (nadd N) (nsub N) (nlit N 0) (kinetic_energy_proxy N vel mass) n) as [k|]; [|discriminate].
  cbn [obind].
  destruct (summation (nadd N) (nsub N) (nlit N 0) (potential_energy_proxy N n vrt mass) (n * n)) as [u|]; [|discriminate].
  cbn [obind].
  destruct (summation (nadd N) (nsub N) (nlit N 0) (rd mass) n) as [tm|]; [|discriminate].
  cbn [obind].
  destruct (summation (vadd N) (vsub N) (vzero N) (mass_center_proxy N vrt mass) n) as [mc|]; [|discriminate].
  cbn [obind]. intros H. injection H as <-.
  destruct chk as [[] [] [] []]; reflexivity.
Qed.

Lemma totals_spec mind chk n vrt vel mass : 0 < mind ->
  length vrt = n -> length vel = n -> length mass = n ->
  exists r, totals (Rops mind) chk n vrt vel mass = Some r /\
    (chk_P chk = true ->
      rep_P r = V3 (tot_impulse n (cm mass) (cx vel)) (tot_impulse n (cm mass) (cy vel))
                   (tot_impulse n (cm mass) (cz vel))) /\
    (chk_L chk = true ->
      rep_L r = V3 (tot_ang n (cm mass) (cy vrt) (cz vrt) (cy vel) (cz vel))
                   (tot_ang n (cm mass) (cz vrt) (cx vrt) (cz vel) (cx vel))
                   (tot_ang n (cm mass) (cx vrt) (cy vrt) (cx vel) (cy vel))) /\
    (chk_V chk = true ->
      rep_V r = V3 (mass_centre n (cm mass) (cx vrt)) (mass_centre n (cm mass) (cy vrt))
                   (mass_centre n (cm mass) (cz vrt))) /\
    (chk_E chk = true ->
      rep_K r = tot_kinetic n (cm mass) (cx vel) (cy vel) (cz vel) /\
      rep_U r = tot_potential n (cm mass) (cx vrt) (cy vrt) (cz vrt) mind).
Proof.
  intros Hm H1 H2 H3.
  destruct (totals_R mind n vrt vel mass H1 H2 H3) as (r & E & R1 & R2 & R3 & R4 & R5).
  eexists. split; [eapply totals_some; exact E|]. cbn [rep_P rep_L rep_V rep_K rep_U].
  repeat (split; [intros ->; auto|]). intros ->. auto.
Qed.

Lemma report_reference {T} (N : NumOps T) chk n vrt vel mass st st' :
  print_statistics N chk n vrt vel mass st = Some st' ->
  st_done st' = true /\
  (st_done st = true -> st_init st' = st_init st) /\
  (st_done st = false -> totals N chk n vrt vel mass = Some (st_init st')).
Proof.
  unfold print_statistics. destruct (totals N chk n vrt vel mass) as [r|]; [|discriminate].
  cbn [obind]. intros H. injection H as <-. cbn [st_done st_init].
  split; auto. split; intros ->; auto.
Qed.
