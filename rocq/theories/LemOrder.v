(** Checking the order conditions in exact rational arithmetic. *)
From Coq Require Import ZArith QArith Qreals Reals List Arith Lia Lra Bool.
From Verif Require Import Num SpecPhys RLemmas ModelButcher SpecOrder.
Import ListNotations.
Set Implicit Arguments.

Lemma rtree_ind2 (P : rtree -> Prop) : (forall l, Forall P l -> P (Node l)) -> forall t, P t.
Proof.
  intros H. fix IH 1. intros [l]. apply H. induction l as [|t l IHl]; constructor; auto.
Qed.

Lemma rsum_shift n f : (rsum (S n) f = f O + rsum n (fun i => f (S i)))%R.
Proof.
  induction n as [|n IH]; [cbn [rsum]; lra|].
  change (rsum (S (S n)) f) with (rsum (S n) f + f (S n))%R. rewrite IH. cbn [rsum]. lra.
Qed.

(** rationals in lowest terms; the comparisons and the square root are not used *)
Definition Qops : NumOps Q := {|
  nadd := fun a b => Qred (a + b); nsub := fun a b => Qred (a - b);
  nmul := fun a b => Qred (a * b); ndiv := fun a b => Qred (a / b); nopp := Qopp;
  nabs := fun a => a; nsqrt := fun a => a;
  nltb := fun a b => negb (Qle_bool b a); nleb := Qle_bool; neqb := Qeq_bool;
  nlit := fun z => (z # 1)%Q; nmind := 0%Q |}.

(** all trees, by number of vertices *)
Fixpoint forests (fuel n : nat) : list (list rtree) :=
  match fuel with
  | O => [[]]
  | S f => match n with
           | O => [[]]
           | S n' => flat_map (fun k => flat_map (fun ch => map (cons (Node ch)) (forests f (n' - k)%nat)) (forests f k))
                              (seq 0 (S n'))
           end
  end.
Definition total (l : list rtree) : nat := fold_right (fun s n => (vertices s + n)%nat) O l.
Lemma vertices_pos t : (1 <= vertices t)%nat. Proof. destruct t. cbn. lia. Qed.

Lemma forests_all fuel : forall l, (total l <= fuel)%nat -> In l (forests fuel (total l)).
Proof.
  induction fuel as [|f IH]; intros [|[ch] l] H; cbn [forests].
  - left. reflexivity.
  - cbn in H. lia.
  - left. reflexivity.
  - change (total (Node ch :: l)) with (S (total ch + total l))%nat in *.
    apply in_flat_map. exists (total ch). split; [apply in_seq; lia|].
    apply in_flat_map. exists ch. split; [apply IH; lia|].
    apply in_map. replace (total ch + total l - total ch)%nat with (total l) by lia. apply IH. lia.
Qed.
Definition trees (n : nat) : list rtree := map Node (forests n (n - 1)).
Lemma trees_all t : In t (trees (vertices t)).
Proof.
  destruct t as [l]. change (vertices (Node l)) with (S (total l)). unfold trees.
  replace (S (total l) - 1)%nat with (total l) by lia. apply in_map.
  assert (G : forall f, (total l <= f)%nat -> In l (forests f (total l))) by (intros; now apply forests_all).
  apply G. lia.
Qed.

Section Check.
  (** exact arithmetic in a subring of the reals *)
  Variables (K : Type) (kadd kmul : K -> K -> K) (k0 k1 : K) (kZ : Z -> K) (keq : K -> K -> bool) (phi : K -> R).
  Hypothesis phi_add : forall a b, phi (kadd a b) = (phi a + phi b)%R.
  Hypothesis phi_mul : forall a b, phi (kmul a b) = (phi a * phi b)%R.
  Hypothesis phi_0 : phi k0 = 0%R.
  Hypothesis phi_1 : phi k1 = 1%R.
  Hypothesis phi_Z : forall z, phi (kZ z) = IZR z.
  Hypothesis phi_eq : forall a b, keq a b = true -> phi a = phi b.
  Variable bt : table K.

  Fixpoint dot (a b : list K) : K :=
    match a, b with
    | x :: a, y :: b => kadd (kmul x y) (dot a b)
    | _, _ => k0
    end.
  Definition rows : list (list K) := map (fun i => nth i (bt_a bt) []) (seq 0 (bt_steps bt)).
  Fixpoint zip (a b : list K) : list K :=
    match a, b with
    | x :: a, y :: b => kmul x y :: zip a b
    | _, _ => []
    end.
  Fixpoint kweight (t : rtree) : list K :=
    match t with
    | Node l => fold_right (fun s v => let w := kweight s in zip (map (fun row => dot row w) rows) v)
                           (repeat k1 (bt_steps bt)) l
    end.
  Fixpoint zdensity (t : rtree) : Z :=
    match t with Node l => (Z.of_nat (vertices (Node l)) * fold_right (fun s x => zdensity s * x) 1 l)%Z end.
  Definition check (b : list K) (t : rtree) : bool :=
    keq (kmul (dot b (kweight t)) (kZ (zdensity t))) k1.
  Definition check_order (b : list K) (p : nat) : bool :=
    forallb (fun n => forallb (check b) (trees n)) (seq 1 p).
  Definition check_rows : bool :=
    forallb (fun i => keq (dot (nth i (bt_a bt) []) (repeat k1 (bt_steps bt))) (nth i (bt_c bt) k0))
            (seq 0 (bt_steps bt)).

  Definition toR : table R := mkTable (bt_steps bt) (map (map phi) (bt_a bt)) (map phi (bt_b1 bt))
    (map phi (bt_b2 bt)) (map phi (bt_c bt)) (bt_implicit bt) (bt_embedded bt).

  Lemma nth_phi i l : nth i (map phi l) 0%R = phi (nth i l k0).
  Proof. rewrite <- phi_0. apply map_nth. Qed.

  Lemma dot_R n : forall a b, length b = n ->
    phi (dot a b) = rsum n (fun j => nth j (map phi a) 0 * phi (nth j b k0))%R.
  Proof.
    assert (G : forall b a, phi (dot a b) = rsum (length b) (fun j => nth j (map phi a) 0 * phi (nth j b k0))%R).
    { induction b as [|y b IH]; intros a; cbn [length].
      - destruct a; cbn; apply phi_0.
      - destruct a as [|x a]; cbn [dot].
        + rewrite phi_0. symmetry. apply rsum_zero. intros j _. destruct j; cbn; lra.
        + rewrite phi_add, phi_mul, IH. rewrite rsum_shift. cbn [nth map]. reflexivity. }
    intros a b <-. apply G.
  Qed.

  Lemma zip_nth a : forall b i, (i < length a)%nat -> (i < length b)%nat ->
    nth i (zip a b) k0 = kmul (nth i a k0) (nth i b k0).
  Proof.
    induction a as [|x a IH]; intros [|y b] i Ha Hb; cbn in *; try lia. destruct i; auto. apply IH; lia.
  Qed.
  Lemma zip_length a b : length (zip a b) = Nat.min (length a) (length b).
  Proof. revert b. induction a as [|x a IH]; intros [|y b]; cbn; auto. Qed.

  Lemma kweight_length t : length (kweight t) = bt_steps bt.
  Proof.
    destruct t as [l]. cbn [kweight]. induction l as [|s l IH]; cbn [fold_right].
    - apply repeat_length.
    - rewrite zip_length, IH. unfold rows. rewrite !map_length, seq_length. lia.
  Qed.

  Lemma kweight_R t : forall i, (i < bt_steps bt)%nat -> phi (nth i (kweight t) k0) = weight toR t i.
  Proof.
    induction t as [l H] using rtree_ind2. intros i Hi. cbn [kweight weight].
    induction H as [|s l Hs H IH]; cbn [fold_right].
    - rewrite <- phi_1. f_equal. apply nth_error_nth. now apply nth_error_repeat.
    - assert (L : length (fold_right (fun s v => zip (map (fun row => dot row (kweight s)) rows) v) (repeat k1 (bt_steps bt)) l) = bt_steps bt)
        by apply (kweight_length (Node l)).
      rewrite zip_nth.
      + rewrite phi_mul. cbv zeta in IH. rewrite IH. f_equal.
        unfold rows. rewrite map_map.
        rewrite (nth_indep _ k0 (dot (nth 0 (bt_a bt) []) (kweight s))) by (rewrite map_length, seq_length; lia).
        rewrite (map_nth (fun i => dot (nth i (bt_a bt) []) (kweight s))). rewrite seq_nth by lia. cbn [Nat.add].
        rewrite (@dot_R (bt_steps bt)) by apply kweight_length. cbn [toR bt_steps bt_a].
        apply rsum_ext. intros j Hj. rewrite Hs by auto. f_equal.
        change (@nil R) with (map phi []). rewrite map_nth. reflexivity.
      + unfold rows. rewrite !map_length, seq_length. lia.
      + cbv zeta. rewrite L. lia.
  Qed.

  Lemma zdensity_R t : IZR (zdensity t) = density t.
  Proof.
    induction t as [l H] using rtree_ind2. cbn [zdensity density]. rewrite mult_IZR, <- INR_IZR_INZ. f_equal.
    induction H as [|s l Hs H IH]; cbn [fold_right]; auto. now rewrite mult_IZR, Hs, IH.
  Qed.
  Lemma density_pos t : (0 < density t)%R.
  Proof.
    induction t as [l H] using rtree_ind2. cbn [density]. apply Rmult_lt_0_compat.
    - apply lt_0_INR. pose proof (vertices_pos (Node l)). lia.
    - induction H as [|s l Hs H IH]; cbn [fold_right]; [lra|]. now apply Rmult_lt_0_compat.
  Qed.

  Lemma sum_R b t : phi (dot b (kweight t)) = rsum (bt_steps bt) (fun i => (nth i (map phi b) 0 * weight toR t i)%R).
  Proof.
    rewrite (@dot_R (bt_steps bt)) by apply kweight_length. apply rsum_ext. intros i Hi. now rewrite kweight_R.
  Qed.
  Lemma check_ok b t : check b t = true -> condition toR (map phi b) t.
  Proof.
    unfold check, condition. cbn [toR bt_steps]. pose proof (density_pos t) as D. intros H.
    apply phi_eq in H. rewrite phi_mul, sum_R, phi_1, phi_Z, zdensity_R in H.
    field_simplify_eq; lra.
  Qed.

  Lemma check_order_ok b p : check_order b p = true -> has_order toR (map phi b) p.
  Proof.
    unfold check_order. intros H t Ht. rewrite forallb_forall in H.
    specialize (H (vertices t)). rewrite forallb_forall in H. apply check_ok. apply H.
    - apply in_seq. pose proof (vertices_pos t). lia.
    - apply trees_all.
  Qed.

  Lemma check_rows_ok : check_rows = true -> row_sums toR.
  Proof.
    unfold check_rows. rewrite forallb_forall. intros H i Hi. cbn [toR bt_steps bt_a bt_c] in *.
    specialize (H i ltac:(apply in_seq; lia)). apply phi_eq in H.
    rewrite (@dot_R (bt_steps bt)) in H by apply repeat_length. rewrite nth_phi, <- H.
    apply rsum_ext. intros j Hj. change (@nil R) with (map phi []). rewrite map_nth.
    replace (nth j (repeat k1 (bt_steps bt)) k0) with k1.
    - rewrite phi_1. lra.
    - symmetry. apply nth_error_nth. now apply nth_error_repeat.
  Qed.
End Check.

(** ** the rationals *)
Definition qadd (a b : Q) : Q := Qred (a + b).
Definition qmul (a b : Q) : Q := Qred (a * b).
Definition qZ (z : Z) : Q := z # 1.
Lemma Q2R_add a b : Q2R (qadd a b) = (Q2R a + Q2R b)%R.
Proof. unfold qadd. rewrite (Qeq_eqR _ _ (Qred_correct _)). apply Q2R_plus. Qed.
Lemma Q2R_mul a b : Q2R (qmul a b) = (Q2R a * Q2R b)%R.
Proof. unfold qmul. rewrite (Qeq_eqR _ _ (Qred_correct _)). apply Q2R_mult. Qed.
Lemma Q2R_Z z : Q2R (qZ z) = IZR z. Proof. unfold Q2R, qZ. cbn. lra. Qed.
Lemma Q2R_0 : Q2R 0 = 0%R. Proof. apply (Q2R_Z 0). Qed.
Lemma Q2R_1 : Q2R 1 = 1%R. Proof. apply (Q2R_Z 1). Qed.
Lemma Q2R_eq a b : Qeq_bool a b = true -> Q2R a = Q2R b.
Proof. rewrite Qeq_bool_iff. apply Qeq_eqR. Qed.

Definition q_check_order := check_order qadd qmul 0%Q 1%Q qZ Qeq_bool.
Definition q_check_rows := check_rows qadd qmul 0%Q 1%Q Qeq_bool.
Lemma q_order bt b p : q_check_order bt b p = true -> has_order (toR Q2R bt) (map Q2R b) p.
Proof. exact (@check_order_ok Q qadd qmul 0%Q 1%Q qZ Qeq_bool Q2R Q2R_add Q2R_mul Q2R_0 Q2R_1 Q2R_Z Q2R_eq bt b p). Qed.
Lemma q_rows bt : q_check_rows bt = true -> row_sums (toR Q2R bt).
Proof. exact (@check_rows_ok Q qadd qmul 0%Q 1%Q Qeq_bool Q2R Q2R_add Q2R_mul Q2R_0 Q2R_1 Q2R_eq bt). Qed.
(** a condition that fails *)
Lemma q_fail bt b t : check qadd qmul 0%Q 1%Q qZ Qeq_bool bt b t = false -> ~ condition (toR Q2R bt) (map Q2R b) t.
Proof.
  unfold check, condition. intros H X. cbn [toR bt_steps] in X. pose proof (density_pos t) as D.
  apply Bool.not_true_iff_false in H. apply H. apply Qeq_bool_iff. apply eqR_Qeq.
  rewrite Q2R_mul, Q2R_1, Q2R_Z, zdensity_R.
  rewrite (@sum_R Q qadd qmul 0%Q 1%Q Q2R Q2R_add Q2R_mul Q2R_0 Q2R_1). rewrite X. field. lra.
Qed.

(** ** Q(sqrt 15), for the Gauss-Legendre table *)
Definition G := (Q * Q)%type.
Definition gadd (a b : G) : G := (qadd (fst a) (fst b), qadd (snd a) (snd b)).
Definition gmul (a b : G) : G :=
  (qadd (qmul (fst a) (fst b)) (qmul (qZ 15) (qmul (snd a) (snd b))),
   qadd (qmul (fst a) (snd b)) (qmul (snd a) (fst b))).
Definition gZ (z : Z) : G := (qZ z, 0%Q).
Definition geq (a b : G) : bool := andb (Qeq_bool (fst a) (fst b)) (Qeq_bool (snd a) (snd b)).
Definition G2R (a : G) : R := (Q2R (fst a) + Q2R (snd a) * sqrt 15)%R.
Lemma G2R_add a b : G2R (gadd a b) = (G2R a + G2R b)%R.
Proof. unfold G2R, gadd. cbn [fst snd]. rewrite !Q2R_add. lra. Qed.
Lemma G2R_mul a b : G2R (gmul a b) = (G2R a * G2R b)%R.
Proof.
  unfold G2R, gmul. cbn [fst snd]. rewrite !Q2R_add, !Q2R_mul. rewrite (Q2R_Z 15).
  pose proof (sqrt_sqrt 15 ltac:(lra)) as S. set (s := sqrt 15) in *.
  set (x := Q2R (fst a)). set (y := Q2R (snd a)). set (z := Q2R (fst b)). set (w := Q2R (snd b)).
  replace ((x + y * s) * (z + w * s))%R with (x * z + (s * s) * (y * w) + (x * w + y * z) * s)%R by ring.
  rewrite S. ring.
Qed.
Lemma G2R_Z z : G2R (gZ z) = IZR z.
Proof. unfold G2R, gZ. cbn [fst snd]. rewrite Q2R_Z, Q2R_0. lra. Qed.
Lemma G2R_eq a b : geq a b = true -> G2R a = G2R b.
Proof. unfold geq. rewrite andb_true_iff. intros [A B]. unfold G2R. now rewrite (Q2R_eq _ _ A), (Q2R_eq _ _ B). Qed.
Definition g_check_order := check_order gadd gmul (gZ 0) (gZ 1) gZ geq.
Definition g_check_rows := check_rows gadd gmul (gZ 0) (gZ 1) geq.
Lemma g_order bt b p : g_check_order bt b p = true -> has_order (toR G2R bt) (map G2R b) p.
Proof. exact (@check_order_ok G gadd gmul (gZ 0) (gZ 1) gZ geq G2R G2R_add G2R_mul (G2R_Z 0) (G2R_Z 1) G2R_Z G2R_eq bt b p). Qed.
Lemma g_rows bt : g_check_rows bt = true -> row_sums (toR G2R bt).
Proof. exact (@check_rows_ok G gadd gmul (gZ 0) (gZ 1) geq G2R G2R_add G2R_mul (G2R_Z 0) (G2R_Z 1) G2R_eq bt). Qed.

(** arithmetic of the model: quotient by rationals only, [nsqrt] is sqrt 15 *)
Definition Gops : NumOps G := {|
  nadd := gadd; nsub := fun a b => gadd a (gmul (gZ (-1)) b);
  nmul := gmul; ndiv := fun a b => gmul a (Qred (/ fst b), 0%Q); nopp := gmul (gZ (-1));
  nabs := fun a => a; nsqrt := fun _ => (0%Q, 1%Q);
  nltb := fun a b => false; nleb := fun a b => false; neqb := geq;
  nlit := gZ; nmind := gZ 0 |}.

(** ** the tables with rational coefficients *)
Lemma q_toR mind n d : (d <> 0)%Z -> q (Rops mind) n d = Q2R (q Qops n d).
Proof.
  intros Hd. unfold q. cbn [ndiv nlit Rops Qops]. rewrite (Qeq_eqR _ _ (Qred_correct _)).
  change (n # 1) with (qZ n). change (d # 1) with (qZ d). rewrite Q2R_div.
  - now rewrite !Q2R_Z.
  - intros X. apply Hd. unfold Qeq in X. cbn in X. lia.
Qed.
Lemma lit_toR mind n : nlit (Rops mind) n = Q2R (nlit Qops n).
Proof. cbn [nlit Rops Qops]. change (n # 1) with (qZ n). now rewrite Q2R_Z. Qed.
Ltac table_toR t := intros mind; unfold toR, t; cbn [bt_steps bt_a bt_b1 bt_b2 bt_c bt_implicit bt_embedded map];
  rewrite <- ?(@lit_toR mind); repeat (rewrite <- (@q_toR mind) by lia); reflexivity.
Lemma rk4_toR : forall mind, toR Q2R (tab_rk4 Qops) = tab_rk4 (Rops mind). Proof. table_toR @tab_rk4. Qed.
Lemma rkf_toR : forall mind, toR Q2R (tab_rkf Qops) = tab_rkf (Rops mind). Proof. table_toR @tab_rkf. Qed.
Lemma rkck_toR : forall mind, toR Q2R (tab_rkck Qops) = tab_rkck (Rops mind). Proof. table_toR @tab_rkck. Qed.
Lemma rkdp_toR : forall mind, toR Q2R (tab_rkdp Qops) = tab_rkdp (Rops mind). Proof. table_toR @tab_rkdp. Qed.
Lemma rkdverk_toR : forall mind, toR Q2R (tab_rkdverk Qops) = tab_rkdverk (Rops mind). Proof. table_toR @tab_rkdverk. Qed.
Lemma rklc_toR : forall mind, toR Q2R (tab_rklc Qops) = tab_rklc (Rops mind). Proof. table_toR @tab_rklc. Qed.

Lemma g_div a z : (z <> 0)%Z -> G2R (ndiv Gops a (gZ z)) = (G2R a / IZR z)%R.
Proof.
  intros Hz. cbn [ndiv Gops]. rewrite G2R_mul. unfold G2R at 2. cbn [fst snd gZ]. rewrite Q2R_0.
  rewrite (Qeq_eqR _ _ (Qred_correct _)). rewrite Q2R_inv.
  - rewrite Q2R_Z. unfold Rdiv. lra.
  - unfold qZ, Qeq. cbn. lia.
Qed.
Lemma g_q n d : (d <> 0)%Z -> G2R (q Gops n d) = (IZR n / IZR d)%R.
Proof. intros Hd. unfold q. change (nlit Gops d) with (gZ d). rewrite g_div by auto. cbn [nlit Gops]. now rewrite G2R_Z. Qed.
Lemma rkgl_toR mind : toR G2R (tab_rkgl Gops) = tab_rkgl (Rops mind).
Proof.
  assert (S15 : G2R (0%Q, 1%Q) = sqrt 15) by (unfold G2R; cbn [fst snd]; rewrite Q2R_0, Q2R_1; lra).
  assert (SUB : forall a b, G2R (nsub Gops a b) = (G2R a - G2R b)%R).
  { intros a b. cbn [nsub Gops]. rewrite G2R_add, G2R_mul, G2R_Z. lra. }
  unfold toR, tab_rkgl. cbn [bt_steps bt_a bt_b1 bt_b2 bt_c bt_implicit bt_embedded map].
  change (nsqrt Gops (nlit Gops 15)) with (0%Q, 1%Q).
  change (nlit Gops) with gZ. rewrite !SUB. change (nadd Gops) with gadd. rewrite !G2R_add.
  rewrite !g_div by lia. rewrite !g_q by lia. rewrite S15. reflexivity.
Qed.

(** transport *)
Lemma order_to (t t' : table R) b b' p : t = t' -> b = b' -> has_order t b p -> has_order t' b' p.
Proof. now intros -> ->. Qed.
