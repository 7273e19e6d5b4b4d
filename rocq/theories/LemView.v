(** Lemmas about the drawing *)
From Coq Require Import ZArith Reals List Arith QArith Lia Lra.
From Verif Require Import Num Arr ModelVertex ModelTree ModelView SpecView.
Import ListNotations.
Local Open Scope R_scope.

Section R.
  Context (mind : R).
  Notation U := (Rops mind).

  Lemma leb_R : forall a b, nleb U a b = true <-> a <= b.
  Proof. intros a b. cbn. destruct (Rle_dec a b); split; intros; auto; discriminate || contradiction. Qed.
  Lemma leb_R_false : forall a b, nleb U a b = false <-> b < a.
  Proof.
    intros a b. cbn. destruct (Rle_dec a b); split; intros; auto; try discriminate; try lra.
  Qed.

  Lemma ceil_R : forall x, 0 < x < 4 ->
    exists i, ceil_index U x = Some i /\ (1 <= i <= 4)%nat /\ INR i - 1 < x <= INR i.
  Proof.
    intros x H. unfold ceil_index. cbn [find].
    destruct (nleb U x _) eqn:E1; [apply leb_R in E1|apply leb_R_false in E1]; cbn [nlit Rops Z.of_nat Pos.of_succ_nat Pos.succ] in E1.
    { exists 1%nat. cbn [INR]. split; [auto|]. split; [lia|lra]. }
    destruct (nleb U x _) eqn:E2; [apply leb_R in E2|apply leb_R_false in E2]; cbn [nlit Rops Z.of_nat Pos.of_succ_nat Pos.succ] in E2.
    { exists 2%nat. cbn [INR]. split; [auto|]. split; [lia|lra]. }
    destruct (nleb U x _) eqn:E3; [apply leb_R in E3|apply leb_R_false in E3]; cbn [nlit Rops Z.of_nat Pos.of_succ_nat Pos.succ] in E3.
    { exists 3%nat. cbn [INR]. split; [auto|]. split; [lia|lra]. }
    destruct (nleb U x _) eqn:E4; [apply leb_R in E4|apply leb_R_false in E4]; cbn [nlit Rops Z.of_nat Pos.of_succ_nat Pos.succ] in E4.
    { exists 4%nat. cbn [INR]. split; [auto|]. split; [lia|lra]. }
    lra.
  Qed.

  Lemma lut_nth : forall i, nth_error (color_lut U) i = if Nat.ltb i 4 then Some (palette i) else None.
  Proof. intros [|[|[|[|[|i]]]]]; reflexivity. Qed.

  Lemma get_color_R : forall x,
    (x <= 0 -> get_color U x = Some (palette 0)) /\
    (1 <= x -> get_color U x = Some (palette 3)) /\
    (3 / 4 < x < 1 -> get_color U x = None) /\
    (forall k, (k < 3)%nat -> INR k / 4 <= x <= INR (k + 1) / 4 ->
       get_color U x = Some (mix (4 * x - INR k) (palette k) (palette (k + 1)))).
  Proof.
    intros x. unfold get_color, rd. cbn [length color_lut].
    assert (E0 : x <= 0 -> nleb U x (nlit U 0) = true) by (intros; apply leb_R; exact H).
    assert (E0' : 0 < x -> nleb U x (nlit U 0) = false) by (intros; apply leb_R_false; exact H).
    assert (E1 : 1 <= x -> nleb U (nlit U 1) x = true) by (intros; apply leb_R; exact H).
    assert (E1' : x < 1 -> nleb U (nlit U 1) x = false) by (intros; apply leb_R_false; exact H).
    change (nmul U x (nlit U (Z.of_nat 4))) with (x * 4).
    split; [intros H; now rewrite (E0 H)|].
    split; [intros H; rewrite E0' by lra; now rewrite (E1 H)|].
    split.
    - intros H. rewrite E0', E1' by lra. destruct (ceil_R (x * 4)) as (i & E & B & V); [lra|].
      rewrite E. cbn [obind]. assert (i = 4%nat) as ->.
      { destruct i as [|[|[|[|[|i]]]]]; try reflexivity; exfalso; try lia; cbn [INR] in V; lra. }
      reflexivity.
    - intros k K H. destruct (Rle_lt_dec x 0) as [Z0|Z0].
      + rewrite (E0 Z0). assert (k = 0%nat) as ->. { destruct k as [|[|[|k]]]; auto; cbn [INR] in H; try lia; lra. }
        cbn [INR] in *. assert (x = 0) as -> by lra. unfold mix. cbn [nth_error color_lut palette cx cy cz cw nlit ndiv Rops Nat.add INR].
        f_equal; f_equal; lra.
      + assert (X1 : x < 1). { destruct k as [|[|[|k]]]; cbn [INR Nat.add] in H; try lia; lra. }
        rewrite E0', E1' by lra. destruct (ceil_R (x * 4)) as (i & E & B & V); [lra|].
        rewrite E. cbn [obind]. rewrite !lut_nth.
        destruct k as [|[|[|k]]]; [| | |lia]; destruct i as [|[|[|[|[|i]]]]]; cbn [INR Nat.add] in *; try lia; try (exfalso; lra);
          cbn [Nat.ltb Nat.leb Nat.sub obind palette Nat.add]; f_equal; unfold c_add, c_scale, mix; cbn; f_equal; lra.
  Qed.

  Lemma colors_R : forall m vel, 0 < m ->
    ((exists l, color_from_velosity U m vel = Some l) <-> Forall (fun v => has_color (vlength U v / m)) vel).
  Proof.
    intros m vel Hm. induction vel as [|v vel IH]; cbn [color_from_velosity].
    - split; [constructor|eauto].
    - change (ndiv U (vlength U v) m) with (vlength U v / m). set (x := vlength U v / m).
      assert (X : 0 <= x). { unfold x. apply Rmult_le_pos; [apply sqrt_pos|]. left. now apply Rinv_0_lt_compat. }
      destruct (get_color_R x) as (A & B & C & D).
      assert (G : (exists c, get_color U x = Some c) <-> has_color x).
      { split.
        - intros [c E]. unfold has_color. destruct (Rle_lt_dec x (3 / 4)); [auto|].
          destruct (Rle_lt_dec 1 x); [auto|]. rewrite C in E by lra. discriminate.
        - intros [H|H]; [|eauto]. destruct (Rle_lt_dec x (1 / 4)).
          + rewrite (D 0%nat); [eauto|lia|cbn [INR Nat.add]; lra].
          + destruct (Rle_lt_dec x (1 / 2)).
            * rewrite (D 1%nat); [eauto|lia|cbn [INR Nat.add]; lra].
            * rewrite (D 2%nat); [eauto|lia|cbn [INR Nat.add]; lra]. }
      split.
      + intros [l E]. destruct (get_color U x) as [c|] eqn:Eg; cbn [obind] in E; [|discriminate].
        destruct (color_from_velosity U m vel) as [l'|]; cbn [obind] in E; [|discriminate].
        constructor; [apply G; eauto|]. apply IH. eauto.
      + intros H. inversion H as [|? ? H1 H2]; subst. apply G in H1. destruct H1 as [c ->].
        apply IH in H2. destruct H2 as [l ->]. cbn [obind]. eauto.
  Qed.

  (** boxes *)
  Lemma min_R : forall a b, nmin U a b = Rmin a b.
  Proof. intros a b. unfold nmin. cbn. unfold Rmin. destruct (Rlt_dec b a), (Rle_dec a b); lra. Qed.
  Lemma max_R : forall a b, nmax U a b = Rmax a b.
  Proof. intros a b. unfold nmax. cbn. unfold Rmax. destruct (Rlt_dec a b), (Rle_dec a b); lra. Qed.

  Lemma fold_min : forall (g : vec3 R -> R) l a, (forall u v, g (vmin U u v) = Rmin (g u) (g v)) ->
    let r := g (fold_left (vmin U) l a) in
    r <= g a /\ Forall (fun p => r <= g p) l /\ (r = g a \/ exists p, In p l /\ g p = r).
  Proof.
    intros g l. induction l as [|p l IH]; intros a G; cbn [fold_left].
    - split; [lra|]. split; [constructor|auto].
    - destruct (IH (vmin U a p) G) as (A & B & C). rewrite G in A, C.
      pose proof (Rmin_l (g a) (g p)). pose proof (Rmin_r (g a) (g p)). cbv zeta.
      split; [lra|]. split; [constructor; [lra|exact B]|].
      destruct C as [C|(q & Q1 & Q2)].
      + unfold Rmin in C. destruct (Rle_dec (g a) (g p)); [auto|]. right. exists p. split; [now left|auto].
      + right. exists q. split; [now right|auto].
  Qed.
  Lemma fold_max : forall (g : vec3 R -> R) l a, (forall u v, g (vmax U u v) = Rmax (g u) (g v)) ->
    let r := g (fold_left (vmax U) l a) in
    g a <= r /\ Forall (fun p => g p <= r) l /\ (r = g a \/ exists p, In p l /\ g p = r).
  Proof.
    intros g l. induction l as [|p l IH]; intros a G; cbn [fold_left].
    - split; [lra|]. split; [constructor|auto].
    - destruct (IH (vmax U a p) G) as (A & B & C). rewrite G in A, C.
      pose proof (Rmax_l (g a) (g p)). pose proof (Rmax_r (g a) (g p)). cbv zeta.
      split; [lra|]. split; [constructor; [lra|exact B]|].
      destruct C as [C|(q & Q1 & Q2)].
      + unfold Rmax in C. destruct (Rle_dec (g a) (g p)); [|auto]. right. exists p. split; [now left|auto].
      + right. exists q. split; [now right|auto].
  Qed.

  Lemma big_R : big U = 10 ^ 30.
  Proof. unfold big. cbn [nlit Rops]. rewrite pow_IZR. f_equal. Qed.

  Lemma get_box_R : forall l lo hi, l <> [] -> Forall moderate l -> get_box U l = (lo, hi) -> smallest_box l lo hi.
  Proof.
    intros l lo hi Hne Hm E. unfold get_box in E. apply pair_equal_spec in E. destruct E as [El Eh].
    set (a := V3 (big U) (big U) (big U)) in *.
    set (b := V3 (nopp U (big U)) (nopp U (big U)) (nopp U (big U))) in *.
    assert (Lo : forall g, (forall u v, g (vmin U u v) = Rmin (g u) (g v)) -> g a = 10 ^ 30 ->
              Forall (fun p => g p <= 10 ^ 30) l -> Forall (fun p => g lo <= g p) l /\ exists p, In p l /\ g p = g lo).
    { intros g G Ga M. destruct (fold_min g l a G) as (A & B & C). rewrite El in A, B, C.
      split; [exact B|]. destruct C as [C|C]; [|exact C]. destruct l as [|p l]; [congruence|].
      exists p. split; [now left|]. inversion B; subst. inversion M; subst. lra. }
    assert (Hi : forall g, (forall u v, g (vmax U u v) = Rmax (g u) (g v)) -> g b = - 10 ^ 30 ->
              Forall (fun p => - 10 ^ 30 <= g p) l -> Forall (fun p => g p <= g hi) l /\ exists p, In p l /\ g p = g hi).
    { intros g G Ga M. destruct (fold_max g l b G) as (A & B & C). rewrite Eh in A, B, C.
      split; [exact B|]. destruct C as [C|C]; [|exact C]. destruct l as [|p l]; [congruence|].
      exists p. split; [now left|]. inversion B; subst. inversion M; subst. lra. }
    pose proof big_R as BR.
    assert (Nb : nopp U (big U) = - 10 ^ 30) by (rewrite <- BR; reflexivity).
    assert (Ab : forall x, Rabs x <= 10 ^ 30 -> - 10 ^ 30 <= x <= 10 ^ 30).
    { intros x H. revert H. unfold Rabs. destruct (Rcase_abs x); lra. }
    assert (M1 : forall g, (forall p, moderate p -> Rabs (g p) <= 10 ^ 30) ->
              Forall (fun p => g p <= 10 ^ 30) l /\ Forall (fun p => - 10 ^ 30 <= g p) l).
    { intros g Hg. split; (eapply Forall_impl; [|exact Hm]); intros p Hp; apply Hg, Ab in Hp; lra. }
    destruct (M1 (@vx R)) as [Mx Mx']; [intros p (H & _); exact H|].
    destruct (M1 (@vy R)) as [My My']; [intros p (_ & H & _); exact H|].
    destruct (M1 (@vz R)) as [Mz Mz']; [intros p (_ & _ & H); exact H|].
    destruct (Lo (@vx R)) as [Lx Lx']; auto; [intros u v; apply min_R|].
    destruct (Lo (@vy R)) as [Ly Ly']; auto; [intros u v; apply min_R|].
    destruct (Lo (@vz R)) as [Lz Lz']; auto; [intros u v; apply min_R|].
    destruct (Hi (@vx R)) as [Hx Hx']; auto; [intros u v; apply max_R|].
    destruct (Hi (@vy R)) as [Hy Hy']; auto; [intros u v; apply max_R|].
    destruct (Hi (@vz R)) as [Hz Hz']; auto; [intros u v; apply max_R|].
    split; [|auto 10].
    rewrite Forall_forall in *. intros p Hp. unfold inside. specialize (Lx p Hp). specialize (Ly p Hp).
    specialize (Lz p Hp). specialize (Hx p Hp). specialize (Hy p Hp). specialize (Hz p Hp). auto 10.
  Qed.
End R.

(** layout *)
Lemma split_range : forall size s, (0 <= size)%Z -> (0 <= s <= 1)%Q -> (0 <= split_at size s <= size)%Z.
Proof.
  intros size s H [S1 S2]. unfold split_at. unfold Qle in S1, S2. cbn in S1, S2.
  rewrite Z.mul_1_r in *. split.
  - apply Z.quot_pos; nia.
  - apply Z.quot_le_upper_bound; nia.
Qed.
Lemma split_half : forall size s, (0 <= size)%Z -> s == 1 # 2 -> split_at size s = (size / 2)%Z.
Proof.
  intros size s H E. unfold split_at. unfold Qeq in E. cbn in E. rewrite Z.quot_div_nonneg by nia.
  replace (Z.pos (Qden s)) with (Qnum s * 2)%Z by lia. rewrite (Z.mul_comm size). apply Z.div_mul_cancel_l; lia.
Qed.
Lemma split_zero : forall size, split_at size 0 = 0%Z.
Proof. intros. unfold split_at. cbn. rewrite Z.mul_0_r. reflexivity. Qed.
Lemma split_one : forall size, split_at size 1 = size.
Proof. intros. unfold split_at. cbn. rewrite Z.mul_1_r. apply Z.quot_1_r. Qed.
