(** C68: the dense force kernels of the CUDA and OpenCL engines *)
From Coq Require Import ZArith NArith Reals SpecFloat List Arith Lia Lra Bool.
From Verif Require Import Num Arr ArrLemmas ModelVertex SpecPhys RLemmas ModelParallel SpecPar
  LemParallel LemOmp ModelGpu SpecGpu LemGpu LemGpuSum LemGpuHost ModelGpuForce LemGpuForce PropGpu.
Import ListNotations.

Section R.
  Variables (mind : R) (n B : nat) (gy gm : nat -> R).
  Local Open Scope R_scope.
  Let U := Rops mind.

  Definition tm (c i j : nat) : R :=
    gm j * (gy (c * n + i) - gy (c * n + j)) /
      soft_cube mind (dist2 (fun i => gy i) (fun i => gy (n + i)%nat) (fun i => gy (2 * n + i)%nat) i j).

  Lemma tile_R i b : forall cnt j l,
    let r := fold_left (fun l k => gpu_pair U (p1 n gy i) (p1 n gy (b + k)%nat) (gm (b + k)%nat) l)
               (seq j cnt) l in
    vx r = vx l - rsum cnt (fun k => tm 0 i (b + (j + k))%nat) /\
    vy r = vy l - rsum cnt (fun k => tm 1 i (b + (j + k))%nat) /\
    vz r = vz l - rsum cnt (fun k => tm 2 i (b + (j + k))%nat).
  Proof.
    induction cnt as [|cnt IH]; intros j l; cbn [seq fold_left].
    - simpl. repeat split; lra.
    - cbv zeta in IH. destruct (IH (S j) (gpu_pair U (p1 n gy i) (p1 n gy (b + j)%nat) (gm (b + j)%nat) l))
        as (E1 & E2 & E3). cbv zeta.
      assert (SH : forall g, rsum (S cnt) g = g 0%nat + rsum cnt (fun k => g (S k))).
      { intros g. clear. induction cnt as [|c IHc]; [simpl; lra|].
        change (rsum (S (S c)) g) with (rsum (S c) g + g (S c)). rewrite IHc. simpl. lra. }
      assert (G : let r' := gpu_pair U (p1 n gy i) (p1 n gy (b + j)%nat) (gm (b + j)%nat) l in
        vx r' = vx l - tm 0 i (b + j)%nat /\ vy r' = vy l - tm 1 i (b + j)%nat /\
        vz r' = vz l - tm 2 i (b + j)%nat).
      { cbv zeta. unfold gpu_pair, U. cbn [p1 vx vy vz Rops nadd nsub nmul ndiv nsqrt nltb nmind].
        assert (X : forall d2, (if (if Rlt_dec d2 mind then true else false) then mind else d2) = Rmax mind d2).
        { intros d2. unfold Rmax. destruct (Rlt_dec d2 mind), (Rle_dec mind d2); lra. }
        rewrite X. unfold tm, soft_cube, dist2. cbn [Nat.mul Nat.add]. rewrite !Nat.add_0_r.
        rewrite (Rmult_comm (sqrt _)).
        repeat match goal with |- _ /\ _ => split end; unfold Rdiv; ring. }
      cbv zeta in G. destruct G as (G1 & G2 & G3).
      rewrite E1, E2, E3, G1, G2, G3, !SH, !Nat.add_0_r.
      assert (Y : forall c, rsum cnt (fun k => tm c i (b + (S j + k))%nat) =
                            rsum cnt (fun k => tm c i (b + (j + S k))%nat)).
      { intros c. apply rsum_ext. intros k Hk. f_equal. lia. }
      rewrite !Y. repeat split; lra.
  Qed.

  Lemma total_R i q :
    vx (total U n B gy gm i q) = - rsum (q * B) (tm 0 i) /\
    vy (total U n B gy gm i q) = - rsum (q * B) (tm 1 i) /\
    vz (total U n B gy gm i q) = - rsum (q * B) (tm 2 i).
  Proof.
    induction q as [|q (E1 & E2 & E3)].
    - unfold total. simpl. repeat split; lra.
    - rewrite total_S. replace (S q * B)%nat with (q * B + B)%nat by (simpl; lia).
      rewrite !rsum_app. unfold tile_sum.
      pose proof (tile_R i (q * B) B 0 (vzero U)) as H. cbv zeta in H. destruct H as (G1 & G2 & G3).
      unfold vadd. cbn [vx vy vz]. rewrite E1, E2, E3, G1, G2, G3. unfold U at 1 2 3 4 5 6.
      cbn [Rops nadd vzero vx vy vz nlit]. simpl Nat.add. repeat split; lra.
  Qed.
End R.

Lemma list_ext A (l l' : list A) : (forall i, nth_error l i = nth_error l' i) -> l = l'.
Proof.
  revert l'. induction l as [|a l IH]; intros [|b l'] H; auto.
  - now specialize (H 0).
  - now specialize (H 0).
  - pose proof (H 0) as H0. injection H0 as ->. f_equal. apply IH. intros i. exact (H (S i)).
Qed.

Section Multi.
  Context {T : Type} (U : NumOps T).

  Lemma every_device_map {A} (L : list A) (rs : A -> list (list (prog T))) (ms : A -> mem T)
    (Q : A -> mem T -> Prop) (good : list (mem T) -> Prop) :
    (forall a, In a L -> every_round (rs a) (ms a) (Q a)) ->
    (forall l, Forall2 Q L l -> good l) ->
    every_device (map (fun a => (rs a, ms a)) L) good.
  Proof.
    revert good. induction L as [|a L IH]; intros good H HG; cbn [map every_device].
    - apply HG. constructor.
    - eapply round_weaken; [|apply H; now left]. intros m' Hm'. cbv beta. apply IH.
      + intros b Hb. apply H. now right.
      + intros l Hl. apply HG. now constructor.
  Qed.

  Lemma Forall2_seq (P : nat -> mem T -> Prop) D l : Forall2 P (seq 0 D) l ->
    length l = D /\ forall k m, nth_error l k = Some m -> P k m.
  Proof.
    assert (G : forall D s l, Forall2 P (seq s D) l ->
      length l = D /\ forall k m, nth_error l k = Some m -> P (s + k) m).
    { clear. induction D as [|D IH]; intros s l H; inversion H; subst.
      - split; auto. intros [|k] m; discriminate.
      - destruct (IH (S s) l' H4) as [L HP]. split; [simpl; lia|].
        intros [|k] m E; simpl in E.
        + injection E as <-. now rewrite Nat.add_0_r.
        + replace (s + S k) with (S s + k) by lia. auto. }
    intros H. apply (G D 0 l H).
  Qed.

  Variables (d B q : nat).
  Let D := 2 ^ d.
  Let n := D * (B * q).

  Lemma HD : 0 < D.
  Proof. pose proof (Nat.pow_nonzero 2 d). unfold D. lia. Qed.
  Lemma n_div : n / D = B * q.
  Proof. unfold n. rewrite Nat.mul_comm. apply Nat.div_mul. pose proof HD. lia. Qed.
  Lemma n_tiles : n = (D * q) * B.
  Proof. unfold n. ring. Qed.

  Variables (mass v : list T) (dflt : T).
  Hypothesis HB : 0 < B.
  Hypothesis HM : length mass = n.
  Hypothesis HV : length v = 6 * n.
  Let gy i := nth i v dflt.
  Let gm i := nth i mass dflt.

  (** the right-hand side the kernels compute *)
  Definition kernel_rhs (n q : nat) (gy gm : nat -> T) (j : nat) : T :=
    let c := j / n in
    if c <? 3 then gy ((c + 3) * n + j mod n) else vcomp c (total U n B gy gm (j mod n) q).

  (** the two exchanges are any transfers with the effect of those of C56 *)
  Lemma multi_gen (sy sf : mem T -> (mem T -> Prop) -> Prop) (devs : nat -> list (list (prog T))) ys fs (scratch : nat -> list (list T)) :
    (forall m (g g' : mem T -> Prop), (forall m', g m' -> g' m') -> sy m g -> sy m g') ->
    (forall m (g g' : mem T -> Prop), (forall m', g m' -> g' m') -> sf m g -> sf m g') ->
    (forall m, buffers m D (6 * n) -> sy m (fun m' => buffers m' D (6 * n) /\
       forall dev i, dev < D -> i < D * (6 * n / D) -> mrd m' dev i = mrd m (i / (6 * n / D)) i)) ->
    (forall m, buffers m D (6 * n) -> sf m (fun m' => buffers m' D (6 * n) /\
       forall dev r c, dev < D -> r < 6 -> c < D * (6 * n / D / 6) ->
         mrd m' dev (r * (6 * n / 6) + c) = mrd m (c / (6 * n / D / 6)) (r * (6 * n / 6) + c))) ->
    buffers ys D (6 * n) -> buffers fs D (6 * n) -> (forall dev, buffers (scratch dev) 13 B) ->
    (forall i, i < 6 * n -> mrd ys (i / (6 * n / D)) i = nth_error v i) ->
    (forall dev mb, dev < D ->
       (forall i, i < 6 * n -> mrd mb aF i <> None) ->
       (forall a t, 3 <= a <= 15 -> t < B -> mrd mb a t <> None) ->
       base n gy gm mb mb ->
       every_round (devs dev) mb (device_done U n B gy gm mb (n / D * dev) (n / D) (D * q) mb)) ->
    sy ys (fun ys' =>
      every_device (map (fun dev => (devs dev,
        device_memory (nth dev ys' []) (nth dev fs []) mass (scratch dev))) (seq 0 D))
      (fun ms =>
        (forall m, In m ms -> nth aY m [] = v) /\
        sf (map (fun m => nth aF m []) ms) (fun fs' =>
          buffers fs' D (6 * n) /\
          forall dev i, dev < D -> i < 6 * n ->
            nth_error (nth dev fs' []) i = Some (kernel_rhs n (D * q) gy gm i)))).
  Proof.
    intros Msy Msf Hsy Hsf BY BF BS HY Hdev. pose proof HD as HD0.
    eapply Msy; [|apply (Hsy ys BY)].
    intros ys' [BY' HY']. cbv beta.
    assert (E6 : D * (6 * n / D) = 6 * n).
    { assert (X : 6 * n / D = 6 * (B * q)).
      { symmetry. apply Nat.div_unique_exact; [lia|]. unfold n. ring. }
      rewrite X. unfold n. ring. }
    assert (Yv : forall dev, dev < D -> nth dev ys' [] = v).
    { intros dev Hd. apply list_ext. intros i.
      destruct (buffers_get BY' Hd) as (b & Eb & Lb).
      unfold rd in Eb. rewrite (nth_error_nth _ _ [] Eb).
      destruct (le_lt_dec (6 * n) i).
      - rewrite (proj2 (nth_error_None b i)), (proj2 (nth_error_None v i)); auto; lia.
      - rewrite <- (HY i), <- (HY' dev i) by (auto; lia). unfold mrd, rd. now rewrite Eb. }
    apply every_device_map with (Q := fun dev m =>
      let mb := device_memory (nth dev ys' []) (nth dev fs []) mass (scratch dev) in
      device_done U n B gy gm mb (n / D * dev) (n / D) (D * q) mb m).
    - intros dev Hd. apply in_seq in Hd. cbv zeta. apply Hdev; [lia| | |].
      + intros i Hi. destruct (buffers_get BF (a := dev)) as (b & Eb & Lb); [lia|].
        unfold rd in Eb. unfold mrd, device_memory. cbn. unfold rd.
        rewrite (nth_error_nth _ _ [] Eb). apply nth_error_Some. lia.
      + intros a t Ha Ht. unfold device_memory, mrd. destruct a as [|[|[|a]]]; try lia. cbn.
        destruct (buffers_get (BS dev) (a := a)) as (b & Eb & Lb); [lia|]. unfold rd in *. cbn [nth_error].
        rewrite Eb. cbn. apply nth_error_Some. lia.
      + split; auto. unfold device_memory, mrd, aY, aM. cbn. split; intros i Hi; unfold rd.
        * rewrite Yv by lia. apply nth_error_nth'. lia.
        * apply nth_error_nth'. lia.
    - intros ms Hms. apply Forall2_seq in Hms. destruct Hms as [Lms Hms].
      split.
      { intros m Hm. apply In_nth_error in Hm. destruct Hm as [k Hk].
        assert (Hkd : k < D). { rewrite <- Lms. apply nth_error_Some. congruence. }
        specialize (Hms k m Hk). cbv zeta in Hms. destruct Hms as ((S0 & HYm & _) & _).
        apply list_ext. intros i.
        assert (Lm : length (nth aY m []) = 6 * n).
        { unfold shape, device_memory in S0. destruct m as [|ym m]; [discriminate|].
          cbn in S0. injection S0 as S1 _. cbn. rewrite S1, Yv by auto. exact HV. }
        destruct (le_lt_dec (6 * n) i).
        - rewrite (proj2 (nth_error_None _ i)), (proj2 (nth_error_None v i)); auto; lia.
        - specialize (HYm i l). unfold mrd, rd, aY in HYm. destruct m as [|ym m]; [discriminate|].
          cbn in HYm. unfold aY. cbn [nth]. rewrite HYm. symmetry. apply nth_error_nth'. lia. }
      assert (BF' : buffers (map (fun m => nth aF m []) ms) D (6 * n)).
      { split; [now rewrite map_length|]. apply Forall_forall. intros b Hb. apply in_map_iff in Hb.
        destruct Hb as (m & <- & Hm). apply In_nth_error in Hm. destruct Hm as [k Hk].
        assert (Hkd : k < D). { rewrite <- Lms. apply nth_error_Some. intros X. discriminate (eq_trans (eq_sym X) Hk). }
        specialize (Hms k m Hk). cbv zeta in Hms. destruct Hms as ((S0 & _) & _).
        unfold shape, device_memory in S0. destruct m as [|ym [|fm m]]; try discriminate.
        cbn in S0. injection S0 as _ S1 _. cbn. rewrite S1.
        destruct (buffers_get BF Hkd) as (b & Eb & Lb). unfold rd in Eb. now rewrite (nth_error_nth _ _ [] Eb). }
      eapply Msf; [|apply (Hsf _ BF')].
      intros fs' [BF'' HF']. split; auto. intros dev i Hd Hi.
      assert (Er : 6 * n / 6 = n) by (rewrite Nat.mul_comm; apply Nat.div_mul; lia).
      assert (Ec : 6 * n / D / 6 = n / D).
      { rewrite Nat.div_div by lia. rewrite (Nat.mul_comm D 6). apply Nat.div_mul_cancel_l; lia. }
      rewrite Er, Ec in HF'.
      assert (Hn : 0 < n) by lia.
      assert (Hw : D * (n / D) = n) by (rewrite n_div; reflexivity).
      assert (Hwp : 0 < n / D) by nia.
      set (r := i / n). set (c := i mod n).
      assert (Ei : i = r * n + c) by (unfold r, c; rewrite Nat.mul_comm; apply Nat.div_mod; lia).
      assert (Hc : c < n) by (apply Nat.mod_upper_bound; lia).
      assert (Hr : r < 6) by (apply Nat.div_lt_upper_bound; lia).
      specialize (HF' dev r c Hd Hr ltac:(lia)). rewrite <- Ei in HF'.
      destruct (buffers_get BF'' Hd) as (b & Eb & Lb).
      assert (En : nth dev fs' [] = b) by (unfold rd in Eb; apply (nth_error_nth _ _ [] Eb)).
      rewrite En. rewrite (@mrd_rd T fs' dev b i Eb) in HF'. unfold rd in HF'. rewrite HF'. clear HF' En Eb Lb b.
      set (k := c / (n / D)).
      assert (Hk : k < D). { apply Nat.div_lt_upper_bound; lia. }
      assert (Hkc : n / D * k <= c < n / D * k + n / D).
      { pose proof (Nat.div_mod c (n / D)). pose proof (Nat.mod_upper_bound c (n / D)). fold k in H. lia. }
      destruct (nth_error ms k) as [m|] eqn:Em; [|apply nth_error_None in Em; lia].
      specialize (Hms k m Em). cbv zeta in Hms. destruct Hms as (_ & HV1 & _).
      assert (Emr : mrd (map (fun m => nth aF m []) ms) k i = mrd m aF i).
      { unfold mrd, rd. rewrite nth_error_map, (Em : @nth_error (list (list T)) ms k = Some m). cbn.
        destruct m as [|a0 [|a1 m]]; cbn; auto; destruct i; auto. }
      rewrite Emr, Ei. unfold kernel_rhs.
      assert (X1 : (r * n + c) / n = r) by (rewrite <- Ei; reflexivity).
      assert (X2 : (r * n + c) mod n = c) by (rewrite <- Ei; reflexivity).
      rewrite X1, X2. destruct (Nat.ltb_spec r 3).
      + apply (HV1 c r); lia.
      + replace r with ((r - 3) + 3) by lia. apply (HV1 c (r - 3)); lia.
  Qed.

  Lemma multi (devs : nat -> list (list (prog T))) ys fs (scratch : nat -> list (list T)) :
    buffers ys D (6 * n) -> buffers fs D (6 * n) -> (forall dev, buffers (scratch dev) 13 B) ->
    (forall i, i < 6 * n -> mrd ys (i / (6 * n / D)) i = nth_error v i) ->
    (forall dev mb, dev < D ->
       (forall i, i < 6 * n -> mrd mb aF i <> None) ->
       (forall a t, 3 <= a <= 15 -> t < B -> mrd mb a t <> None) ->
       base n gy gm mb mb ->
       every_round (devs dev) mb (device_done U n B gy gm mb (n / D * dev) (n / D) (D * q) mb)) ->
    every_round (sync_y D (6 * n)) ys (fun ys' =>
      every_device (map (fun dev => (devs dev,
        device_memory (nth dev ys' []) (nth dev fs []) mass (scratch dev))) (seq 0 D))
      (fun ms =>
        (forall m, In m ms -> nth aY m [] = v) /\
        every_round (sync_f D (6 * n)) (map (fun m => nth aF m []) ms) (fun fs' =>
          buffers fs' D (6 * n) /\
          forall dev i, dev < D -> i < 6 * n ->
            nth_error (nth dev fs' []) i = Some (kernel_rhs n (D * q) gy gm i)))).
  Proof.
    apply (multi_gen (fun m g => every_round (sync_y D (6 * n)) m g)
                     (fun m g => every_round (sync_f D (6 * n)) m g)).
    - intros m g g'. apply round_weaken.
    - intros m g g'. apply round_weaken.
    - apply (@C56_y T d (6 * n)).
    - apply (@C56_f T d (6 * n)).
  Qed.
End Multi.

(** CUDA and OpenCL devices meet the premise of [multi] *)
Lemma cuda_devs {T} (U : NumOps T) d B q gy gm : 0 < B ->
  let D := 2 ^ d in let n := D * (B * q) in
  forall dev mb, dev < D ->
    (forall i, i < 6 * n -> mrd mb aF i <> None) ->
    (forall a t, 3 <= a <= 15 -> t < B -> mrd mb a t <> None) ->
    base n gy gm mb mb ->
    every_round (cuda_device U n B D dev) mb (device_done U n B gy gm mb (n / D * dev) (n / D) (D * q) mb).
Proof.
  intros HB D n dev mb Hd H1 H2 H3. apply cuda_device_ok; auto.
  - unfold n. ring.
  - lia.
  - unfold n, D. rewrite n_div. rewrite Nat.mul_comm. apply Nat.mod_mul. lia.
Qed.

Definition opencl_devs {T} (U : NumOps T) n B D dev : list (list (prog T)) :=
  match opencl_device U n B D dev with Some rs => rs | None => [] end.
Lemma opencl_launch {T} (U : NumOps T) d B q dev : 0 < B ->
  let D := 2 ^ d in let n := D * (B * q) in
  opencl_device U n B D dev = Some (opencl_devs U n B D dev).
Proof.
  intros HB D n. unfold opencl_devs, opencl_device.
  assert (E : (n / D) mod B = 0).
  { unfold n, D. rewrite n_div, Nat.mul_comm. apply Nat.mod_mul. lia. }
  rewrite E. reflexivity.
Qed.
Lemma opencl_devs_ok {T} (U : NumOps T) d B q gy gm : 0 < B ->
  let D := 2 ^ d in let n := D * (B * q) in
  forall dev mb, dev < D ->
    (forall i, i < 6 * n -> mrd mb aF i <> None) ->
    (forall a t, 3 <= a <= 15 -> t < B -> mrd mb a t <> None) ->
    base n gy gm mb mb ->
    every_round (opencl_devs U n B D dev) mb (device_done U n B gy gm mb (n / D * dev) (n / D) (D * q) mb).
Proof.
  intros HB D n dev mb Hd H1 H2 H3.
  destruct (@opencl_device_ok T U n B gy gm mb HB H1 H2 D dev (D * q) mb) as (rs & E & H); auto.
  - unfold n. ring.
  - lia.
  - unfold n, D. rewrite n_div. rewrite Nat.mul_comm. apply Nat.mod_mul. lia.
  - unfold opencl_devs. rewrite E. exact H.
Qed.

Lemma every_device_weaken {T} devs (g g' : list (mem T) -> Prop) :
  (forall ms, g ms -> g' ms) -> every_device devs g -> every_device devs g'.
Proof.
  revert g g'. induction devs as [|[rs m] devs IH]; intros g g' H; cbn [every_device]; auto.
  apply round_weaken. intros m'. apply IH. intros ms. apply H.
Qed.

(** the same number in exact arithmetic is Newton's law *)
Lemma rhs_R mind B q n (mass v f : list R) : n = q * B -> length f = 6 * n ->
  (forall i, i < 6 * n -> nth_error f i =
     Some (kernel_rhs (Rops mind) B n q (fun i => nth i v 0%R) (fun i => nth i mass 0%R) i)) ->
  newton_rhs mind n mass v f.
Proof.
  intros En Lf H. split; auto. intros i k Hi Hk.
  assert (D1 : forall c, (c * n + i) / n = c).
  { intros c. symmetry. apply Nat.div_unique with (r := i); lia. }
  assert (D2 : forall c, (c * n + i) mod n = i).
  { intros c. symmetry. apply Nat.mod_unique with (q := c); lia. }
  split; rewrite H by nia; f_equal; unfold kernel_rhs; rewrite D1, D2.
  - destruct (Nat.ltb_spec k 3); [reflexivity|lia].
  - destruct (Nat.ltb_spec (k + 3) 3); [lia|].
    destruct (total_R mind n B (fun i => nth i v 0%R) (fun i => nth i mass 0%R) i q) as (E1 & E2 & E3).
    rewrite <- En in *.
    assert (G : forall c, c < 3 -> rsum n (tm mind n (fun i => nth i v 0%R) (fun i => nth i mass 0%R) c i) =
      rsum n (fun j => if Nat.eqb i j then 0%R else
        (nth j mass 0 * (comp v n c i - comp v n c j) /
           soft_cube mind (dist2 (comp v n 0) (comp v n 1) (comp v n 2) i j))%R)).
    { intros c Hc. apply rsum_ext. intros j Hj. unfold tm.
      assert (E : dist2 (fun i => nth i v 0%R) (fun i => nth (n + i) v 0%R) (fun i => nth (2 * n + i) v 0%R) i j =
                  dist2 (comp v n 0) (comp v n 1) (comp v n 2) i j).
      { unfold dist2, comp. cbn [Nat.mul Nat.add]. rewrite !Nat.add_0_r. reflexivity. }
      rewrite E. fold (comp v n c i). fold (comp v n c j).
      destruct (Nat.eqb_spec i j) as [->|]; auto. unfold Rdiv. ring. }
    unfold newton_acc.
    assert (K : k = 0 \/ k = 1 \/ k = 2) by lia.
    destruct K as [->|[->| ->]]; cbn [Nat.add vcomp]; rewrite ?E1, ?E2, ?E3, G by lia; reflexivity.
Qed.

(** ** C68 *)

(** The whole of [nbody_engine_cuda::fcompute] on [2^d] devices in exact arithmetic: from buffers in
    which device [k] holds only its own part of the state vector, every schedule of the exchange,
    of the kernels (on every device and in every block) and of the second exchange is free of races
    and of accesses out of bounds, comes to an end, leaves the state vector complete on every device
    and leaves the whole right-hand side of the equations of motion on every device. *)
Theorem C68_cuda : forall mind (d B q : nat) (mass v : list R) (ys fs : mem R) (scratch : nat -> list (list R)),
  let D := 2 ^ d in
  let n := D * (B * q) in
  0 < B -> length mass = n -> length v = 6 * n ->
  buffers ys D (6 * n) -> buffers fs D (6 * n) -> (forall dev, buffers (scratch dev) 13 B) ->
  (forall i, i < 6 * n -> mrd ys (i / (6 * n / D)) i = nth_error v i) ->
  every_round (sync_y D (6 * n)) ys (fun ys' =>
    every_device (map (fun dev => (cuda_device (Rops mind) n B D dev,
      device_memory (nth dev ys' []) (nth dev fs []) mass (scratch dev))) (seq 0 D))
    (fun ms =>
      (forall m, In m ms -> nth aY m [] = v) /\
      every_round (sync_f D (6 * n)) (map (fun m => nth aF m []) ms) (fun fs' =>
        buffers fs' D (6 * n) /\
        forall dev, dev < D -> newton_rhs mind n mass v (nth dev fs' [])))).
Proof.
  intros mind d B q mass v ys fs scratch D n HB HM HV BY BF BS HY.
  eapply round_weaken; [|apply (@multi R (Rops mind) d B q mass v 0%R HB HM HV
    (cuda_device (Rops mind) n B D) ys fs scratch BY BF BS HY); apply cuda_devs; auto].
  intros ys'. apply every_device_weaken. intros ms [H1 H2]. split; [exact H1|].
  eapply round_weaken; [|exact H2]. intros fs' [H3 H4]. split; [exact H3|]. intros dev Hd.
  apply (@rhs_R mind B (D * q) n mass v); [unfold n; ring| |].
  - destruct (buffers_get H3 Hd) as (b & Eb & Lb). unfold rd in Eb. now rewrite (nth_error_nth _ _ [] Eb).
  - intros i Hi. now apply H4.
Qed.
Print Assumptions C68_cuda.

(** The same for [nbody_engine_opencl::fcompute]; no launch is refused. *)
Theorem C68_opencl : forall mind (d B q : nat) (mass v : list R) (ys fs : mem R) (scratch : nat -> list (list R)),
  let D := 2 ^ d in
  let n := D * (B * q) in
  0 < B -> length mass = n -> length v = 6 * n ->
  buffers ys D (6 * n) -> buffers fs D (6 * n) -> (forall dev, buffers (scratch dev) 13 B) ->
  (forall i, i < 6 * n -> mrd ys (i / (6 * n / D)) i = nth_error v i) ->
  exists launched, (forall dev, opencl_device (Rops mind) n B D dev = Some (launched dev)) /\
  every_round (sync_y D (6 * n)) ys (fun ys' =>
    every_device (map (fun dev => (launched dev,
      device_memory (nth dev ys' []) (nth dev fs []) mass (scratch dev))) (seq 0 D))
    (fun ms =>
      (forall m, In m ms -> nth aY m [] = v) /\
      every_round (sync_f D (6 * n)) (map (fun m => nth aF m []) ms) (fun fs' =>
        buffers fs' D (6 * n) /\
        forall dev, dev < D -> newton_rhs mind n mass v (nth dev fs' [])))).
Proof.
  intros mind d B q mass v ys fs scratch D n HB HM HV BY BF BS HY.
  exists (opencl_devs (Rops mind) n B D). split; [intros dev; now apply opencl_launch|].
  eapply round_weaken; [|apply (@multi R (Rops mind) d B q mass v 0%R HB HM HV
    (opencl_devs (Rops mind) n B D) ys fs scratch BY BF BS HY); apply opencl_devs_ok; auto].
  intros ys'. apply every_device_weaken. intros ms [H1 H2]. split; [exact H1|].
  eapply round_weaken; [|exact H2]. intros fs' [H3 H4]. split; [exact H3|]. intros dev Hd.
  apply (@rhs_R mind B (D * q) n mass v); [unfold n; ring| |].
  - destruct (buffers_get H3 Hd) as (b & Eb & Lb). unfold rd in Eb. now rewrite (nth_error_nth _ _ [] Eb).
  - intros i Hi. now apply H4.
Qed.
Print Assumptions C68_opencl.

(** In any arithmetic, floating point included, the result depends neither on the schedule nor on
    the number of devices nor on the kind of device: for given masses, state vector and block size
    there is one vector that all of them leave on all devices. *)
Theorem C68_deterministic : forall (T : Type) (U : NumOps T) (B n : nat) (mass v : list T),
  0 < B -> length mass = n -> length v = 6 * n ->
  exists f, length f = 6 * n /\
  forall (d q : nat) (ys fs : mem T) (scratch : nat -> list (list T)) launched,
  let D := 2 ^ d in
  n = D * (B * q) ->
  buffers ys D (6 * n) -> buffers fs D (6 * n) -> (forall dev, buffers (scratch dev) 13 B) ->
  (forall i, i < 6 * n -> mrd ys (i / (6 * n / D)) i = nth_error v i) ->
  (forall dev, launched dev = cuda_device U n B D dev) \/
  (forall dev, opencl_device U n B D dev = Some (launched dev)) ->
  every_round (sync_y D (6 * n)) ys (fun ys' =>
    every_device (map (fun dev => (launched dev,
      device_memory (nth dev ys' []) (nth dev fs []) mass (scratch dev))) (seq 0 D))
    (fun ms =>
      every_round (sync_f D (6 * n)) (map (fun m => nth aF m []) ms) (fun fs' =>
        fs' = repeat f D))).
Proof.
  intros T U B n mass v HB HM HV.
  set (dflt := nlit U 0).
  set (F := kernel_rhs U B n (n / B) (fun i => nth i v dflt) (fun i => nth i mass dflt)).
  exists (map F (seq 0 (6 * n))). split; [now rewrite map_length, seq_length|].
  intros d q ys fs scratch launched D En BY BF BS HY HL.
  assert (Eq : n / B = D * q).
  { symmetry. apply Nat.div_unique_exact; [lia|]. rewrite En. ring. }
  assert (FIN : forall ms : list (mem T), every_round (sync_f D (6 * n)) (map (fun m => nth aF m []) ms) (fun fs' =>
          buffers fs' D (6 * n) /\
          forall dev i, dev < D -> i < 6 * n ->
            nth_error (nth dev fs' []) i = Some (kernel_rhs U B n (D * q) (fun i => nth i v dflt) (fun i => nth i mass dflt) i)) ->
    every_round (sync_f D (6 * n)) (map (fun m => nth aF m []) ms) (fun fs' => fs' = repeat (map F (seq 0 (6 * n))) D)).
  { intros ms. apply round_weaken. intros fs' [[L1 L2] H]. apply list_ext. intros k.
    destruct (le_lt_dec D k).
    - rewrite (proj2 (nth_error_None fs' k)), (proj2 (nth_error_None (repeat _ D) k)); auto;
        [rewrite repeat_length|rewrite L1]; auto.
    - rewrite nth_error_repeat by auto.
      destruct (nth_error fs' k) as [b|] eqn:Eb; [|apply nth_error_None in Eb; lia]. f_equal.
      assert (Lb : length b = 6 * n).
      { apply (proj1 (Forall_forall _ _) L2). eapply nth_error_In; eauto. }
      apply list_ext. intros i. destruct (le_lt_dec (6 * n) i).
      + rewrite (proj2 (nth_error_None b i)), (proj2 (nth_error_None (map F _) i)); auto;
          [rewrite map_length, seq_length|]; lia.
      + specialize (H k i l l0). rewrite (nth_error_nth _ _ [] Eb) in H. rewrite H.
        rewrite nth_error_map, (nth_error_nth' _ 0) by (rewrite seq_length; auto).
        rewrite seq_nth by auto. cbn. unfold F. now rewrite Eq. }
  clearbody F. clear Eq.
  assert (Hm : every_round (sync_y D (6 * n)) ys (fun ys' =>
      every_device (map (fun dev => (launched dev,
        device_memory (nth dev ys' []) (nth dev fs []) mass (scratch dev))) (seq 0 D))
      (fun ms =>
        (forall m, In m ms -> nth aY m [] = v) /\
        every_round (sync_f D (6 * n)) (map (fun m => nth aF m []) ms) (fun fs' =>
          buffers fs' D (6 * n) /\
          forall dev i, dev < D -> i < 6 * n ->
            nth_error (nth dev fs' []) i = Some (kernel_rhs U B n (D * q) (fun i => nth i v dflt) (fun i => nth i mass dflt) i))))).
  { clear FIN. rewrite En in HM, HV, BY, BF, HY, HL |- *. apply (@multi T U d B q mass v dflt HB HM HV launched ys fs scratch BY BF BS HY).
    intros dev mb Hd H1 H2 H3. destruct HL as [HL|HL].
    - rewrite HL. now apply cuda_devs.
    - specialize (HL dev). rewrite (@opencl_launch T U d B q dev HB : opencl_device U (D * (B * q)) B D dev = _) in HL. injection HL as <-.
      now apply opencl_devs_ok. }
  eapply round_weaken; [|exact Hm]. intros ys'. apply every_device_weaken. intros ms [_ H]. now apply FIN.
Qed.
Print Assumptions C68_deterministic.

(** Two devices, blocks of one body, two bodies: the hypotheses hold, and a run of the model in
    integer arithmetic gives the same right-hand side on both devices. *)
Fixpoint run_devices {T} (devs : list (list (list (prog T)) * mem T)) : option (list (mem T)) :=
  match devs with
  | [] => Some []
  | (rs, m) :: devs => let* m := run_rounds rs m in let* ms := run_devices devs in Some (m :: ms)
  end.
Example C68_ex :
  let D := 2 ^ 1 in let n := D * (1 * 1) in
  let mass := [128; 64]%Z in
  let v := [0; 4;  0; 0;  0; 0;  1; 2;  3; 4;  5; 6]%Z in
  let ys := [[0; 4;  0; 0;  0; 0;  -1; -1;  -1; -1;  -1; -1];
             [-1; -1;  -1; -1;  -1; -1;  1; 2;  3; 4;  5; 6]]%Z in
  let fs := [repeat (-7) 12; repeat (-9) 12]%Z in
  let scratch := fun _ : nat => repeat [(-5)%Z] 13 in
  length mass = n /\ length v = 6 * n /\ buffers ys D (6 * n) /\ buffers fs D (6 * n) /\
  (forall dev, buffers (scratch dev) 13 1) /\
  (forall i, i < 6 * n -> mrd ys (i / (6 * n / D)) i = nth_error v i) /\
  (let* ys' := run_rounds (sync_y D (6 * n)) ys in
   let* ms := run_devices (map (fun dev => (cuda_device Zops n 1 D dev,
      device_memory (nth dev ys' []) (nth dev fs []) mass (scratch dev))) (seq 0 D)) in
   run_rounds (sync_f D (6 * n)) (map (fun m => nth aF m []) ms)) =
  Some (repeat [1; 2;  3; 4;  5; 6;  4; -8;  0; 0;  0; 0]%Z 2).
Proof.
  cbv zeta.
  split; [reflexivity|]. split; [reflexivity|]. split; [split; [reflexivity|repeat constructor]|].
  split; [split; [reflexivity|repeat constructor]|]. split; [intros dev; split; [reflexivity|repeat constructor]|].
  split.
  - intros i Hi. change (6 * (2 ^ 1 * (1 * 1))) with 12 in Hi.
    do 12 (destruct i as [|i]; [reflexivity|]). lia.
  - vm_compute. reflexivity.
Qed.

(** A number of bodies that is not a multiple of (block size * number of devices) is outside what
    the CUDA engine handles, though nothing refuses it.  With three bodies and blocks of two the
    second tile reads past the end of the masses. *)
Theorem C68_refuted : exists (B n : nat) (mass v f : list Z) (scratch : list (list Z)),
  0 < B /\ length mass = n /\ length v = 6 * n /\ length f = 6 * n /\ buffers scratch 13 B /\
  ~ every_round (cuda_device Zops n B 1 0) (device_memory v f mass scratch) (fun _ => True).
Proof.
  exists 2, 3, [1; 1; 1]%Z, (repeat 0 18)%Z, (repeat 0 18)%Z, (repeat [0; 0] 13)%Z.
  split; [lia|]. split; [reflexivity|]. split; [reflexivity|]. split; [reflexivity|].
  split; [split; [reflexivity|repeat constructor]|].
  intros H. apply every_round_runs in H. destruct H as (m' & E & _). vm_compute in E. discriminate.
Qed.
Print Assumptions C68_refuted.

(** With two bodies, blocks of two and two devices every access is in bounds but no body is
    computed: both devices keep whatever [f] held before. *)
Theorem C68_uneven_refuted : exists B n D : nat, 0 < B /\ n mod B = 0 /\ n mod D = 0 /\
  forall (T : Type) (U : NumOps T) (dev : nat) (m : mem T) (good : mem T -> Prop),
    every_round (cuda_device U n B D dev) m good -> good m.
Proof.
  exists 2, 2, 2. split; [lia|]. split; [reflexivity|]. split; [reflexivity|].
  intros T U dev m good H. apply every_round_runs in H. destruct H as (m' & E & H).
  cbn in E. now injection E as ->.
Qed.
Print Assumptions C68_uneven_refuted.

(** The OpenCL run time refuses exactly those launches. *)
Theorem C68_opencl_refuses : forall (T : Type) (U : NumOps T) (n B D dev : nat),
  opencl_device U n B D dev = None <-> (n / D) mod B <> 0.
Proof.
  intros T U n B D dev. unfold opencl_device. destruct (Nat.eqb_spec ((n / D) mod B) 0); split; congruence.
Qed.
Print Assumptions C68_opencl_refuses.
