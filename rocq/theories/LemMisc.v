(** Remaining engine facts: init/get_data, maximum, clamp, allocation, compensated sums. *)
From Coq Require Import ZArith Reals List Arith Lia Lra Bool Permutation.
From Verif Require Import Num Arr ArrLemmas SpecPhys RLemmas ModelVertex ModelForce ModelSum
  ModelEngine ModelParallel LemEngine LemBuffers.
Import ListNotations.
Set Implicit Arguments.

Section Init.
  Context {T : Type}.

  Lemma init_ok n (vrt vel : list (vec3 T)) (mass gm gy : list T) :
    length vrt = n -> length vel = n -> length mass = n -> length gm = n -> length gy = 6 * n ->
    exists y, engine_init n vrt vel mass gm gy = Some (mass, y) /\ length y = 6 * n /\
      forall i, i < n -> rd3 y n 0 i = nth_error vrt i /\ rd3 y n 3 i = nth_error vel i.
  Proof.
    intros L1 L2 L3 L4 L5. unfold engine_init.
    pose (P := fun k (st : list T * list T) =>
      length (fst st) = n /\ length (snd st) = 6 * n /\
      (forall i, i < k -> nth_error (fst st) i = nth_error mass i) /\
      (forall i, i < k -> rd3 (snd st) n 0 i = nth_error vrt i /\ rd3 (snd st) n 3 i = nth_error vel i)).
    match goal with |- context [for_ n 0 ?body ?s] =>
      destruct (@for_inv _ P n 0 body s) as (st & E & HP) end.
    - repeat split; auto; intros; lia.
    - intros k [m y] Hk (H1 & H2 & H3 & H4). cbn [fst snd] in *. unfold init_body. cbn [fst snd].
      destruct (rd_some vrt (i:=k) ltac:(lia)) as [r Er].
      destruct (rd_some vel (i:=k) ltac:(lia)) as [v Ev].
      destruct (rd_some mass (i:=k) ltac:(lia)) as [mi Em].
      rewrite Er, Ev, Em. cbn [obind]. rewrite wr3_upd3 by lia. cbn [obind].
      rewrite wr3_upd3 by (rewrite ?upd3_length; lia). cbn [obind].
      rewrite wr_ok by lia. cbn [obind]. eexists. split; [reflexivity|].
      unfold P. cbn [fst snd]. rewrite !upd3_length, upd_length.
      split; [auto|]. split; [auto|]. unfold rd in *. split.
      + intros i Hi. destruct (Nat.eq_dec i k) as [->|].
        * rewrite upd_nth_same by lia. auto.
        * rewrite upd_nth_other by auto. apply H3. lia.
      + intros i Hi. destruct (Nat.eq_dec i k) as [->|Hne].
        * rewrite Er, Ev. split; apply holds_rd3; apply holds_upd3; rewrite ?upd3_length; auto; try lia;
          rewrite Nat.eqb_refl; cbn [Nat.eqb andb]; auto.
          apply holds_upd3; auto; try lia. rewrite Nat.eqb_refl. reflexivity.
        * destruct (H4 i ltac:(lia)) as [G1 G2].
          destruct (nth_error vrt i) as [r'|] eqn:E1; [|apply nth_error_None in E1; lia].
          destruct (nth_error vel i) as [v'|] eqn:E2; [|apply nth_error_None in E2; lia].
          apply holds_rd3 in G1, G2.
          assert (Nat.eqb k i = false) as He by (apply Nat.eqb_neq; lia).
          split; apply holds_rd3; apply holds_upd3; rewrite ?upd3_length; auto; try lia;
            rewrite He; cbn [andb]; apply holds_upd3; auto; try lia; rewrite He; cbn [andb]; auto.
    - destruct st as [m y]. destruct HP as (H1 & H2 & H3 & H4). cbn [fst snd] in *.
      exists y. rewrite E. split; [|split; auto].
      f_equal. f_equal. apply nth_error_ext; [lia|]. intros i Hi. apply H3. lia.
  Qed.

  Lemma get_data_ok n (y : list T) (vrt0 vel0 vrt vel : list (vec3 T)) :
    length vrt = n -> length vel = n -> length vrt0 = n -> length vel0 = n ->
    (forall i, i < n -> rd3 y n 0 i = nth_error vrt i /\ rd3 y n 3 i = nth_error vel i) ->
    engine_get_data n y vrt0 vel0 = Some (vrt, vel).
  Proof.
    intros L1 L2 L3 L4 H. unfold engine_get_data.
    pose (P := fun k (st : list (vec3 T) * list (vec3 T)) =>
      length (fst st) = n /\ length (snd st) = n /\
      (forall i, i < k -> nth_error (fst st) i = nth_error vrt i /\ nth_error (snd st) i = nth_error vel i)).
    match goal with |- for_ n 0 ?body ?s = _ =>
      destruct (@for_inv _ P n 0 body s) as (st & E & HP) end.
    - repeat split; auto; intros; lia.
    - intros k [p v] Hk (H1 & H2 & H3). cbn [fst snd] in *. unfold get_data_body. cbn [fst snd].
      destruct (H k ltac:(lia)) as [G1 G2]. rewrite G1, G2.
      destruct (nth_error vrt k) as [r'|] eqn:E1; [|apply nth_error_None in E1; lia].
      destruct (nth_error vel k) as [v'|] eqn:E2; [|apply nth_error_None in E2; lia].
      cbn [obind]. rewrite wr_ok by lia. cbn [obind]. rewrite wr_ok by lia. cbn [obind].
      eexists. split; [reflexivity|]. unfold P. cbn [fst snd]. rewrite !upd_length.
      split; auto. split; auto. intros i Hi. destruct (Nat.eq_dec i k) as [->|].
      + rewrite !upd_nth_same by lia. auto.
      + rewrite !upd_nth_other by auto. apply H3. lia.
    - destruct st as [p v]. destruct HP as (H1 & H2 & H3). cbn [fst snd] in *. rewrite E.
      f_equal. f_equal; apply nth_error_ext; try lia; intros i Hi; apply H3; lia.
  Qed.
End Init.

(** maximum *)
Section Max.
  Context {T : Type} (N : NumOps T).
  (** [ok] values (for floating point: not NaN) on which < is a strict total order *)
  Variable ok : T -> Prop.
  Hypothesis Hirr : forall a, ok a -> nltb N a a = false.
  Hypothesis Htr : forall a b c, ok a -> ok b -> ok c ->
    nltb N a b = true -> nltb N b c = true -> nltb N a c = true.
  Hypothesis Htot : forall a b, ok a -> ok b -> nltb N a b = false -> nltb N b a = false -> a = b.

  Lemma nlt_false_trans a b c : ok a -> ok b -> ok c ->
    nltb N a b = false -> nltb N b c = false -> nltb N a c = false.
  Proof.
    intros Ha Hb Hc H1 H2. destruct (nltb N a c) eqn:E; auto. exfalso.
    destruct (nltb N b a) eqn:E1.
    - assert (nltb N b c = true) by (eapply (@Htr b a c); auto). congruence.
    - assert (a = b) by (apply Htot; auto). subst. congruence.
  Qed.

  (** [m] is the maximum of [x] and the list [l] *)
  Definition is_max_of (m x : T) (l : list T) : Prop :=
    (m = x \/ In m l) /\ nltb N m x = false /\ forall v, In v l -> nltb N m v = false.

  Lemma is_max_unique m1 m2 x l :
    ok x -> Forall ok l -> is_max_of m1 x l -> is_max_of m2 x l -> m1 = m2.
  Proof.
    intros Hx Hl (I1 & X1 & L1) (I2 & X2 & L2).
    rewrite Forall_forall in Hl.
    assert (ok m1) by (destruct I1 as [->|]; auto).
    assert (ok m2) by (destruct I2 as [->|]; auto).
    apply Htot; auto.
    - destruct I2 as [->|]; auto.
    - destruct I1 as [->|]; auto.
  Qed.

  Lemma fold_max_ok x l : ok x -> Forall ok l ->
    is_max_of (fold_left (omp_max N) l x) x l /\ ok (fold_left (omp_max N) l x).
  Proof.
    intros Hx. induction l as [|v l IH] using rev_ind; intros Hl.
    - split; auto. split; auto. split; [now apply Hirr|]. intros v [].
    - apply Forall_app in Hl. destruct Hl as [Hl Hv]. apply Forall_inv in Hv.
      destruct (IH Hl) as [(I & X & L) O]. rewrite fold_left_app. cbn [fold_left].
      set (m := fold_left (omp_max N) l x) in *. rewrite Forall_forall in Hl.
      unfold omp_max. destruct (nltb N m v) eqn:E.
      + split; auto. split; [right; apply in_or_app; right; left; reflexivity|].
        assert (Hvm : nltb N v m = false).
        { destruct (nltb N v m) eqn:E'; auto.
          assert (nltb N v v = true) by (eapply (@Htr v m v); auto).
          rewrite Hirr in H; auto. }
        split; [eapply nlt_false_trans with (b := m); auto|].
        intros w Hw. apply in_app_or in Hw. destruct Hw as [Hw|[<-|[]]]; [|now apply Hirr].
        eapply nlt_false_trans with (b := m); auto.
      + split; auto. split.
        * destruct I as [->|I]; [left; reflexivity|right; apply in_or_app; auto].
        * split; auto. intros w Hw. apply in_app_or in Hw. destruct Hw as [Hw|[<-|[]]]; auto.
  Qed.

  Lemma fmaxabs_fold n (a : list T) :
    0 < length a -> n <= length a ->
    fmaxabs N n a = Some (fold_left (omp_max N) (map (nabs N) (firstn n a)) (nabs N (nth 0 a (nlit N 0)))).
  Proof.
    intros H0 Hn. unfold fmaxabs. rewrite (rd_nth a (nlit N 0)) by lia. cbn [obind].
    set (x := nabs N (nth 0 a (nlit N 0))).
    induction n as [|n IH]; auto.
    rewrite for_succ, IH by lia. cbn [Nat.add]. unfold fmaxabs_body.
    rewrite (rd_nth a (nlit N 0)) by lia. cbn [obind].
    rewrite (firstn_snoc N) by lia. rewrite map_app, fold_left_app. reflexivity.
  Qed.

  Lemma omp_part_fold (a : list T) lowest part :
    Forall (fun j => j < length a) part ->
    omp_max_part N a lowest part =
    Some (fold_left (omp_max N) (map (fun j => nabs N (nth j a (nlit N 0))) part) lowest).
  Proof.
    intros H. unfold omp_max_part. revert lowest.
    induction H as [|j part Hj _ IH]; intros lowest; auto.
    cbn [fold_left obind map]. rewrite (rd_nth a (nlit N 0)) by lia. cbn [obind]. apply IH.
  Qed.

  Variable lowest : T.
  Hypothesis Hlow : ok lowest.

  Lemma omp_fmaxabs_max (a : list T) parts :
    0 < length a ->
    Forall (fun v => ok (nabs N v) /\ nltb N (nabs N v) lowest = false) a ->
    Permutation (concat parts) (seq 0 (length a)) ->
    exists r, omp_fmaxabs N a lowest parts = Some r /\ fmaxabs N (length a) a = Some r.
  Proof.
    intros Ha Hok Hperm. unfold omp_fmaxabs. rewrite fmaxabs_fold by lia.
    rewrite (rd_nth a (nlit N 0)) by lia. cbn [obind].
    set (x := nabs N (nth 0 a (nlit N 0))). rewrite firstn_all.
    set (A := fun j => nabs N (nth j a (nlit N 0))).
    rewrite Forall_forall in Hok.
    assert (HA : forall j, j < length a -> ok (A j) /\ nltb N (A j) lowest = false)
      by (intros j Hj; apply Hok; now apply nth_In).
    assert (Hin : Forall (Forall (fun j => j < length a)) parts).
    { apply Forall_forall. intros p Hp. apply Forall_forall. intros j Hj.
      assert (In j (concat parts)) by (apply in_concat; eauto).
      eapply Permutation_in in H; [|exact Hperm]. apply in_seq in H. lia. }
    assert (Hx : ok x) by (apply (HA 0); auto).
    pose (pm := fun part => fold_left (omp_max N) (map A part) lowest).
    assert (E1 : forall x, ok x ->
              fold_left (fun r part => let* r := r in let* p := omp_max_part N a lowest part in
              Some (omp_max N r p)) parts (Some x) =
              Some (fold_left (omp_max N) (map pm parts) x)).
    { clear Hperm x Hx. induction Hin as [|p parts Hp Hps IH]; intros x Hx; auto.
      cbn [fold_left obind map]. rewrite omp_part_fold by auto. cbn [obind]. fold A. fold (pm p).
      apply IH. unfold omp_max. destruct (nltb N x (pm p)); auto.
      apply fold_max_ok; auto. apply Forall_forall. intros v Hv. apply in_map_iff in Hv.
      destruct Hv as (j & <- & Hj). rewrite Forall_forall in Hp. apply HA. auto. }
    rewrite E1 by auto. eexists. split; [reflexivity|]. f_equal.
    assert (Hmap : map (nabs N) a = map A (seq 0 (length a))).
    { apply nth_error_ext; [now rewrite !map_length, seq_length|]. rewrite map_length.
      intros i Hi. rewrite nth_map by auto. unfold A. rewrite nth_error_map.
      now rewrite (nth_error_nth' a (nlit N 0)) by lia. }
    rewrite Hmap.
    (* both are the maximum of x and all elements *)
    assert (OkAll : Forall ok (map A (seq 0 (length a)))).
    { apply Forall_forall. intros v Hv. apply in_map_iff in Hv. destruct Hv as (j & <- & Hj).
      apply in_seq in Hj. apply HA. lia. }
    apply (is_max_unique Hx OkAll); [apply fold_max_ok; auto|].
    assert (Pm : forall p, In p parts -> is_max_of (pm p) lowest (map A p) /\ ok (pm p)).
    { intros p Hp. apply fold_max_ok; auto. apply Forall_forall. intros v Hv. apply in_map_iff in Hv.
      destruct Hv as (j & <- & Hj). rewrite Forall_forall in Hin. specialize (Hin p Hp).
      rewrite Forall_forall in Hin. apply HA. auto. }
    assert (OkPm : Forall ok (map pm parts)).
    { apply Forall_forall. intros v Hv. apply in_map_iff in Hv. destruct Hv as (p & <- & Hp).
      apply Pm; auto. }
    destruct (fold_max_ok Hx OkPm) as [(I & X & L) O].
    set (m := fold_left (omp_max N) (map pm parts) x) in *.
    assert (Hxin : In x (map A (seq 0 (length a)))).
    { apply in_map_iff. exists 0. split; auto. apply in_seq. lia. }
    split; [|split; auto].
    - destruct I as [->|I]; auto. right.
      apply in_map_iff in I. destruct I as (p & Ep & Hp). destruct (Pm p Hp) as [([I2|I2] & X2 & L2) O2].
      + (* the private maximum is the identity: then m = x *)
        assert (Em : m = lowest) by congruence. assert (Emx : m = x); [|rewrite Emx; exact Hxin].
        destruct (HA 0 Ha) as [_ H0]. apply Htot; auto. rewrite Em. exact H0.
      + rewrite <- Ep. apply in_map_iff in I2. destruct I2 as (j & Ej & Hj).
        rewrite <- Ej. apply in_map. eapply Permutation_in; [exact Hperm|]. apply in_concat. eauto.
    - intros v Hv. apply in_map_iff in Hv. destruct Hv as (j & <- & Hj).
      eapply Permutation_in in Hj; [|apply Permutation_sym; exact Hperm].
      apply in_concat in Hj. destruct Hj as (p & Hp & Hj).
      destruct (Pm p Hp) as [(_ & X2 & L2) O2].
      assert (nltb N m (pm p) = false) by (apply L; now apply in_map).
      assert (j < length a).
      { rewrite Forall_forall in Hin. specialize (Hin p Hp). rewrite Forall_forall in Hin. auto. }
      eapply nlt_false_trans with (b := pm p); auto.
      + apply HA; auto.
      + apply L2. now apply in_map.
  Qed.
End Max.

(** allocation *)
Section AllocL.
  Lemma free_buffers_spec mema live x :
    In x (free_buffers mema live) <-> In x live /\ ~ In x mema.
  Proof.
    unfold free_buffers. revert live. induction mema as [|a mema IH]; intros live; cbn [fold_left].
    - simpl. tauto.
    - rewrite IH. unfold free_one. rewrite filter_In. simpl.
      split; intros H.
      + destruct H as [[H1 H2] H3]. split; auto. intros [->|H]; auto.
        rewrite Nat.eqb_refl in H2. discriminate.
      + destruct H as [H1 H2]. split; [|tauto]. split; auto.
        apply negb_true_iff, Nat.eqb_neq. intros ->. tauto.
  Qed.

  Lemma create_loop_spec outcome base k n mema live live0 :
    (forall x, In x live <-> In x live0 \/ In x mema) ->
    (forall x, In x mema -> base <= x < base + n) -> NoDup mema -> length mema = n ->
    (forall x, In x live0 -> x < base) ->
    let r := create_loop outcome base k n mema live in
    ((forall j, n <= j < n + k -> outcome j = true) /\
       length (fst r) = n + k /\ NoDup (fst r) /\
       (forall x, In x (fst r) -> base <= x < base + (n + k)) /\
       (forall x, In x (snd r) <-> In x live0 \/ In x (fst r)))
    \/ ((exists j, n <= j < n + k /\ outcome j = false) /\
        fst r = [] /\ forall x, In x (snd r) <-> In x live0).
  Proof.
    revert n mema live. induction k as [|k IH]; intros n mema live HL HM HN HLen H0; cbn [create_loop].
    - left. cbn. rewrite Nat.add_0_r. repeat split; auto; try (intros; lia); try apply HM; auto; apply HL.
    - destruct (outcome n) eqn:E.
      + specialize (IH (S n) (mema ++ [base + n]) (base + n :: live)).
        destruct IH as [(A1 & A2 & A3 & A4 & A5)|(A1 & A2 & A3)].
        * intros x. simpl. rewrite in_app_iff, HL. simpl. intuition.
        * intros x Hx. apply in_app_or in Hx. destruct Hx as [Hx|[<-|[]]]; [|lia].
          specialize (HM x Hx). lia.
        * apply (Permutation_NoDup (Permutation_cons_append mema (base + n))). constructor; auto. intros Hx. specialize (HM _ Hx). lia.
        * rewrite app_length. simpl. lia.
        * auto.
        * left. split; [|split; [|split; [|split]]]; auto.
          -- intros j Hj. destruct (Nat.eq_dec j n) as [->|]; auto. apply A1. lia.
          -- lia.
          -- intros x Hx. specialize (A4 x Hx). lia.
        * right. destruct A1 as (j & Hj & Ej). split; [exists j; split; auto; lia|]. auto.
      + right. cbn [fst snd]. split; [exists n; split; auto; lia|]. split; auto.
        intros x. rewrite free_buffers_spec, HL. split.
        * tauto.
        * intros Hx. split; auto. intros Hm. specialize (HM x Hm). specialize (H0 x Hx). lia.
  Qed.
End AllocL.

Local Open Scope R_scope.

(** clamp over the reals *)
Lemma clamp_coord_R mind b x :
  let c := clamp_coord (Rops mind) b x in
  0 <= b ->
  (exists k : Z, c = x + IZR k * (2 * b)) /\
  (-b <= x <= b -> c = x) /\
  (- (3 * b) <= x <= 3 * b -> -b <= c <= b).
Proof.
  intros c Hb. unfold c, clamp_coord. cbn.
  destruct (Rlt_dec b x) as [H1|H1].
  - destruct (Rlt_dec (x - 2 * b) (- b)) as [H2|H2].
    + lra.
    + split; [exists (-1)%Z; lra|]. split; intros; lra.
  - destruct (Rlt_dec x (- b)) as [H2|H2].
    + split; [exists 1%Z; lra|]. split; intros; lra.
    + split; [exists 0%Z; lra|]. split; intros; lra.
Qed.

(** compensated summation over the reals: the correction stays the exact rounding error, 0 *)
Lemma ksum_R (c : nat -> R) bgn n s corr :
  for_ n bgn (fun i (st : R * R) => let* x := Some (c i) in
     Some (summation_step Rplus Rminus (fst st) x (snd st))) (s, corr) =
  Some (s + rsum n (fun i => c (bgn + i)%nat) - (if Nat.eqb n 0 then 0 else corr),
        if Nat.eqb n 0 then corr else 0).
Proof.
  induction n as [|n IH].
  - cbn. f_equal. f_equal. ring.
  - rewrite for_succ, IH. cbn [obind]. unfold summation_step. cbn [fst snd rsum Nat.eqb].
    f_equal. destruct n; cbn [Nat.eqb]; f_equal; ring.
Qed.
