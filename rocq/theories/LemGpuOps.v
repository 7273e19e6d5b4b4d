(** Buffer operations on several devices. *)
From Coq Require Import ZArith List Arith Lia Bool.
From Verif Require Import Num Arr ArrLemmas LemEngine ModelEngine ModelSum LemBuffers ModelParallel SpecPar
  LemParallel LemOmp ModelGpu SpecGpu LemGpu LemGpuHost ModelGpuForce LemGpuForce ModelGpuOps SpecGpuOps.
Import ListNotations.
Set Implicit Arguments.

Lemma list_eq_nth A (l l' : list A) : (forall i, nth_error l i = nth_error l' i) -> l = l'.
Proof.
  revert l'. induction l as [|a l IH]; intros [|b l'] H; auto.
  - now specialize (H 0).
  - now specialize (H 0).
  - pose proof (H 0) as H0. injection H0 as ->. f_equal. apply IH. intros i. exact (H (S i)).
Qed.

Section Column.
  Context {T : Type}.
  Implicit Types m : mem T.

  (** programs that touch only column [k] and write only the arrays in [inW] *)
  Definition column (inW : nat -> bool) (k : nat) (p : prog T) : Prop :=
    fp (fun _ i => i =? k) (fun b i => inW b && (i =? k)) p.

  Lemma seq_app l1 l2 m : exec_seq (T:=T) (l1 ++ l2) m =
    match exec_seq l1 m with Some m' => exec_seq l2 m' | None => None end.
  Proof. revert m. induction l1 as [|p l1 IH]; intros m; simpl; auto. destruct (exec p m); auto. Qed.

  Variables (P : nat -> prog T) (inW : nat -> bool).

  (** a sequential loop over columns: each iteration works alone on the initial memory *)
  Lemma seq_columns n m m' :
    (forall k, k < n -> column inW k (P k)) ->
    exec_seq (map P (seq 0 n)) m = Some m' ->
    (forall k, k < n -> exists mk, exec (P k) m = Some mk /\ (forall a, mrd m' a k = mrd mk a k)) /\
    shape m' = shape m.
  Proof.
    revert m'. induction n as [|n IH]; intros m' Hc E.
    - simpl in E. injection E as <-. split; auto. intros; lia.
    - rewrite seq_S, map_app, seq_app in E.
      destruct (exec_seq (map P (seq 0 n)) m) as [m1|] eqn:E1; [|discriminate].
      destruct (IH m1 ltac:(intros; apply Hc; lia) eq_refl) as [Hk Hs].
      cbn [map exec_seq Nat.add] in E. destruct (exec (P n) m1) as [m2|] eqn:E2; [|discriminate]. injection E as <-.
      assert (Out1 : forall a i, n <= i -> mrd m1 a i = mrd m a i).
      { clear -E1 Hc. revert m1 E1 Hc. induction n as [|n IH]; intros m1 E1 Hc a i Hi.
        - simpl in E1. injection E1 as <-. auto.
        - rewrite seq_S, map_app, seq_app in E1.
          destruct (exec_seq (map P (seq 0 n)) m) as [m3|] eqn:E3; [|discriminate].
          cbn [map exec_seq Nat.add] in E1. destruct (exec (P n) m3) as [m4|] eqn:E4; [|discriminate]. injection E1 as <-.
          rewrite (exec_outside _ _ _ _ (Hc n ltac:(lia)) E4 a i).
          + apply IH; auto; lia.
          + unfold rcompl. replace (i =? n) with false by (symmetry; apply Nat.eqb_neq; lia).
            now rewrite andb_false_r. }
      split; [|now rewrite (exec_shape _ _ E2)].
      intros k Hkn. destruct (Nat.eq_dec k n) as [->|].
      + assert (Ag : agree (runion (fun _ i : nat => i =? n) (fun b i : nat => inW b && (i =? n))) m1 m).
        { intros a i Ha. apply Out1. unfold runion in Ha.
          destruct (Nat.eqb_spec i n); [lia|]. rewrite andb_false_r in Ha. discriminate. }
        destruct (@exec_agree T _ _ (P n) m1 m m2 (Hc n ltac:(lia)) Ag E2) as (mk & Ek & Ak).
        exists mk. split; auto. intros a. apply Ak. unfold runion. now rewrite Nat.eqb_refl.
      + destruct (Hk k ltac:(lia)) as (mk & Ek & Hm). exists mk. split; auto. intros a.
        rewrite <- Hm. apply (exec_outside _ _ _ _ (Hc n ltac:(lia)) E2).
        unfold rcompl. replace (k =? n) with false by (symmetry; apply Nat.eqb_neq; lia).
        now rewrite andb_false_r.
  Qed.

  (** the same loop over a slice, in parallel *)
  Lemma slice_schedules off cnt m :
    (forall k, off <= k < off + cnt -> column inW k (P k)) ->
    (forall k, off <= k < off + cnt -> exec (P k) m <> None) ->
    every_schedule (map (fun i => P (off + i)) (seq 0 cnt)) m (fun m' =>
      shape m' = shape m /\
      (forall a k mk, off <= k < off + cnt -> exec (P k) m = Some mk -> mrd m' a k = mrd mk a k) /\
      (forall a i, ~ off <= i < off + cnt -> mrd m' a i = mrd m a i)).
  Proof.
    intros Hc He.
    set (mk := fun i => match exec (P (off + i)) m with Some m' => m' | None => m end).
    assert (Ek : forall i, i < cnt -> exec (P (off + i)) m = Some (mk i)).
    { intros i Hi. unfold mk. specialize (He (off + i) ltac:(lia)). destruct (exec (P (off + i)) m); congruence. }
    eapply schedule_weaken; [|apply (@list_schedules T nat 0 (seq 0 cnt) (fun i => P (off + i))
      (fun i _ j => j =? off + i) (fun i b j => inW b && (j =? off + i)) m mk)].
    - cbv beta. intros m' (HS & Hw & Ho). split; auto. split.
      + intros a k mk' Hk Em.
        assert (Hin : In (k - off) (seq 0 cnt)) by (apply in_seq; lia).
        assert (Hko : off + (k - off) = k) by lia.
        destruct (inW a) eqn:Ea.
        * rewrite (Hw (k - off) a k Hin) by (rewrite Hko, Nat.eqb_refl; now rewrite Ea).
          f_equal. unfold mk. now rewrite Hko, Em.
        * rewrite Ho.
          -- symmetry. apply (exec_outside _ _ _ _ (Hc k ltac:(lia)) Em). unfold rcompl. now rewrite Ea.
          -- intros c _. now rewrite Ea.
      + intros a i Hi. apply Ho. intros c Hcin. apply in_seq in Hcin.
        replace (i =? off + c) with false by (symmetry; apply Nat.eqb_neq; lia). apply andb_false_r.
    - intros c Hcin. apply in_seq in Hcin. apply Hc. lia.
    - intros j k c c' a i Hne Hj Hk Hw.
      assert (X : forall j c, nth_error (seq 0 cnt) j = Some c -> c = j).
      { intros j0 c0 E0. assert (j0 < cnt). { rewrite <- (seq_length cnt 0). apply nth_error_Some. congruence. }
        rewrite (nth_error_nth' _ 0) in E0 by (now rewrite seq_length). rewrite seq_nth in E0 by auto.
        now injection E0. }
      apply X in Hj, Hk. subst. apply andb_true_iff in Hw. destruct Hw as [_ Hw]. apply Nat.eqb_eq in Hw.
      replace (i =? off + k) with false by (symmetry; apply Nat.eqb_neq; lia). now rewrite andb_false_r.
    - intros c Hcin. apply in_seq in Hcin. apply Ek. lia.
  Qed.
End Column.

Section Part.
  Context {T : Type}.
  Variables (D size : nat).
  Hypothesis HD : 0 < D.
  Implicit Types m s : mem T.

  Lemma shape_buffers m m' n : shape m = shape m' -> buffers m n size -> buffers m' n size.
  Proof.
    unfold shape, buffers. intros E [L F]. split.
    - apply (f_equal (@length nat)) in E. rewrite !map_length in E. congruence.
    - apply Forall_forall. intros b Hb. apply (in_map (@length T)) in Hb. rewrite <- E in Hb.
      apply in_map_iff in Hb. destruct Hb as (b' & <- & Hb'). now apply (proj1 (Forall_forall _ _) F).
  Qed.
  Lemma buffers_shape m m' n : buffers m n size -> buffers m' n size -> shape m = shape m'.
  Proof.
    unfold shape, buffers. revert m' n. induction m as [|x m IH]; intros m' n [L F] [L' F']; subst n.
    - now destruct m'.
    - destruct m' as [|x' m']; [discriminate|]. simpl. inversion F; inversion F'; subst. f_equal; [congruence|].
      apply (IH m' (length m)); split; auto.
  Qed.
  Lemma mrd_out m n a i : buffers m n size -> n <= a -> mrd m a i = None.
  Proof.
    intros [L _] Ha. unfold mrd, rd. rewrite (proj2 (nth_error_None m a)) by lia. reflexivity.
  Qed.

  Variables (P : nat -> prog T) (inW : nat -> bool).
  Hypothesis Hcol : forall k, k < size -> column inW k (P k).

  (** one kernel over the own slice against the loop over everything *)
  Lemma own_slice dev m s s' :
    dev < D ->
    buffers s (length s) size ->
    holds_part D size dev m s ->
    exec_seq (map P (seq 0 size)) s = Some s' ->
    buffers s' (length s) size /\
    every_schedule (map (fun i => P (dev * (size / D) + i)) (seq 0 (size / D))) m
      (fun m' => holds_part D size dev m' s').
  Proof.
    intros Hd Bs [Bm Hm] E. set (w := size / D) in *.
    assert (Hw : D * w <= size) by (apply Nat.mul_div_le; lia).
    destruct (@seq_columns T P inW size s s' Hcol E) as [Hk HS].
    assert (Bs' : buffers s' (length s) size) by (eapply shape_buffers; [symmetry; exact HS|exact Bs]).
    split; [exact Bs'|].
    assert (Ls : length s' = length s) by apply Bs'.
    assert (Hex : forall k, dev * w <= k < dev * w + w -> exists mk mk', exec (P k) m = Some mk /\
       exec (P k) s = Some mk' /\ (forall a, mrd s' a k = mrd mk' a k) /\ (forall a, mrd mk a k = mrd mk' a k)).
    { intros k Hkr. assert (Hks : k < size) by nia.
      destruct (Hk k Hks) as (mk' & Ek' & Hmk').
      assert (Ag : agree (runion (fun _ i : nat => i =? k) (fun b i : nat => inW b && (i =? k))) s m).
      { intros a i Ha. assert (i = k).
        { unfold runion in Ha. destruct (Nat.eqb_spec i k); auto. rewrite andb_false_r in Ha. discriminate. }
        subst i. destruct (le_lt_dec (length s) a).
        - rewrite (@mrd_out m _ a k Bm), (@mrd_out s _ a k Bs); auto.
        - symmetry. apply Hm; auto. lia. }
      destruct (@exec_agree T _ _ (P k) s m mk' (Hcol Hks) Ag Ek') as (mk & Ek & Ak).
      exists mk, mk'. repeat match goal with |- _ /\ _ => split end; auto.
      intros a. symmetry. apply Ak. unfold runion. now rewrite Nat.eqb_refl. }
    eapply schedule_weaken; [|apply (@slice_schedules T P inW (dev * w) w m)].
    - cbv beta. intros m' (HS' & Hin & _). split.
      + rewrite Ls. eapply shape_buffers; [symmetry; exact HS'|exact Bm].
      + intros a i _ Hi. fold w in Hi. destruct (Hex i ltac:(lia)) as (mk & mk' & E1 & E2 & E3 & E4).
        rewrite (Hin a i mk ltac:(lia) E1), E3. apply E4.
    - intros k Hkr. apply Hcol. nia.
    - intros k Hkr. destruct (Hex k Hkr) as (mk & _ & -> & _). discriminate.
  Qed.
End Part.

Section Corr.
  Context {T : Type} (U : NumOps T).
  Notation d0 := (nlit U 0).

  (** compensated addition of several terms is repeated addition of one *)
  Lemma corr_cons n x w y ys c cs x1 w1 r :
    n <= length x -> n <= length w -> n <= length y -> Forall (fun y => n <= length y) ys ->
    length cs <= length ys ->
    fmaddn_corr U n x w [y] [c] 1 = Some (x1, w1) ->
    fmaddn_corr U n x w (y :: ys) (c :: cs) (S (length cs)) = Some r ->
    fmaddn_corr U n x1 w1 ys cs (length cs) = Some r.
  Proof.
    intros Hx Hw Hy Hys Hl E1 E2.
    destruct (@fmaddn_corr_cells T U n x w [y] [c] 1) as (x1' & w1' & E1' & C1 & C2); simpl; auto.
    { intros [|k] Hk; simpl; auto; lia. }
    rewrite E1 in E1'. injection E1' as <- <-.
    assert (L1 : length x1 = length x) by apply C1. assert (L2 : length w1 = length w) by apply C2.
    assert (Hnth : forall k, k < length cs -> n <= length (nth k ys [])).
    { intros k Hk. apply (proj1 (Forall_forall _ _) Hys). apply nth_In. lia. }
    destruct (@fmaddn_corr_cells T U n x w (y :: ys) (c :: cs) (S (length cs))) as (x2 & w2 & E2' & C3 & C4);
      simpl; auto; try lia.
    { intros [|k] Hk; simpl; auto. apply Hnth. lia. }
    rewrite E2 in E2'. injection E2' as ->.
    destruct (@fmaddn_corr_cells T U n x1 w1 ys cs (length cs)) as (x3 & w3 & E3 & C5 & C6); auto; try lia.
    rewrite E3. f_equal.
    assert (K : forall j, j < n -> kfold U (terms (c :: cs) (y :: ys) (S (length cs))) j (nth j x d0, nth j w d0) =
      kfold U (terms cs ys (length cs)) j (nth j x1 d0, nth j w1 d0)).
    { intros j Hj.
      assert (E : (nth j x1 d0, nth j w1 d0) = kfold U (terms [c] [y] 1) j (nth j x d0, nth j w d0)).
      { destruct C1 as [_ C1], C2 as [_ C2]. rewrite (surjective_pairing (kfold U _ _ _)). f_equal.
        - specialize (C1 j). replace (j <? n) with true in C1 by (symmetry; apply Nat.ltb_lt; auto).
          now apply nth_error_nth.
        - specialize (C2 j). replace (j <? n) with true in C2 by (symmetry; apply Nat.ltb_lt; auto).
          now apply nth_error_nth. }
      rewrite E. reflexivity. }
    f_equal.
    - apply list_eq_nth. intros j. rewrite (proj2 C5 j), (proj2 C3 j). destruct (Nat.ltb_spec j n).
      + now rewrite K.
      + destruct C1 as [_ C1]. rewrite C1. now replace (j <? n) with false by (symmetry; apply Nat.ltb_ge; lia).
    - apply list_eq_nth. intros j. rewrite (proj2 C6 j), (proj2 C4 j). destruct (Nat.ltb_spec j n).
      + now rewrite K.
      + destruct C2 as [_ C2]. rewrite C2. now replace (j <? n) with false by (symmetry; apply Nat.ltb_ge; lia).
  Qed.

  Lemma corr_total n x w ys cs :
    n <= length x -> n <= length w -> Forall (fun y => n <= length y) ys -> length cs <= length ys ->
    exists x1 w1, fmaddn_corr U n x w ys cs (length cs) = Some (x1, w1) /\
      length x1 = length x /\ length w1 = length w.
  Proof.
    intros Hx Hw Hys Hl.
    destruct (@fmaddn_corr_cells T U n x w ys cs (length cs)) as (x1 & w1 & E & [C1 _] & [C2 _]); auto.
    - intros k Hk. apply (proj1 (Forall_forall _ _) Hys). apply nth_In. lia.
    - eauto.
  Qed.
  Lemma corr_zero n x w y c x1 w1 : neqb U c d0 = true ->
    n <= length x -> n <= length w -> n <= length y ->
    fmaddn_corr U n x w [y] [c] 1 = Some (x1, w1) -> x1 = x /\ w1 = w.
  Proof.
    intros Hz Hx Hw Hy E1.
    destruct (@fmaddn_corr_cells T U n x w [y] [c] 1) as (x1' & w1' & E1' & C1 & C2); simpl; auto.
    { intros [|k] Hk; simpl; auto; lia. }
    rewrite E1 in E1'. injection E1' as <- <-.
    assert (K : forall j, kfold U (terms [c] [y] 1) j (nth j x d0, nth j w d0) = (nth j x d0, nth j w d0)).
    { intros j. unfold kfold, terms. cbn. now rewrite Hz. }
    split; apply list_eq_nth; intros j.
    - rewrite (proj2 C1 j), K. destruct (Nat.ltb_spec j n); auto. symmetry. apply nth_error_nth'. lia.
    - rewrite (proj2 C2 j), K. destruct (Nat.ltb_spec j n); auto. symmetry. apply nth_error_nth'. lia.
  Qed.
End Corr.

Section Device.
  Context {T : Type} (U : NumOps T) (kind : engine_kind) (D count block : nat).
  Let size := problem_size count.
  Variables (q q' : nat).
  Hypothesis HD : 0 < D.
  Hypothesis Hblock : 0 < block.
  Hypothesis Hq : count = D * (block * q).
  Hypothesis Hq' : count = D * (64 * q').
  Hypothesis Hcount : 0 < count.
  Implicit Types m s : mem T.
  Let w := size / D.

  Lemma w_eq : w = 64 * (6 * q').
  Proof.
    unfold w. symmetry. apply Nat.div_unique_exact; [lia|]. unfold size, problem_size. rewrite Hq'. ring.
  Qed.
  Lemma w_block : w = block * (6 * q).
  Proof.
    unfold w. symmetry. apply Nat.div_unique_exact; [lia|]. unfold size, problem_size. rewrite Hq. ring.
  Qed.
  Lemma w_D : D * w = size.
  Proof. rewrite w_eq. unfold size, problem_size. rewrite Hq'. ring. Qed.
  Lemma launched_mul n : cuda_launched (64 * n) = 64 * n.
  Proof. unfold cuda_launched. rewrite (Nat.mul_comm 64 n), Nat.div_mul by discriminate. reflexivity. Qed.
  Lemma alloc_size_eq : alloc_cells size = size.
  Proof.
    unfold alloc_cells, size, problem_size. assert (E : 6 * count = (6 * (D * q')) * 64) by (rewrite Hq'; ring).
    rewrite E. set (z := 6 * (D * q')) in *. assert (0 < z) by lia. clearbody z. clear E.
    replace (z * 64 - 1) with ((z - 1) * 64 + 63) by lia.
    rewrite Nat.div_add_l by discriminate. replace (63 / 64) with 0 by reflexivity. lia.
  Qed.

  Lemma own_kernel_eq (P : nat -> prog T) dev : dev < D ->
    own_kernel kind D count block P dev = Some (map (fun i => P (dev * w + i)) (seq 0 w)).
  Proof.
    intros Hd. unfold own_kernel. fold size. fold w. destruct kind.
    - unfold cuda_kernel. assert (EL : cuda_launched w = w) by (rewrite w_eq; apply launched_mul).
      rewrite EL. f_equal.
      apply map_ext. intros i. now rewrite Nat.mul_comm.
    - unfold opencl_kernel. assert (EL : w mod block = 0) by (rewrite w_block, Nat.mul_comm; apply Nat.mod_mul; lia).
      rewrite EL. reflexivity.
  Qed.

  Lemma get_len m n a x : buffers m n size -> rd m a = Some x -> length x = size.
  Proof.
    intros [_ F] E. apply (proj1 (Forall_forall _ _) F). eapply nth_error_In. exact E.
  Qed.
  Lemma part_get dev m s a x : holds_part D size dev m s -> rd s a = Some x ->
    exists xm, rd m a = Some xm /\ length xm = size /\
      forall i, dev * w <= i < dev * w + w -> nth_error xm i = nth_error x i.
  Proof.
    intros [Bm Hm] E. assert (Ha : a < length s) by (eapply rd_bound; eauto).
    destruct (buffers_get Bm Ha) as (xm & Em & Lm). exists xm. repeat split; auto.
    intros i Hi. fold w in Hm. specialize (Hm a i Ha ltac:(lia)). unfold mrd in Hm.
    rewrite (Em : rd m a = _), (E : rd s a = _) in Hm. exact Hm.
  Qed.
  Lemma buffers_upd m n a x : buffers m n size -> length x = size -> buffers (upd m a x) n size.
  Proof.
    intros [L F] Lx. split; [now rewrite upd_length|]. apply Forall_forall. intros b Hb.
    apply In_nth_error in Hb. destruct Hb as [k Hk].
    assert (Hk' : nth_error (upd m a x) k = Some b) by exact Hk. clear Hk. rename Hk' into Hk.
    rewrite upd_nth in Hk. destruct (k =? a).
    - destruct (a <? length m); congruence.
    - apply (proj1 (Forall_forall _ _) F). eapply nth_error_In; eauto.
  Qed.
  (** replacing one buffer on both sides *)
  Lemma part_upd dev m s a x xm : holds_part D size dev m s -> length x = size -> length xm = size ->
    (forall i, dev * w <= i < dev * w + w -> nth_error xm i = nth_error x i) ->
    holds_part D size dev (upd m a xm) (upd s a x).
  Proof.
    intros [Bm Hm] Lx Lxm H. split.
    - rewrite upd_length. now apply buffers_upd.
    - intros b i Hb Hi. rewrite upd_length in Hb. unfold mrd, rd. rewrite !upd_nth.
      assert (Lm : length m = length s) by apply Bm. rewrite Lm.
      destruct (Nat.eqb_spec b a) as [->|].
      + apply Nat.ltb_lt in Hb. rewrite Hb. cbn. apply H. fold w in Hi. lia.
      + apply Hm; auto.
  Qed.

  Definition served (o : gop T) (s s' : mem T) : Prop :=
    buffers s' (length s) size /\
    forall dev, dev < D -> exists rs, device_rounds U kind D count block o dev = Some rs /\
      forall m, holds_part D size dev m s -> every_round rs m (fun m' => holds_part D size dev m' s').

  Lemma own_served (P : nat -> prog T) (inW : nat -> bool) o s s' :
    (forall k, k < size -> column inW k (P k)) ->
    buffers s (length s) size ->
    exec_seq (map P (seq 0 size)) s = Some s' ->
    (forall dev, device_rounds U kind D count block o dev =
       (let* k := own_kernel kind D count block P dev in Some [k])) ->
    served o s s'.
  Proof.
    intros Hc Bs E Ho.
    assert (X : forall dev m, dev < D -> holds_part D size dev m s -> buffers s' (length s) size /\
      every_schedule (map (fun i => P (dev * w + i)) (seq 0 w)) m (fun m' => holds_part D size dev m' s')).
    { intros dev m Hd Hm. eapply own_slice; eauto. }
    split.
    - apply (X 0 s HD). split; [exact Bs|auto].
    - intros dev Hd. rewrite Ho, own_kernel_eq by auto. cbn [obind]. eexists. split; [reflexivity|].
      intros m Hm. cbn [every_round]. apply (X dev m Hd Hm).
  Qed.

  Ltac col := intros k Hk; unfold column; cbn; rewrite ?Nat.eqb_refl, ?andb_true_r;
    repeat match goal with
    | |- _ /\ _ => split
    | |- True => exact I
    | |- _ \/ _ => (left; reflexivity) || right
    | |- forall _, _ => intro
    | |- _ = true => cbn; rewrite ?Nat.eqb_refl, ?orb_true_r; reflexivity
    end.

  Lemma fmadd_inplace_served a b c s s' :
    buffers s (length s) size ->
    cpu_op U count (fun _ _ => None) (OFmaddInplace a b c) s = Some s' ->
    served (OFmaddInplace a b c) s s'.
  Proof.
    intros Bs. cbn [cpu_op]. fold size.
    destruct (rd s a) as [x|] eqn:Ea; [|discriminate]. cbn [obind].
    destruct (rd s b) as [y|] eqn:Eb; [|discriminate]. cbn [obind].
    assert (Lx := get_len _ Bs Ea). assert (Ly := get_len _ Bs Eb).
    destruct (@omp_fmadd_inplace_ok T U a b size s x y c) as (x' & E & _ & Eq); auto; try lia.
    rewrite E. cbn [obind]. intros Hw. apply wr_some_inv in Hw. destruct Hw as [_ ->].
    apply own_served with (P := omp_fmadd_inplace U a b c) (inW := fun z => z =? a); auto.
    col.
  Qed.
  Lemma fmadd_served a b c d s s' :
    buffers s (length s) size ->
    cpu_op U count (fun _ _ => None) (OFmadd a b c d) s = Some s' ->
    served (OFmadd a b c d) s s'.
  Proof.
    intros Bs. cbn [cpu_op]. fold size.
    destruct (rd s a) as [x|] eqn:Ea; [|discriminate]. cbn [obind].
    destruct (rd s b) as [y|] eqn:Eb; [|discriminate]. cbn [obind].
    destruct (rd s c) as [z|] eqn:Ec; [|discriminate]. cbn [obind].
    assert (Lx := get_len _ Bs Ea). assert (Ly := get_len _ Bs Eb). assert (Lz := get_len _ Bs Ec).
    destruct (@omp_fmadd_ok T U a b c size s x y z d) as (x' & E & _ & Eq); auto; try lia.
    rewrite E. cbn [obind]. intros Hw. apply wr_some_inv in Hw. destruct Hw as [_ ->].
    apply own_served with (P := omp_fmadd U a b c d) (inW := fun z => z =? a); auto.
    col.
  Qed.

  Lemma rds_spec s bs ys : rds s bs = Some ys ->
    length ys = length bs /\ forall b y, In (b, y) (combine bs ys) -> rd s b = Some y.
  Proof.
    revert ys. induction bs as [|b bs IH]; intros ys; simpl.
    - intros [= <-]. split; auto. intros; contradiction.
    - destruct (rd s b) as [y|] eqn:E; [|discriminate]. cbn [obind].
      destruct (rds s bs) as [r|]; [|discriminate]. cbn [obind]. intros [= <-].
      destruct (IH r eq_refl) as [L H]. split; [simpl; lia|]. simpl.
      intros b' y' [[= <- <-]|H']; auto.
  Qed.
  Lemma rds_upd s bs a x : ~ In a bs -> rds (upd s a x) bs = rds s bs.
  Proof.
    induction bs as [|b bs IH]; intros H; simpl; auto. simpl in H.
    rewrite rd_upd_other by (intros ->; tauto). rewrite IH by tauto. reflexivity.
  Qed.
  Lemma rds_len s bs ys : buffers s (length s) size -> rds s bs = Some ys ->
    Forall (fun y => size <= length y) ys.
  Proof.
    intros Bs. revert ys. induction bs as [|b bs IH]; intros ys; simpl.
    - intros [= <-]. constructor.
    - destruct (rd s b) as [y|] eqn:E; [|discriminate]. cbn [obind].
      destruct (rds s bs) as [r|]; [|discriminate]. cbn [obind]. intros [= <-].
      constructor; auto. now rewrite (get_len _ Bs E).
  Qed.
  Lemma upd_self s a x : rd s a = Some x -> upd s a x = s.
  Proof.
    intros H. apply nth_error_ext; [apply upd_length|]. intros j _. rewrite upd_nth.
    destruct (Nat.eqb_spec j a) as [->|]; auto. assert (X := rd_bound _ _ H). apply Nat.ltb_lt in X.
    now rewrite X.
  Qed.
  Lemma upd2_upd2 s a b x y x' y' : a <> b ->
    upd (upd (upd (upd s a x) b y) a x') b y' = upd (upd s a x') b y'.
  Proof.
    intros Hne. apply nth_error_ext; [now rewrite !upd_length|]. intros j _.
    rewrite !upd_nth, !upd_length. destruct (j =? b), (j =? a); auto.
  Qed.

  Lemma corr_served a corr : a <> corr -> forall cs bs s x v ys r,
    ~ In a bs -> ~ In corr bs -> length cs <= length bs ->
    buffers s (length s) size -> rd s a = Some x -> rd s corr = Some v -> rds s bs = Some ys ->
    fmaddn_corr U size x v ys cs (length cs) = Some r ->
    let s' := upd (upd s a (fst r)) corr (snd r) in
    buffers s' (length s) size /\
    forall dev, dev < D -> exists rs, corr_kernels U kind D count block a corr bs cs dev = Some rs /\
      forall m, holds_part D size dev m s -> every_round rs m (fun m' => holds_part D size dev m' s').
  Proof.
    intros Hne. induction cs as [|c cs IH]; intros bs s x v ys r Na Nc Hl Bs Ea Ec Ey E s'.
    - assert (Lx := get_len _ Bs Ea). assert (Lv := get_len _ Bs Ec).
      assert (r = (x, v)) as ->.
      { destruct (@fmaddn_corr_cells T U size x v ys [] 0) as (x1 & v1 & E1 & C1 & C2); simpl; try lia.
        simpl in E. rewrite E in E1. injection E1 as ->. f_equal; apply list_eq_nth; intros j.
        - rewrite (proj2 C1 j). destruct (Nat.ltb_spec j size); auto. symmetry. apply nth_error_nth'. lia.
        - rewrite (proj2 C2 j). destruct (Nat.ltb_spec j size); auto. symmetry. apply nth_error_nth'. lia. }
      subst s'. cbn [fst snd]. rewrite (upd_self _ _ Ea), (upd_self _ _ Ec). split; auto.
      intros dev Hd. exists []. split; [now destruct bs|]. intros m Hm. exact Hm.
    - destruct bs as [|b bs]; [simpl in Hl; lia|]. cbn [rds] in Ey.
      destruct (rd s b) as [y|] eqn:Eb; [|discriminate]. cbn [obind] in Ey.
      destruct (rds s bs) as [ys'|] eqn:Eys; [|discriminate]. cbn [obind] in Ey. injection Ey as <-.
      assert (Lx := get_len _ Bs Ea). assert (Lv := get_len _ Bs Ec). assert (Ly := get_len _ Bs Eb).
      assert (Lys := @rds_len s bs ys' Bs Eys). assert (Ln := proj1 (@rds_spec s bs ys' Eys)).
      simpl in Na, Nc, Hl.
      destruct (@corr_total T U size x v [y] [c]) as (x1 & v1 & E1 & Lx1 & Lv1); simpl; try lia.
      { constructor; auto. lia. }
      cbn [length] in E, E1. assert (E2 : fmaddn_corr U size x1 v1 ys' cs (length cs) = Some r).
      { eapply corr_cons with (x := x) (w := v) (y := y) (c := c); eauto; lia. }
      cbn [corr_kernels]. destruct (neqb U c (nlit U 0)) eqn:Ez.
      + destruct (@corr_zero T U size x v y c x1 v1 Ez) as [-> ->]; auto; try lia.
        destruct (IH bs s x v ys' r) as [B' H]; auto; try tauto; try lia. split; [exact B'|].
        intros dev Hd. destruct (H dev Hd) as (rs & -> & Hrs). cbn [obind]. eauto.
      + set (s1 := upd (upd s a x1) corr v1).
        assert (Eq : exec_seq (map (k_fmadd_inplace_corr U a corr b c) (seq 0 size)) s = Some s1).
        { destruct (@omp_fmaddn_corr_ok T U a corr size s x v [c] [b] (fun _ => y)) as (x2 & v2 & E3 & _ & E4);
            auto; try lia.
          - intros id [<-|[]]. repeat split; auto; try lia.
          - cbn [map length] in E3. rewrite E1 in E3. injection E3 as <- <-.
            cbn [combine] in E4. fold s1 in E4. rewrite <- E4. f_equal. apply map_ext. intros i.
            cbn [omp_fmaddn_corr]. rewrite Ez. reflexivity. }
        assert (Bs1 : buffers s1 (length s) size) by (unfold s1; apply buffers_upd; [apply buffers_upd|]; auto; lia).
        assert (Ls1 : length s1 = length s) by apply Bs1.
        assert (Hac : a < length s) by (eapply rd_bound; eauto).
        assert (Hcc : corr < length s) by (eapply rd_bound; eauto).
        destruct (IH bs s1 x1 v1 ys' r) as [B' H]; auto; try tauto; try lia.
        * now rewrite Ls1.
        * unfold s1. rewrite rd_upd_other by auto. eapply rd_upd_same; eauto.
        * unfold s1. eapply rd_upd_same. rewrite rd_upd_other by auto. eauto.
        * unfold s1. rewrite !rds_upd by tauto. exact Eys.
        * assert (Es : upd (upd s1 a (fst r)) corr (snd r) = s') by (apply upd2_upd2; auto).
          rewrite Es, Ls1 in B'. split; [exact B'|]. intros dev Hd.
          destruct (H dev Hd) as (rs & Ers & Hrs). rewrite Ers. cbn [obind].
          rewrite own_kernel_eq by auto. cbn [obind]. eexists. split; [reflexivity|].
          intros m Hm. cbn [every_round].
          eapply schedule_weaken; [|eapply own_slice with (inW := fun z => (z =? a) || (z =? corr)); eauto].
          -- intros m' Hm'. cbv beta in Hm'. rewrite <- Es. apply Hrs. exact Hm'.
          -- clear -Hne. col.
  Qed.

  (** kernels over the whole buffer *)
  Lemma fill_served a v s s' :
    buffers s (length s) size ->
    cpu_op U count (fun _ _ => None) (OFill a v) s = Some s' -> served (OFill a v) s s'.
  Proof.
    intros Bs. cbn [cpu_op]. destruct (rd s a) as [x|] eqn:Ea; [|discriminate]. cbn [obind].
    assert (Lx := get_len _ Bs Ea). rewrite (fill_repeat x v). cbn [obind].
    intros Hw. apply wr_some_inv in Hw. destruct Hw as [_ ->].
    split; [apply buffers_upd; auto; now rewrite repeat_length|]. intros dev Hd.
    exists [map (omp_fill a v) (seq 0 size)]. split.
    - cbn [device_rounds]. destruct kind; [reflexivity|]. fold size. rewrite alloc_size_eq.
      unfold opencl_kernel. assert (E : size mod block = 0).
      { rewrite <- w_D, w_block. replace (D * (block * (6 * q))) with ((D * (6 * q)) * block) by ring.
        apply Nat.mod_mul. lia. }
      rewrite E. reflexivity.
    - intros m Hm. destruct (@part_get dev m s _ _ Hm Ea) as (xm & Em & Lm & Hxm).
      destruct (@omp_fill_ok T a m xm v Em) as (x' & E1 & E2 & _). rewrite Lm in E2.
      rewrite (fill_repeat xm v) in E1. injection E1 as <-.
      cbn [every_round]. eapply schedule_weaken; [|exact E2]. intros m' ->.
      apply part_upd; auto; try (rewrite repeat_length; lia).
      intros i Hi. assert (i < size). { rewrite <- w_D. nia. } rewrite Lx, Lm. reflexivity.
  Qed.
  Lemma copy_served a b s s' :
    buffers s (length s) size ->
    cpu_op U count (fun _ _ => None) (OCopy a b) s = Some s' -> served (OCopy a b) s s'.
  Proof.
    intros Bs. cbn [cpu_op]. fold size.
    destruct (rd s a) as [x|] eqn:Ea; [|discriminate]. cbn [obind].
    destruct (rd s b) as [y|] eqn:Eb; [|discriminate]. cbn [obind].
    assert (Lx := get_len _ Bs Ea). assert (Ly := get_len _ Bs Eb).
    destruct (@copy_cells T U size x y) as (x' & E & Lx' & Hx'); try lia. rewrite E. cbn [obind].
    intros Hw. apply wr_some_inv in Hw. destruct Hw as [_ ->].
    split; [apply buffers_upd; auto; lia|]. intros dev Hd.
    eexists. split; [reflexivity|]. fold size.
    intros m Hm. destruct (@part_get dev m s _ _ Hm Ea) as (xm & Em & Lm & Hxm).
    destruct (@part_get dev m s _ _ Hm Eb) as (ym & Fm & Mm & Hym).
    destruct (@omp_copy_ok T U a b size m xm ym Em Fm) as (xm' & E1 & E2 & _); try lia.
    destruct (@copy_cells T U size xm ym) as (x2 & E3 & Lx2 & Hx2); try lia. rewrite E1 in E3. injection E3 as <-.
    cbn [every_round]. eapply schedule_weaken; [|exact E2]. intros m' ->.
    apply part_upd; auto; try lia.
    intros i Hi. assert (i < size). { rewrite <- w_D. nia. } rewrite Hx', Hx2.
    apply Nat.ltb_lt in H. rewrite H. rewrite <- (nth_error_nth' ym (nlit U 0)) by (apply Nat.ltb_lt in H; lia).
    rewrite <- (nth_error_nth' y (nlit U 0)) by (apply Nat.ltb_lt in H; lia). auto.
  Qed.
  Lemma clamp_served y b s s' :
    buffers s (length s) size ->
    cpu_op U count (fun _ _ => None) (OClamp y b) s = Some s' -> served (OClamp y b) s s'.
  Proof.
    intros Bs. cbn [cpu_op]. destruct (rd s y) as [x|] eqn:Ea; [|discriminate]. cbn [obind].
    assert (Lx := get_len _ Bs Ea). assert (H3 : 3 * count <= size) by (unfold size, problem_size; lia).
    destruct (@clamp_cells T U count x b) as (x' & E & Lx' & Hx'); try lia. rewrite E. cbn [obind].
    intros Hw. apply wr_some_inv in Hw. destruct Hw as [_ ->].
    split; [apply buffers_upd; auto; lia|]. intros dev Hd.
    exists [map (omp_clamp U y count b) (seq 0 count)]. split.
    - cbn [device_rounds]. destruct kind.
      + unfold cuda_kernel. assert (EL : cuda_launched count = count).
        { rewrite Hq'. replace (D * (64 * q')) with (64 * (D * q')) by ring. apply launched_mul. }
        rewrite EL. reflexivity.
      + unfold opencl_kernel. assert (EL : count mod block = 0).
        { rewrite Hq. replace (D * (block * q)) with ((D * q) * block) by ring. apply Nat.mod_mul. lia. }
        rewrite EL. reflexivity.
    - intros m Hm. destruct (@part_get dev m s _ _ Hm Ea) as (xm & Em & Lm & Hxm).
      destruct (@omp_clamp_ok T U y count b m xm Em) as (xm' & E1 & E2 & _); try lia.
      destruct (@clamp_cells T U count xm b) as (x2 & E3 & Lx2 & Hx2); try lia. rewrite E1 in E3. injection E3 as <-.
      cbn [every_round]. eapply schedule_weaken; [|exact E2]. intros m' ->.
      apply part_upd; auto; try lia.
      intros i Hi. assert (i < size). { rewrite <- w_D. nia. } rewrite Hx', Hx2.
      destruct (i <? 3 * count); auto. do 2 f_equal.
      specialize (Hxm i Hi). rewrite (nth_error_nth' xm (nlit U 0)), (nth_error_nth' x (nlit U 0)) in Hxm by lia.
      congruence.
  Qed.

  Definition kernel_op (o : gop T) : Prop :=
    match o with OFcompute _ _ => False | _ => True end.

  Lemma all_served force o s s' : kernel_op o -> op_ok o ->
    buffers s (length s) size ->
    cpu_op U count force o s = Some s' -> served o s s'.
  Proof.
    intros Hk Ho Bs E. destruct o.
    - apply fill_served; auto.
    - apply copy_served; auto.
    - apply fmadd_inplace_served; auto.
    - apply fmadd_served; auto.
    - cbn [op_ok] in Ho. destruct Ho as (N1 & N2 & N3). cbn [cpu_op] in E. fold size in E.
      destruct (rd s a) as [x|] eqn:Ea; [|discriminate]. cbn [obind] in E.
      destruct (rd s corr) as [v|] eqn:Ec; [|discriminate]. cbn [obind] in E.
      destruct (rds s b) as [ys|] eqn:Ey; [|discriminate]. cbn [obind] in E.
      destruct (fmaddn_corr U size x v ys c (length c)) as [r|] eqn:Er; [|discriminate]. cbn [obind] in E.
      destruct (wr s a (fst r)) as [s1|] eqn:E1; [|discriminate]. cbn [obind] in E.
      apply wr_some_inv in E1. destruct E1 as [_ ->]. apply wr_some_inv in E. destruct E as [_ ->].
      assert (Ln := proj1 (@rds_spec s b ys Ey)).
      destruct (Nat.ltb_spec (length b) (length c)) as [Hlt|Hge].
      + unfold fmaddn_corr in Er. rewrite Ln in Er.
        assert (Hlt' := Hlt). apply Nat.ltb_lt in Hlt'. rewrite Hlt' in Er. injection Er as <-. cbn [fst snd].
        assert (Es : upd (upd s a x) corr v = s) by (rewrite (upd_self _ _ Ea); apply upd_self; auto).
        rewrite Es. split; auto.
        intros dev Hd. exists []. cbn [device_rounds]. rewrite Hlt'. split; auto.
      + destruct (@corr_served a corr N1 c b s x v ys r N2 N3 Hge Bs Ea Ec Ey Er) as [B H]. split; [exact B|].
        intros dev Hd. cbn [device_rounds]. apply Nat.ltb_ge in Hge. rewrite Hge. apply H. exact Hd.
    - apply clamp_served; auto.
    - contradiction.
  Qed.
End Device.
