(** The largest absolute value on several devices. *)
From Coq Require Import ZArith Reals List Arith Lia Lra Bool.
From Verif Require Import Num Arr ArrLemmas LemEngine ModelEngine LemBuffers RLemmas LemBufProp ModelParallel SpecPar
  LemParallel LemOmp ModelGpu SpecGpu LemGpu LemGpuHost ModelGpuForce LemGpuForce PropGpu PropGpuForce
  ModelGpuOps SpecGpuOps LemGpuOps LemGpuRun.
Import ListNotations.
Set Implicit Arguments.

Lemma nthe_firstn {A} n (l : list A) i : nth_error (firstn n l) i = if i <? n then nth_error l i else None.
Proof.
  revert n i. induction l as [|x l IH]; intros n i.
  - rewrite firstn_nil. destruct i; destruct (_ <? _); auto.
  - destruct n as [|n]; [destruct i; auto|]. destruct i as [|i]; auto. cbn [firstn nth_error]. now rewrite IH.
Qed.
Lemma nthe_skipn {A} (l : list A) a i : nth_error (skipn a l) i = nth_error l (a + i).
Proof. revert l. induction a as [|a IH]; intros [|x l]; auto; cbn; auto. destruct i; auto. Qed.

Section Kernel.
  Context {T : Type} (U : NumOps T).
  Implicit Types m : mem T.
  Local Notation d0 := (nlit U 0).

  Definition mstep (r v : T) : T := if nltb U r (nabs U v) then nabs U v else r.
  Definition slice_max (l : list T) : T := fold_left mstep l (nabs U (hd d0 l)).
  Definition slice (n j : nat) (x : list T) : list T := firstn n (skipn (j * n) x).

  Lemma skipn_nth (x : list T) i : i < length x -> skipn i x = nth i x d0 :: skipn (S i) x.
  Proof.
    revert i. induction x as [|y x IH]; intros i Hi; [simpl in Hi; lia|]. destruct i as [|i]; auto.
    cbn [skipn nth]. apply IH. simpl in Hi. lia.
  Qed.

  Lemma slice_ext n j (x y : list T) : (forall i, j * n <= i < j * n + n -> nth_error x i = nth_error y i) ->
    slice n j x = slice n j y.
  Proof.
    intros H. apply list_ext. intros i. unfold slice. rewrite !nthe_firstn, !nthe_skipn.
    destruct (Nat.ltb_spec i n); auto. apply H. lia.
  Qed.
  Lemma slice_cons n j (x : list T) : 0 < n -> j * n < length x -> slice n j x <> [].
  Proof.
    intros Hn Hx E. unfold slice in E. rewrite (@skipn_nth x (j * n) Hx) in E. destruct n; [lia|discriminate].
  Qed.

  Lemma exec_max_loop alast cnt aindex r k m x : rd m 0 = Some x -> alast <= length x ->
    aindex + cnt <= alast ->
    exec (k_max_loop U alast cnt aindex r k) m = exec (k (fold_left mstep (firstn cnt (skipn aindex x)) r)) m.
  Proof.
    intros E L. revert aindex r. induction cnt as [|cnt IH]; intros ai r H; cbn [k_max_loop].
    - reflexivity.
    - destruct (Nat.ltb_spec ai alast); [|lia]. cbn [exec].
      assert (Er : mrd m 0 ai = Some (nth ai x d0)).
      { unfold mrd. rewrite E. cbn [obind]. apply nth_error_nth'. lia. }
      rewrite Er. cbv zeta. rewrite IH by lia.
      rewrite (@skipn_nth x ai) by lia. cbn [firstn fold_left]. reflexivity.
  Qed.

  Lemma fp_max_loop (R W : region) alast cnt aindex r k : (forall i, R 0 i = true) ->
    (forall r, fp R W (k r)) -> fp R W (k_max_loop U alast cnt aindex r k).
  Proof.
    intros H0 Hk. revert aindex r. induction cnt as [|cnt IH]; intros ai r; cbn [k_max_loop]; auto.
    destruct (ai <? alast); auto. cbn [fp]. split; auto.
  Qed.

  Lemma max_device block dev c rsize (xm out : list T) : 0 < block ->
    (dev * c + c) * block <= length xm -> dev * c + c <= length out -> c <= rsize ->
    every_round [map (fun i => k_fmaxabs U block (dev * (c * block)) (dev * (c * block) + c * block) (dev * c) (0 + i))
                   (seq 0 rsize)] [xm; out]
      (fun m => length (nth 1 m []) = length out /\
         forall i, i < c -> nth_error (nth 1 m []) (dev * c + i) = Some (slice_max (slice block (dev * c + i) xm))).
  Proof.
    intros Hb Lx Lo Hc.
    set (val := fun i => slice_max (slice block (dev * c + i) xm)).
    set (m0 := [xm; out] : mem T).
    set (P := fun i => k_fmaxabs U block (dev * (c * block)) (dev * (c * block) + c * block) (dev * c) (0 + i)).
    assert (Ex : forall i, exec (P i) m0 = Some (if i <? c then upd m0 1 (upd out (dev * c + i) (val i)) else m0)).
    { intros i. unfold P, k_fmaxabs. cbn [Nat.add].
      destruct (Nat.ltb_spec i c) as [Hi|Hi].
      - destruct (Nat.leb_spec (dev * (c * block) + c * block) (i * block + dev * (c * block))); [nia|].
        cbn [exec]. assert (Hlt : i * block + dev * (c * block) < length xm) by nia.
        assert (Er : mrd m0 0 (i * block + dev * (c * block)) = Some (nth (i * block + dev * (c * block)) xm d0)).
        { unfold mrd, m0. cbn [rd nth_error obind]. now apply nth_error_nth'. }
        rewrite Er. rewrite (@exec_max_loop _ _ _ _ _ m0 xm) by (auto; nia). cbn [exec].
        rewrite (@mwr_upd T m0 1 (i + dev * c) _ out) by (auto; nia). f_equal. f_equal.
        rewrite (Nat.add_comm i). f_equal. unfold val, slice_max, slice.
        replace ((dev * c + i) * block) with (i * block + dev * (c * block)) by ring.
        rewrite (@skipn_nth xm) by auto. destruct block as [|b]; [lia|]. reflexivity.
      - destruct (Nat.leb_spec (dev * (c * block) + c * block) (i * block + dev * (c * block))); [|nia].
        reflexivity. }
    cbn [every_round].
    eapply schedule_weaken; [|apply (@list_schedules T nat 0 (seq 0 rsize) P (fun i a _ => a =? 0)
      (fun i a j => (i <? c) && ((a =? 1) && (j =? dev * c + i))) m0
      (fun i => if i <? c then upd m0 1 (upd out (dev * c + i) (val i)) else m0))].
    - cbv beta. intros m (HS & Hw & _).
      assert (L : length (nth 1 m []) = length out).
      { assert (E : nth 1 (shape m) 0 = nth 1 (shape m0) 0) by now rewrite HS.
        unfold shape in E. change 0 with (length (@nil T)) in E. rewrite !map_nth in E. exact E. }
      split; auto. intros i Hi.
      assert (E : mrd m 1 (dev * c + i) = Some (val i)).
      { rewrite (Hw i 1 (dev * c + i)).
        - destruct (Nat.ltb_spec i c); [|lia]. rewrite mrd_upd; auto.
          change (1 =? 1) with true. cbn [m0 length Nat.ltb Nat.leb].
          unfold rd. rewrite upd_nth. rewrite Nat.eqb_refl. destruct (Nat.ltb_spec (dev * c + i) (length out)); [|lia].
          reflexivity.
        - apply in_seq. lia.
        - destruct (Nat.ltb_spec i c); [|lia]. now rewrite !Nat.eqb_refl. }
      unfold mrd, rd, obind in E. destruct (nth_error m 1) as [o|] eqn:E1; [|discriminate].
      now rewrite (nth_error_nth _ _ [] E1).
    - intros i Hi. unfold P, k_fmaxabs. cbn [Nat.add].
      destruct (Nat.leb_spec (dev * (c * block) + c * block) (i * block + dev * (c * block))); [exact I|].
      cbn [fp]. split; [now left|]. intros v. apply fp_max_loop; [reflexivity|]. intros r. cbn [fp].
      split; [|exact I]. destruct (Nat.ltb_spec i c); [|nia]. rewrite (Nat.add_comm i). now rewrite !Nat.eqb_refl.
    - intros j k i i' a x Hne Hj Hk Hw.
      assert (X : forall j c, nth_error (seq 0 rsize) j = Some c -> c = j).
      { intros j0 c0 E0. assert (j0 < rsize). { rewrite <- (seq_length rsize 0). apply nth_error_Some. congruence. }
        rewrite (nth_error_nth' _ 0) in E0 by (now rewrite seq_length). rewrite seq_nth in E0 by auto.
        now injection E0. }
      apply X in Hj, Hk. subst. rewrite !andb_true_iff, !Nat.eqb_eq in Hw. destruct Hw as (_ & -> & ->).
      split; auto. replace (dev * c + j =? dev * c + k) with false by (symmetry; apply Nat.eqb_neq; lia).
      now rewrite !andb_false_r.
    - intros i _. apply Ex.
  Qed.
End Kernel.

Local Open Scope R_scope.
Definition maxabs (l : list R) (r : R) : Prop :=
  (exists v, In v l /\ r = Rabs v) /\ forall v, In v l -> Rabs v <= r.

Lemma maxabs_unique l r r' : maxabs l r -> maxabs l r' -> r = r'.
Proof.
  intros [(v & Hv & ->) H1] [(v' & Hv' & ->) H2]. specialize (H1 _ Hv'). specialize (H2 _ Hv). lra.
Qed.

Section RMax.
  Variable mind : R.
  Local Notation U := (Rops mind).

  Lemma fold_mstep l r : 0 <= r ->
    let z := fold_left (mstep U) l r in
    r <= z /\ (z = r \/ exists v, In v l /\ z = Rabs v) /\ forall v, In v l -> Rabs v <= z.
  Proof.
    revert r. induction l as [|v l IH]; intros r Hr z.
    - unfold z. simpl. split; [lra|]. split; auto. intros v [].
    - unfold z. cbn [fold_left].
      assert (Hs : r <= mstep U r v /\ Rabs v <= mstep U r v /\ (mstep U r v = r \/ mstep U r v = Rabs v)).
      { unfold mstep. simpl. destruct (Rlt_dec r (Rabs v)); repeat split; auto; lra. }
      destruct (IH (mstep U r v)) as (A & B & C); [lra|]. split; [lra|]. split.
      + destruct B as [B|(u & Hu & B)].
        * rewrite B. destruct Hs as (_ & _ & [->| ->]); auto. right. exists v. split; [now left|auto].
        * right. exists u. split; [now right|auto].
      + intros u [->|Hu]; auto. destruct Hs as (_ & Hs & _). lra.
  Qed.

  Lemma slice_max_R l : l <> [] -> maxabs l (slice_max U l).
  Proof.
    intros Hl. destruct l as [|x l]; [congruence|]. unfold slice_max. cbn [hd].
    destruct (@fold_mstep (x :: l) (Rabs x) (Rabs_pos x)) as (A & B & C). split; auto.
    destruct B as [B|B]; auto. exists x. split; [now left|exact B].
  Qed.

  Lemma fold_max_R (l : list R) x :
    let z := fold_left (fun r v => if nltb U r v then v else r) l x in
    In z (x :: l) /\ forall v, In v (x :: l) -> v <= z.
  Proof.
    revert x. induction l as [|v l IH]; intros x z; unfold z; cbn [fold_left].
    - split; [now left|]. intros v [->|[]]. lra.
    - destruct (nltb U x v) eqn:Hx; [apply nltb_R in Hx|apply nltb_R_false in Hx].
      + destruct (IH v) as [A B]. split.
        * destruct A; [right; left|right; right]; auto.
        * intros u [->|[->|Hu]]; [|apply B; now left|apply B; now right].
          pose proof (B v (or_introl eq_refl)). lra.
      + destruct (IH x) as [A B]. split.
        * destruct A; [left|right; right]; auto.
        * intros u [->|[->|Hu]]; [apply B; now left| |apply B; now right].
          pose proof (B x (or_introl eq_refl)). lra.
  Qed.
  Lemma fold_min_R (l : list R) x :
    let z := fold_left (fun r v => if nltb U v r then v else r) l x in
    In z (x :: l) /\ forall v, In v (x :: l) -> z <= v.
  Proof.
    revert x. induction l as [|v l IH]; intros x z; unfold z; cbn [fold_left].
    - split; [now left|]. intros v [->|[]]. lra.
    - destruct (nltb U v x) eqn:Hx; [apply nltb_R in Hx|apply nltb_R_false in Hx].
      + destruct (IH v) as [A B]. split.
        * destruct A; [right; left|right; right]; auto.
        * intros u [->|[->|Hu]]; [|apply B; now left|apply B; now right].
          pose proof (B v (or_introl eq_refl)). lra.
      + destruct (IH x) as [A B]. split.
        * destruct A; [left|right; right]; auto.
        * intros u [->|[->|Hu]]; [apply B; now left| |apply B; now right].
          pose proof (B x (or_introl eq_refl)). lra.
  Qed.

  Lemma minmax_R l : l <> [] -> exists r, minmax_abs U l = Some r /\ maxabs l r.
  Proof.
    intros Hl. destruct l as [|x l]; [congruence|]. unfold minmax_abs.
    destruct (fold_max_R l x) as [A1 A2]. destruct (fold_min_R l x) as [B1 B2].
    set (mx := fold_left (fun r v => if nltb U r v then v else r) l x) in *.
    set (mn := fold_left (fun r v => if nltb U v r then v else r) l x) in *.
    eexists. split; [reflexivity|]. cbn [nabs nltb Rops].
    destruct (Rlt_dec (Rabs mn) (Rabs mx)) as [H|H]; split; eauto;
      intros v Hv; specialize (A2 v Hv); specialize (B2 v Hv); unfold Rabs in *;
      repeat destruct (Rcase_abs _); lra.
  Qed.

  Lemma max_slices (x : list R) n k (hs : list R) : (0 < n)%nat -> (0 < k)%nat -> length x = (k * n)%nat ->
    length hs = k -> (forall j, (j < k)%nat -> exists h, nth_error hs j = Some h /\ maxabs (slice n j x) h) ->
    exists r, max_element U hs = Some r /\ maxabs x r.
  Proof.
    intros Hn Hk Lx Lh H.
    assert (Hin : forall j v, (j < k)%nat -> In v (slice n j x) -> In v x).
    { intros j v Hj Hv. unfold slice in Hv. rewrite <- (firstn_skipn (j * n) x). apply in_or_app. right.
      rewrite <- (firstn_skipn n (skipn (j * n) x)). apply in_or_app. now left. }
    destruct hs as [|h0 hs]; [simpl in Lh; lia|]. unfold max_element.
    destruct (fold_max_R hs h0) as [A B].
    set (z := fold_left (fun r v => if nltb U r v then v else r) hs h0) in *. exists z. split; auto. split.
    - apply In_nth_error in A. destruct A as (j & Ej).
      assert (Hj : (j < k)%nat) by (rewrite <- Lh; apply nth_error_Some; congruence).
      destruct (H j Hj) as (h & Eh & (v & Hv & E) & _). exists v. split; [eauto|congruence].
    - intros v Hv. apply In_nth_error in Hv. destruct Hv as (i & Ei).
      assert (Hi : (i < k * n)%nat) by (rewrite <- Lx; apply nth_error_Some; congruence).
      assert (Hj : (i / n < k)%nat) by (apply Nat.div_lt_upper_bound; lia).
      destruct (H _ Hj) as (h & Eh & _ & M).
      assert (In v (slice n (i / n) x)).
      { unfold slice. apply nth_error_In with (n := (i mod n)%nat).
        pose proof (Nat.mod_upper_bound i n ltac:(lia)). pose proof (Nat.div_mod i n ltac:(lia)).
        rewrite nthe_firstn, nthe_skipn. destruct (Nat.ltb_spec (i mod n) n); [|lia].
        replace (i / n * n + i mod n)%nat with i by lia. exact Ei. }
      specialize (M v H0). specialize (B h). apply nth_error_In in Eh. specialize (B Eh). lra.
  Qed.
End RMax.

Section Max.
  Variable mind : R.
  Local Notation U := (Rops mind).
  Variables (kind : engine_kind) (d block q q' : nat).
  Local Open Scope nat_scope.
  Let D := 2 ^ d.
  Let count := D * (block * q).
  Let size := problem_size count.
  Variable mass : list R.
  Hypothesis Hblock : 0 < block.
  Hypothesis Hq' : count = D * (64 * q').
  Hypothesis Hcount : 0 < count.
  Hypothesis Hmass : length mass = count.
  Hypothesis Heven : kind <> Cuda -> Nat.even (D * q) = true.
  Let w := size / D.

  Lemma max_ok ms s a x r (good : R -> Prop) : assembled D size ms s -> buffers s (length s) size ->
    rd s a = Some x -> fmaxabs U size x = Some r -> good r -> run_max U kind D count block a ms good.
  Proof.
    intros HA Bs Ea Er Hg.
    assert (HD : 0 < D) by (pose proof (Nat.pow_nonzero 2 d); unfold D; lia).
    assert (Lx := @get_len R count s (length s) a x Bs Ea). fold size in Lx.
    assert (Hs : size = D * (6 * q * block)) by (unfold size, problem_size, count; ring).
    assert (Hw : w = 6 * q * block) by (unfold w; rewrite Hs, Nat.mul_comm; now apply Nat.div_mul; lia).
    assert (Hq : 0 < q) by (unfold count in Hcount; nia).
    assert (Hs0 : 0 < size) by (rewrite Hs; nia).
    assert (HR : maxabs x r).
    { destruct (@fmaxabs_R mind x) as (m & E & M); [destruct x; simpl in Lx; [lia|discriminate]|].
      rewrite Lx, Er in E. injection E as ->. exact M. }
    destruct (@assembled_bufs R d block q q' mass Hblock Hq' Hcount Hmass ms s a x HA Ea) as (B & G & _).
    fold D count size in B, G.
    assert (Gx : forall dev, dev < D -> length (nth a (nth dev ms []) []) = size /\
      forall i, dev * w <= i < dev * w + w -> nth_error (nth a (nth dev ms []) []) i = nth_error x i).
    { intros dev Hd. destruct (G dev Hd) as (xm & E1 & _ & E2). unfold rd in E1.
      now rewrite (nth_error_nth _ _ [] E1). }
    unfold run_max. destruct kind as [|ctx].
    - unfold cuda_fmaxabs. fold size. destruct (Nat.eqb_spec size 0); [lia|]. fold w.
      assert (X : forall dev, dev < D -> exists h,
        minmax_abs U (firstn w (skipn (w * dev) (nth a (nth dev ms []) []))) = Some h /\ maxabs (slice w dev x) h).
      { intros dev Hd. destruct (Gx dev Hd) as (Lm & Hm).
        set (xm := nth a (nth dev ms []) []) in *. rewrite (Nat.mul_comm w). change (firstn w (skipn (dev * w) xm)) with (slice w dev xm).
        rewrite (@slice_ext R w dev xm x) by exact Hm. apply minmax_R. apply (@slice_cons R U); nia. }
      set (g := fun dev => match minmax_abs U (firstn w (skipn (w * dev) (nth a (nth dev ms []) []))) with Some h => h | None => 0%R end).
      apply all_some_intro with (g := g).
      { intros dev Hd. destruct (X dev Hd) as (h & E & _). unfold g. now rewrite E. }
      destruct (@max_slices mind x w D (map g (seq 0 D))) as (r' & E' & M'); auto; try nia.
      { now rewrite map_length, seq_length. }
      { intros j Hj. destruct (X j Hj) as (h & E & M). exists h. split; auto.
        rewrite nth_error_map, (nth_error_nth' _ 0) by (now rewrite seq_length). rewrite seq_nth by auto.
        cbn [option_map Nat.add]. unfold g. now rewrite E. }
      exists r'. split; auto. now rewrite (maxabs_unique M' HR).
    - unfold opencl_fmaxabs. fold size. fold w. intros out host Bo Lh.
      assert (Hr : size / block = D * (6 * q)).
      { rewrite Hs. replace (D * (6 * q * block)) with (D * (6 * q) * block) by ring. apply Nat.div_mul. lia. }
      rewrite Hr in Bo, Lh |- *.
      assert (Hrd : D * (6 * q) / D = 6 * q) by (rewrite Nat.mul_comm; apply Nat.div_mul; lia).
      rewrite Hrd. set (c := 6 * q) in *.
      set (g := fun dev => map (fun i => k_fmaxabs U block (dev * w) (dev * w + w) (dev * c) (0 + i)) (seq 0 (D * c))).
      apply all_some_intro with (g := g).
      { intros dev Hd. unfold opencl_kernel.
        assert (E4 : (D * c) mod 4 = 0).
        { destruct (proj1 (Nat.even_spec (D * q)) (Heven ltac:(discriminate))) as (z & Ez).
          unfold c. replace (D * (6 * q)) with (6 * (D * q)) by ring. rewrite Ez.
          replace (6 * (2 * z)) with (3 * z * 4) by ring. apply Nat.mod_mul. lia. }
        rewrite E4. reflexivity. }
      assert (EQ : map (fun dev => ([nth dev (map g (seq 0 D)) []], [nth a (nth dev ms []) []; nth dev out []])) (seq 0 D) =
        map (fun dev => ([g dev], [nth a (nth dev ms []) []; nth dev out []])) (seq 0 D)).
      { apply map_ext_in. intros dev Hd. apply in_seq in Hd. repeat f_equal.
        erewrite nth_indep with (d' := g 0) by (rewrite map_length, seq_length; lia).
        rewrite map_nth, seq_nth by lia. reflexivity. }
      rewrite EQ. clear EQ.
      apply every_device_map with (Q := fun dev m => length (nth 1 m []) = D * c /\
        forall i, i < c -> nth_error (nth 1 m []) (dev * c + i) = Some (slice_max U (slice block (dev * c + i) x))).
      + intros dev Hd. apply in_seq in Hd. destruct (Gx dev ltac:(lia)) as (Lm & Hm).
        set (xm := nth a (nth dev ms []) []) in *.
        destruct (@buffers_get R out D (D * c) dev Bo ltac:(lia)) as (o & Eo & Lo).
        unfold rd in Eo. rewrite (nth_error_nth _ _ [] Eo).
        eapply round_weaken; [|unfold g; rewrite Hw; apply (@max_device R U block dev c (D * c) xm o)]; auto; try nia.
        cbv beta. intros m (L1 & H1). split; [congruence|]. intros i Hi. rewrite H1 by auto. do 2 f_equal.
        apply slice_ext. intros z Hz. apply Hm. rewrite Hw. nia.
      + intros ds HF.
        destruct (@Forall2_seq R _ D ds HF) as [Lds HF'].
        assert (HQ : forall dev, dev < D -> length (nth 1 (nth dev ds []) []) = D * c /\
          forall i, i < c -> nth_error (nth 1 (nth dev ds []) []) (dev * c + i) = Some (slice_max U (slice block (dev * c + i) x))).
        { intros dev Hd. apply HF'. apply nth_error_nth'. lia. }
        assert (Bd : buffers (map (fun m : mem R => nth 1 m []) ds) D (D * c)).
        { split; [now rewrite map_length|]. apply Forall_forall. intros b Hb. apply in_map_iff in Hb.
          destruct Hb as (m & <- & Hm). apply In_nth with (d := []) in Hm. destruct Hm as (dev & Hd & <-).
          apply HQ. lia. }
        destruct (@read_ok R _ D (D * c) host HD Bd ltac:(lia)) as (h & Eh & Lh' & Hh).
        rewrite Hrd in Hh.
        destruct (@max_slices mind x block (D * c) h) as (r' & E' & M'); auto; try nia.
        { intros j Hj. exists (slice_max U (slice block j x)). split.
          - specialize (Hh j). unfold rd in Hh. rewrite Hh. destruct (Nat.ltb_spec j (D * c)); [|lia].
            assert (Hjd : j / c < D) by (apply Nat.div_lt_upper_bound; nia).
            destruct (HQ (j / c) Hjd) as (_ & H1).
            pose proof (Nat.div_mod j c ltac:(nia)). pose proof (Nat.mod_upper_bound j c ltac:(nia)).
            specialize (H1 (j mod c) ltac:(lia)). replace (j / c * c + j mod c) with j in H1 by lia.
            unfold mrd, rd. rewrite nth_error_map. rewrite (nth_error_nth' ds []) by lia.
            cbn [option_map obind]. exact H1.
          - apply slice_max_R. apply (@slice_cons R U); nia. }
        exists h, r'. split; auto. split; auto. now rewrite (maxabs_unique M' HR).
  Qed.
End Max.
