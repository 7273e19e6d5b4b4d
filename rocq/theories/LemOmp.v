(** The loops of the openmp engine. *)
From Coq Require Import ZArith List Arith Lia Bool Permutation.
From Verif Require Import Num Arr ArrLemmas ModelVertex ModelForce ModelSum ModelEngine
  ModelParallel SpecPar LemEngine LemParallel LemBuffers.
Import ListNotations.
Set Implicit Arguments.

Section Term.
  Context {T : Type}.

  Inductive lsub : list (prog T) -> list (prog T) -> Prop :=
  | lsub_one l1 p p' l2 : sub p' p -> lsub (l1 ++ p' :: l2) (l1 ++ p :: l2).

  Lemma lsub_cons_acc p l : Acc lsub l -> Acc lsub (p :: l).
  Proof.
    intros Hl. revert l Hl. induction p as [p IHp] using (well_founded_induction sub_wf).
    intros l Hl. induction Hl as [l Hl IHl]. constructor. intros q Hq.
    inversion Hq as [l1 p0 p' l2 Hs E1 E2]; subst. destruct l1 as [|x l1]; simpl in *.
    - injection E2 as -> ->. apply IHp; auto. now constructor.
    - injection E2 as -> <-. apply IHl. now constructor.
  Qed.

  Lemma lsub_wf : well_founded lsub.
  Proof.
    intros l. induction l as [|p l IH].
    - constructor. intros q Hq. inversion Hq as [l1 p0 p' l2 Hs E1 E2].
      destruct l1; discriminate.
    - now apply lsub_cons_acc.
  Qed.

  Lemma all_schedules_finite (c : list (prog T) * mem T) : schedules_finite c.
  Proof.
    destruct c as [ps m]. unfold schedules_finite. revert m.
    induction ps as [ps IH] using (well_founded_induction lsub_wf). intros m.
    constructor. intros [ps' m'] Hs. apply IH. inversion Hs; subst. constructor.
    match goal with H : act _ _ _ _ |- _ => destruct H; constructor end.
  Qed.
End Term.

Section Loop.
  Context {T : Type}.
  Variables (n : nat) (P : nat -> prog T) (R W : nat -> region) (m0 : mem T) (mk : nat -> mem T).
  Hypothesis Hfp : forall k, k < n -> fp (R k) (W k) (P k).
  Hypothesis Hdisj : forall j k a i, j < n -> k < n -> j <> k ->
    W j a i = true -> R k a i = false /\ W k a i = false.
  Hypothesis Halone : forall k, k < n -> exec (P k) m0 = Some (mk k).

  Lemma loop_schedules mf :
    final n W m0 mk mf ->
    every_schedule (map P (seq 0 n)) m0 (fun m => m = mf) /\
    exec_seq (map P (seq 0 n)) m0 = Some mf.
  Proof.
    intros HF. split; [split|].
    - apply all_schedules_finite.
    - intros ps m Hr. split; [|split].
      + eapply par_safe; eauto.
      + intros j k p q a i Hne Hj Hk Hw Ha. eapply par_no_race; eauto.
      + intros Hs. assert (HD : Forall (eq PRet) ps) by (eapply par_progress; eauto).
        split; auto. eapply final_unique; eauto. eapply par_final; eauto.
    - assert (G : forall j, j <= n -> exists m1, exec_seq (map P (seq 0 j)) m0 = Some m1 /\
         forall k, j <= k -> k < n -> agree (runion (R k) (W k)) m0 m1).
      { induction j as [|j IH]; intros Hj.
        - exists m0. split; auto. intros k _ _ a i _. auto.
        - destruct IH as (m1 & E1 & A1); [lia|].
          assert (Eapp : forall l1 l2 m, exec_seq (T:=T) (l1 ++ l2) m =
             match exec_seq l1 m with Some m' => exec_seq l2 m' | None => None end).
          { clear. induction l1 as [|p l1 IH]; intros l2 m; simpl; auto.
            destruct (exec p m); auto. }
          rewrite seq_S, map_app, Eapp, E1. simpl.
          destruct (@exec_agree T (R j) (W j) (P j) m0 m1 (mk j)) as (m2 & E2 & A2); auto.
          rewrite E2. exists m2. split; auto. intros k Hk Hkn a i Ha.
          rewrite (A1 k ltac:(lia) Hkn a i Ha). symmetry.
          apply (@exec_outside T (R j) (W j) (P j) m1 m2); auto.
          unfold rcompl. destruct (W j a i) eqn:Ew; auto.
          destruct (@Hdisj j k a i ltac:(lia) Hkn ltac:(lia) Ew) as [X Y].
          unfold runion in Ha. rewrite X, Y in Ha. discriminate. }
      destruct (G n ltac:(lia)) as (m1 & E1 & _). rewrite E1. f_equal.
      eapply final_unique; eauto. apply exec_seq_par in E1.
      eapply par_final; [eauto|eauto|eauto|exact E1|].
      apply Forall_forall. intros p Hp. apply in_map_iff in Hp. destruct Hp as (? & <- & _). reflexivity.
  Qed.
End Loop.

Section Ops.
  Context {T : Type} (N : NumOps T).
  Notation d0 := (nlit N 0).
  Implicit Types m : mem T.

  Lemma nth_upd_mem m A (a' : list T) j :
    A < length m -> nth_error (upd m A a') j = if Nat.eqb j A then Some a' else nth_error m j.
  Proof. intros H. rewrite upd_nth. apply Nat.ltb_lt in H. now rewrite H. Qed.

  Lemma mrd_upd m A (a' : list T) b j :
    A < length m -> mrd (upd m A a') b j = if Nat.eqb b A then nth_error a' j else mrd m b j.
  Proof.
    intros H. unfold mrd, rd. rewrite nth_upd_mem by auto. now destruct (Nat.eqb b A).
  Qed.

  Lemma shape_upd m A (a a' : list T) :
    rd m A = Some a -> length a' = length a -> shape (upd m A a') = shape m.
  Proof.
    intros Hr HL. assert (HA := rd_bound _ _ Hr). apply nth_error_ext; unfold shape.
    - now rewrite !map_length, upd_length.
    - intros j _. rewrite !nth_error_map, nth_upd_mem by auto.
      destruct (Nat.eqb_spec j A) as [->|]; auto. unfold rd in Hr. rewrite Hr. simpl. congruence.
  Qed.

  Lemma mwr_upd m A i v a : rd m A = Some a -> i < length a -> mwr m A i v = Some (upd m A (upd a i v)).
  Proof.
    intros H Hi. unfold mwr. rewrite H. cbn [obind]. rewrite wr_ok by auto. cbn [obind].
    apply wr_ok. eapply rd_bound; eauto.
  Qed.
  Arguments mwr_upd {m A i v a}.

  (** loops where iteration [k] touches only cells with index [k] and writes only cell [k] of A *)
  Lemma cell_loop A n (P : nat -> prog T) (val : nat -> T) m a a' :
    rd m A = Some a -> n <= length a ->
    (forall k, k < n -> fp (fun _ i => i =? k) (fun b i => (b =? A) && (i =? k)) (P k)) ->
    (forall k, k < n -> exec (P k) m = Some (upd m A (upd a k (val k)))) ->
    cells_set n val a a' ->
    every_schedule (map P (seq 0 n)) m (fun m' => m' = upd m A a') /\
    exec_seq (map P (seq 0 n)) m = Some (upd m A a').
  Proof.
    intros Hr Hn Hf He [HL HC]. assert (HA := rd_bound _ _ Hr).
    eapply loop_schedules with (R := fun k _ i => i =? k) (W := fun k b i => (b =? A) && (i =? k))
      (mk := fun k => upd m A (upd a k (val k))); auto.
    - intros j k b i Hj Hk Hne Hw. apply andb_true_iff in Hw. destruct Hw as [_ Hw].
      apply Nat.eqb_eq in Hw. subst i. replace (j =? k) with false by (symmetry; now apply Nat.eqb_neq).
      split; auto. apply andb_false_r.
    - split; [eapply shape_upd; eauto|]. split.
      + intros k b i Hk Hw. apply andb_true_iff in Hw. destruct Hw as [H1 H2].
        apply Nat.eqb_eq in H1, H2. subst b i. rewrite !mrd_upd, Nat.eqb_refl by auto.
        rewrite HC, upd_nth_same by lia.
        now replace (k <? n) with true by (symmetry; apply Nat.ltb_lt; lia).
      + intros b i Hw. rewrite mrd_upd by auto. destruct (Nat.eqb_spec b A) as [->|]; auto.
        rewrite HC. destruct (Nat.ltb_spec i n) as [Hi|Hi].
        * specialize (Hw i Hi). cbn in Hw. rewrite !Nat.eqb_refl in Hw. discriminate.
        * unfold mrd. rewrite Hr. reflexivity.
  Qed.

  Lemma mrd_nth m A a i : rd m A = Some a -> i < length a -> mrd m A i = Some (nth i a d0).
  Proof. intros H Hi. unfold mrd. rewrite H. cbn [obind]. now apply rd_nth. Qed.
  Arguments mrd_nth {m A a i}.

  Ltac fpt := repeat split; cbn; rewrite ?Nat.eqb_refl; auto.

  Lemma omp_copy_ok A B n m a b :
    rd m A = Some a -> rd m B = Some b -> n <= length a -> n <= length b ->
    exists a', copy_buffer n a b = Some a' /\
      every_schedule (map (omp_copy A B) (seq 0 n)) m (fun m' => m' = upd m A a') /\
      exec_seq (map (omp_copy A B) (seq 0 n)) m = Some (upd m A a').
  Proof.
    intros HA HB Ha Hb. destruct (@copy_cells T N n a b) as (a' & E & C); auto.
    exists a'. split; auto. eapply cell_loop; eauto.
    - intros k Hk. fpt.
    - intros k Hk. cbn. rewrite (mrd_nth HB) by lia. rewrite (mwr_upd HA) by lia. reflexivity.
  Qed.

  Lemma omp_fill_ok A m a v :
    rd m A = Some a ->
    exists a', fill_buffer a v = Some a' /\
      every_schedule (map (omp_fill A v) (seq 0 (length a))) m (fun m' => m' = upd m A a') /\
      exec_seq (map (omp_fill A v) (seq 0 (length a))) m = Some (upd m A a').
  Proof.
    intros HA. destruct (@fill_cells T a v) as (a' & E & C); auto.
    exists a'. split; auto. eapply cell_loop; eauto.
    - intros k Hk. fpt.
    - intros k Hk. cbn. rewrite (mwr_upd HA) by lia. reflexivity.
  Qed.

  Lemma omp_fmadd_inplace_ok A B n m a b c :
    rd m A = Some a -> rd m B = Some b -> n <= length a -> n <= length b ->
    exists a', fmadd_inplace N n a b c = Some a' /\
      every_schedule (map (omp_fmadd_inplace N A B c) (seq 0 n)) m (fun m' => m' = upd m A a') /\
      exec_seq (map (omp_fmadd_inplace N A B c) (seq 0 n)) m = Some (upd m A a').
  Proof.
    intros HA HB Ha Hb. destruct (@fmadd_inplace_cells T N n a b c) as (a' & E & C); auto.
    exists a'. split; auto. eapply cell_loop; eauto.
    - intros k Hk. fpt.
    - intros k Hk. cbn. rewrite (mrd_nth HA) by lia. rewrite (mrd_nth HB) by lia.
      rewrite (mwr_upd HA) by lia. reflexivity.
  Qed.

  Lemma omp_fmadd_ok A B C n m a b c d :
    rd m A = Some a -> rd m B = Some b -> rd m C = Some c ->
    n <= length a -> n <= length b -> n <= length c ->
    exists a', fmadd N n a b c d = Some a' /\
      every_schedule (map (omp_fmadd N A B C d) (seq 0 n)) m (fun m' => m' = upd m A a') /\
      exec_seq (map (omp_fmadd N A B C d) (seq 0 n)) m = Some (upd m A a').
  Proof.
    intros HA HB HC Ha Hb Hc. destruct (@fmadd_cells T N n a b c d) as (a' & E & Cs); auto.
    exists a'. split; auto. eapply cell_loop; eauto.
    - intros k Hk. fpt.
    - intros k Hk. cbn. rewrite (mrd_nth HB) by lia. rewrite (mrd_nth HC) by lia.
      rewrite (mwr_upd HA) by lia. reflexivity.
  Qed.

  (** loops over bodies: iteration [k] writes only cells of body [k] in array A; [keep] says which
      of its cells it may touch *)
  Definition bodyW (A n K k : nat) : region := fun b i => (b =? A) && (i <? K * n) && (i mod n =? k).

  Lemma bodyW_cell A n K k c : k < n -> c < K -> bodyW A n K k A (c * n + k) = true.
  Proof.
    intros Hk Hc. unfold bodyW. rewrite Nat.eqb_refl.
    replace (c * n + k <? K * n) with true by (symmetry; apply Nat.ltb_lt; now apply soa_bound).
    rewrite Nat.add_comm, Nat.mod_add, Nat.mod_small by lia. now rewrite Nat.eqb_refl.
  Qed.

  Lemma body_loop A n K (P : nat -> prog T) (R : region) (res : nat -> list T) m a a' :
    rd m A = Some a -> K * n <= length a ->
    (forall i, R A i = false) ->
    (forall k, k < n -> fp R (bodyW A n K k) (P k)) ->
    (forall k, k < n -> exec (P k) m = Some (upd m A (res k))) ->
    length a' = length a ->
    (forall k c, k < n -> c < K -> nth_error (res k) (c * n + k) = nth_error a' (c * n + k)) ->
    (forall j, K * n <= j -> nth_error a' j = nth_error a j) ->
    every_schedule (map P (seq 0 n)) m (fun m' => m' = upd m A a') /\
    exec_seq (map P (seq 0 n)) m = Some (upd m A a').
  Proof.
    intros Hr Hn HR Hf He HL HC HO. assert (HA := rd_bound _ _ Hr).
    eapply loop_schedules with (R := fun _ => R) (W := fun k => bodyW A n K k)
      (mk := fun k => upd m A (res k)); auto.
    - intros j k b i Hj Hk Hne Hw. unfold bodyW in *. apply andb_true_iff in Hw.
      destruct Hw as [Hw1 Hw2]. apply andb_true_iff in Hw1. destruct Hw1 as [Hw0 Hw1].
      apply Nat.eqb_eq in Hw0, Hw2. subst b. split; auto.
      rewrite Hw2. replace (j =? k) with false by (symmetry; now apply Nat.eqb_neq).
      apply andb_false_r.
    - split; [eapply shape_upd; eauto|]. split.
      + intros k b i Hk Hw. unfold bodyW in Hw. apply andb_true_iff in Hw.
        destruct Hw as [Hw1 Hw2]. apply andb_true_iff in Hw1. destruct Hw1 as [Hw0 Hw1].
        apply Nat.eqb_eq in Hw0, Hw2. apply Nat.ltb_lt in Hw1. subst b.
        rewrite !mrd_upd, Nat.eqb_refl by auto.
        assert (i = (i / n) * n + k) by (rewrite <- Hw2, Nat.mul_comm; apply Nat.div_mod; lia).
        rewrite H. symmetry. apply HC; auto. apply Nat.div_lt_upper_bound; lia.
      + intros b i Hw. rewrite mrd_upd by auto. destruct (Nat.eqb_spec b A) as [->|]; auto.
        destruct (Nat.lt_ge_cases i (K * n)) as [Hi|Hi].
        * destruct (soa_split _ _ Hi) as (c & k & Hc & Hk & ->).
          specialize (Hw k Hk). rewrite bodyW_cell in Hw by auto. discriminate.
        * rewrite HO by auto. unfold mrd. rewrite Hr. reflexivity.
  Qed.

  (** fcompute *)
  Lemma fp_prd3 R W a n off i k :
    (forall j, R a j = true) -> (forall v, fp R W (k v)) -> fp (T:=T) R W (prd3 a n off i k).
  Proof. intros H Hk. cbn. repeat split; auto. Qed.

  Lemma exec_prd3 a n off i k m l :
    rd m a = Some l -> i < n -> off <= 3 -> 6 * n <= length l ->
    exec (prd3 a n off i k) m = exec (k (cv N l n off i)) m.
  Proof.
    intros Hl Hi Ho HL. cbn.
    assert (HB : forall c, c < 6 -> c * n + i < length l).
    { intros c Hc. pose proof (@soa_bound n c 6 i Hi Hc). lia. }
    rewrite (mrd_nth Hl) by (apply HB; lia). rewrite (mrd_nth Hl) by (apply HB; lia).
    rewrite (mrd_nth Hl) by (apply HB; lia). reflexivity.
  Qed.
  Arguments exec_prd3 {a n off i k m l}.

  Lemma fp_pairs R W B C n i v1 q j tf k :
    (forall x, R B x = true) -> (forall x, R C x = true) -> (forall v, fp R W (k v)) ->
    fp R W (omp_pairs N B C n i v1 q j tf k).
  Proof.
    intros HB HC Hk. revert j tf. induction q as [|q IH]; intros j tf; cbn; auto.
    destruct (i =? j); auto. repeat split; auto.
  Qed.

  Lemma exec_pairs B C n i v1 q j tf k m y mass :
    rd m B = Some y -> rd m C = Some mass -> 6 * n <= length y -> n <= length mass ->
    i < n -> j + q <= n ->
    exec (omp_pairs N B C n i v1 q j tf k) m =
    exec (k (fold_left (fun t j => if Nat.eqb i j then t
                   else vadd N t (force N v1 (cv N y n 0 j) (nth i mass d0) (nth j mass d0)))
               (seq j q) tf)) m.
  Proof.
    intros HB HC Hy Hm Hi. revert j tf. induction q as [|q IH]; intros j tf Hj; [reflexivity|].
    cbn [omp_pairs seq fold_left]. destruct (i =? j); [apply IH; lia|].
    rewrite (exec_prd3 HB) by lia. cbn [exec].
    rewrite (mrd_nth HC) by lia. rewrite (mrd_nth HC) by lia. apply IH. lia.
  Qed.
  Arguments exec_pairs {B C n i v1 q j tf k m y mass}.

  Lemma exec_rdo B idx k m y :
    rd m B = Some y -> idx < length y -> exec (PRd B idx k) m = exec (k (nth idx y d0)) m.
  Proof. intros H Hi. cbn. now rewrite (mrd_nth H) by auto. Qed.
  Arguments exec_rdo {B idx k m y}.

  Lemma exec_wro A idx v k m a :
    rd m A = Some a -> idx < length a ->
    exec (PWr A idx v k) m = exec k (upd m A (upd a idx v)).
  Proof. intros H Hi. cbn. now rewrite (mwr_upd H) by auto. Qed.
  Arguments exec_wro {A idx v k m a}.

  Lemma rd_upd_same m A (a a' : list T) : rd m A = Some a -> rd (upd m A a') A = Some a'.
  Proof. intros H. unfold rd. apply upd_nth_same. eapply rd_bound; eauto. Qed.

  Lemma rd_upd_other m A B (a' : list T) : B <> A -> rd (upd m A a') B = rd m B.
  Proof. intros H. unfold rd. now apply upd_nth_other. Qed.

  Lemma upd_upd m A (a a' : list T) : upd (upd m A a) A a' = upd m A a'.
  Proof. clear. revert A; induction m as [|x m IH]; intros [|A]; simpl; auto. now rewrite IH. Qed.

  Lemma omp_fcompute_ok A B C n m f y mass :
    A <> B -> A <> C ->
    rd m A = Some f -> rd m B = Some y -> rd m C = Some mass ->
    6 * n <= length f -> 6 * n <= length y -> n <= length mass ->
    exists f', simple_fcompute N n mass y f = Some f' /\
      every_schedule (map (omp_fcompute N A B C n) (seq 0 n)) m (fun m' => m' = upd m A f') /\
      exec_seq (map (omp_fcompute N A B C n) (seq 0 n)) m = Some (upd m A f').
  Proof.
    intros NB NC HA HB HC Hf Hy Hm.
    destruct (@simple_fcompute_cells T N n y mass f Hy Hm Hf) as (f' & E & HL & Hc & HO).
    exists f'. split; auto.
    set (V := cv N y n 3) in *.
    set (Ac := fun i => vdivs N (acc_fold N n y mass i) (nth i mass d0)) in *.
    eapply body_loop with (K := 6) (R := fun b _ => (b =? B) || (b =? C))
      (res := fun k => upd3 (upd3 f n 0 k (V k)) n 3 k (Ac k)); eauto.
    - intros i. apply orb_false_iff. split; apply Nat.eqb_neq; auto.
    - intros k Hk.
      assert (HW : forall c, c < 6 -> bodyW A n 6 k A (c * n + k) = true)
        by (intros; now apply bodyW_cell).
      pose proof (HW 0) as W0. pose proof (HW 1) as W1. pose proof (HW 2) as W2.
      pose proof (HW 3) as W3. pose proof (HW 4) as W4. pose proof (HW 5) as W5.
      assert (RB : forall x : nat, (fun b _ : nat => (b =? B) || (b =? C)) B x = true)
        by (intros; cbn; now rewrite Nat.eqb_refl).
      assert (RC : forall x : nat, (fun b _ : nat => (b =? B) || (b =? C)) C x = true)
        by (intros; cbn; now rewrite Nat.eqb_refl, orb_true_r).
      unfold omp_fcompute. apply fp_prd3; auto. intros v1. apply fp_pairs; auto. intros tf.
      cbn [fp].
      replace (0 * n + k) with k in W0 by lia. replace (1 * n + k) with (n + k) in W1 by lia.
      repeat split; auto; (left; auto) || (apply W0; lia) || (apply W1; lia) || (apply W2; lia) ||
        (apply W3; lia) || (apply W4; lia) || (apply W5; lia).
    - intros k Hk. unfold omp_fcompute.
      rewrite (exec_prd3 HB) by lia.
      rewrite (exec_pairs HB HC) by lia.
      fold (acc_fold N n y mass k). set (tf := acc_fold N n y mass k).
      assert (BY : forall c, c < 6 -> c * n + k < length y).
      { intros c Hc'. pose proof (@soa_bound n c 6 k Hk Hc'). lia. }
      assert (BF : forall c, c < 6 -> c * n + k < length f).
      { intros c Hc'. pose proof (@soa_bound n c 6 k Hk Hc'). lia. }
      pose proof (BF 0 ltac:(lia)). pose proof (BF 1 ltac:(lia)). pose proof (BF 2 ltac:(lia)).
      pose proof (BF 3 ltac:(lia)). pose proof (BF 4 ltac:(lia)). pose proof (BF 5 ltac:(lia)).
      assert (HB' : forall g, rd (upd m A g) B = Some y)
        by (intros; rewrite rd_upd_other by congruence; auto).
      assert (HC' : forall g, rd (upd m A g) C = Some mass)
        by (intros; rewrite rd_upd_other by congruence; auto).
      assert (HA' : forall g, rd (upd m A g) A = Some g)
        by (intros; eapply rd_upd_same; eauto).
      rewrite (exec_rdo HB) by (apply BY; lia). rewrite (exec_wro HA) by lia.
      rewrite (exec_rdo (HB' _)) by (apply BY; lia).
      rewrite (exec_wro (HA' _)) by (rewrite upd_length; lia). rewrite upd_upd.
      rewrite (exec_rdo (HB' _)) by (apply BY; lia).
      rewrite (exec_wro (HA' _)) by (rewrite !upd_length; lia). rewrite upd_upd.
      rewrite (exec_rdo (HC' _)) by lia.
      rewrite (exec_wro (HA' _)) by (rewrite !upd_length; lia). rewrite upd_upd.
      rewrite (exec_rdo (HC' _)) by lia.
      rewrite (exec_wro (HA' _)) by (rewrite !upd_length; lia). rewrite upd_upd.
      rewrite (exec_rdo (HC' _)) by lia.
      rewrite (exec_wro (HA' _)) by (rewrite !upd_length; lia). rewrite upd_upd.
      cbn [exec]. f_equal. f_equal. unfold upd3, V, Ac, cv, vdivs. cbn [vx vy vz].
      replace (0 * n + k) with k by lia. replace ((0 + 1) * n + k) with (n + k) by lia.
      reflexivity.
    - intros k c Hk Hc6. destruct (Hc k Hk) as [(C1 & C2 & C3) (C4 & C5 & C6)].
      rewrite upd3_nth by (rewrite ?upd3_length; auto; lia). rewrite Nat.eqb_refl.
      do 6 (destruct c as [|c]; [cbn [Nat.eqb Nat.add andb] in *; try rewrite upd3_nth by (auto; lia);
        rewrite ?Nat.eqb_refl; cbn [Nat.eqb Nat.add andb]; symmetry; assumption|]). lia.
  Qed.

  (** clamp *)
  Lemma exec_clamp_coord A b idx k m a :
    rd m A = Some a -> idx < length a ->
    exists a1, exec (omp_clamp_coord N A b idx k) m = exec k (upd m A a1) /\
      length a1 = length a /\
      forall j, nth_error a1 j = if j =? idx then Some (clamp_coord N b (nth idx a d0))
                                 else nth_error a j.
  Proof.
    intros HA Hi. unfold omp_clamp_coord, clamp_coord. set (x := nth idx a d0).
    set (dm := nmul N (nlit N 2) b).
    assert (Hself : upd m A a = m).
    { apply nth_error_ext; [apply upd_length|]. intros j _.
      rewrite nth_upd_mem by (eapply rd_bound; eauto).
      destruct (Nat.eqb_spec j A) as [->|]; auto. }
    assert (Hrs : forall v, nth idx (upd a idx v) d0 = v).
    { intros v. eapply nth_error_nth. now apply upd_nth_same. }
    assert (HA' : forall g, rd (upd m A g) A = Some g) by (intros; eapply rd_upd_same; eauto).
    assert (S2 : forall g v, length g = length a -> nth idx g d0 = v ->
      exists a1, exec (PRd A idx (fun x => if nltb N x (nopp N b)
        then PRd A idx (fun x => PWr A idx (nadd N x dm) k) else k)) (upd m A g) =
        exec k (upd m A a1) /\ length a1 = length a /\
        forall j, nth_error a1 j = if j =? idx then Some (if nltb N v (nopp N b) then nadd N v dm else v)
                                   else nth_error g j).
    { intros g v Hg Hv. rewrite (exec_rdo (HA' _)) by lia. rewrite Hv.
      destruct (nltb N v (nopp N b)).
      - rewrite (exec_rdo (HA' _)) by lia. rewrite (exec_wro (HA' _)) by lia.
        rewrite upd_upd, Hv. exists (upd g idx (nadd N v dm)). split; auto.
        split; [now rewrite upd_length|]. intros j. rewrite upd_nth.
        now replace (idx <? length g) with true by (symmetry; apply Nat.ltb_lt; lia).
      - exists g. split; auto. split; auto. intros j. destruct (Nat.eqb_spec j idx) as [->|]; auto.
        rewrite <- Hv. apply nth_error_nth'. lia. }
    rewrite (exec_rdo HA) by lia. fold x. destruct (nltb N b x) eqn:E.
    - rewrite (exec_rdo HA) by lia. rewrite (exec_wro HA) by lia. fold x.
      destruct (S2 (upd a idx (nsub N x dm)) (nsub N x dm)) as (a1 & E1 & L1 & C1).
      + now rewrite upd_length.
      + apply Hrs.
      + exists a1. split; auto. split; auto. intros j. rewrite C1, upd_nth.
        destruct (j =? idx); auto.
    - destruct (S2 a x) as (a1 & E1 & L1 & C1); auto.
      rewrite Hself in E1. exists a1. auto.
  Qed.

  Lemma fp_clamp_coord R W A b idx k :
    W A idx = true -> fp R W k -> fp R W (omp_clamp_coord N A b idx k).
  Proof.
    intros H Hk. unfold omp_clamp_coord.
    assert (S2 : fp R W (PRd A idx (fun x : T => if nltb N x (nopp N b)
       then PRd A idx (fun x0 => PWr A idx (nadd N x0 (nmul N (nlit N 2) b)) k) else k))).
    { cbn [fp]. split; auto. intros v. destruct (nltb N v (nopp N b)); cbn [fp]; auto. }
    cbn [fp]. split; auto. intros v. destruct (nltb N b v); auto.
    cbn [fp]. split; auto.
  Qed.

  Lemma omp_clamp_ok A n b m a :
    rd m A = Some a -> 3 * n <= length a ->
    exists a', engine_clamp N n b a = Some a' /\
      every_schedule (map (omp_clamp N A n b) (seq 0 n)) m (fun m' => m' = upd m A a') /\
      exec_seq (map (omp_clamp N A n b) (seq 0 n)) m = Some (upd m A a').
  Proof.
    intros HA Ha. destruct (@clamp_cells T N n a b Ha) as (a' & E & HL & HC).
    exists a'. split; auto.
    set (cc := fun j => clamp_coord N b (nth j a d0)) in *.
    set (res := fun k => upd (upd (upd a k (cc k)) (n + k) (cc (n + k)))
                             (2 * n + k) (cc (2 * n + k))).
    assert (BF : forall k c, k < n -> c < 3 -> c * n + k < length a).
    { intros k c Hk Hc'. pose proof (@soa_bound n c 3 k Hk Hc'). lia. }
    eapply body_loop with (K := 3) (R := fun _ _ => false) (res := res); eauto.
    - intros k Hk. pose proof (@bodyW_cell A n 3 k 0 Hk) as W0.
      pose proof (@bodyW_cell A n 3 k 1 Hk) as W1. pose proof (@bodyW_cell A n 3 k 2 Hk) as W2.
      replace (0 * n + k) with k in W0 by lia. replace (1 * n + k) with (n + k) in W1 by lia.
      unfold omp_clamp. repeat apply fp_clamp_coord; auto. cbn. auto.
    - intros k Hk. unfold omp_clamp.
      pose proof (BF k 0 Hk ltac:(lia)). pose proof (BF k 1 Hk ltac:(lia)).
      pose proof (BF k 2 Hk ltac:(lia)).
      assert (HA' : forall g, rd (upd m A g) A = Some g) by (intros; eapply rd_upd_same; eauto).
      destruct (@exec_clamp_coord A b k
        (omp_clamp_coord N A b (n + k) (omp_clamp_coord N A b (2 * n + k) PRet)) m a HA)
        as (a1 & E1 & L1 & C1); [lia|]. rewrite E1.
      destruct (@exec_clamp_coord A b (n + k) (omp_clamp_coord N A b (2 * n + k) PRet)
        (upd m A a1) a1 (HA' _)) as (a2 & E2 & L2 & C2); [lia|]. rewrite E2, upd_upd.
      destruct (@exec_clamp_coord A b (2 * n + k) PRet
        (upd m A a2) a2 (HA' _)) as (a3 & E3 & L3 & C3); [lia|]. rewrite E3, upd_upd.
      cbn [exec]. f_equal. f_equal.
      assert (X1 : nth (n + k) a1 d0 = nth (n + k) a d0).
      { apply nth_error_nth. rewrite C1. replace (n + k =? k) with false by (symmetry; apply Nat.eqb_neq; lia).
        apply nth_error_nth'. lia. }
      assert (X2 : nth (2 * n + k) a2 d0 = nth (2 * n + k) a d0).
      { apply nth_error_nth. rewrite C2, C1.
        replace (2 * n + k =? n + k) with false by (symmetry; apply Nat.eqb_neq; lia).
        replace (2 * n + k =? k) with false by (symmetry; apply Nat.eqb_neq; lia).
        apply nth_error_nth'. lia. }
      unfold res. apply nth_error_ext; [rewrite !upd_length; lia|]. intros j _.
      rewrite C3, C2, C1, X1, X2, !upd_nth, !upd_length.
      replace (k <? length a) with true by (symmetry; apply Nat.ltb_lt; lia).
      replace (n + k <? length a) with true by (symmetry; apply Nat.ltb_lt; lia).
      replace (2 * n + k <? length a) with true by (symmetry; apply Nat.ltb_lt; lia).
      reflexivity.
    - intros k c Hk Hc3. pose proof (BF k c Hk Hc3). rewrite HC.
      replace (c * n + k <? 3 * n) with true by (symmetry; apply Nat.ltb_lt; now apply soa_bound).
      pose proof (BF k 0 Hk ltac:(lia)). pose proof (BF k 1 Hk ltac:(lia)).
      pose proof (BF k 2 Hk ltac:(lia)).
      unfold res. rewrite !upd_nth, !upd_length.
      replace (k <? length a) with true by (symmetry; apply Nat.ltb_lt; lia).
      replace (n + k <? length a) with true by (symmetry; apply Nat.ltb_lt; lia).
      replace (2 * n + k <? length a) with true by (symmetry; apply Nat.ltb_lt; lia).
      destruct c as [|[|[|c]]]; [| | |lia].
      + replace (0 * n + k) with k by lia.
        replace (k =? 2 * n + k) with false by (symmetry; apply Nat.eqb_neq; lia).
        replace (k =? n + k) with false by (symmetry; apply Nat.eqb_neq; lia).
        now rewrite Nat.eqb_refl.
      + replace (1 * n + k) with (n + k) by lia.
        replace (n + k =? 2 * n + k) with false by (symmetry; apply Nat.eqb_neq; lia).
        now rewrite Nat.eqb_refl.
      + now rewrite Nat.eqb_refl.
    - intros j Hj. rewrite HC. now replace (j <? 3 * n) with false by (symmetry; apply Nat.ltb_ge; lia).
  Qed.

  (** fmaddn_corr *)
  Lemma fp_corr A B cb k :
    fp (fun _ i => i =? k) (fun b i => ((b =? A) || (b =? B)) && (i =? k)) (omp_fmaddn_corr N A B cb k).
  Proof.
    induction cb as [|[ck bk] r IH]; cbn; auto.
    destruct (neqb N ck (nlit N 0)); auto.
    cbn. rewrite !Nat.eqb_refl, orb_true_r. cbn. repeat split; auto.
  Qed.

  Lemma exec_corr A B cb k m a corr (bufs : nat -> list T) :
    A <> B -> rd m A = Some a -> rd m B = Some corr -> k < length a -> k < length corr ->
    Forall (fun wb => snd wb <> A /\ snd wb <> B /\ rd m (snd wb) = Some (bufs (snd wb)) /\
                      k < length (bufs (snd wb))) cb ->
    forall x y, nth_error a k = Some x -> nth_error corr k = Some y ->
    let r := kfold N (map (fun wb => (fst wb, bufs (snd wb))) cb) k (x, y) in
    exec (omp_fmaddn_corr N A B cb k) m = Some (upd (upd m A (upd a k (fst r))) B (upd corr k (snd r))).
  Proof.
    intros Hne. revert m a corr. induction cb as [|[ck bk] cb IH]; intros m a corr HA HB Ha Hc HF x y Hx Hy r.
    - subst r. cbn. f_equal.
      assert (upd a k x = a).
      { apply nth_error_ext; [apply upd_length|]. intros j _. rewrite upd_nth.
        destruct (Nat.eqb_spec j k) as [->|]; auto.
        now replace (k <? length a) with true by (symmetry; apply Nat.ltb_lt; lia). }
      assert (upd corr k y = corr).
      { apply nth_error_ext; [apply upd_length|]. intros j _. rewrite upd_nth.
        destruct (Nat.eqb_spec j k) as [->|]; auto.
        now replace (k <? length corr) with true by (symmetry; apply Nat.ltb_lt; lia). }
      rewrite H, H0.
      assert (Hself : forall A (a : list T), rd m A = Some a -> upd m A a = m).
      { intros A' a0 H'. apply nth_error_ext; [apply upd_length|]. intros j _.
        rewrite nth_upd_mem by (eapply rd_bound; eauto). destruct (Nat.eqb_spec j A') as [->|]; auto. }
      rewrite (Hself A a HA), (Hself B corr HB). reflexivity.
    - inversion HF as [|? ? (N1 & N2 & Hb & Hbl) HF']; subst. cbn [fst snd] in *.
      unfold kfold in r. cbn [map fold_left fst snd] in r. cbn [omp_fmaddn_corr].
      destruct (neqb N ck (nlit N 0)) eqn:Ez; [apply IH; auto|].
      cbn [exec]. rewrite (mrd_nth Hb) by lia. rewrite (mrd_nth HA) by lia.
      rewrite (mrd_nth HB) by lia.
      rewrite (nth_error_nth _ _ _ Hx), (nth_error_nth _ _ _ Hy).
      set (st := summation_step (nadd N) (nsub N) x (nmul N (nth k (bufs bk) d0) ck) y) in *.
      rewrite (mwr_upd HB) by lia.
      assert (HA1 : rd (upd m B (upd corr k (snd st))) A = Some a)
        by (rewrite rd_upd_other; auto).
      rewrite (mwr_upd HA1) by lia.
      set (m2 := upd (upd m B (upd corr k (snd st))) A (upd a k (fst st))).
      assert (HA2 : rd m2 A = Some (upd a k (fst st))) by (eapply rd_upd_same; eauto).
      assert (HB2 : rd m2 B = Some (upd corr k (snd st))).
      { unfold m2. rewrite rd_upd_other by auto. eapply rd_upd_same; eauto. }
      specialize (IH m2 _ _ HA2 HB2). rewrite !upd_length in IH. specialize (IH Ha Hc).
      assert (HF2 : Forall (fun wb : T * nat => snd wb <> A /\ snd wb <> B /\
          rd m2 (snd wb) = Some (bufs (snd wb)) /\ k < length (bufs (snd wb))) cb).
      { eapply Forall_impl; [|exact HF']. intros wb (P1 & P2 & P3 & P4). repeat split; auto.
        unfold m2. rewrite !rd_upd_other by auto. auto. }
      specialize (IH HF2 (fst st) (snd st)).
      rewrite !upd_nth_same in IH by auto. specialize (IH eq_refl eq_refl).
      rewrite <- surjective_pairing in IH. cbv zeta in IH.
      change (kfold N (map (fun wb => (fst wb, bufs (snd wb))) cb) k st) with r in IH.
      rewrite IH. f_equal.
      assert (UU : forall (l : list T) i u v, upd (upd l i u) i v = upd l i v).
      { clear. induction l as [|z l IH]; intros [|i] u v; simpl; auto. now rewrite IH. }
      rewrite !UU. unfold m2.
      apply nth_error_ext; [now rewrite !upd_length|]. intros j _. rewrite !upd_nth, !upd_length.
      destruct (Nat.eqb_spec j B), (Nat.eqb_spec j A); subst; auto; congruence.
  Qed.

  Lemma omp_fmaddn_corr_ok A B n m a corr c ids (bufs : nat -> list T) :
    A <> B -> rd m A = Some a -> rd m B = Some corr ->
    n <= length a -> n <= length corr -> length ids = length c ->
    (forall id, In id ids -> id <> A /\ id <> B /\ rd m id = Some (bufs id) /\ n <= length (bufs id)) ->
    exists a' corr', fmaddn_corr N n a corr (map bufs ids) c (length c) = Some (a', corr') /\
      every_schedule (map (omp_fmaddn_corr N A B (combine c ids)) (seq 0 n)) m
        (fun m' => m' = upd (upd m A a') B corr') /\
      exec_seq (map (omp_fmaddn_corr N A B (combine c ids)) (seq 0 n)) m =
        Some (upd (upd m A a') B corr').
  Proof.
    intros Hne HA HB Ha Hc Hid Hin.
    destruct (@fmaddn_corr_cells T N n a corr (map bufs ids) c (length c)) as
      (a' & corr' & E & (L1 & C1) & (L2 & C2)); auto.
    { rewrite map_length. lia. }
    { intros k Hk. assert (Hk' : k < length ids) by lia.
      rewrite (nth_indep _ [] (bufs 0)) by (rewrite map_length; lia). rewrite map_nth.
      apply Hin. apply nth_In. auto. }
    exists a', corr'. split; auto.
    assert (ET : terms c (map bufs ids) (length c) =
                 map (fun wb => (fst wb, bufs (snd wb))) (combine c ids)).
    { unfold terms. rewrite firstn_all2.
      - clear -Hid. revert ids Hid. induction c as [|x c IH]; intros [|i ids] H; simpl in *; auto; try lia.
        f_equal. apply IH. lia.
      - rewrite combine_length, map_length. lia. }
    rewrite ET in *.
    set (val := fun j => kfold N (map (fun wb => (fst wb, bufs (snd wb))) (combine c ids)) j
                           (nth j a d0, nth j corr d0)) in *.
    assert (HlA := rd_bound _ _ HA). assert (HlB := rd_bound _ _ HB).
    eapply loop_schedules with (R := fun k _ i => i =? k)
      (W := fun k b i => ((b =? A) || (b =? B)) && (i =? k))
      (mk := fun k => upd (upd m A (upd a k (fst (val k)))) B (upd corr k (snd (val k)))).
    - intros k Hk. apply fp_corr.
    - intros j k b i Hj Hk Hjk Hw. apply andb_true_iff in Hw. destruct Hw as [_ Hw].
      apply Nat.eqb_eq in Hw. subst i. replace (j =? k) with false by (symmetry; now apply Nat.eqb_neq).
      split; auto. apply andb_false_r.
    - intros k Hk. unfold val. eapply exec_corr; eauto; try lia.
      + apply Forall_forall. intros [w id] Hw. apply in_combine_r in Hw. cbn [snd].
        destruct (Hin id Hw) as (P1 & P2 & P3 & P4). repeat split; auto. lia.
      + apply nth_error_nth'. lia.
      + apply nth_error_nth'. lia.
    - assert (HBA : rd (upd m A a') B = Some corr) by (rewrite rd_upd_other; auto).
      split; [|split].
      + erewrite shape_upd; eauto. eapply shape_upd; eauto.
      + intros k b i Hk Hw. apply andb_true_iff in Hw. destruct Hw as [H1 H2].
        apply Nat.eqb_eq in H2. subst i.
        rewrite !mrd_upd by (rewrite ?upd_length; auto).
        replace (k <? n) with true by (symmetry; apply Nat.ltb_lt; lia).
        destruct (Nat.eqb_spec b B) as [->|].
        * rewrite upd_nth_same by lia. rewrite C2.
          now replace (k <? n) with true by (symmetry; apply Nat.ltb_lt; lia).
        * rewrite orb_false_r in H1. rewrite H1. rewrite upd_nth_same by lia. rewrite C1.
          now replace (k <? n) with true by (symmetry; apply Nat.ltb_lt; lia).
      + intros b i Hw. rewrite !mrd_upd by (rewrite ?upd_length; auto).
        destruct (Nat.ltb_spec i n) as [Hi|Hi].
        * specialize (Hw i Hi). cbn in Hw. rewrite Nat.eqb_refl, andb_true_r in Hw.
          apply orb_false_iff in Hw. destruct Hw as [W1 W2]. now rewrite W1, W2.
        * rewrite C1, C2. replace (i <? n) with false by (symmetry; apply Nat.ltb_ge; lia).
          unfold mrd. destruct (Nat.eqb_spec b B) as [->|]; [rewrite HB; reflexivity|].
          destruct (Nat.eqb_spec b A) as [->|]; [rewrite HA; reflexivity|]. reflexivity.
  Qed.
End Ops.
