(** Parallel loops with disjoint writes are deterministic and race free. *)
From Coq Require Import ZArith List Arith Lia Bool.
From Verif Require Import Num Arr ArrLemmas ModelVertex ModelForce ModelSum ModelEngine
  ModelParallel LemEngine.
Import ListNotations.
Set Implicit Arguments.

Section Par.
  Context {T : Type}.
  Implicit Types m : mem T.
  Implicit Types p : prog T.

  Definition shape m : list nat := map (@length T) m.

  Lemma mwr_shape m a i v m' : mwr m a i v = Some m' -> shape m' = shape m.
  Proof.
    unfold mwr. destruct (rd m a) as [l|] eqn:E; [|discriminate]. cbn [obind].
    destruct (wr l i v) as [l'|] eqn:W; [|discriminate]. cbn [obind].
    intros H. apply wr_some_inv in H. destruct H as [Ha ->].
    apply wr_some_inv in W. destruct W as [_ ->].
    apply nth_error_ext; unfold shape.
    - now rewrite !map_length, upd_length.
    - intros j Hj. rewrite !nth_error_map, upd_nth.
      destruct (Nat.eqb_spec j a) as [->|]; auto.
      apply Nat.ltb_lt in Ha. rewrite Ha. unfold rd in E. rewrite E. simpl.
      now rewrite upd_length.
  Qed.

  Lemma mrd_mwr m a i v m' b j :
    mwr m a i v = Some m' ->
    mrd m' b j = if (Nat.eqb b a && Nat.eqb j i)%bool then Some v else mrd m b j.
  Proof.
    unfold mwr, mrd. destruct (rd m a) as [l|] eqn:E; [|discriminate]. cbn [obind].
    destruct (wr l i v) as [l'|] eqn:W; [|discriminate]. cbn [obind].
    intros H. apply wr_some_inv in H. destruct H as [Ha ->].
    apply wr_some_inv in W. destruct W as [Hi ->]. unfold rd in *.
    rewrite upd_nth. destruct (Nat.eqb_spec b a) as [->|]; simpl; auto.
    apply Nat.ltb_lt in Ha. rewrite Ha, E. simpl. rewrite upd_nth.
    apply Nat.ltb_lt in Hi. rewrite Hi. now destruct (Nat.eqb j i).
  Qed.

  Lemma mwr_some m a i v :
    (exists x, mrd m a i = Some x) -> exists m', mwr m a i v = Some m'.
  Proof.
    intros [x H]. unfold mrd, mwr in *. destruct (rd m a) as [l|] eqn:E; [|discriminate].
    cbn [obind] in *. apply rd_bound in H. rewrite wr_ok by auto. cbn [obind].
    rewrite wr_ok by (eapply rd_bound; eauto). eauto.
  Qed.

  Lemma mwr_mrd m a i v m' : mwr m a i v = Some m' -> exists x, mrd m a i = Some x.
  Proof.
    unfold mwr, mrd. destruct (rd m a) as [l|] eqn:E; [|discriminate]. cbn [obind].
    destruct (wr l i v) as [l'|] eqn:W; [|discriminate]. intros _.
    apply wr_some_inv in W. destruct W as [Hi _]. apply rd_some. auto.
  Qed.

  Lemma mem_ext m1 m2 :
    shape m1 = shape m2 -> (forall a i, mrd m1 a i = mrd m2 a i) -> m1 = m2.
  Proof.
    intros Hs H. assert (HL : length m1 = length m2).
    { apply (f_equal (@length nat)) in Hs. unfold shape in Hs. now rewrite !map_length in Hs. }
    apply nth_error_ext; auto. intros a Ha.
    destruct (rd_some m1 Ha) as [l1 E1]. rewrite HL in Ha.
    destruct (rd_some m2 Ha) as [l2 E2]. unfold rd in *. rewrite E1, E2. f_equal.
    assert (length l1 = length l2).
    { apply (f_equal (fun l => nth_error l a)) in Hs. unfold shape in Hs.
      rewrite !nth_error_map, E1, E2 in Hs. simpl in Hs. congruence. }
    apply nth_error_ext; auto. intros i Hi. specialize (H a i).
    unfold mrd, rd in H. rewrite E1, E2 in H. exact H.
  Qed.

  (** footprints *)
  Definition region := nat -> nat -> bool.
  Fixpoint fp (R W : region) p : Prop :=
    match p with
    | PRet => True
    | PRd a i k => (R a i = true \/ W a i = true) /\ forall v, fp R W (k v)
    | PWr a i v k => W a i = true /\ fp R W k
    end.

  Definition agree (S : region) m1 m2 : Prop := forall a i, S a i = true -> mrd m1 a i = mrd m2 a i.
  Definition runion (R W : region) : region := fun a i => R a i || W a i.
  Definition rcompl (W : region) : region := fun a i => negb (W a i).

  Lemma exec_shape p m m' : exec p m = Some m' -> shape m' = shape m.
  Proof.
    revert m. induction p as [|a i k IH|a i v k IH]; intros m; simpl.
    - now intros [= ->].
    - destruct (mrd m a i); [|discriminate]. apply IH.
    - destruct (mwr m a i v) eqn:E; [|discriminate]. intros H. apply IH in H.
      rewrite H. eapply mwr_shape; eauto.
  Qed.

  Lemma exec_outside R W p m m' :
    fp R W p -> exec p m = Some m' -> agree (rcompl W) m' m.
  Proof.
    revert m. induction p as [|a i k IH|a i v k IH]; intros m; simpl.
    - intros _ [= ->]. now intros a i.
    - intros [_ H]. destruct (mrd m a i); [|discriminate]. apply IH. auto.
    - intros [HW Hk]. destruct (mwr m a i v) eqn:E; [|discriminate]. intros H.
      intros b j Hb. rewrite (IH _ Hk H b j Hb). rewrite (mrd_mwr _ _ _ _ b j E).
      destruct (Nat.eqb_spec b a) as [->|]; auto. destruct (Nat.eqb_spec j i) as [->|]; auto.
      unfold rcompl in Hb. rewrite HW in Hb. discriminate.
  Qed.

  Lemma exec_agree R W p m1 m2 m1' :
    fp R W p -> agree (runion R W) m1 m2 -> exec p m1 = Some m1' ->
    exists m2', exec p m2 = Some m2' /\ agree (runion R W) m1' m2'.
  Proof.
    revert m1 m2. induction p as [|a i k IH|a i v k IH]; intros m1 m2; simpl.
    - intros _ H [= ->]. eauto.
    - intros [HRW H] Ha. assert (E : mrd m1 a i = mrd m2 a i).
      { apply Ha. unfold runion. apply orb_true_iff. auto. }
      rewrite <- E. destruct (mrd m1 a i); [|discriminate]. intros E1.
      eapply IH; eauto.
    - intros [HW H] Ha. destruct (mwr m1 a i v) as [n1|] eqn:E1; [|discriminate]. intros Ek.
      assert (E : mrd m1 a i = mrd m2 a i).
      { apply Ha. unfold runion. apply orb_true_iff. auto. }
      destruct (@mwr_some m2 a i v) as [n2 E2].
      { rewrite <- E. eapply mwr_mrd; eauto. }
      rewrite E2. eapply IH; eauto. intros b j Hb.
      rewrite (mrd_mwr _ _ _ _ b j E1), (mrd_mwr _ _ _ _ b j E2).
      destruct (Nat.eqb b a && Nat.eqb j i); auto.
  Qed.

  (** A loop: iteration [k] runs [P k], reads within [R k] and writes within [W k] *)
  Section Loop.
    Variables (n : nat) (P : nat -> prog T) (R W : nat -> region) (m0 : mem T) (mk : nat -> mem T).
    Hypothesis Hfp : forall k, k < n -> fp (R k) (W k) (P k).
    Hypothesis Hdisj : forall j k a i, j < n -> k < n -> j <> k ->
      W j a i = true -> R k a i = false /\ W k a i = false.
    Hypothesis Halone : forall k, k < n -> exec (P k) m0 = Some (mk k).

    Definition ginv (c : list (prog T) * mem T) : Prop :=
      let (ps, m) := c in
      length ps = n /\ shape m = shape m0 /\
      (forall k p, nth_error ps k = Some p ->
         fp (R k) (W k) p /\
         exists x, exec p m = Some x /\ agree (runion (R k) (W k)) x (mk k)) /\
      (forall a i, (forall k, k < n -> W k a i = false) -> mrd m a i = mrd m0 a i).

    Lemma ginv_init : ginv (map P (seq 0 n), m0).
    Proof.
      split; [now rewrite map_length, seq_length|]. split; auto. split; auto.
      intros k p Hk.
      assert (k < n). { erewrite <- (seq_length n 0), <- (map_length P). apply nth_error_Some. congruence. }
      rewrite nth_map in Hk by auto. injection Hk as <-.
      split; auto. exists (mk k). split; auto. now intros a i.
    Qed.

    Lemma ginv_step c c' : ginv c -> par_step c c' -> ginv c'.
    Proof.
      intros H St. destruct St as [ps1 p ps2 m p' m' A].
      destruct H as (HL & HS & HT & HO).
      set (j := length ps1).
      assert (Hj : nth_error (ps1 ++ p :: ps2) j = Some p).
      { unfold j. rewrite nth_error_app2, Nat.sub_diag by lia. reflexivity. }
      assert (Hjn : j < n).
      { rewrite <- HL. apply nth_error_Some. congruence. }
      assert (Hother : forall k q, k <> j -> nth_error (ps1 ++ p' :: ps2) k = Some q ->
                                  nth_error (ps1 ++ p :: ps2) k = Some q).
      { intros k q Hne. unfold j in Hne. destruct (Nat.lt_ge_cases k (length ps1)).
        - now rewrite !nth_error_app1.
        - rewrite !nth_error_app2 by lia. destruct (k - length ps1) eqn:E; [lia|auto]. }
      destruct (HT j p Hj) as (Fj & xj & Ej & Aj).
      (* the action keeps the cells of the other iterations and those nobody writes *)
      assert (Hkeep : forall a i, W j a i = false -> mrd m' a i = mrd m a i).
      { intros a i Hw. destruct A as [a1 i1 k1 m1 v1 _|a1 i1 v1 k1 m1 m1' Ew]; auto.
        rewrite (mrd_mwr _ _ _ _ a i Ew).
        destruct (Nat.eqb_spec a a1) as [->|]; auto. destruct (Nat.eqb_spec i i1) as [->|]; auto.
        simpl in Fj. destruct Fj. congruence. }
      assert (Hshape : shape m' = shape m).
      { destruct A as [|a1 i1 v1 k1 m1 m1' Ew]; auto. eapply mwr_shape; eauto. }
      split; [rewrite app_length in *; simpl in *; lia|].
      split; [congruence|]. split.
      - intros k q Hq. destruct (Nat.eq_dec k j) as [->|Hne].
        + assert (q = p').
          { unfold j in Hq. rewrite nth_error_app2, Nat.sub_diag in Hq by lia. simpl in Hq. congruence. }
          subst q. destruct A as [a1 i1 k1 m1 v1 Er|a1 i1 v1 k1 m1 m1' Ew]; simpl in *.
          * rewrite Er in Ej. destruct Fj. eauto.
          * rewrite Ew in Ej. destruct Fj. eauto.
        + assert (Hq' := Hother k q Hne Hq).
          assert (Hkn : k < n). { rewrite <- HL. apply nth_error_Some. congruence. }
          destruct (HT k q Hq') as (Fk & xk & Ek & Ak). split; auto.
          destruct (@exec_agree (R k) (W k) q m m' xk) as (y & Ey & Ay); auto.
          { intros a i Hrw. symmetry. apply Hkeep. unfold runion in Hrw.
            destruct (W j a i) eqn:Ew; auto.
            destruct (@Hdisj j k a i Hjn Hkn ltac:(congruence) Ew) as [Hr Hw].
            rewrite Hr, Hw in Hrw. discriminate. }
          exists y. split; auto. intros a i Hrw. rewrite <- Ay; auto.
      - intros a i Hn. rewrite Hkeep by (apply Hn; auto). auto.
    Qed.

    Lemma ginv_run c c' : ginv c -> par_run c c' -> ginv c'.
    Proof. intros H R1. induction R1; auto. apply IHR1. eapply ginv_step; eauto. Qed.

    (** the final memory *)
    Definition final (m : mem T) : Prop :=
      shape m = shape m0 /\
      (forall k a i, k < n -> W k a i = true -> mrd m a i = mrd (mk k) a i) /\
      (forall a i, (forall k, k < n -> W k a i = false) -> mrd m a i = mrd m0 a i).

    Lemma final_unique m1 m2 : final m1 -> final m2 -> m1 = m2.
    Proof.
      intros (S1 & W1 & O1) (S2 & W2 & O2). apply mem_ext; [congruence|]. intros a i.
      assert (D : (exists k, k < n /\ W k a i = true) \/ (forall k, k < n -> W k a i = false)).
      { clear -W. induction n as [|l IH].
        - right. intros; lia.
        - destruct IH as [(k & Hk & Hw)|H].
          + left. exists k. split; auto.
          + destruct (W l a i) eqn:E.
            * left. exists l. split; auto.
            * right. intros k Hk. destruct (Nat.eq_dec k l) as [->|]; auto. apply H. lia. }
      destruct D as [(k & Hk & Hw)|H].
      - rewrite (W1 k), (W2 k); auto.
      - rewrite O1, O2; auto.
    Qed.

    Lemma ginv_final ps m : ginv (ps, m) -> Forall (eq PRet) ps -> final m.
    Proof.
      intros (HL & HS & HT & HO) HF. split; auto. split; auto.
      intros k a i Hk Hw.
      destruct (nth_error ps k) as [p|] eqn:E.
      2:{ apply nth_error_None in E. lia. }
      assert (p = PRet).
      { rewrite Forall_forall in HF. symmetry. apply HF. eapply nth_error_In; eauto. }
      subst p. destruct (HT k _ E) as (_ & x & Ex & Ax). simpl in Ex. injection Ex as <-.
      apply Ax. unfold runion. rewrite Hw. apply orb_true_r.
    Qed.

    (** every complete interleaving ends in the same memory *)
    Theorem par_final ps m :
      par_run (map P (seq 0 n), m0) (ps, m) -> Forall (eq PRet) ps -> final m.
    Proof. intros H. apply ginv_final. eapply ginv_run; eauto using ginv_init. Qed.

    (** no interleaving makes an out-of-bounds access *)
    Theorem par_safe ps m :
      par_run (map P (seq 0 n), m0) (ps, m) -> Forall (fun p => ~ crashed p m) ps.
    Proof.
      intros H. assert (G : ginv (ps, m)) by (eapply ginv_run; eauto using ginv_init).
      destruct G as (HL & HS & HT & HO). apply Forall_forall. intros p Hp.
      apply In_nth_error in Hp. destruct Hp as [k Hk]. destruct (HT k p Hk) as (_ & x & Ex & _).
      destruct p as [|a i f|a i v q]; simpl in *; auto; intros E; rewrite E in Ex; discriminate.
    Qed.

    (** no two iterations are ever about to make conflicting accesses *)
    Theorem par_no_race ps m j k p q a i :
      par_run (map P (seq 0 n), m0) (ps, m) ->
      j <> k -> nth_error ps j = Some p -> nth_error ps k = Some q ->
      writes p a i -> accesses q a i -> False.
    Proof.
      intros H Hne Hj Hk Hw Ha.
      assert (G : ginv (ps, m)) by (eapply ginv_run; eauto using ginv_init).
      destruct G as (HL & HS & HT & HO).
      assert (j < n) by (rewrite <- HL; apply nth_error_Some; congruence).
      assert (k < n) by (rewrite <- HL; apply nth_error_Some; congruence).
      destruct (HT j p Hj) as (Fj & _). destruct (HT k q Hk) as (Fk & _).
      assert (W j a i = true).
      { destruct p; simpl in *; try contradiction. destruct Hw as [-> ->]. tauto. }
      destruct (@Hdisj j k a i) as [Hr Hw']; auto.
      destruct q; simpl in *; try contradiction; destruct Ha as [-> ->].
      - destruct Fk as [[C|C] _]; congruence.
      - destruct Fk as [C _]. congruence.
    Qed.

    (** every interleaving that cannot continue is complete *)
    Theorem par_progress ps m :
      par_run (map P (seq 0 n), m0) (ps, m) ->
      (forall c, ~ par_step (ps, m) c) -> Forall (eq PRet) ps.
    Proof.
      intros H Hs. pose proof (par_safe H) as HF. apply Forall_forall. intros p Hp.
      rewrite Forall_forall in HF. specialize (HF p Hp).
      apply in_split in Hp. destruct Hp as (l1 & l2 & ->).
      destruct p as [|a i f|a i v q]; auto; exfalso; simpl in HF.
      - destruct (mrd m a i) as [x|] eqn:E; [|auto]. eapply Hs. constructor. constructor. eauto.
      - destruct (mwr m a i v) as [x|] eqn:E; [|auto]. eapply Hs. constructor. constructor. eauto.
    Qed.
  End Loop.

  (** the sequential loop is one of the interleavings *)
  Lemma par_run_trans c1 c2 c3 : par_run (T:=T) c1 c2 -> par_run c2 c3 -> par_run c1 c3.
  Proof. intros H. induction H; auto. intros. econstructor; eauto. Qed.

  Lemma exec_par ps1 p ps2 m m' :
    exec p m = Some m' -> par_run (ps1 ++ p :: ps2, m) (ps1 ++ PRet :: ps2, m').
  Proof.
    revert m. induction p as [|a i k IH|a i v k IH]; intros m; simpl.
    - intros [= ->]. constructor.
    - destruct (mrd m a i) as [v|] eqn:E; [|discriminate]. intros H.
      econstructor; [constructor; constructor; eauto|auto].
    - destruct (mwr m a i v) as [n|] eqn:E; [|discriminate]. intros H.
      econstructor; [constructor; constructor; eauto|auto].
  Qed.

  Lemma exec_seq_par ps m m' :
    exec_seq ps m = Some m' -> par_run (ps, m) (map (fun _ => PRet) ps, m').
  Proof.
    assert (G : forall ps ps1 m, exec_seq ps m = Some m' ->
       par_run (ps1 ++ ps, m) (ps1 ++ map (fun _ => PRet) ps, m')).
    { clear. induction ps as [|p ps IH]; intros ps1 m; simpl.
      - intros [= ->]. constructor.
      - destruct (exec p m) as [m1|] eqn:E; [|discriminate]. intros H.
        eapply par_run_trans; [apply exec_par; eauto|].
        replace (ps1 ++ PRet :: ps) with ((ps1 ++ [PRet]) ++ ps) by (now rewrite <- app_assoc).
        replace (ps1 ++ PRet :: map (fun _ => PRet) ps)
          with ((ps1 ++ [PRet]) ++ map (fun _ => PRet (T:=T)) ps) by (now rewrite <- app_assoc).
        auto. }
    apply (G ps []).
  Qed.

  (** every interleaving is finite: an action turns an iteration into one of its immediate
      sub-programs *)
  Inductive sub : prog T -> prog T -> Prop :=
  | sub_rd a i k v : sub (k v) (PRd a i k)
  | sub_wr a i v k : sub k (PWr a i v k).

  Lemma sub_wf : well_founded sub.
  Proof.
    intros p. induction p as [|a i k IH|a i v k IH]; constructor; intros q Hq; inversion Hq; subst; auto.
  Qed.
End Par.
