(** Programs whose reads never meet their own writes: what they write is known beforehand. *)
From Coq Require Import List Arith Bool Lia.
From Verif Require Import Num Arr ArrLemmas LemEngine ModelParallel SpecPar LemParallel LemOmp SpecGpu LemGpu.
Import ListNotations.
Set Implicit Arguments.

Section Tr.
  Context {T : Type}.
  Implicit Types (m : mem T) (p : prog T).
  Notation wlist := (list ((nat * nat) * T)).

  (** the writes of [p] when every read is from [m] *)
  Fixpoint tr m p : option wlist :=
    match p with
    | PRet => Some []
    | PRd a i k => match mrd m a i with Some v => tr m (k v) | None => None end
    | PWr a i v k =>
        match mrd m a i with
        | Some _ => match tr m k with Some ws => Some (((a, i), v) :: ws) | None => None end
        | None => None
        end
    end.

  (** reads in [R], writes in [W] *)
  Fixpoint fps (R W : region) p : Prop :=
    match p with
    | PRet => True
    | PRd a i k => R a i = true /\ forall v, fps R W (k v)
    | PWr a i v k => W a i = true /\ fps R W k
    end.

  Lemma fps_fp R W p : fps R W p -> fp R W p.
  Proof.
    induction p as [|a i k IH|a i v k IH]; cbn [fps fp]; auto.
    - intros [H1 H2]. split; auto.
    - intros [H1 H2]. auto.
  Qed.

  Lemma fps_weaken R R' W W' p : (forall a i, R a i = true -> R' a i = true) ->
    (forall a i, W a i = true -> W' a i = true) -> fps R W p -> fps R' W' p.
  Proof.
    intros H1 H2. induction p as [|a i k IH|a i v k IH]; cbn [fps]; auto; intros [X Y]; auto.
  Qed.

  Fixpoint look (ws : wlist) (a i : nat) (d : option T) : option T :=
    match ws with
    | [] => d
    | ((b, j), v) :: ws => look ws a i (if (a =? b) && (i =? j) then Some v else d)
    end.

  Lemma look_other ws a i d : ~ In (a, i) (map fst ws) -> look ws a i d = d.
  Proof.
    revert d. induction ws as [|[[b j] v] ws IH]; intros d H; auto. cbn [look map fst In] in *.
    destruct (Nat.eqb_spec a b) as [->|]; cbn [andb]; [destruct (Nat.eqb_spec i j) as [->|]; cbn [andb]|]; [tauto|apply IH; tauto|apply IH; tauto].
  Qed.
  Lemma look_in ws a i v d : NoDup (map fst ws) -> In ((a, i), v) ws -> look ws a i d = Some v.
  Proof.
    revert d. induction ws as [|[[b j] w] ws IH]; intros d HN H; [destruct H|]. cbn [look map fst] in *.
    inversion HN as [|? ? Hn HN']; subst. destruct H as [[= <- <- <-]|H].
    - rewrite !Nat.eqb_refl. cbn [andb]. now apply look_other.
    - apply IH; auto.
  Qed.

  Lemma shape_some m m' : shape m = shape m' -> forall a i x, mrd m a i = Some x -> exists x', mrd m' a i = Some x'.
  Proof.
    intros S a i x H. destruct (mrd m' a i) as [x'|] eqn:E; [eauto|].
    exfalso. apply (@mrd_shape T m' m (eq_sym S)) in E. congruence.
  Qed.

  Lemma exec_tr R W p : (forall a i, R a i = true -> W a i = false) -> fps R W p ->
    forall m m1 ws, tr m p = Some ws -> shape m1 = shape m -> agree R m1 m ->
    exists m', exec p m1 = Some m' /\ shape m' = shape m1 /\
      forall a i, mrd m' a i = look ws a i (mrd m1 a i).
  Proof.
    intros HRW. induction p as [|a i k IH|a i v k IH]; cbn [fps tr exec]; intros HF m m1 ws E S A.
    - injection E as <-. exists m1. auto.
    - destruct HF as [HR HF]. destruct (mrd m a i) as [v|] eqn:Ev; [|discriminate].
      rewrite (A a i HR), Ev. eapply IH; eauto.
    - destruct HF as [HW HF]. destruct (mrd m a i) as [x|] eqn:Ex; [|discriminate].
      destruct (tr m k) as [ws'|] eqn:Ek; [|discriminate]. injection E as <-.
      destruct (@mwr_some T m1 a i v) as [m2 E2].
      { eapply shape_some; [symmetry; exact S|exact Ex]. }
      rewrite E2. assert (S2 := mwr_shape _ _ _ _ E2).
      destruct (IH HF m m2 ws') as (m' & E' & S' & H'); auto; [congruence| |].
      { intros b j Hb. rewrite (@mrd_mwr T _ _ _ _ _ b j E2).
        destruct (Nat.eqb_spec b a) as [->|]; cbn [andb]; [destruct (Nat.eqb_spec j i) as [->|]; cbn [andb]|]; auto.
        rewrite (HRW _ _ Hb) in HW. discriminate. }
      exists m'. split; auto. split; [congruence|]. intros b j. rewrite H'. cbn [look].
      now rewrite (@mrd_mwr T _ _ _ _ _ b j E2).
  Qed.

  Section List.
    Context {B : Type} (d : B) (L : list B) (P : B -> prog T) (R W : B -> region) (m0 : mem T)
      (ws : B -> wlist).
    Hypothesis Hfp : forall c, In c L -> fps (R c) (W c) (P c).
    Hypothesis Hrw : forall c a i, In c L -> R c a i = true -> W c a i = false.
    Hypothesis Hdisj : forall j k c c' a i, j <> k -> nth_error L j = Some c ->
      nth_error L k = Some c' -> W c a i = true -> R c' a i = false /\ W c' a i = false.
    Hypothesis Htr : forall c, In c L -> tr m0 (P c) = Some (ws c).
    Hypothesis Hnd : forall c, In c L -> NoDup (map fst (ws c)).

    Lemma tr_in_W p R1 W1 ws1 m : fps R1 W1 p -> tr m p = Some ws1 ->
      forall a i, In (a, i) (map fst ws1) -> W1 a i = true.
    Proof.
      revert ws1. induction p as [|a i k IH|a i v k IH]; intros ws1 HF E b j; cbn [fps tr] in *.
      - injection E as <-. intros [].
      - destruct HF as [_ HF]. destruct (mrd m a i); [|discriminate]. eapply IH; eauto.
      - destruct HF as [HW HF]. destruct (mrd m a i); [|discriminate].
        destruct (tr m k) as [w|] eqn:Ek; [|discriminate]. injection E as <-.
        cbn [map fst]. intros [[= <- <-]|H]; auto. eapply IH; eauto.
    Qed.

    Lemma tr_schedules :
      every_schedule (map P L) m0 (fun m =>
        shape m = shape m0 /\
        (forall c a i v, In c L -> In ((a, i), v) (ws c) -> mrd m a i = Some v) /\
        (forall a i, (forall c, In c L -> ~ In (a, i) (map fst (ws c))) -> mrd m a i = mrd m0 a i)).
    Proof.
      set (mk := fun c => match exec (P c) m0 with Some m' => m' | None => m0 end).
      assert (HE : forall c, In c L -> exec (P c) m0 = Some (mk c) /\
        forall a i, mrd (mk c) a i = look (ws c) a i (mrd m0 a i)).
      { intros c Hc. destruct (@exec_tr (R c) (W c) (P c) (fun a i => @Hrw c a i Hc) (Hfp c Hc) m0 m0 (ws c) (Htr c Hc) eq_refl)
          as (m' & E & _ & H); [intros ? ?; auto|]. unfold mk. rewrite E. auto. }
      eapply schedule_weaken; [|apply (@list_schedules T B d L P R W m0 mk)].
      - cbv beta. intros m (S & Hw & Ho). split; auto. split.
        + intros c a i v Hc Hi. rewrite (Hw c a i Hc).
          * rewrite (proj2 (HE c Hc)). apply look_in; auto.
          * eapply (@tr_in_W (P c) (R c) (W c)); eauto. change (a, i) with (fst ((a, i), v)). now apply in_map.
        + intros a i H.
          assert (D : (exists c, In c L /\ W c a i = true) \/ (forall c, In c L -> W c a i = false)).
          { destruct (existsb (fun c => W c a i) L) eqn:E.
            - left. apply existsb_exists in E. auto.
            - right. intros c Hc. destruct (W c a i) eqn:E'; auto.
              assert (existsb (fun c => W c a i) L = true) by (apply existsb_exists; eauto). congruence. }
          destruct D as [(c & Hc & HW)|D]; [|now apply Ho].
          rewrite (Hw c a i Hc HW), (proj2 (HE c Hc)). now apply look_other, H.
      - intros c Hc. now apply fps_fp, Hfp.
      - exact Hdisj.
      - intros c Hc. now apply HE.
    Qed.
  End List.

  Lemma tr_rd m a i k v : mrd m a i = Some v -> tr m (PRd a i k) = tr m (k v).
  Proof. intros H. cbn [tr]. now rewrite H. Qed.
End Tr.
