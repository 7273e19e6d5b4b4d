(** Blocks that read nothing another one writes, and write different cells, leave the same memory in whatever way they run. *)
From Coq Require Import List Arith Lia Bool Wellfounded.
From Verif Require Import Arr ArrLemmas LemEngine ModelParallel SpecPar LemParallel LemOmp SpecGpu LemGpu SpecGrid.
Import ListNotations.
Set Implicit Arguments.

Section Grid.
  Context {T : Type}.
  Implicit Types (g m : mem T) (ps : list (prog T)).

  (** ** finiteness *)
  Inductive bsub : list (list (prog T)) -> list (list (prog T)) -> Prop :=
  | bsub_act ps ps' rest : lsub ps' ps -> bsub (ps' :: rest) (ps :: rest)
  | bsub_bar ps rest : bsub rest (ps :: rest).
  Lemma bsub_wf : well_founded bsub.
  Proof.
    intros rs. induction rs as [|ps rest IH]; [constructor; intros y H; inversion H|].
    induction ps as [ps IHp] using (well_founded_induction lsub_wf). constructor. intros y H. inversion H; subst; auto.
  Qed.
  Inductive gsub : list (list (list (prog T))) -> list (list (list (prog T))) -> Prop :=
  | gsub_one l1 x x' l2 : bsub x' x -> gsub (l1 ++ x' :: l2) (l1 ++ x :: l2).
  Lemma gsub_acc_cons x l : Acc gsub l -> Acc gsub (x :: l).
  Proof.
    intros Hl. revert l Hl. induction x as [x IHx] using (well_founded_induction bsub_wf).
    intros l Hl. induction Hl as [l Hl IHl]. constructor. intros y Hy. inversion Hy as [l1 z z' l2 Hz E1 E2]; subst.
    destruct l1 as [|w l1]; cbn in *; injection E2 as E2 E3; subst.
    - apply IHx; auto. now constructor.
    - apply IHl. now constructor.
  Qed.
  Lemma gsub_wf : well_founded gsub.
  Proof.
    intros l. induction l as [|x l IH]; [constructor; intros y Hy; inversion Hy; destruct l1; discriminate|]. now apply gsub_acc_cons.
  Qed.
  Lemma grid_finite (bs : list (block T)) g : Acc (fun c' c => grid_step c c') (bs, g).
  Proof.
    remember (map fst bs) as l eqn:El. revert bs g El. induction l as [l IH] using (well_founded_induction gsub_wf). intros bs g ->.
    constructor. intros [bs' g'] H. eapply IH; [|reflexivity].
    inversion H as [bs1 ps ps' rest s s' bs2 ? ? Hl Hp|bs1 ps rest s bs2 ? Hp]; subst; rewrite !map_app; cbn [map fst]; constructor.
    - constructor. inversion Hp; subst. constructor. match goal with H : act _ _ _ _ |- _ => destruct H; constructor end.
    - constructor.
  Qed.

  (** ** memory of a block: global arrays, then its own *)
  Lemma mrd_app g s a i : mrd (g ++ s) a i = if a <? length g then mrd g a i else mrd s (a - length g) i.
  Proof.
    unfold mrd, rd. destruct (Nat.ltb_spec a (length g)); [now rewrite nth_error_app1|now rewrite nth_error_app2 by auto].
  Qed.
  Lemma mwr_len m a i v m' : mwr m a i v = Some m' -> length m' = length m.
  Proof. intros H. apply mwr_shape in H. apply (f_equal (@length nat)) in H. unfold shape in H. now rewrite !map_length in H. Qed.
  Lemma upd_app1 A (l1 l2 : list A) n x : n < length l1 -> upd (l1 ++ l2) n x = upd l1 n x ++ l2.
  Proof. revert n. induction l1 as [|y l1 IH]; intros n H; cbn in *; [lia|]. destruct n; cbn; auto. f_equal. apply IH. lia. Qed.
  Lemma upd_app2 A (l1 l2 : list A) n x : length l1 <= n -> upd (l1 ++ l2) n x = l1 ++ upd l2 (n - length l1) x.
  Proof. revert n. induction l1 as [|y l1 IH]; intros n H; cbn in *; [now rewrite Nat.sub_0_r|]. destruct n; [lia|]. cbn. f_equal. apply IH. lia. Qed.
  Lemma mwr_app g s a i v : mwr (g ++ s) a i v =
    if a <? length g then match mwr g a i v with Some g' => Some (g' ++ s) | None => None end
    else match mwr s (a - length g) i v with Some s' => Some (g ++ s') | None => None end.
  Proof.
    unfold mwr, rd. destruct (Nat.ltb_spec a (length g)) as [L|L].
    - rewrite nth_error_app1 by auto. destruct (nth_error g a) as [l|]; [|reflexivity]. cbn [obind].
      destruct (wr l i v) as [l'|]; [|reflexivity]. cbn [obind]. rewrite !wr_upd, app_length.
      destruct (Nat.ltb_spec a (length g + length s)); [|lia]. destruct (Nat.ltb_spec a (length g)); [|lia]. now rewrite upd_app1.
    - rewrite nth_error_app2 by auto. destruct (nth_error s (a - length g)) as [l|] eqn:E; [|reflexivity]. cbn [obind].
      destruct (wr l i v) as [l'|]; [|reflexivity]. cbn [obind]. rewrite !wr_upd, app_length.
      assert (a - length g < length s) by (apply nth_error_Some; congruence).
      destruct (Nat.ltb_spec a (length g + length s)); [|lia]. destruct (Nat.ltb_spec (a - length g) (length s)); [|lia].
      now rewrite upd_app2.
  Qed.
  Lemma app_split (g g' s s' : mem T) : length g' = length g -> g' ++ s' = g ++ s -> g' = g /\ s' = s.
  Proof.
    revert g'. induction g as [|x g IH]; intros [|x' g'] L E; cbn in *; try discriminate; auto. injection E as -> E.
    destruct (IH g') as [-> ->]; auto.
  Qed.
  Lemma shape_app g s : shape (g ++ s) = shape g ++ shape s.
  Proof. unfold shape. apply map_app. Qed.
  Lemma shape_len g g' : shape g = shape g' -> length g = length g'.
  Proof. intros H. apply (f_equal (@length nat)) in H. unfold shape in H. now rewrite !map_length in H. Qed.
  Lemma crashed_shape p m m' : shape m = shape m' -> crashed p m -> crashed p m'.
  Proof.
    intros E. destruct p as [|a i k|a i v k]; cbn; auto.
    - apply mrd_shape; auto.
    - intros H. destruct (mwr m' a i v) as [x|] eqn:E'; auto. exfalso. destruct (mwr_mrd _ _ _ _ E') as (y & Ey).
      destruct (mrd m a i) as [z|] eqn:Ez.
      + destruct (@mwr_some T m a i v) as [w Ew]; [eauto|]. congruence.
      + pose proof (@mrd_shape T m m' E a i Ez). congruence.
  Qed.

  (** ** every schedule, seen from the middle *)
  Lemma schedule_step ps m ps' m' (good : mem T -> Prop) : every_schedule ps m good -> par_step (ps, m) (ps', m') -> every_schedule ps' m' good.
  Proof.
    intros [_ H] Hs. split; [apply all_schedules_finite|]. intros qs q Hr. apply H. econstructor; eauto.
  Qed.
  Lemma schedule_now ps m (good : mem T -> Prop) : every_schedule ps m good -> Forall (fun p => ~ crashed p m) ps /\
      (forall j k p q a i, j <> k -> nth_error ps j = Some p -> nth_error ps k = Some q -> writes p a i -> accesses q a i -> False) /\
      (Forall (eq PRet) ps -> good m).
  Proof.
    intros [_ H]. destruct (H ps m (par_refl _)) as (A & B & C). split; [exact A|]. split; [exact B|].
    intros D. apply C. intros c Hc. inversion Hc as [ps1 p ps2 ? p' m' Ha]; subst. apply Forall_app in D. destruct D as [_ D].
    apply Forall_inv in D. subst p. inversion Ha.
  Qed.

  (** ** the invariant *)
  Record spec := Spec { sp_R : region; sp_W : region; sp_good : mem T -> Prop }.
  Definition apart (g0 : mem T) (sp : list spec) : Prop := forall j k s s' a i, j <> k ->
    nth_error sp j = Some s -> nth_error sp k = Some s' -> a < length g0 -> sp_W s a i = true -> sp_R s' a i = false /\ sp_W s' a i = false.
  Definition binv (g : mem T) (s : spec) (b : block T) : Prop := exists gj, shape gj = shape g /\
    (forall a i, a < length g -> sp_R s a i = true \/ sp_W s a i = true -> mrd gj a i = mrd g a i) /\
    every_round (fst b) (gj ++ snd b) (sp_good s) /\ Forall (Forall (fp (sp_R s) (sp_W s))) (fst b).
  Definition ginv (g0 : mem T) (sp : list spec) (c : list (block T) * mem T) : Prop :=
    shape (snd c) = shape g0 /\ Forall2 (binv (snd c)) sp (fst c) /\
    forall a i, (forall s, In s sp -> sp_W s a i = false) -> mrd (snd c) a i = mrd g0 a i.

  Lemma fp_cur R W (p : prog T) a i : fp R W p -> accesses p a i -> R a i = true \/ W a i = true.
  Proof. destruct p; cbn; [contradiction| |]; intros H [-> ->]; tauto. Qed.
  Lemma fp_wr R W (p : prog T) a i : fp R W p -> writes p a i -> W a i = true.
  Proof. destruct p; cbn; try contradiction. intros H [-> ->]. tauto. Qed.

  (** another block does not notice a write *)
  Lemma binv_other g g' s b a i v : mwr g a i v = Some g' -> sp_R s a i = false -> sp_W s a i = false -> binv g s b -> binv g' s b.
  Proof.
    intros E HR HW (gj & S1 & A & Ev & F). pose proof (mwr_shape _ _ _ _ E) as Sg. exists gj. split; [congruence|]. split; [|auto].
    intros b' j Hb Hrw. rewrite (mwr_len _ _ _ _ E) in Hb. rewrite (mrd_mwr _ _ _ _ b' j E).
    destruct (Nat.eqb_spec b' a) as [->|]; cbn [andb]; auto. destruct (Nat.eqb_spec j i) as [->|]; auto. destruct Hrw; congruence.
  Qed.

  Lemma Forall2_mid A B (Q : A -> B -> Prop) l l1 x l2 : Forall2 Q l (l1 ++ x :: l2) ->
    exists k1 y k2, l = k1 ++ y :: k2 /\ Forall2 Q k1 l1 /\ Q y x /\ Forall2 Q k2 l2.
  Proof.
    intros H. apply Forall2_app_inv_r in H. destruct H as (k1 & k & H1 & H2 & ->). inversion H2; subst. eauto 10.
  Qed.

  (** one action of a thread, done by the block alone *)
  Lemma act_alone g s g' s' R W p p' gj : length g' = length g -> act p (g ++ s) p' (g' ++ s') -> fp R W p ->
    shape gj = shape g -> (forall a i, a < length g -> R a i = true \/ W a i = true -> mrd gj a i = mrd g a i) ->
    exists gj', act p (gj ++ s) p' (gj' ++ s') /\ shape gj' = shape g' /\ fp R W p' /\
      (forall a i, a < length g -> R a i = true \/ W a i = true -> mrd gj' a i = mrd g' a i) /\
      (g' = g \/ exists a i v, mwr g a i v = Some g' /\ a < length g /\ W a i = true).
  Proof.
    intros Hl Ha Hf Sj Aj. pose proof (shape_len _ _ Sj) as Lj.
    remember (g ++ s) as m eqn:Em. remember (g' ++ s') as m' eqn:Em'. destruct Ha as [a i k m v E|a i v k m m1 E]; subst m.
    - cbn in Hf. destruct Hf as [Hrw Hk]. destruct (app_split g g' s s') as [-> ->]; auto. exists gj.
      split; [|auto 8]. constructor. rewrite mrd_app in *. rewrite Lj. destruct (Nat.ltb_spec a (length g)); auto. now rewrite Aj.
    - subst m1. cbn in Hf. destruct Hf as [HW Hk]. rewrite mwr_app in E. destruct (Nat.ltb_spec a (length g)) as [L|L].
      + destruct (mwr g a i v) as [g1|] eqn:Eg; [|discriminate]. injection E as E.
        destruct (app_split g1 g' s s') as [-> ->]; [rewrite (mwr_len _ _ _ _ Eg); auto|auto|].
        destruct (@mwr_some T gj a i v) as [gj' Ej]. { rewrite Aj by auto. eapply mwr_mrd; eauto. }
        exists gj'. split; [constructor; rewrite mwr_app, Lj; destruct (Nat.ltb_spec a (length g)); [now rewrite Ej|lia]|].
        split; [rewrite (mwr_shape _ _ _ _ Ej), (mwr_shape _ _ _ _ Eg); auto|]. split; [exact Hk|]. split.
        * intros b j Hb Hrw. rewrite (mrd_mwr _ _ _ _ b j Ej), (mrd_mwr _ _ _ _ b j Eg). rewrite Aj by auto. reflexivity.
        * right. exists a, i, v. auto.
      + destruct (mwr s (a - length g) i v) as [s1|] eqn:Es; [|discriminate]. injection E as E.
        destruct (app_split g g' s1 s') as [-> ->]; auto. exists gj. split.
        * constructor. rewrite mwr_app, Lj. destruct (Nat.ltb_spec a (length g)); [lia|]. now rewrite Es.
        * auto 8.
  Qed.

  Lemma ginv_step g0 sp c c' : apart g0 sp -> ginv g0 sp c -> grid_step c c' -> ginv g0 sp c'.
  Proof.
    intros Hap (S0 & HB & Ho) Hs. inversion Hs as [bs1 ps ps' rest s s' bs2 g g' Hl Hp|bs1 ps rest s bs2 g Hp]; subst; cbn [fst snd] in *.
    - destruct (@Forall2_mid _ _ _ _ _ _ _ HB) as (k1 & sj & k2 & -> & H1 & (gj & Sj & Aj & Ev & Fp) & H2). cbn [fst snd] in *.
      inversion Hp as [ps1 p ps2 m p' m' Ha]; subst. inversion Fp as [|? ? Fp1 Fp2]; subst.
      pose proof Fp1 as Fp3. apply Forall_app in Fp3. destruct Fp3 as [Fa Fb]. inversion Fb as [|? ? Fp0 Fc]; subst.
      destruct (@act_alone _ _ _ _ _ _ _ _ _ Hl Ha Fp0 Sj Aj) as (gj' & Ha' & Sj' & Fp' & Aj' & Hw).
      assert (Sg : shape g' = shape g).
      { destruct Hw as [->|(a & i & v & E & _)]; auto. eapply mwr_shape; eauto. }
      split; [cbn [snd]; congruence|]. cbn [fst snd]. split.
      + assert (Oth : forall k s'' b, In s'' (k1 ++ k2) -> nth_error (k1 ++ sj :: k2) k = Some s'' -> k <> length k1 -> binv g s'' b -> binv g' s'' b).
        { intros k s'' b _ Ek Nk Hb. destruct Hw as [->|(a & i & v & E & La & HW)]; auto.
          destruct (Hap (length k1) k sj s'' a i) as [X Y]; auto.
          - rewrite nth_error_app2, Nat.sub_diag by lia. reflexivity.
          - rewrite <- (shape_len _ _ S0). exact La.
          - eapply binv_other; eauto. }
        apply Forall2_app; [|constructor].
        * assert (G : forall l l' off, Forall2 (binv g) l l' -> (forall k x, nth_error l k = Some x -> nth_error (k1 ++ sj :: k2) (off + k) = Some x /\ off + k <> length k1 /\ In x (k1 ++ k2)) -> Forall2 (binv g') l l').
          { intros l l' off H. revert off. induction H as [|x y l l' Hx H IH]; intros off Hn; constructor.
            - destruct (Hn 0 x eq_refl) as (A & B & C). eapply Oth; eauto.
            - apply (IH (S off)). intros k z Ez. destruct (Hn (S k) z Ez) as (A & B & C). replace (S off + k) with (off + S k) by lia. auto. }
          apply (G k1 bs1 0 H1). intros k x Ek. cbn. assert (k < length k1) by (apply nth_error_Some; congruence).
          split; [now rewrite nth_error_app1|]. split; [lia|]. apply in_or_app. left. eapply nth_error_In; eauto.
        * exists gj'. cbn [fst snd]. split; [exact Sj'|]. split; [rewrite (shape_len _ _ Sg); exact Aj'|]. split.
          -- cbn [every_round] in *. eapply schedule_step; [exact Ev|]. constructor. exact Ha'.
          -- constructor; auto. apply Forall_app. auto.
        * assert (G : forall l l' off, Forall2 (binv g) l l' -> (forall k x, nth_error l k = Some x -> nth_error (k1 ++ sj :: k2) (off + k) = Some x /\ off + k <> length k1 /\ In x (k1 ++ k2)) -> Forall2 (binv g') l l').
          { intros l l' off H. revert off. induction H as [|x y l l' Hx H IH]; intros off Hn; constructor.
            - destruct (Hn 0 x eq_refl) as (A & B & C). eapply Oth; eauto.
            - apply (IH (S off)). intros k z Ez. destruct (Hn (S k) z Ez) as (A & B & C). replace (S off + k) with (off + S k) by lia. auto. }
          apply (G k2 bs2 (S (length k1)) H2). intros k x Ek.
          split; [rewrite nth_error_app2 by lia; replace (S (length k1) + k - length k1) with (S k) by lia; exact Ek|].
          split; [lia|]. apply in_or_app. right. eapply nth_error_In; eauto.
      + intros a i Hn. rewrite <- Ho by auto. destruct Hw as [->|(b & j & v & E & _ & HW)]; auto.
        rewrite (mrd_mwr _ _ _ _ a i E). destruct (Nat.eqb_spec a b) as [->|]; cbn [andb]; auto.
        destruct (Nat.eqb_spec i j) as [->|]; auto. rewrite (Hn sj) in HW; [discriminate|]. apply in_or_app. right. now left.
    - split; [exact S0|]. cbn [fst snd]. split; [|exact Ho].
      destruct (@Forall2_mid _ _ _ _ _ _ _ HB) as (k1 & sj & k2 & -> & H1 & (gj & Sj & Aj & Ev & Fp) & H2). cbn [fst snd] in *.
      apply Forall2_app; auto. constructor; auto. exists gj. cbn [fst snd]. split; auto. split; auto. split.
      + cbn [every_round] in Ev. apply schedule_now in Ev. now apply Ev.
      + now inversion Fp.
  Qed.

  Lemma ginv_run g0 sp c c' : apart g0 sp -> ginv g0 sp c -> grid_run c c' -> ginv g0 sp c'.
  Proof. intros Hap Hi Hr. induction Hr; auto. apply IHHr. eapply ginv_step; eauto. Qed.

  Lemma Forall2_nth A B (Q : A -> B -> Prop) l l' : Forall2 Q l l' -> forall k y, nth_error l' k = Some y -> exists x, nth_error l k = Some x /\ Q x y.
  Proof.
    intros H. induction H as [|x y l l' Hx H IH]; intros k z Ez; [destruct k; discriminate|]. destruct k; cbn in *; [injection Ez as <-; eauto|]. auto.
  Qed.

  (** Any way of running the blocks. *)
  Theorem grid_all g0 (sp : list spec) (bs : list (block T)) : apart g0 sp ->
    Forall2 (fun s b => every_round (fst b) (g0 ++ snd b) (sp_good s) /\ Forall (Forall (fp (sp_R s) (sp_W s))) (fst b)) sp bs ->
    every_grid bs g0 (fun g => shape g = shape g0 /\
      Forall (fun s => exists gj sj, length gj = length g0 /\ sp_good s (gj ++ sj) /\
        forall a i, a < length g0 -> sp_W s a i = true -> mrd g a i = mrd gj a i) sp /\
      forall a i, (forall s, In s sp -> sp_W s a i = false) -> mrd g a i = mrd g0 a i).
  Proof.
    intros Hap H0. split; [apply grid_finite|]. intros bs' g Hr.
    assert (Hi : ginv g0 sp (bs, g0)).
    { split; [reflexivity|]. cbn [fst snd]. split; [|reflexivity]. clear -H0. induction H0 as [|s b sp bs [A B] H IH]; constructor; auto. exists g0. auto. }
    destruct (ginv_run Hap Hi Hr) as (S1 & HB & Ho). cbn [fst snd] in *.
    assert (NC : forall k b, nth_error bs' k = Some b -> Forall (fun p => ~ crashed p (g ++ snd b)) (current b)).
    { intros k b Ek. destruct (@Forall2_nth _ _ _ _ _ HB _ _ Ek) as (s & _ & (gj & Sj & Aj & Ev & Fp)). unfold current. destruct (fst b) as [|ps rest]; [constructor|].
      cbn [every_round] in Ev. apply schedule_now in Ev. destruct Ev as (NC & _). eapply Forall_impl; [|exact NC]. cbv beta. intros p Hp X. apply Hp.
      eapply crashed_shape; [|exact X]. rewrite !shape_app. congruence. }
    split; [|split].
    - apply Forall_forall. intros b Hb. apply In_nth_error in Hb. destruct Hb as (k & Ek). eauto.
    - intros x y b c j k p q a i Ex Ey Ej Ek Hw Ha.
      destruct (@Forall2_nth _ _ _ _ _ HB _ _ Ex) as (s & Es & (gj & Sj & Aj & Ev & Fp)).
      destruct (@Forall2_nth _ _ _ _ _ HB _ _ Ey) as (s' & Es' & (gk & Sk & Ak & Ev' & Fp')).
      assert (P1 : fp (sp_R s) (sp_W s) p).
      { unfold current in Ej. destruct (fst b) as [|ps rest]; [destruct j; discriminate|]. inversion Fp as [|? ? F1 F2]; subst.
        rewrite Forall_forall in F1. apply F1. eapply nth_error_In; eauto. }
      assert (P2 : fp (sp_R s') (sp_W s') q).
      { unfold current in Ek. destruct (fst c) as [|ps rest]; [destruct k; discriminate|]. inversion Fp' as [|? ? F1 F2]; subst.
        rewrite Forall_forall in F1. apply F1. eapply nth_error_In; eauto. }
      destruct (Nat.eq_dec x y) as [->|D].
      + left. split; auto. destruct (Nat.eq_dec j k) as [|D]; auto. exfalso. rewrite Ex in Ey. injection Ey as <-.
        unfold current in *. destruct (fst b) as [|ps rest]; [destruct j; discriminate|]. cbn [every_round] in Ev. apply schedule_now in Ev.
        destruct Ev as (_ & NR & _). eapply (NR j k); eauto.
      + right. split; auto. destruct (Nat.le_gt_cases (length g) a) as [|La]; auto. exfalso.
        destruct (Hap x y s s' a i) as [X Y]; auto.
        * rewrite <- (shape_len _ _ S1). exact La.
        * eapply fp_wr; eauto.
        * destruct (@fp_cur _ _ _ _ _ P2 Ha); congruence.
    - intros Hst.
      assert (Done : Forall (fun b => fst b = []) bs').
      { apply Forall_forall. intros [rs s] Hb. cbn [fst]. destruct rs as [|ps rest]; [reflexivity|]. exfalso.
        apply in_split in Hb. destruct Hb as (b1 & b2 & ->).
        assert (Ek : nth_error (b1 ++ (ps :: rest, s) :: b2) (length b1) = Some (ps :: rest, s)) by (rewrite nth_error_app2, Nat.sub_diag by lia; reflexivity).
        pose proof (NC _ _ Ek) as N1. cbn [current fst snd] in N1.
        destruct (Forall_Exists_dec (fun p : prog T => PRet = p)) with (l := ps) as [Fd|Ex].
        { intros p. destruct p; [left; reflexivity|right; discriminate|right; discriminate]. }
        - eapply Hst. apply grid_barrier. exact Fd.
        - apply Exists_exists in Ex. destruct Ex as (p & Hp & Np). rewrite Forall_forall in N1. specialize (N1 p Hp).
          apply in_split in Hp. destruct Hp as (p1 & p2 & ->).
          destruct p as [|a i k|a i v k]; [congruence| |]; cbn [crashed] in N1.
          + destruct (mrd (g ++ s) a i) as [v|] eqn:E; [|congruence]. eapply Hst. eapply (@grid_act T b1 _ _ rest s s b2 g g); [reflexivity|].
            constructor. constructor. exact E.
          + destruct (mwr (g ++ s) a i v) as [m'|] eqn:E; [|congruence].
            pose proof (mwr_app g s a i v) as X. rewrite E in X. destruct (a <? length g).
            * destruct (mwr g a i v) as [g1|] eqn:E1; [|discriminate]. injection X as ->. eapply Hst.
              eapply (@grid_act T b1 _ _ rest s s b2 g g1); [eapply mwr_len; eauto|]. constructor. constructor. exact E.
            * destruct (mwr s (a - length g) i v) as [s1|] eqn:E1; [|discriminate]. injection X as ->. eapply Hst.
              eapply (@grid_act T b1 _ _ rest s s1 b2 g g); [reflexivity|]. constructor. constructor. exact E. }
      split; [exact Done|]. split; [exact S1|]. split; [|exact Ho].
      clear -HB Done S1. induction HB as [|s b sp bs (gj & Sj & Aj & Ev & Fp) H IH]; constructor.
      + inversion Done as [|? ? D1 D2]; subst. exists gj, (snd b). rewrite D1 in Ev. cbn [every_round] in Ev.
        rewrite <- (shape_len _ _ S1). split; [now apply shape_len|]. split; [exact Ev|]. intros a i La HW. symmetry. apply Aj; auto.
      + inversion Done; subst. auto.
  Qed.
End Grid.
