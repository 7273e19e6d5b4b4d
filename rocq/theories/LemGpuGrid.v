(** The blocks of the dense force kernels run at the same time. *)
From Coq Require Import ZArith List Arith Lia Bool.
From Verif Require Import Num Arr ArrLemmas ModelVertex LemEngine ModelParallel SpecPar LemParallel LemOmp ModelGpu SpecGpu LemGpu LemGpuSum
  ModelGpuForce LemGpuForce LemGpuHost SpecGrid LemGrid ModelGpuGrid.
Import ListNotations.
Set Implicit Arguments.

Lemma every_grid_weaken {T} bs (g : mem T) (P Q : mem T -> Prop) : (forall g', P g' -> Q g') -> every_grid bs g P -> every_grid bs g Q.
Proof.
  intros H [A B]. split; auto. intros bs' g' Hr. destruct (B bs' g' Hr) as (X & Y & Z). split; auto. split; auto. intros Hs.
  destruct (Z Hs). auto.
Qed.

Lemma Forall2_seq_map {A B : Type} (Q : A -> B -> Prop) (f : nat -> A) (g : nat -> B) k : (forall j, j < k -> Q (f j) (g j)) ->
  Forall2 Q (map f (seq 0 k)) (map g (seq 0 k)).
Proof.
  intros H. assert (X : forall s, (forall j, s <= j < s + k -> Q (f j) (g j)) -> Forall2 Q (map f (seq s k)) (map g (seq s k))).
  { clear H. induction k as [|k IH]; intros s H; cbn; constructor; [apply H; lia|]. apply IH. intros j Hj. apply H. lia. }
  apply X. intros j Hj. apply H. lia.
Qed.

(** blocks that own cells *)
Lemma apart_key {T} (g0 : mem T) (sp : list (spec (T:=T))) (key : nat -> nat -> nat) :
  (forall j s a i, nth_error sp j = Some s -> a < length g0 -> sp_W s a i = true -> key a i = j /\ forall s', In s' sp -> sp_R s' a i = false) ->
  apart g0 sp.
Proof.
  intros H j k s s' a i N Ej Ek La HW. destruct (H j s a i Ej La HW) as [K1 K2]. split; [apply K2; eapply nth_error_In; eauto|].
  destruct (sp_W s' a i) eqn:E; auto. destruct (H k s' a i Ek La E) as [K3 _]. congruence.
Qed.

Section Kernel.
  Context {T : Type} (U : NumOps T).
  Variables (n B q : nat) (gy gm : nat -> T) (y f mass : list T).
  Hypothesis HB : 0 < B.
  Hypothesis Hn : n = q * B.
  Hypothesis Ly : length y = 6 * n.
  Hypothesis Lf : length f = 6 * n.
  Hypothesis Lm : length mass = n.
  Hypothesis Gy : forall i, i < 6 * n -> nth_error y i = Some (gy i).
  Hypothesis Gm : forall i, i < n -> nth_error mass i = Some (gm i).
  Notation g0 := [y; f; mass].

  Definition Rb : region := fun a i => Rg a i || (3 <=? a).
  Definition Wb (first : nat) (ks : list nat) : region := fun a i => (3 <=? a) || existsb (fun n1 => fcell n n1 ks a i) (seq first B).
  Definition gd (ks : list nat) (val : nat -> nat -> vec3 T -> T) (first : nat) (m : mem T) : Prop :=
    forall n1 c, first <= n1 < first + B -> In c ks -> mrd m aF (c * n + n1) = Some (val c n1 (total U n B gy gm n1 q)).
  Definition bspec ks val first : spec (T:=T) := Spec Rb (Wb first ks) (gd ks val first).

  Lemma Wb_f first ks a i : a < 3 -> Wb first ks a i = true <-> a = aF /\ exists c n1, In c ks /\ first <= n1 < first + B /\ i = c * n + n1.
  Proof.
    intros Ha. unfold Wb. destruct (Nat.leb_spec 3 a); [lia|]. cbn [orb]. rewrite existsb_exists. split.
    - intros (n1 & Hi & H1). apply in_seq in Hi. apply fcell_true in H1. destruct H1 as (-> & k & Hk & ->). split; auto. exists k, n1. auto.
    - intros (-> & c & n1 & Hc & H1 & ->). exists n1. split; [apply in_seq; lia|]. apply fcell_true. eauto.
  Qed.
  Lemma Wb_own first ks a t : 3 <= a -> Wb first ks a t = true.
  Proof. intros H. unfold Wb. destruct (Nat.leb_spec 3 a); [reflexivity|lia]. Qed.

  Section Scratch.
  Variable s : mem T.
  Hypothesis Bs : buffers s 13 B.
  Lemma HF0 : forall i, i < 6 * n -> mrd (g0 ++ s) aF i <> None.
  Proof. intros i Hi. unfold mrd, aF, rd. cbn. apply nth_error_Some. lia. Qed.
  Lemma HS0 : forall a t, 3 <= a <= 15 -> t < B -> mrd (g0 ++ s) a t <> None.
  Proof.
    intros a t Ha Ht. unfold mrd. destruct a as [|[|[|a]]]; try lia. cbn.
    destruct (buffers_get Bs (a := a)) as (b & Eb & Lb); [lia|]. unfold rd in *. cbn [nth_error]. rewrite Eb. cbn. apply nth_error_Some. lia.
  Qed.
  Lemma base0 : base n gy gm (g0 ++ s) (g0 ++ s).
  Proof. split; [reflexivity|]. unfold mrd, aY, aM, rd. cbn. auto. Qed.

  Lemma block_good store ks val first : store_ok n B gy gm (g0 ++ s) store ks val -> first + B <= n ->
    every_round (k_block U n B store n first) (g0 ++ s) (gd ks val first).
  Proof.
    intros Hst Hf. eapply round_weaken; [|apply (@block_rounds T U n B gy gm (g0 ++ s) HB HS0 store ks val first q (g0 ++ s) Hst Hn Hf base0)].
    intros m (_ & V & _). exact V.
  Qed.
  Lemma xyz_good first : first + B <= n ->
    every_round [map (fun tid => k_store_r n (first + tid) (@PRet T)) (seq 0 B)] (g0 ++ s) (gd [0; 1; 2] (fun c n1 _ => gy ((c + 3) * n + n1)) first).
  Proof.
    intros Hf. pose proof (@xyz_rounds T U n B gy gm (g0 ++ s) HB HF0 first B (g0 ++ s) base0 Hf) as X. unfold cuda_xyz in X.
    replace (B / B * B) with B in X by (rewrite Nat.div_same by lia; lia). eapply round_weaken; [|exact X].
    intros m (_ & V & _). exact V.
  Qed.
  End Scratch.

  Lemma block_fp (store : nat -> nat -> prog T) ks first :
    (forall n1 t (W : region), (forall a, 3 <= a <= 15 -> W a t = true) -> (forall c, In c ks -> W aF (c * n + n1) = true) -> fp Rg W (store n1 t)) ->
    Forall (Forall (fp Rb (Wb first ks))) (k_block U n B store n first).
  Proof.
    intros Hst.
    assert (Mon : forall W p, fp (T:=T) Rg W p -> fp Rb W p).
    { intros W. induction p as [|a i k IH|a i v k IH]; cbn; auto.
      - intros [H1 H2]. split; [|auto]. destruct H1 as [H1|H1]; auto. left. unfold Rb. now rewrite H1.
      - intros [H1 H2]. auto. }
    assert (RY : forall i, Rb aY i = true) by reflexivity.
    assert (RM : forall i, Rb aM i = true) by reflexivity.
    assert (RS : forall a i, 3 <= a <= 6 -> Rb a i = true).
    { intros a i Ha. unfold Rb. destruct (Nat.leb_spec 3 a); [apply orb_true_r|lia]. }
    assert (Own : forall t a, 3 <= a <= 15 -> Wb first ks a t = true) by (intros; apply Wb_own; lia).
    assert (St : forall t, t < B -> fp Rb (Wb first ks) (store (first + t) t)).
    { intros t Ht. apply Mon. apply Hst; auto. intros c Hc. apply Wb_f; [unfold aF; lia|]. split; auto. exists c, (first + t). split; auto. lia. }
    assert (Rnd : forall P : nat -> prog T, (forall t, t < B -> fp Rb (Wb first ks) (P t)) -> Forall (fp Rb (Wb first ks)) (map P (seq 0 B))).
    { intros P HP. apply Forall_forall. intros p Hp. apply in_map_iff in Hp. destruct Hp as (t & <- & Ht). apply in_seq in Ht. apply HP. lia. }
    unfold k_block. cbn [map]. constructor.
    - apply Rnd. intros t Ht. apply (fp_init U n HB); auto. destruct ((n + B - 1) / B); [auto|]. apply (fp_load n HB); auto. exact I.
    - generalize ((n + B - 1) / B) as tiles. generalize 0 at 2 as b2. intros b2 tiles. revert b2.
      induction tiles as [|rest IH]; intros b2; cbn [k_tiles map]; [constructor|]. constructor; [|constructor; [|apply IH]].
      + apply Rnd. intros t Ht. apply (fp_compute U HB); auto. intros a Ha. apply Own. lia.
      + apply Rnd. intros t Ht. apply (fp_accum U HB); auto. destruct rest; [auto|]. apply (fp_load n HB); auto. exact I.
  Qed.
  Lemma xyz_fp first : Forall (Forall (fp Rb (Wb first [0; 1; 2]))) [map (fun tid => k_store_r n (first + tid) (@PRet T)) (seq 0 B)].
  Proof.
    constructor; [|constructor]. apply Forall_forall. intros p Hp. apply in_map_iff in Hp. destruct Hp as (t & <- & Ht). apply in_seq in Ht.
    apply (fp_store_r n HB); [reflexivity| |exact I]. intros c Hc. apply Wb_f; [unfold aF; lia|]. split; auto. exists c, (first + t).
    split; [cbn; lia|]. split; [lia|reflexivity].
  Qed.

  (** what a device leaves *)
  Variables (off cnt : nat).
  Hypothesis Hoff : off + cnt <= n.
  Hypothesis Hcnt : cnt mod B = 0.
  Definition tgt (i : nat) : option T :=
    if (i <? 6 * n) && (off <=? i mod n) && (i mod n <? off + cnt) then
      Some (if i / n <? 3 then gy (i + 3 * n) else vcomp (i / n) (total U n B gy gm (i mod n) q))
    else nth_error f i.
  Definition ftgt : list T := map (fun i => match tgt i with Some v => v | None => nlit U 0 end) (seq 0 (6 * n)).
  Lemma ftgt_len : length ftgt = 6 * n.
  Proof. unfold ftgt. now rewrite map_length, seq_length. Qed.
  Lemma ftgt_nth i : nth_error ftgt i = tgt i.
  Proof.
    unfold ftgt. destruct (le_lt_dec (6 * n) i) as [L|L].
    - rewrite (proj2 (nth_error_None _ i)) by (rewrite map_length, seq_length; lia). unfold tgt. destruct (Nat.ltb_spec i (6 * n)); [lia|]. cbn [andb].
      symmetry. apply nth_error_None. lia.
    - rewrite nth_error_map, (nth_error_nth' _ 0) by (rewrite seq_length; auto). rewrite seq_nth by auto. cbn [option_map Nat.add].
      unfold tgt. destruct ((i <? 6 * n) && (off <=? i mod n) && (i mod n <? off + cnt)); [reflexivity|].
      destruct (nth_error f i) eqn:E; [reflexivity|]. apply nth_error_None in E. lia.
  Qed.
  Lemma tgt_in n1 c : off <= n1 < off + cnt -> c < 6 -> tgt (c * n + n1) =
    Some (if c <? 3 then gy ((c + 3) * n + n1) else vcomp c (total U n B gy gm n1 q)).
  Proof.
    intros H1 Hc. unfold tgt.
    assert (E1 : (c * n + n1) mod n = n1). { rewrite Nat.add_comm, Nat.mod_add by lia. apply Nat.mod_small. lia. }
    assert (E2 : (c * n + n1) / n = c). { rewrite Nat.add_comm, Nat.div_add by lia. rewrite Nat.div_small by lia. reflexivity. }
    rewrite E1, E2. destruct (Nat.ltb_spec (c * n + n1) (6 * n)); [|nia]. destruct (Nat.leb_spec off n1); [|lia].
    destruct (Nat.ltb_spec n1 (off + cnt)); [|lia]. cbn [andb]. replace (c * n + n1 + 3 * n) with ((c + 3) * n + n1) by ring. reflexivity.
  Qed.
  Lemma tgt_out i : (forall n1 c, off <= n1 < off + cnt -> c < 6 -> i <> c * n + n1) -> tgt i = nth_error f i.
  Proof.
    intros H. unfold tgt. destruct (Nat.ltb_spec i (6 * n)) as [L|L]; cbn [andb]; auto.
    destruct (Nat.leb_spec off (i mod n)) as [L1|]; cbn [andb]; auto. destruct (Nat.ltb_spec (i mod n) (off + cnt)) as [L2|]; auto. exfalso.
    apply (H (i mod n) (i / n)); [lia| |].
    - apply Nat.div_lt_upper_bound; lia.
    - rewrite Nat.mul_comm. apply Nat.div_mod. lia.
  Qed.
  Lemma tgt_cases i : (exists n1 c, off <= n1 < off + cnt /\ c < 6 /\ i = c * n + n1) \/ (forall n1 c, off <= n1 < off + cnt -> c < 6 -> i <> c * n + n1).
  Proof.
    destruct (le_lt_dec (6 * n) i) as [L|L]; [right; intros n1 c H Hc; nia|].
    destruct (le_lt_dec off (i mod n)) as [L1|L1]; [destruct (le_lt_dec (off + cnt) (i mod n)) as [L2|L2]|].
    - right. intros n1 c H Hc ->. rewrite (Nat.add_comm (c * n)), Nat.mod_add, Nat.mod_small in L2 by lia. lia.
    - left. exists (i mod n), (i / n). split; [lia|]. split; [apply Nat.div_lt_upper_bound; lia|]. rewrite Nat.mul_comm. apply Nat.div_mod. lia.
    - right. intros n1 c H Hc ->. rewrite (Nat.add_comm (c * n)), Nat.mod_add, Nat.mod_small in L1 by lia. lia.
  Qed.

  Lemma left_mem g : shape g = shape g0 -> (forall i, mrd g aY i = mrd g0 aY i) -> (forall i, mrd g aM i = mrd g0 aM i) ->
    (forall i, mrd g aF i = tgt i) -> g = [y; ftgt; mass].
  Proof.
    intros S0 HY HM HF. apply mem_ext.
    - rewrite S0. unfold shape. cbn [map]. now rewrite ftgt_len, Lf.
    - intros [|[|[|a]]] i.
      + exact (HY i).
      + etransitivity; [exact (HF i)|]. rewrite <- ftgt_nth. reflexivity.
      + exact (HM i).
      + unfold mrd, rd. assert (X : nth_error g (S (S (S a))) = None).
        { apply nth_error_None. apply (f_equal (@length nat)) in S0. unfold shape in S0. rewrite map_length in S0. cbn in S0. lia. }
        rewrite X. cbn. destruct a; reflexivity.
  Qed.

  (** the sequential device *)
  Lemma done_left s m : device_done U n B gy gm (g0 ++ s) off cnt q (g0 ++ s) m -> firstn 3 m = [y; ftgt; mass].
  Proof.
    intros ((S0 & HY & HM) & HV & HO).
    assert (L3 : shape (firstn 3 m) = shape g0).
    { unfold shape. rewrite <- firstn_map. fold (shape m). rewrite S0. reflexivity. }
    assert (Low : forall a i, a < 3 -> mrd (firstn 3 m) a i = mrd m a i).
    { intros a i Ha. rewrite <- (firstn_skipn 3 m) at 2. rewrite mrd_app. rewrite (shape_len _ _ L3). cbn [length].
      destruct (Nat.ltb_spec a 3); [reflexivity|lia]. }
    apply left_mem; [exact L3| | |].
    - intros i. rewrite Low by (unfold aY; lia). destruct (le_lt_dec (6 * n) i) as [L|L].
      + assert (X : mrd (g0 ++ s) aY i = None) by (unfold mrd, aY, rd; cbn; apply nth_error_None; lia).
        rewrite (@mrd_shape T (g0 ++ s) m (eq_sym S0) aY i X). symmetry. exact X.
      + rewrite HY by auto. unfold mrd, aY, rd. cbn. symmetry. apply Gy. auto.
    - intros i. rewrite Low by (unfold aM; lia). destruct (le_lt_dec n i) as [L|L].
      + assert (X : mrd (g0 ++ s) aM i = None) by (unfold mrd, aM, rd; cbn; apply nth_error_None; lia).
        rewrite (@mrd_shape T (g0 ++ s) m (eq_sym S0) aM i X). symmetry. exact X.
      + rewrite HM by auto. unfold mrd, aM, rd. cbn. symmetry. apply Gm. auto.
    - intros i. rewrite Low by (unfold aF; lia). destruct (tgt_cases i) as [(n1 & c & H1 & Hc & ->)|H].
      + rewrite tgt_in by auto. destruct (Nat.ltb_spec c 3).
        * apply HV; auto.
        * destruct (HV n1 (c - 3) H1 ltac:(lia)) as [_ X]. replace (c - 3 + 3) with c in X by lia. exact X.
      + rewrite tgt_out, HO by auto. reflexivity.
  Qed.

  (** the grid *)
  Lemma grid_left (sp : list (spec (T:=T))) (grid : list (list (list (prog T)))) bs : apart g0 sp ->
    Forall2 (fun s rs => (forall scr, buffers scr 13 B -> every_round rs (g0 ++ scr) (sp_good s)) /\ Forall (Forall (fp (sp_R s) (sp_W s))) rs) sp grid ->
    (forall s, In s sp -> exists ks val first, s = bspec ks val first /\ (forall c, In c ks -> c < 6) /\ off <= first /\ first + B <= off + cnt) ->
    (forall n1 c, off <= n1 < off + cnt -> c < 6 -> exists ks val first, In (bspec ks val first) sp /\ In c ks /\ first <= n1 < first + B /\
       forall v, val c n1 v = if c <? 3 then gy ((c + 3) * n + n1) else vcomp c v) ->
    map fst bs = grid -> Forall (fun b => buffers (snd b) 13 B) bs -> every_grid bs g0 (eq [y; ftgt; mass]).
  Proof.
    intros Hap HF Hin Hcov Eb Hbs.
    assert (H2 : Forall2 (fun s b => every_round (fst b) (g0 ++ snd b) (sp_good s) /\ Forall (Forall (fp (sp_R s) (sp_W s))) (fst b)) sp bs).
    { clear Hap Hin Hcov. revert sp grid HF Eb. induction bs as [|b bs IH]; intros sp grid HF Eb; subst grid; inversion HF as [|s rs sp' rest [H1 H1'] H2]; subst; constructor.
      - inversion Hbs; subst. auto.
      - inversion Hbs; subst. eapply IH; eauto. }
    eapply every_grid_weaken; [|apply (grid_all Hap H2)]. cbv beta. intros g (S0 & HG & HO). symmetry.
    assert (NW : forall a i, a < 3 -> a <> aF -> forall s, In s sp -> sp_W s a i = false).
    { intros a i Ha N s Hs. destruct (Hin s Hs) as (ks & val & first & -> & _). cbn [sp_W bspec]. destruct (Wb first ks a i) eqn:E; auto.
      apply Wb_f in E; [|auto]. destruct E as [E _]. congruence. }
    apply left_mem; auto.
    - intros i. apply HO. apply NW; unfold aY, aF; lia.
    - intros i. apply HO. apply NW; unfold aM, aF; lia.
    - intros i. destruct (tgt_cases i) as [(n1 & c & H1 & Hc & ->)|H].
      + destruct (Hcov n1 c H1 Hc) as (ks & val & first & Hs & Hk & Hf1 & Hv). rewrite Forall_forall in HG.
        destruct (HG _ Hs) as (gj & sj & Lg & Gd & Ag). cbn [sp_good sp_W bspec] in *.
        rewrite Ag; [|cbn; unfold aF; lia|apply Wb_f; [unfold aF; lia|]; split; auto; exists c, n1; auto].
        specialize (Gd n1 c Hf1 Hk). rewrite mrd_app, Lg in Gd. cbn [length aF Nat.ltb Nat.leb] in Gd. rewrite tgt_in by auto.
        rewrite Gd. f_equal. apply Hv.
      + rewrite HO; [rewrite tgt_out by auto; reflexivity|]. intros s Hs. destruct (Hin s Hs) as (ks & val & first & -> & Hks & Hf1 & Hf2).
        cbn [sp_W bspec]. destruct (Wb first ks aF i) eqn:E; auto. apply Wb_f in E; [|unfold aF; lia].
        destruct E as (_ & c & n1 & Hc & Hn1 & ->). exfalso. apply (H n1 c); auto. lia.
  Qed.
End Kernel.
