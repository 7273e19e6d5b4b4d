(** The relation of [LemSym] for relations of state vectors that are closed under linear combinations, over the reals. *)
From Coq Require Import Bool ZArith Reals List Arith Lia Lra Permutation.
From Verif Require Import Num Arr ArrLemmas ModelEngine ModelSolverBase ModelButcher ModelExtrap ModelSolver SpecPhys SpecEngine SpecSolver
  SpecSym RLemmas LemBuffers LemBufProp LemBufR LemErase LemSym.
Import ListNotations.
Set Implicit Arguments.
Local Open Scope R_scope.

Lemma for_none A (body : nat -> A -> option A) k : (forall s, body k s = None) -> forall n i s, (i <= k < i + n)%nat -> for_ n i body s = None.
Proof.
  intros H. induction n as [|n IH]; intros i s Hi; [lia|]. cbn [for_]. destruct (Nat.eq_dec i k) as [->|D]; [now rewrite H|].
  destruct (body i s) as [s'|]; [|reflexivity]. cbn [obind]. apply IH. lia.
Qed.

Lemma cells_nth (ps : nat) (val : nat -> R) a a' : length a = ps -> cells_set ps val a a' ->
  length a' = ps /\ forall q, (q < ps)%nat -> nth q a' 0 = val q.
Proof.
  intros L [L' C]. split; [congruence|]. intros q Hq. specialize (C q). destruct (Nat.ltb_spec q ps); [|lia]. now apply nth_error_nth.
Qed.

Section Rel.
  Variables (mind : R) (ps : nat) (lW : list R -> list R -> Prop).
  Notation N := (Rops mind).
  Hypothesis Hps : (0 < ps)%nat.
  Hypothesis lW_len : forall u v, lW u v -> length u = ps /\ length v = ps.
  Hypothesis lW_zero : lW (repeat 0 ps) (repeat 0 ps).
  Hypothesis lW_comb : forall a u u' b v v' r r', lW u u' -> lW v v' -> length r = ps -> length r' = ps ->
    (forall q, (q < ps)%nat -> nth q r 0 = a * nth q u 0 + b * nth q v 0) ->
    (forall q, (q < ps)%nat -> nth q r' 0 = a * nth q u' 0 + b * nth q v' 0) -> lW r r'.

  Lemma lin_fmadd a a' b b' x x' d : lW a a' -> lW b b' -> lW x x' -> sim (fmadd N ps a b x d) (fmadd N ps a' b' x' d) lW.
  Proof.
    intros Ha Hb Hx. destruct (@lW_len _ _ Ha) as [A A'], (@lW_len _ _ Hb) as [B B'], (@lW_len _ _ Hx) as [X X'].
    destruct (@fmadd_cells R N ps a b x d) as (r & -> & C); try lia.
    destruct (@fmadd_cells R N ps a' b' x' d) as (r' & -> & C'); try lia. cbn [sim].
    destruct (cells_nth A C) as [D E], (cells_nth A' C') as [D' E'].
    apply (@lW_comb 1 b b' d x x'); auto.
    - intros q Hq. rewrite E by auto. cbn. ring.
    - intros q Hq. rewrite E' by auto. cbn. ring.
  Qed.
  Lemma lin_fmi a a' b b' d : lW a a' -> lW b b' -> sim (fmadd_inplace N ps a b d) (fmadd_inplace N ps a' b' d) lW.
  Proof.
    intros Ha Hb. destruct (@lW_len _ _ Ha) as [A A'], (@lW_len _ _ Hb) as [B B'].
    destruct (@fmadd_inplace_cells R N ps a b d) as (r & -> & C); try lia.
    destruct (@fmadd_inplace_cells R N ps a' b' d) as (r' & -> & C'); try lia. cbn [sim].
    destruct (cells_nth A C) as [D E], (cells_nth A' C') as [D' E'].
    apply (@lW_comb 1 a a' d b b'); auto.
    - intros q Hq. rewrite E by auto. cbn. ring.
    - intros q Hq. rewrite E' by auto. cbn. ring.
  Qed.
  Lemma lin_copy a a' b b' : lW a a' -> lW b b' -> sim (copy_buffer ps a b) (copy_buffer ps a' b') lW.
  Proof.
    intros Ha Hb. destruct (@lW_len _ _ Ha) as [A A'], (@lW_len _ _ Hb) as [B B'].
    destruct (@copy_cells R N ps a b) as (r & -> & C); try lia.
    destruct (@copy_cells R N ps a' b') as (r' & -> & C'); try lia. cbn [sim].
    destruct (cells_nth A C) as [D E], (cells_nth A' C') as [D' E'].
    apply (@lW_comb 1 b b' 0 b b'); auto.
    - intros q Hq. rewrite E by auto. cbn. ring.
    - intros q Hq. rewrite E' by auto. cbn. ring.
  Qed.
  Lemma lin_copyn a a' b b' : Wn lW a a' -> Wn lW b b' -> sim (copy_buffer ps a b) (copy_buffer ps a' b') lW.
  Proof.
    intros [Ha|[-> ->]] [Hb|[-> ->]].
    - now apply lin_copy.
    - replace (copy_buffer ps a []) with (@None (list R)); [exact I|]. symmetry. apply for_none with (k := 0%nat); [|lia].
      intros s. unfold copy_body. reflexivity.
    - replace (copy_buffer ps [] b) with (@None (list R)); [exact I|]. symmetry. unfold copy_buffer. destruct ps as [|k]; [lia|].
      cbn [for_]. unfold copy_body. destruct (rd b 0); reflexivity.
    - replace (copy_buffer ps [] []) with (@None (list R)); [exact I|]. symmetry. apply for_none with (k := 0%nat); [|lia].
      intros s. unfold copy_body. reflexivity.
  Qed.
  Lemma lin_fill a a' : lW a a' -> sim (fill_buffer a 0) (fill_buffer a' 0) lW.
  Proof.
    intros Ha. destruct (@lW_len _ _ Ha) as [A A']. rewrite !(fill_repeat). cbn [sim].
    apply (@lW_comb 0 a a' 0 a a'); auto; rewrite ?repeat_length; auto; intros q Hq; rewrite nth_repeat; ring.
  Qed.

  Lemma lin_weighted d : forall m b b', Forall2 lW b b' -> (m <= length b)%nat -> exists w w', lW w w' /\
    (forall q, (q < ps)%nat -> nth q w 0 = weighted m d b q) /\ (forall q, (q < ps)%nat -> nth q w' 0 = weighted m d b' q).
  Proof.
    intros m b b' H. induction m as [|m IH]; intros Hm.
    - exists (repeat 0 ps), (repeat 0 ps). unfold weighted. cbn [rsum]. split; [|split; intros; apply nth_repeat].
      exact lW_zero.
    - destruct IH as (w & w' & Hw & E & E'); [lia|]. destruct (@lW_len _ _ Hw) as [A A'].
      assert (Hb : lW (nth m b []) (nth m b' [])).
      { clear -H Hm. revert m Hm. induction H as [|x y l l' Hx H IH]; intros m Hm; cbn in *; [lia|]. destruct m; auto. apply IH. lia. }
      destruct (@lW_len _ _ Hb) as [B B'].
      set (v := map (fun q => nth q w 0 + nth m d 0 * nth q (nth m b []) 0) (seq 0 ps)).
      set (v' := map (fun q => nth q w' 0 + nth m d 0 * nth q (nth m b' []) 0) (seq 0 ps)).
      assert (V : forall (f : nat -> R) q, (q < ps)%nat -> nth q (map f (seq 0 ps)) 0 = f q).
      { intros f q Hq. rewrite (nth_indep _ 0 (f 0%nat)) by (now rewrite map_length, seq_length). rewrite map_nth, seq_nth by auto. reflexivity. }
      exists v, v'. unfold v, v'. split; [|split].
      + apply (@lW_comb 1 w w' (nth m d 0) (nth m b []) (nth m b' [])); auto; rewrite ?map_length, ?seq_length; auto;
          intros q Hq; rewrite V by auto; ring.
      + intros q Hq. rewrite V by auto. rewrite E by auto. reflexivity.
      + intros q Hq. rewrite V by auto. rewrite E' by auto. reflexivity.
  Qed.

  Lemma lin_corr a a' k k' b b' d n : lW a a' -> Wn lW k k' -> Forall2 lW b b' ->
    sim (fmaddn_corr N ps a k b d n) (fmaddn_corr N ps a' k' b' d n) (fun r r' => lW (fst r) (fst r') /\ Wn lW (snd r) (snd r')).
  Proof.
    intros Ha Hk Hb. assert (LB : length b = length b') by (clear -Hb; induction Hb; cbn; congruence).
    destruct (@lW_len _ _ Ha) as [A A'].
    assert (LE : forall l l', Forall2 lW l l' -> forall i, (i < length l)%nat -> length (nth i l []) = ps /\ length (nth i l' []) = ps).
    { clear -lW_len. intros l l' H. induction H as [|x y l l' Hx H IH]; intros i Hi; cbn in *; [lia|].
      destruct i; [destruct (@lW_len _ _ Hx); auto|]. apply IH. lia. }
    destruct (Nat.ltb (length b) n) eqn:Lb.
    { unfold fmaddn_corr. rewrite <- LB, Lb. cbn. auto. }
    apply Nat.ltb_ge in Lb.
    destruct (Nat.le_gt_cases n (length d)) as [Hd|Hd].
    2:{ replace (fmaddn_corr N ps a k b d n) with (@None (list R * list R)); [exact I|]. symmetry.
        unfold fmaddn_corr. destruct (Nat.ltb_spec (length b) n); [lia|]. apply for_none with (k := 0%nat); [|lia].
        intros [s1 s2]. unfold fmaddn_corr_body. destruct (rd s1 0); [|reflexivity]. cbn [obind]. destruct (rd s2 0); [|reflexivity].
        cbn [obind]. unfold fmaddn_corr_cell. rewrite for_none with (k := length d); [reflexivity| |lia].
        intros s. unfold rd. rewrite (proj2 (nth_error_None d (length d))) by lia. reflexivity. }
    destruct Hk as [Hk|[-> ->]].
    2:{ replace (fmaddn_corr N ps a [] b d n) with (@None (list R * list R)); [exact I|]. symmetry.
        unfold fmaddn_corr. destruct (Nat.ltb_spec (length b) n); [lia|]. destruct ps as [|p]; [lia|]. cbn [for_]. unfold fmaddn_corr_body.
        destruct (rd a 0); reflexivity. }
    destruct (@lW_len _ _ Hk) as [K K'].
    destruct (@fmaddn_corr_R mind ps a k b d n) as (r & s & -> & R1 & S1 & G & Z & _); try lia.
    { intros i Hi. destruct (LE _ _ Hb i); lia. }
    destruct (@fmaddn_corr_R mind ps a' k' b' d n) as (r' & s' & -> & R2 & S2 & G' & Z' & _); try lia.
    { intros i Hi. destruct (LE _ _ Hb i); lia. }
    cbn [sim fst snd].
    assert (DW : some_weight n d \/ ~ some_weight n d).
    { destruct (some_weight_dec n d) as [X|X]; [now left|]. right. intros (i & Hi & Y). apply Y. auto. }
    destruct DW as [Hw|Hw].
    - destruct (@lin_weighted d n b b' Hb Lb) as (w & w' & HW & E & E'). destruct (@lW_len _ _ HW) as [W1 W2].
      assert (Hz : lW s s').
      { apply (@lW_comb 0 a a' 0 a a'); auto; try lia; intros q Hq; [rewrite (proj2 (G q Hq) Hw)|rewrite (proj2 (G' q Hq) Hw)]; ring. }
      split; [|now left].
      set (V := fun (x y : list R) => map (fun q => nth q x 0 - nth q y 0) (seq 0 ps)).
      assert (VN : forall x y q, (q < ps)%nat -> nth q (V x y) 0 = nth q x 0 - nth q y 0).
      { intros x y q Hq. unfold V. rewrite (nth_indep _ 0 ((fun q => nth q x 0 - nth q y 0) 0%nat)) by (now rewrite map_length, seq_length).
        rewrite (map_nth (fun q => nth q x 0 - nth q y 0)), seq_nth by auto. reflexivity. }
      assert (VL : forall x y, length (V x y) = ps) by (intros; unfold V; now rewrite map_length, seq_length).
      assert (Hv : lW (V a k) (V a' k')).
      { apply (@lW_comb 1 a a' (-1) k k'); auto; intros q Hq; rewrite VN by auto; ring. }
      apply (@lW_comb 1 (V a k) (V a' k') 1 w w'); auto; try lia; intros q Hq; rewrite VN by auto.
      + rewrite E by auto. destruct (G q Hq) as [X Y]. rewrite (Y Hw) in X. lra.
      + rewrite E' by auto. destruct (G' q Hq) as [X Y]. rewrite (Y Hw) in X. lra.
    - destruct (Z Hw) as [-> ->], (Z' Hw) as [-> ->]. split; [assumption|now left].
  Qed.

  (** runs of a solver from related states stay related if the forces are and time is shifted *)
  Theorem rel_all E1 E2 ef1 ef2 (P : E1 -> E2 -> Prop) (c : R) g1 g2 dts s e1 e2 r :
    (forall p q step t y y' f f', P p q -> lW y y' -> lW f f' ->
      sim (ef1 p step t y f) (ef2 q step (t + c) y' f') (fun a b => P (fst a) (fst b) /\ lW (snd a) (snd b))) ->
    (forall k, lW (g1 k) (g2 k)) -> (adaptive s -> iso (Rops mind) ps lW) -> fresh s ->
    lW (e_y e1) (e_y e2) -> e_time e2 = e_time e1 + c -> e_step e1 = e_step e2 -> P (e_priv e1) (e_priv e2) -> e_nbuf e1 = e_nbuf e2 ->
    advise_all N ps ef1 g1 dts s e1 = Some r ->
    exists r', advise_all N ps ef2 g2 dts s e2 = Some r' /\
      lW (e_y (snd r)) (e_y (snd r')) /\ e_time (snd r') = e_time (snd r) + c /\ e_step (snd r') = e_step (snd r) /\
      P (e_priv (snd r)) (e_priv (snd r')) /\ e_nbuf (snd r') = e_nbuf (snd r).
  Proof.
    intros Hef Hg Hi Hf Hy Ht Hs Hp Hn Er.
    assert (HR : srel lW s s).
    { clear -Hf. induction s as [b|b|b|b|rf b|p b|p b|p st IH b step]; cbn in Hf |- *; subst; cbn; auto.
      destruct Hf as (A & -> & ->). cbn. auto. }
    set (Tm := fun t t' : R => t' = t + c).
    assert (Hef' : forall p q step t t' y y' f f', P p q -> lW y y' -> lW f f' -> Tm t t' ->
      sim (ef1 p step t y f) (ef2 q step t' y' f') (fun a b => P (fst a) (fst b) /\ lW (snd a) (snd b))).
    { unfold Tm. intros p q step t t' y y' f f' A B C ->. auto. }
    assert (Htm : forall t t' d, Tm t t' -> Tm (nadd N t d) (nadd N t' d)) by (unfold Tm; cbn [nadd Rops]; intros; lra).
    pose proof (@sy_all R E1 E2 N ps ef1 ef2 g1 g2 P lW Tm Hef' Hg lin_fmadd lin_fmi lin_copy lin_copyn lin_fill lin_corr Htm dts s s e1 e2 Hi HR) as X.
    assert (He : era P lW Tm e1 e2) by (red; auto).
    specialize (X He). rewrite Er in X. unfold sim in X. destruct (advise_all N ps ef2 g2 dts s e2) as [r'|]; [|contradiction].
    destruct X as [_ (X1 & X3 & X4 & X5 & X6)]. exists r'. auto 10.
  Qed.
End Rel.
