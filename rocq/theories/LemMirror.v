(** Mirror symmetry: a relation of vectors component by component. *)
From Coq Require Import Bool ZArith List Arith Lia.
From Verif Require Import Num Arr ArrLemmas ModelVertex ModelForce ModelSum ModelEngine ModelBlock ModelSolverBase ModelSolver SpecSolver SpecSym LemErase LemSym.
Import ListNotations.
Set Implicit Arguments.

Lemma sim_for_lt S1 S2 (P : S1 -> S2 -> Prop) n : forall i (b1 : nat -> S1 -> option S1) (b2 : nat -> S2 -> option S2) s1 s2,
  P s1 s2 -> (forall k s1 s2, i <= k < i + n -> P s1 s2 -> sim (b1 k s1) (b2 k s2) P) -> sim (for_ n i b1 s1) (for_ n i b2 s2) P.
Proof.
  induction n as [|n IH]; intros i b1 b2 s1 s2 H0 HB; cbn; auto.
  pose proof (HB i s1 s2 ltac:(lia) H0) as H1. destruct (b1 i s1), (b2 i s2); cbn in H1; try contradiction; cbn; auto.
  apply IH; auto. intros k t1 t2 Hk. apply HB. lia.
Qed.
Lemma sim_for_step S1 S2 (P : S1 -> S2 -> Prop) d n : forall i (b1 : nat -> S1 -> option S1) (b2 : nat -> S2 -> option S2) s1 s2,
  P s1 s2 -> (forall k s1 s2, k < n -> P s1 s2 -> sim (b1 (i + k * d) s1) (b2 (i + k * d) s2) P) ->
  sim (for_step n i d b1 s1) (for_step n i d b2 s2) P.
Proof.
  induction n as [|n IH]; intros i b1 b2 s1 s2 H0 HB; cbn; auto.
  pose proof (HB 0 s1 s2 ltac:(lia) H0) as H1. rewrite Nat.mul_0_l, Nat.add_0_r in H1.
  destruct (b1 i s1), (b2 i s2); cbn in H1; try contradiction; cbn; auto.
  apply IH; auto. intros k t1 t2 Hk. specialize (HB (S k) t1 t2 ltac:(lia)).
  replace (i + d + k * d) with (i + S k * d) by lia. exact HB.
Qed.

Section Comp.
  Context {T : Type} (N : NumOps T) (rel : nat -> T -> T -> Prop).
  Definition cW (a a' : list T) : Prop := length a = length a' /\
    forall i x x', nth_error a i = Some x -> nth_error a' i = Some x' -> rel i x x'.
  Lemma c_rd a a' i : cW a a' -> sim (rd a i) (rd a' i) (rel i).
  Proof.
    intros [L H]. unfold rd. specialize (H i). destruct (nth_error a i) as [x|] eqn:E; [|exact I].
    assert (i < length a') by (rewrite <- L; apply nth_error_Some; congruence).
    destruct (nth_error a' i) as [x'|] eqn:E'; [|apply nth_error_None in E'; lia]. cbn. auto.
  Qed.
  Lemma c_wr a a' i x x' : cW a a' -> rel i x x' -> sim (wr a i x) (wr a' i x') cW.
  Proof.
    intros [L H] Hx. rewrite !wr_upd, L. destruct (Nat.ltb_spec i (length a')); [|exact I]. cbn. split.
    - now rewrite !upd_length.
    - intros j u u'. destruct (Nat.eq_dec j i) as [->|Ne].
      + rewrite !upd_nth_same by lia. congruence.
      + rewrite !upd_nth_other by lia. apply H.
  Qed.
  Hypothesis Hadd : forall i x x' y y', rel i x x' -> rel i y y' -> rel i (nadd N x y) (nadd N x' y').
  Hypothesis Hsub : forall i x x' y y', rel i x x' -> rel i y y' -> rel i (nsub N x y) (nsub N x' y').
  Hypothesis Hmul : forall i x x' d, rel i x x' -> rel i (nmul N x d) (nmul N x' d).
  Hypothesis Hzero : forall i, rel i (nlit N 0) (nlit N 0).
  Hypothesis Habs : forall i x x', rel i x x' -> nabs N x = nabs N x'.
  Variable ps : nat.
  Notation Ws := (Forall2 cW).

  Lemma c_fmadd a a' b b' x x' d : cW a a' -> cW b b' -> cW x x' -> sim (fmadd N ps a b x d) (fmadd N ps a' b' x' d) cW.
  Proof.
    intros Ha Hb Hx. unfold fmadd. apply sim_for; auto. intros k u u' Hu. unfold fmadd_body.
    eapply sim_bind; [apply c_rd; exact Hb|]. intros. eapply sim_bind; [apply c_rd; exact Hx|]. intros. apply c_wr; auto.
  Qed.
  Lemma c_fmi a a' b b' d : cW a a' -> cW b b' -> sim (fmadd_inplace N ps a b d) (fmadd_inplace N ps a' b' d) cW.
  Proof.
    intros Ha Hb. unfold fmadd_inplace. apply sim_for; auto. intros k u u' Hu. unfold fmadd_inplace_body.
    eapply sim_bind; [apply c_rd; exact Hu|]. intros. eapply sim_bind; [apply c_rd; exact Hb|]. intros. apply c_wr; auto.
  Qed.
  Lemma c_copy a a' b b' : cW a a' -> cW b b' -> sim (copy_buffer ps a b) (copy_buffer ps a' b') cW.
  Proof.
    intros Ha Hb. unfold copy_buffer. apply sim_for; auto. intros k u u' Hu. unfold copy_body.
    eapply sim_bind; [apply c_rd; exact Hb|]. intros. apply c_wr; auto.
  Qed.
  Lemma Wn_W a a' : Wn cW a a' -> cW a a'.
  Proof. intros [H|[-> ->]]; auto. split; auto. intros i x x' H. destruct i; discriminate. Qed.
  Lemma c_copyn a a' b b' : Wn cW a a' -> Wn cW b b' -> sim (copy_buffer ps a b) (copy_buffer ps a' b') cW.
  Proof. intros Ha Hb. apply c_copy; now apply Wn_W. Qed.
  Lemma c_fill a a' : cW a a' -> sim (fill_buffer a (nlit N 0)) (fill_buffer a' (nlit N 0)) cW.
  Proof.
    intros Ha. unfold fill_buffer. destruct Ha as [L H]. rewrite <- L. apply sim_for; [split; auto|]. intros k u u' Hu. unfold fill_body.
    apply c_wr; auto.
  Qed.
  Lemma Ws_length l l' : Ws l l' -> length l = length l'. Proof. intros H. induction H; cbn; congruence. Qed.
  Lemma Ws_rd l l' i : Ws l l' -> sim (rd l i) (rd l' i) cW.
  Proof. intros H. revert i. induction H as [|a b l l' Hab H IH]; intros i; destruct i; unfold rd in *; cbn; auto. Qed.
  Lemma c_corr a a' k k' b b' d n : cW a a' -> Wn cW k k' -> Ws b b' ->
    sim (fmaddn_corr N ps a k b d n) (fmaddn_corr N ps a' k' b' d n) (fun r r' => cW (fst r) (fst r') /\ Wn cW (snd r) (snd r')).
  Proof.
    intros Ha Hk Hb. apply Wn_W in Hk. unfold fmaddn_corr. rewrite (Ws_length Hb).
    destruct (Nat.ltb (length b') n); [cbn; split; auto; now left|].
    assert (X : sim (for_ ps 0 (fmaddn_corr_body N b d n) (a, k)) (for_ ps 0 (fmaddn_corr_body N b' d n) (a', k'))
      (fun r r' => cW (fst r) (fst r') /\ cW (snd r) (snd r'))).
    { apply sim_for; [auto|]. clear a a' k k' Ha Hk. intros i [a k] [a' k'] [Ha Hk]. cbn [fst snd] in *. unfold fmaddn_corr_body.
      eapply sim_bind; [apply c_rd; exact Ha|]. intros x x' Hx. eapply sim_bind; [apply c_rd; exact Hk|]. intros z z' Hz.
      eapply sim_bind with (Q := fun r r' => rel i (fst r) (fst r') /\ rel i (snd r) (snd r')).
      - unfold fmaddn_corr_cell. apply sim_for; [auto|]. intros q s s' [S1 S2]. apply sim_same. intros dk.
        destruct (neqb N dk (nlit N 0)); [cbn; auto|]. eapply sim_bind; [apply Ws_rd; exact Hb|]. intros w w' Hw.
        eapply sim_bind; [apply c_rd; exact Hw|]. intros v v' Hv. unfold summation_step. cbn. auto 10.
      - intros r r' [R1 R2]. eapply sim_bind; [apply c_wr; eauto|]. intros. eapply sim_bind; [apply c_wr; eauto|]. intros. cbn. auto. }
    destruct (for_ ps 0 _ (a, k)), (for_ ps 0 _ (a', k')); cbn in *; auto. unfold Wn. tauto.
  Qed.
  Lemma c_iso : iso N ps cW.
  Proof.
    intros a a' Ha. unfold fmaxabs. eapply sim_bind; [apply c_rd; exact Ha|]. intros x x' Hx.
    apply sim_for; [eauto|]. intros k r r' ->. unfold fmaxabs_body. eapply sim_bind; [apply c_rd; exact Ha|]. intros u u' Hu.
    cbn. now rewrite (Habs Hu).
  Qed.

  (** runs of every solver, adaptive ones included, from related states on related engines *)
  Theorem c_all E ef (g g' : nat -> list T) dts s (e e' : @eng T E) r :
    (forall q step t y y' f f', cW y y' -> cW f f' -> sim (ef q step t y f) (ef q step t y' f') (fun a b => fst a = fst b /\ cW (snd a) (snd b))) ->
    (forall k, cW (g k) (g' k)) -> fresh s -> cW (e_y e) (e_y e') -> e_time e = e_time e' -> e_step e = e_step e' -> e_priv e = e_priv e' ->
    e_nbuf e = e_nbuf e' -> advise_all N ps ef g dts s e = Some r ->
    exists r', advise_all N ps ef g' dts s e' = Some r' /\ cW (e_y (snd r)) (e_y (snd r')) /\ e_time (snd r') = e_time (snd r) /\
      e_step (snd r') = e_step (snd r).
  Proof.
    intros Hef Hg Hf Hy Ht Hs Hp Hn Er.
    assert (HR : srel cW s s).
    { clear -Hf. induction s as [b|b|b|b|rf b|p b|p b|p st IH b step]; cbn in Hf |- *; subst; cbn; auto.
      destruct Hf as (A & -> & ->). cbn. auto. }
    assert (Hef' : forall p q step t t' y y' f f', p = q -> cW y y' -> cW f f' -> t = t' ->
      sim (ef p step t y f) (ef q step t' y' f') (fun a b => fst a = fst b /\ cW (snd a) (snd b))) by (intros; subst; auto).
    assert (Htm : forall t t' d : T, t = t' -> nadd N t d = nadd N t' d) by (intros; now subst).
    pose proof (@sy_all T E E N ps ef ef g g' eq cW eq Hef' Hg c_fmadd c_fmi c_copy c_copyn c_fill c_corr Htm dts s s e e' (fun _ => c_iso) HR) as X.
    assert (He : era eq cW eq e e') by (red; auto).
    specialize (X He). rewrite Er in X. unfold sim in X. destruct (advise_all N ps ef g' dts s e') as [r'|]; [|contradiction].
    destruct X as [_ (X1 & X3 & X4 & X5 & X6)]. exists r'. auto 10.
  Qed.
End Comp.

(** ** the forces *)
Section Axes.
  Context {T : Type} (N : NumOps T) (ax : nat -> T -> T -> Prop) (n : nat) (mass : list T).
  Hypothesis Hadd : forall i x x' y y', ax i x x' -> ax i y y' -> ax i (nadd N x y) (nadd N x' y').
  Hypothesis Hsub : forall i x x' y y', ax i x x' -> ax i y y' -> ax i (nsub N x y) (nsub N x' y').
  Hypothesis Hmul : forall i x x' d, ax i x x' -> ax i (nmul N x d) (nmul N x' d).
  Hypothesis Hdiv : forall i x x' d, ax i x x' -> ax i (ndiv N x d) (ndiv N x' d).
  Hypothesis Hsq : forall i x x', ax i x x' -> nmul N x x = nmul N x' x'.
  Hypothesis Hzero : forall i, ax i (nlit N 0) (nlit N 0).
  Definition arel (q : nat) : T -> T -> Prop := ax ((q / n) mod 3).
  Notation W := (cW arel).
  Definition vrel (v v' : vec3 T) : Prop := ax 0 (vx v) (vx v') /\ ax 1 (vy v) (vy v') /\ ax 2 (vz v) (vz v').
  Lemma arel_at k j : j < n -> arel (k * n + j) = ax (k mod 3).
  Proof.
    intros H. unfold arel. f_equal. f_equal. rewrite Nat.add_comm, Nat.div_add by lia. rewrite Nat.div_small by auto. reflexivity.
  Qed.
  Lemma a_rd3 y y' off j : W y y' -> off = 0 \/ off = 3 -> j < n -> sim (rd3 y n off j) (rd3 y' n off j) vrel.
  Proof.
    intros Hy Ho Hj. unfold rd3.
    eapply sim_bind; [apply (c_rd (off * n + j) Hy)|]. rewrite (arel_at _ Hj). intros x x' Hx.
    eapply sim_bind; [apply (c_rd ((off + 1) * n + j) Hy)|]. rewrite (arel_at _ Hj). intros z z' Hz.
    eapply sim_bind; [apply (c_rd ((off + 2) * n + j) Hy)|]. rewrite (arel_at _ Hj). intros w w' Hw.
    cbn. unfold vrel. cbn. destruct Ho as [-> | ->]; auto.
  Qed.
  Lemma a_wr3 f f' off j v v' : W f f' -> off = 0 \/ off = 3 -> j < n -> vrel v v' -> sim (wr3 f n off j v) (wr3 f' n off j v') W.
  Proof.
    intros Hf Ho Hj (A & B & C). unfold wr3.
    eapply sim_bind; [apply c_wr; [exact Hf|]; rewrite (arel_at _ Hj); destruct Ho as [-> | ->]; exact A|]. intros.
    eapply sim_bind; [apply c_wr; [eassumption|]; rewrite (arel_at _ Hj); destruct Ho as [-> | ->]; exact B|]. intros.
    apply c_wr; [eassumption|]. rewrite (arel_at _ Hj). destruct Ho as [-> | ->]; exact C.
  Qed.
  Lemma a_force v1 v1' v2 v2' m1 m2 : vrel v1 v1' -> vrel v2 v2' -> vrel (force N v1 v2 m1 m2) (force N v1' v2' m1 m2).
  Proof.
    intros (A1 & A2 & A3) (B1 & B2 & B3). unfold force.
    assert (D : vrel (vsub N v1 v2) (vsub N v1' v2')) by (unfold vrel; cbn; auto). destruct D as (D1 & D2 & D3).
    assert (E : vnorm N (vsub N v1 v2) = vnorm N (vsub N v1' v2')).
    { unfold vnorm. now rewrite (Hsq D1), (Hsq D2), (Hsq D3). }
    rewrite <- E. unfold vrel, vscale. cbn [vx vy vz]. auto.
  Qed.
  Lemma a_simple y y' f f' : W y y' -> W f f' -> sim (simple_fcompute N n mass y f) (simple_fcompute N n mass y' f') W.
  Proof.
    intros Hy Hf. unfold simple_fcompute. apply sim_for_lt; auto. clear f f' Hf. intros j f f' Hj Hf. unfold fcompute_body.
    eapply sim_bind; [apply a_rd3; eauto; lia|]. intros v v' Hv.
    eapply sim_bind with (Q := vrel).
    { unfold total_force. apply sim_for_lt; [unfold vrel; cbn; auto|]. intros k u u' Hk Hu. unfold pair_loop_body.
      destruct (Nat.eqb j k); [exact Hu|]. eapply sim_bind; [apply a_rd3; eauto; lia|]. intros w w' Hw.
      apply sim_same. intros m1. apply sim_same. intros m2. cbn. pose proof (@a_force v v' w w' m1 m2 Hv Hw) as (F1 & F2 & F3).
      destruct Hu as (U1 & U2 & U3). unfold vrel, vadd. cbn [vx vy vz]. auto. }
    intros tf tf' (F1 & F2 & F3). eapply sim_bind; [apply a_rd3; eauto; lia|]. intros z z' Hz.
    eapply sim_bind; [apply a_wr3; eauto; lia|]. intros g g' Hg'. apply sim_same. intros m1.
    apply a_wr3; auto; [lia|]. unfold vrel, vdivs. cbn [vx vy vz]. auto.
  Qed.
  (** the block engine *)
  Lemma F2_rd A (R : A -> A -> Prop) l l' : Forall2 R l l' -> forall i, sim (rd l i) (rd l' i) R.
  Proof. intros H. induction H as [|a b l l' Hab H IH]; intros i; destruct i; unfold rd in *; cbn; auto. Qed.
  Lemma F2_wr A (R : A -> A -> Prop) l l' i x x' : Forall2 R l l' -> R x x' -> sim (wr l i x) (wr l' i x') (Forall2 R).
  Proof.
    intros H Hx. assert (L : length l = length l') by (induction H; cbn; congruence).
    rewrite !wr_upd, L. destruct (Nat.ltb i (length l')); [|exact I]. cbn. clear L. revert i.
    induction H as [|a b l l' Hab H IH]; intros i; destruct i; cbn [upd]; auto.
  Qed.
  Lemma a_load block y y' m : W y y' -> m + block <= n -> sim (block_load_pos block n y m) (block_load_pos block n y' m) (Forall2 vrel).
  Proof.
    intros Hy Hm. unfold block_load_pos. apply sim_for_lt; [constructor|]. intros k l l' Hk Hl.
    eapply sim_bind; [apply a_rd3; eauto; lia|]. intros. cbn. apply Forall2_app; auto.
  Qed.
  Lemma a_pair v1 v1' v2 v2' m2 t t' : vrel v1 v1' -> vrel v2 v2' -> vrel t t' -> vrel (block_pair N v1 v2 m2 t) (block_pair N v1' v2' m2 t').
  Proof.
    intros (A1 & A2 & A3) (B1 & B2 & B3) (C1 & C2 & C3). unfold block_pair.
    rewrite (Hsq (Hsub A1 B1)), (Hsq (Hsub A2 B2)), (Hsq (Hsub A3 B3)). unfold vrel. cbn [vx vy vz]. auto 10.
  Qed.
  Lemma a_blocked block y y' f f' : 0 < block -> n mod block = 0 -> W y y' -> W f f' ->
    sim (blocked_fcompute N block n mass y f) (blocked_fcompute N block n mass y' f') W.
  Proof.
    intros Hb Hn Hy Hf. unfold blocked_fcompute.
    assert (HB : forall k, k < block_count block n -> k * block + block <= n).
    { intros k Hk. unfold block_count in Hk. pose proof (Nat.div_mod n block ltac:(lia)) as D. rewrite Hn, Nat.add_0_r in D.
      assert (E : (n + (block - 1)) / block = n / block).
      { rewrite D at 1. rewrite Nat.mul_comm, Nat.add_comm, Nat.div_add by lia. rewrite (Nat.div_small (block - 1)) by lia. reflexivity. }
      rewrite E in Hk. assert ((k + 1) * block <= n / block * block) by (apply Nat.mul_le_mono_r; lia). nia. }
    apply sim_for_step; auto. clear f f' Hf. intros k f f' Hk Hf. rewrite Nat.add_0_l. unfold block_body.
    specialize (HB k Hk) as Hk'.
    eapply sim_bind; [apply a_load; eauto|]. intros p p' Hp.
    eapply sim_bind with (Q := Forall2 vrel).
    { apply sim_for_step.
      - clear -Hzero. induction block; cbn; constructor; auto. unfold vrel. cbn. auto.
      - intros q t t' Hq Ht. rewrite Nat.add_0_l. eapply sim_bind; [apply a_load; eauto|]. intros p2 p2' Hp2. apply sim_same. intros m2.
        unfold block_pairs. apply sim_for; auto. intros b1 u u' Hu. apply sim_for; auto. intros b2 w w' Hw.
        eapply sim_bind; [apply F2_rd; exact Hp|]. intros. eapply sim_bind; [apply F2_rd; exact Hp2|]. intros. apply sim_same. intros.
        eapply sim_bind; [apply F2_rd; exact Hw|]. intros. apply F2_wr; auto. now apply a_pair. }
    intros t t' Ht. apply sim_for_lt; auto. clear f f' Hf. intros b f f' Hb' Hf.
    eapply sim_bind; [apply a_rd3; eauto; lia|]. intros. eapply sim_bind; [apply a_wr3; eauto; lia|]. intros.
    eapply sim_bind; [apply F2_rd; exact Ht|]. intros. apply a_wr3; auto. lia.
  Qed.
End Axes.
