(** Buffer primitives: element-wise behaviour for every arithmetic. *)
From Coq Require Import ZArith List Arith Lia Bool.
From Verif Require Import Num Arr ArrLemmas ModelVertex ModelForce ModelSum ModelEngine LemEngine.
Import ListNotations.
Set Implicit Arguments.

(** [a'] is [a] with the first [n] cells replaced by [val 0], [val 1], ... *)
Definition cells_set {T} (n : nat) (val : nat -> T) (a a' : list T) : Prop :=
  length a' = length a /\
  forall j, nth_error a' j = if Nat.ltb j n then Some (val j) else nth_error a j.

Lemma cells_set_unique T n (val : nat -> T) a a1 a2 :
  cells_set n val a a1 -> cells_set n val a a2 -> a1 = a2.
Proof.
  intros [L1 C1] [L2 C2]. apply nth_error_ext; [congruence|]. intros i _. now rewrite C1, C2.
Qed.

Lemma for_set T (val : nat -> T) n (body : nat -> list T -> option (list T)) (a : list T) :
  n <= length a ->
  (forall k l, k < n -> length l = length a -> nth_error l k = nth_error a k ->
     body k l = Some (upd l k (val k))) ->
  exists a', for_ n 0 body a = Some a' /\ cells_set n val a a'.
Proof.
  intros Hn Hb.
  pose (P := fun k l => length l = length a /\
    forall j, nth_error l j = if Nat.ltb j k then Some (val j) else nth_error a j).
  destruct (@for_inv _ P n 0 body a) as (a' & E & HP).
  - split; auto.
  - intros k l Hk [Hl Hj].
    exists (upd l k (val k)). split.
    + apply Hb; auto; try lia. rewrite Hj. now rewrite Nat.ltb_irrefl.
    + split; [now rewrite upd_length|]. intros j. rewrite upd_nth.
      destruct (Nat.eqb_spec j k) as [->|Hne].
      * replace (k <? length l) with true by (symmetry; apply Nat.ltb_lt; lia).
        now replace (k <? S k) with true by (symmetry; apply Nat.ltb_lt; lia).
      * rewrite Hj. replace (j <? S k) with (j <? k); auto.
        destruct (Nat.ltb_spec j k), (Nat.ltb_spec j (S k)); auto; lia.
  - exists a'. auto.
Qed.

Lemma rd_eq_some T (l : list T) (a : list T) k d :
  nth_error l k = nth_error a k -> k < length a -> rd l k = Some (nth k a d).
Proof. intros H Hk. unfold rd. rewrite H. now apply nth_error_nth'. Qed.

Section Gen.
  Context {T : Type} (N : NumOps T).
  Implicit Types a b c l : list T.
  Notation d0 := (nlit N 0).

  Lemma copy_cells n a b :
    n <= length a -> n <= length b ->
    exists a', copy_buffer n a b = Some a' /\ cells_set n (fun j => nth j b d0) a a'.
  Proof.
    intros Ha Hb. apply for_set; auto. intros k l Hk Hl _. unfold copy_body.
    rewrite (rd_nth b d0) by lia. cbn [obind]. apply wr_ok. lia.
  Qed.

  Lemma fill_cells a v :
    exists a', fill_buffer a v = Some a' /\ cells_set (length a) (fun _ => v) a a'.
  Proof. apply for_set; auto. intros k l Hk Hl _. unfold fill_body. apply wr_ok. lia. Qed.

  Lemma fill_repeat a v : fill_buffer a v = Some (repeat v (length a)).
  Proof.
    destruct (fill_cells a v) as (a' & -> & HL & HC). f_equal. apply nth_error_ext.
    - now rewrite repeat_length.
    - intros i Hi. rewrite HC, nth_error_repeat by lia.
      replace (i <? length a) with true by (symmetry; apply Nat.ltb_lt; lia). reflexivity.
  Qed.

  Lemma fmadd_inplace_cells n a b (c : T) :
    n <= length a -> n <= length b ->
    exists a', fmadd_inplace N n a b c = Some a' /\
      cells_set n (fun j => nadd N (nth j a d0) (nmul N (nth j b d0) c)) a a'.
  Proof.
    intros Ha Hb. apply for_set; auto. intros k l Hk Hl He. unfold fmadd_inplace_body.
    rewrite (rd_eq_some _ _ d0 He) by lia. cbn [obind].
    rewrite (rd_nth b d0) by lia. cbn [obind]. apply wr_ok. lia.
  Qed.

  Lemma fmadd_cells n a b c d :
    n <= length a -> n <= length b -> n <= length c ->
    exists a', fmadd N n a b c d = Some a' /\
      cells_set n (fun j => nadd N (nth j b d0) (nmul N (nth j c d0) d)) a a'.
  Proof.
    intros Ha Hb Hc. apply for_set; auto. intros k l Hk Hl _. unfold fmadd_body.
    rewrite (rd_nth b d0) by lia. cbn [obind].
    rewrite (rd_nth c d0) by lia. cbn [obind]. apply wr_ok. lia.
  Qed.

  (** memcpy between buffers of the same size copies everything *)
  Lemma read_cells dst (src : list T) :
    length dst = length src -> read_buffer dst src = Some src.
  Proof.
    intros H. unfold read_buffer.
    destruct (@for_set T (fun j => nth j src d0) (length src)
      (fun i d => let* v := rd src i in wr d i v) dst) as (a' & -> & HL & HC).
    - lia.
    - intros k l Hk Hl _. rewrite (rd_nth src d0) by lia. cbn [obind]. apply wr_ok. lia.
    - f_equal. apply nth_error_ext; [lia|]. intros i Hi. rewrite HC.
      replace (i <? length src) with true by (symmetry; apply Nat.ltb_lt; lia).
      symmetry. apply nth_error_nth'. lia.
  Qed.

  Lemma write_cells dst (src : list T) :
    length dst = length src -> write_buffer dst src = Some src.
  Proof.
    intros H. unfold write_buffer. rewrite H. now apply read_cells.
  Qed.

  (** sum of the weighted terms, skipping zero weights, starting from [s]; the terms are
      (weight, buffer) pairs *)
  Definition wfold (ws : list (T * list T)) (i : nat) (s : T) : T :=
    fold_left (fun acc wb => if neqb N (fst wb) d0 then acc
                             else nadd N acc (nmul N (nth i (snd wb) d0) (fst wb))) ws s.
  Definition terms (c : list T) (bs : list (list T)) (csize : nat) : list (T * list T) :=
    firstn csize (combine c bs).

  Lemma terms_snoc c bs k :
    k < length c -> k < length bs ->
    terms c bs (S k) = terms c bs k ++ [(nth k c d0, nth k bs [])].
  Proof.
    unfold terms. revert bs k. induction c as [|x c IH]; intros [|y bs] [|k] H1 H2; simpl in *; try lia; auto.
    f_equal. apply IH; lia.
  Qed.

  Lemma fmaddn_inplace_cells n a bs c csize :
    n <= length a -> csize <= length c -> csize <= length bs ->
    (forall k, k < csize -> n <= length (nth k bs [])) ->
    exists a', fmaddn_inplace N n a bs c csize = Some a' /\
      cells_set n (fun j => wfold (terms c bs csize) j (nth j a d0)) a a'.
  Proof.
    intros Ha Hc Hbs Hb. unfold fmaddn_inplace.
    replace (length bs <? csize) with false by (symmetry; apply Nat.ltb_ge; lia).
    pose (P := fun k l => cells_set n (fun j => wfold (terms c bs k) j (nth j a d0)) a l).
    match goal with |- context [for_ csize 0 ?body a] =>
      destruct (@for_inv _ P csize 0 body a) as (a' & E & HP) end.
    - split; auto. intros j. destruct (Nat.ltb_spec j n) as [Hj|]; auto.
      cbn. apply nth_error_nth'. lia.
    - intros k l Hk (HL & HC).
      rewrite (rd_nth c d0) by lia. cbn [obind].
      assert (Hterm : forall j, wfold (terms c bs (S k)) j (nth j a d0) =
        if neqb N (nth k c d0) d0 then wfold (terms c bs k) j (nth j a d0)
        else nadd N (wfold (terms c bs k) j (nth j a d0))
               (nmul N (nth j (nth k bs []) d0) (nth k c d0))).
      { intros j. rewrite terms_snoc by lia. unfold wfold. rewrite fold_left_app. reflexivity. }
      destruct (neqb N (nth k c d0) d0) eqn:Ez.
      + exists l. split; auto. split; auto. intros j. rewrite HC. destruct (j <? n); auto.
        now rewrite Hterm.
      + rewrite (rd_nth bs []) by lia. cbn [obind].
        destruct (@fmadd_inplace_cells n l (nth k bs []) (nth k c d0)) as (l' & E' & HL' & HC').
        * lia.
        * apply Hb. lia.
        * exists l'. split; auto. split; [congruence|]. intros j. rewrite HC', HC.
          destruct (Nat.ltb_spec j n) as [Hj|]; auto. rewrite Hterm. f_equal.
          f_equal. eapply nth_error_nth. rewrite HC.
          now replace (j <? n) with true by (symmetry; apply Nat.ltb_lt; lia).
    - exists a'. auto.
  Qed.

  (** fmaddn with a base buffer *)
  Definition any_weight (d : list T) (dsize : nat) : bool :=
    existsb (fun w => negb (neqb N w d0)) (firstn dsize d).

  Lemma firstn_snoc (d : list T) k : k < length d -> firstn (S k) d = firstn k d ++ [nth k d d0].
  Proof.
    revert k. induction d as [|x d IH]; intros [|k] H; simpl in *; try lia; auto.
    f_equal. apply IH. lia.
  Qed.

  Lemma fmaddn_base_cells n a b cs d dsize :
    n <= length a -> n <= length b -> dsize <= length d -> dsize <= length cs ->
    (forall k, k < dsize -> n <= length (nth k cs [])) ->
    exists a', fmaddn N n a (Some b) cs d dsize = Some a' /\
      (if any_weight d dsize
       then cells_set n (fun j => wfold (terms d cs dsize) j (nth j b d0)) a a'
       else a' = a).
  Proof.
    intros Ha Hb Hd Hcs Hc. unfold fmaddn.
    replace (length cs <? dsize) with false by (symmetry; apply Nat.ltb_ge; lia).
    cbn [obind].
    pose (P := fun k (st : list T * bool) =>
      snd st = any_weight d k /\
      (if any_weight d k
       then cells_set n (fun j => wfold (terms d cs k) j (nth j b d0)) a (fst st)
       else fst st = a /\ forall j s, wfold (terms d cs k) j s = s)).
    match goal with |- context [for_ dsize 0 ?body ?s] =>
      destruct (@for_inv _ P dsize 0 body s) as (st & E & HP) end.
    - split; auto. cbn. auto.
    - intros k [l init] Hk (Hi & HC). cbn [snd fst] in *.
      rewrite (rd_nth d d0) by lia. cbn [obind].
      assert (Haw : any_weight d (S k) = any_weight d k || negb (neqb N (nth k d d0) d0)).
      { unfold any_weight. rewrite firstn_snoc by lia. rewrite existsb_app. simpl.
        now rewrite orb_false_r. }
      assert (Hterm : forall j s, wfold (terms d cs (S k)) j s =
        if neqb N (nth k d d0) d0 then wfold (terms d cs k) j s
        else nadd N (wfold (terms d cs k) j s)
               (nmul N (nth j (nth k cs []) d0) (nth k d d0))).
      { intros j s. rewrite terms_snoc by lia. unfold wfold. rewrite fold_left_app. reflexivity. }
      destruct (neqb N (nth k d d0) d0) eqn:Ez.
      + eexists. split; [reflexivity|]. unfold P. rewrite Haw. cbn [negb snd fst].
        rewrite orb_false_r. split; auto. destruct (any_weight d k).
        * destruct HC as [HL HC]. split; auto. intros j. rewrite HC.
          destruct (j <? n); auto. now rewrite Hterm.
        * destruct HC as [-> HC]. split; auto. intros j s. now rewrite Hterm.
      + rewrite (rd_nth cs []) by lia. cbn [obind].
        assert (Hck : n <= length (nth k cs [])) by (apply Hc; lia).
        destruct init.
        * rewrite <- Hi in HC. destruct HC as [HL HC].
          destruct (@fmadd_cells n l l (nth k cs []) (nth k d d0)) as (l' & E' & HL' & HC'); try lia.
          rewrite E'. cbn [obind]. eexists. split; [reflexivity|].
          unfold P. rewrite Haw, <- Hi. cbn [orb snd fst]. split; auto. split; [congruence|].
          intros j. rewrite HC', HC.
          destruct (Nat.ltb_spec j n) as [Hj|]; auto. rewrite Hterm. f_equal.
          f_equal. eapply nth_error_nth. rewrite HC.
          now replace (j <? n) with true by (symmetry; apply Nat.ltb_lt; lia).
        * rewrite <- Hi in HC. destruct HC as [-> HC].
          destruct (@fmadd_cells n a b (nth k cs []) (nth k d d0)) as (l' & E' & HL' & HC'); try lia.
          rewrite E'. cbn [obind]. eexists. split; [reflexivity|].
          unfold P. rewrite Haw, <- Hi. cbn [orb negb snd fst]. split; auto. split; [congruence|].
          intros j. rewrite HC'. destruct (j <? n); auto. now rewrite Hterm, HC.
    - cbn [obind]. rewrite E. cbn [obind]. exists (fst st). split; auto.
      destruct HP as [_ HP]. cbn [Nat.add] in HP. destruct (any_weight d dsize); tauto.
  Qed.

  Lemma fmaddn_null_cells n a cs d dsize :
    n <= length a -> dsize <= length d -> dsize <= length cs ->
    (forall k, k < dsize -> n <= length (nth k cs [])) ->
    exists a', fmaddn N n a None cs d dsize = Some a' /\
      cells_set n (fun j => wfold (terms d cs dsize) j d0) (repeat d0 (length a)) a'.
  Proof.
    intros Ha Hd Hcs Hc. unfold fmaddn.
    replace (length cs <? dsize) with false by (symmetry; apply Nat.ltb_ge; lia).
    rewrite fill_repeat. cbn [obind].
    pose (P := fun k (st : list T * bool) => snd st = true /\
       cells_set n (fun j => wfold (terms d cs k) j d0) (repeat d0 (length a)) (fst st)).
    match goal with |- context [for_ dsize 0 ?body ?s] =>
      destruct (@for_inv _ P dsize 0 body s) as (st & E & HP) end.
    - split; auto. cbn. split; auto. intros j. destruct (Nat.ltb_spec j n); auto.
      apply nth_error_repeat. lia.
    - intros k [l init] Hk (Hi & HL & HC). cbn [snd fst] in *. subst init.
      rewrite repeat_length in HL.
      rewrite (rd_nth d d0) by lia. cbn [obind].
      assert (Hterm : forall j s, wfold (terms d cs (S k)) j s =
        if neqb N (nth k d d0) d0 then wfold (terms d cs k) j s
        else nadd N (wfold (terms d cs k) j s)
               (nmul N (nth j (nth k cs []) d0) (nth k d d0))).
      { intros j s. rewrite terms_snoc by lia. unfold wfold. rewrite fold_left_app. reflexivity. }
      destruct (neqb N (nth k d d0) d0) eqn:Ez.
      + eexists. split; [reflexivity|]. split; auto. split; cbn [fst]; [now rewrite repeat_length|].
        intros j. rewrite HC. destruct (j <? n); auto. now rewrite Hterm.
      + rewrite (rd_nth cs []) by lia. cbn [obind].
        assert (Hck : n <= length (nth k cs [])) by (apply Hc; lia).
        destruct (@fmadd_cells n l l (nth k cs []) (nth k d d0)) as (l' & E' & HL' & HC'); try lia.
        rewrite E'. cbn [obind]. eexists. split; [reflexivity|]. split; auto.
        split; cbn [fst]; [rewrite repeat_length; congruence|].
        intros j. rewrite HC', HC.
        destruct (Nat.ltb_spec j n) as [Hj|]; auto. rewrite Hterm. f_equal.
        f_equal. eapply nth_error_nth. rewrite HC.
        now replace (j <? n) with true by (symmetry; apply Nat.ltb_lt; lia).
    - rewrite E. cbn [obind]. exists (fst st). split; auto. apply HP.
  Qed.

  (** compensated version *)
  Definition kfold (ws : list (T * list T)) (i : nat) (s : T * T) : T * T :=
    fold_left (fun st wb => if neqb N (fst wb) d0 then st
       else summation_step (nadd N) (nsub N) (fst st) (nmul N (nth i (snd wb) d0) (fst wb)) (snd st))
      ws s.

  Lemma corr_cell_ok bs c csize i st :
    csize <= length c -> csize <= length bs ->
    (forall k, k < csize -> i < length (nth k bs [])) ->
    fmaddn_corr_cell N bs c csize i st = Some (kfold (terms c bs csize) i st).
  Proof.
    intros Hc Hbs Hb. unfold fmaddn_corr_cell.
    induction csize as [|k IH]; auto.
    rewrite for_succ, IH by (try lia; intros; apply Hb; lia). cbn [Nat.add].
    rewrite (rd_nth c d0) by lia. cbn [obind].
    rewrite terms_snoc by lia. unfold kfold. rewrite fold_left_app. cbn [fold_left fst snd].
    destruct (neqb N (nth k c d0) d0); auto.
    rewrite (rd_nth bs []) by lia. cbn [obind].
    rewrite (rd_nth (nth k bs []) d0) by (apply Hb; lia). reflexivity.
  Qed.

  Lemma fmaddn_corr_cells n a corr bs c csize :
    n <= length a -> n <= length corr -> csize <= length c -> csize <= length bs ->
    (forall k, k < csize -> n <= length (nth k bs [])) ->
    exists a' corr', fmaddn_corr N n a corr bs c csize = Some (a', corr') /\
      cells_set n (fun j => fst (kfold (terms c bs csize) j (nth j a d0, nth j corr d0))) a a' /\
      cells_set n (fun j => snd (kfold (terms c bs csize) j (nth j a d0, nth j corr d0))) corr corr'.
  Proof.
    intros Ha Hco Hc Hbs Hb. unfold fmaddn_corr.
    replace (length bs <? csize) with false by (symmetry; apply Nat.ltb_ge; lia).
    set (va := fun j => fst (kfold (terms c bs csize) j (nth j a d0, nth j corr d0))).
    set (vc := fun j => snd (kfold (terms c bs csize) j (nth j a d0, nth j corr d0))).
    pose (P := fun k (st : list T * list T) =>
      cells_set k va a (fst st) /\ cells_set k vc corr (snd st)).
    match goal with |- context [for_ n 0 ?body ?s] =>
      destruct (@for_inv _ P n 0 body s) as (st & E & HP) end.
    - split; split; auto.
    - intros k [l lc] Hk ((L1 & C1) & (L2 & C2)). cbn [fst snd] in *. unfold fmaddn_corr_body.
      assert (E1 : rd l k = Some (nth k a d0)).
      { unfold rd. rewrite C1, Nat.ltb_irrefl. apply nth_error_nth'. lia. }
      assert (E2 : rd lc k = Some (nth k corr d0)).
      { unfold rd. rewrite C2, Nat.ltb_irrefl. apply nth_error_nth'. lia. }
      rewrite E1. cbn [obind]. rewrite E2. cbn [obind].
      rewrite corr_cell_ok; auto.
      2:{ intros q Hq. specialize (Hb q Hq). lia. }
      cbn [obind]. rewrite wr_ok by lia. cbn [obind]. rewrite wr_ok by lia. cbn [obind].
      eexists. split; [reflexivity|].
      split; (split; [cbn [fst snd]; now rewrite upd_length|]); cbn [fst snd]; intros j; rewrite upd_nth.
      + destruct (Nat.eqb_spec j k) as [->|].
        * replace (k <? length l) with true by (symmetry; apply Nat.ltb_lt; lia).
          now replace (k <? S k) with true by (symmetry; apply Nat.ltb_lt; lia).
        * rewrite C1. replace (j <? S k) with (j <? k); auto.
          destruct (Nat.ltb_spec j k), (Nat.ltb_spec j (S k)); auto; lia.
      + destruct (Nat.eqb_spec j k) as [->|].
        * replace (k <? length lc) with true by (symmetry; apply Nat.ltb_lt; lia).
          now replace (k <? S k) with true by (symmetry; apply Nat.ltb_lt; lia).
        * rewrite C2. replace (j <? S k) with (j <? k); auto.
          destruct (Nat.ltb_spec j k), (Nat.ltb_spec j (S k)); auto; lia.
    - destruct st as [a' corr']. exists a', corr'. split; auto.
  Qed.

  (** clamp *)
  Lemma clamp_cells n a (b : T) :
    3 * n <= length a ->
    exists a', engine_clamp N n b a = Some a' /\
      cells_set (3 * n) (fun j => clamp_coord N b (nth j a d0)) a a'.
  Proof.
    intros Ha. unfold engine_clamp.
    pose (P := fun k l => length l = length a /\
      forall (c : nat) i, c < 3 -> i < n -> nth_error l (c * n + i) =
        if i <? k then Some (clamp_coord N b (nth (c * n + i) a d0)) else nth_error a (c * n + i)).
    pose (Q := fun l => forall j, 3 * n <= j -> nth_error l j = nth_error a j).
    destruct (@for_inv _ (fun k l => P k l /\ Q l) n 0 (clamp_body N n b) a) as (a' & E & HP & HQ).
    - split; [|intros j _; auto]. split; auto.
    - intros k l Hk [(HL & HC) HQ]. unfold clamp_body.
      assert (B : forall c : nat, c < 3 -> c * n + k < length a).
      { intros c Hc. pose proof (@soa_bound n c 3 k ltac:(lia) Hc). lia. }
      pose proof (B 0 ltac:(lia)) as B0. pose proof (B 1 ltac:(lia)) as B1.
      pose proof (B 2 ltac:(lia)) as B2. cbn [Nat.mul Nat.add] in B0, B1, B2.
      assert (HR : forall c : nat, c < 3 -> nth_error l (c * n + k) = Some (nth (c * n + k) a d0)).
      { intros c Hc. rewrite HC by lia. rewrite Nat.ltb_irrefl. apply nth_error_nth'. auto. }
      pose proof (HR 0 ltac:(lia)) as R0. pose proof (HR 1 ltac:(lia)) as R1.
      pose proof (HR 2 ltac:(lia)) as R2. cbn [Nat.mul Nat.add] in R0, R1, R2.
      rewrite ?Nat.add_0_r in *.
      unfold rd. rewrite R0. cbn [obind]. rewrite wr_ok by lia. cbn [obind].
      rewrite upd_nth_other by lia. rewrite R1. cbn [obind].
      rewrite wr_ok by (rewrite upd_length; lia). cbn [obind].
      replace (2 * n + k) with (n + n + k) by lia.
      rewrite !upd_nth_other by lia. rewrite R2. cbn [obind].
      rewrite wr_ok by (rewrite !upd_length; lia).
      eexists. split; [reflexivity|]. split.
      + split; [now rewrite !upd_length|].
        intros c i Hc Hi. rewrite !upd_nth, !upd_length.
        assert (HE : forall e, Nat.eqb (c * n + i) (e * n + k) = (Nat.eqb i k && Nat.eqb c e)%bool).
        { intros e. destruct (Nat.eqb_spec (c * n + i) (e * n + k)) as [X|X].
          - apply soa_inj in X; auto; try lia. destruct X as [-> ->]. now rewrite !Nat.eqb_refl.
          - destruct (Nat.eqb_spec i k) as [->|]; auto. destruct (Nat.eqb_spec c e) as [->|]; auto; now elim X. }
        pose proof (HE 0) as H0. pose proof (HE 1) as H1. pose proof (HE 2) as H2.
        cbn [Nat.mul Nat.add] in H0, H1, H2. rewrite ?Nat.add_0_r in *.
        rewrite H0, H1, H2.
        replace (k <? length l) with true by (symmetry; apply Nat.ltb_lt; lia).
        replace (n + k <? length l) with true by (symmetry; apply Nat.ltb_lt; lia).
        replace (n + n + k <? length l) with true by (symmetry; apply Nat.ltb_lt; lia).
        destruct (Nat.eqb_spec i k) as [->|Hne]; cbn [andb].
        * replace (k <? S k) with true by (symmetry; apply Nat.ltb_lt; lia).
          destruct c as [|[|[|c]]]; cbn [Nat.eqb Nat.mul Nat.add]; rewrite ?Nat.add_0_r; auto. lia.
        * rewrite HC by lia. replace (i <? S k) with (i <? k); auto.
          destruct (Nat.ltb_spec i k), (Nat.ltb_spec i (S k)); auto; lia.
      + intros j Hj. rewrite !upd_nth_other by lia. auto.
    - exists a'. split; auto. destruct HP as [HL HC]. split; auto.
      intros j. destruct (Nat.ltb_spec j (3 * n)) as [Hj|Hj]; [|apply HQ; lia].
      destruct (soa_split _ _ Hj) as (c & i & Hc & Hi & ->).
      rewrite HC by lia. cbn [Nat.add]. now replace (i <? n) with true by (symmetry; apply Nat.ltb_lt; lia).
  Qed.
End Gen.
