(** Device buffers read and written from the host. *)
From Coq Require Import ZArith List Arith Lia Bool.
From Verif Require Import Num Arr ArrLemmas LemEngine ModelParallel SpecPar LemParallel LemOmp
  ModelGpu SpecGpu LemGpu.
Import ListNotations.
Set Implicit Arguments.

Section Host.
  Context {T : Type}.

  Lemma copy_range_ok (dst src : list T) off n :
    off + n <= length dst -> off + n <= length src ->
    exists d, copy_range dst src off n = Some d /\ length d = length dst /\
      forall j, rd d j = if (off <=? j) && (j <? off + n) then rd src j else rd dst j.
  Proof.
    intros H1 H2. unfold copy_range.
    destruct (@for_inv (list T) (fun k d => length d = length dst /\
      forall j, rd d j = if (off <=? j) && (j <? k) then rd src j else rd dst j) n off
      (fun i d => let* v := rd src i in wr d i v) dst) as (d & E & A & B).
    - split; auto. intros j. destruct (Nat.leb_spec off j), (Nat.ltb_spec j off); simpl; auto; lia.
    - intros k d Hk [L HR]. destruct (@rd_some T src k) as [v Ev]; [lia|].
      exists (upd d k v). rewrite Ev. cbn [obind]. rewrite wr_ok by lia. split; auto. split.
      + now rewrite upd_length.
      + intros j. unfold rd in *. rewrite upd_nth. destruct (Nat.eqb_spec j k) as [->|Hne].
        * assert (X : k <? length d = true) by (apply Nat.ltb_lt; lia). rewrite X.
          assert (Y : (off <=? k) && (k <? S k) = true).
          { apply andb_true_iff. rewrite Nat.leb_le, Nat.ltb_lt. lia. }
          now rewrite Y.
        * rewrite HR. destruct (Nat.leb_spec off j), (Nat.ltb_spec j k), (Nat.ltb_spec j (S k));
            simpl; auto; lia.
    - exists d. auto.
  Qed.

  Lemma buffers_get (m : mem T) n size a : buffers m n size -> a < n ->
    exists b, rd m a = Some b /\ length b = size.
  Proof.
    intros [H1 H2] Ha. destruct (@rd_some _ m a) as [b E]; [lia|]. exists b. split; auto.
    unfold rd in E. apply nth_error_In in E. now apply (proj1 (Forall_forall _ _) H2).
  Qed.

  Lemma mrd_rd (m : mem T) a b i : rd m a = Some b -> mrd m a i = rd b i.
  Proof. unfold mrd. now intros ->. Qed.

  Lemma read_ok (devs : mem T) D size host :
    0 < D -> buffers devs D size -> size <= length host ->
    exists h, gpu_read_buffer devs host = Some h /\ length h = length host /\
      forall i, rd h i = if i <? D * (size / D) then mrd devs (i / (size / D)) i else rd host i.
  Proof.
    intros HD HB Hh. set (base := size / D).
    assert (Hb : D * base <= size) by (apply Nat.mul_div_le; lia).
    unfold gpu_read_buffer. assert (EL := proj1 HB). rewrite EL.
    match goal with |- exists h, for_ D 0 ?b _ = _ /\ _ => set (body := b) end.
    destruct (@for_inv (list T) (fun k h => length h = length host /\
      forall i, rd h i = if i <? k * base then mrd devs (i / base) i else rd host i) D 0 body host)
      as (h & E & A & B).
    - split; auto.
    - intros k h Hk [L HR]. unfold body. destruct (buffers_get HB (a := k)) as (b & Eb & Lb); [lia|].
      rewrite Eb. cbn [obind]. rewrite Lb. fold base.
      assert (Hkb : k * base + base <= D * base) by nia.
      destruct (@copy_range_ok h b (k * base) base) as (d & Ed & Ld & Hd); try lia.
      exists d. split; auto. split; [lia|]. intros i. rewrite Hd, HR.
      destruct (Nat.leb_spec (k * base) i); cbn [andb].
      + destruct (Nat.ltb_spec i (k * base + base)).
        * assert (X : i <? S k * base = true) by (apply Nat.ltb_lt; lia). rewrite X.
          assert (Y : i / base = k). { symmetry. apply Nat.div_unique with (i - k * base); lia. }
          rewrite Y. symmetry. now apply mrd_rd.
        * assert (X : i <? k * base = false) by (apply Nat.ltb_ge; lia). rewrite X.
          assert (Y : i <? S k * base = false) by (apply Nat.ltb_ge; lia). now rewrite Y.
      + assert (X : i <? k * base = true) by (apply Nat.ltb_lt; lia). rewrite X.
        assert (Y : i <? S k * base = true) by (apply Nat.ltb_lt; lia). now rewrite Y.
    - exists h. auto.
  Qed.

  Lemma write_ok (devs : mem T) D size host :
    buffers devs D size -> size <= length host ->
    exists m, gpu_write_buffer devs host = Some m /\ buffers m D size /\
      forall j i, j < D -> i < size -> mrd m j i = rd host i.
  Proof.
    intros HB Hh. unfold gpu_write_buffer. assert (EL := proj1 HB). rewrite EL.
    match goal with |- exists m, for_ D 0 ?b _ = _ /\ _ => set (body := b) end.
    destruct (@for_inv (mem T) (fun k m => buffers m D size /\
      forall j i, j < k -> i < size -> mrd m j i = rd host i) D 0 body devs) as (m & E & A & B).
    - split; auto. intros; lia.
    - intros k m Hk [HB' HR]. unfold body.
      destruct (buffers_get HB' (a := k)) as (b & Eb & Lb); [lia|].
      rewrite Eb. cbn [obind]. rewrite Lb.
      destruct (@copy_range_ok b host 0 size) as (d & Ed & Ld & Hd); try lia.
      rewrite Ed. cbn [obind]. rewrite wr_ok by (rewrite (proj1 HB'); lia).
      exists (upd m k d). split; auto. split.
      + split; [rewrite upd_length; apply HB'|]. apply Forall_forall. intros x Hx.
        apply In_nth_error in Hx. destruct Hx as (p & Hp). rewrite upd_nth in Hp.
        destruct (Nat.eqb p k).
        * destruct (k <? length m); [|discriminate]. injection Hp as <-. lia.
        * apply nth_error_In in Hp. now apply (proj1 (Forall_forall _ _) (proj2 HB')).
      + intros j i Hj Hi. unfold mrd, rd. rewrite upd_nth. destruct (Nat.eqb_spec j k) as [->|].
        * assert (X : k <? length m = true) by (apply Nat.ltb_lt; rewrite (proj1 HB'); lia).
          rewrite X. cbn [obind]. change (nth_error d i) with (rd d i). rewrite Hd.
          assert (Y : (0 <=? i) && (i <? 0 + size) = true).
          { apply andb_true_iff. rewrite Nat.leb_le, Nat.ltb_lt. lia. }
          now rewrite Y.
        * apply HR; lia.
    - exists m. auto.
  Qed.

  Lemma host_sync_y_ok (devs : mem T) D size garbage :
    0 < D -> buffers devs D size -> size <= length garbage ->
    exists m, host_sync_y devs garbage = Some m /\ buffers m D size /\
      forall j i, j < D -> i < D * (size / D) -> mrd m j i = mrd devs (i / (size / D)) i.
  Proof.
    intros HD HB Hg. unfold host_sync_y. destruct (@read_ok devs D size garbage HD HB Hg) as (h & Eh & Lh & Hh).
    rewrite Eh. cbn [obind]. destruct (@write_ok devs D size h HB) as (m & Em & HB' & Hm); [lia|].
    exists m. split; auto. split; auto. intros j i Hj Hi.
    assert (Hb : D * (size / D) <= size) by (apply Nat.mul_div_le; lia).
    rewrite Hm by lia. rewrite Hh. apply Nat.ltb_lt in Hi. now rewrite Hi.
  Qed.

  Lemma read_rect_ok (h b : list T) off pitch width rows :
    (0 < rows -> off + (rows - 1) * pitch + width <= length h) ->
    (0 < rows -> off + (rows - 1) * pitch + width <= length b) ->
    exists d, read_rect h b off pitch width rows = Some d /\ length d = length h /\
      forall j, ((exists r, r < rows /\ off + r * pitch <= j < off + r * pitch + width) -> rd d j = rd b j) /\
                ((forall r, r < rows -> ~ off + r * pitch <= j < off + r * pitch + width) -> rd d j = rd h j).
  Proof.
    intros H1 H2. unfold read_rect.
    match goal with |- exists m, for_ rows 0 ?b _ = _ /\ _ => set (body := b) end.
    destruct (@for_inv (list T) (fun k d => length d = length h /\
      forall j, ((exists r, r < k /\ off + r * pitch <= j < off + r * pitch + width) -> rd d j = rd b j) /\
                ((forall r, r < k -> ~ off + r * pitch <= j < off + r * pitch + width) -> rd d j = rd h j))
      rows 0 body h) as (d & E & A & B).
    - split; auto. intros j. split; [intros (r & Hr & _); lia|auto].
    - intros k d Hk [L HR]. unfold body.
      assert (Hb : k * pitch <= (rows - 1) * pitch) by (apply Nat.mul_le_mono_r; lia).
      destruct (@copy_range_ok d b (off + k * pitch) width) as (d' & Ed & Ld & Hd); [lia|lia|].
      exists d'. split; auto. split; [lia|]. intros j. rewrite Hd. destruct (HR j) as [HR1 HR2].
      destruct ((off + k * pitch <=? j) && (j <? off + k * pitch + width)) eqn:C.
      + apply andb_true_iff in C. rewrite Nat.leb_le, Nat.ltb_lt in C. split; auto.
        intros H. exfalso. apply (H k); lia.
      + apply andb_false_iff in C. rewrite Nat.leb_gt, Nat.ltb_ge in C. split.
        * intros (r & Hr & Hj). apply HR1. exists r. split; auto.
          destruct (Nat.eq_dec r k) as [->|]; lia.
        * intros H. apply HR2. intros r Hr. apply H. lia.
    - exists d. auto.
  Qed.

  Lemma host_sync_f_ok (devs : mem T) D size garbage :
    0 < D -> buffers devs D size -> size <= length garbage ->
    let row := size / 6 in let rect := size / D / 6 in
    exists m, host_sync_f devs garbage = Some m /\ buffers m D size /\
      forall j r c, j < D -> r < 6 -> c < D * rect ->
        mrd m j (r * row + c) = mrd devs (c / rect) (r * row + c).
  Proof.
    intros HD HB Hg row rect.
    assert (B1 : 6 * row <= size) by (apply Nat.mul_div_le; lia).
    assert (B2 : D * rect <= row).
    { unfold row, rect. rewrite Nat.div_div by lia. rewrite (Nat.mul_comm D 6), <- Nat.div_div by lia.
      apply Nat.mul_div_le. lia. }
    unfold host_sync_f. assert (EL := proj1 HB). rewrite EL.
    match goal with |- exists m, obind (for_ D 0 ?b _) _ = _ /\ _ => set (body := b) end.
    destruct (@for_inv (list T) (fun k h => length h = length garbage /\
      forall r c, r < 6 -> c < k * rect -> rd h (r * row + c) = mrd devs (c / rect) (r * row + c))
      D 0 body garbage) as (h & E & A & B).
    - split; auto. intros; lia.
    - intros k h Hk [L HR]. unfold body. destruct (buffers_get HB (a := k)) as (b & Eb & Lb); [lia|].
      rewrite Eb. cbn [obind]. rewrite Lb. fold row. fold rect.
      assert (Hkb : k * rect + rect <= D * rect) by nia.
      destruct (@read_rect_ok h b (k * rect) row rect 6) as (d & Ed & Ld & Hd); [lia|lia|].
      exists d. split; auto. split; [lia|]. intros r c Hr Hc. destruct (Hd (r * row + c)) as [HI HO].
      destruct (Nat.lt_ge_cases c (k * rect)) as [Hlt|Hge].
      + rewrite HO; auto. intros r' Hr' Hj.
        assert (X : exists x, x < rect /\ r * row + c = r' * row + (k * rect + x)).
        { exists (r * row + c - (k * rect + r' * row)). lia. }
        destruct X as (x & Hx & Ex).
        assert (Y : r = r' /\ c = k * rect + x) by (apply block_unique with row; auto; lia). lia.
      + rewrite HI.
        * assert (Y : c / rect = k). { symmetry. apply Nat.div_unique with (c - k * rect); lia. }
          rewrite Y. symmetry. now apply mrd_rd.
        * exists r. split; auto. lia.
    - rewrite E. cbn [obind]. destruct (@write_ok devs D size h HB) as (m & Em & HB' & Hm); [lia|].
      exists m. split; auto. split; auto. intros j r c Hj Hr Hc.
      assert (r * row + c < size) by nia. rewrite Hm by auto. now apply B.
  Qed.

  Lemma host_sync_sum_ok (U : NumOps T) (devs : mem T) D size f :
    0 < D -> buffers devs D size -> (forall j i, j < D -> i < size -> mrd devs j i = Some (f j i)) ->
    exists m, host_sync_sum U devs size = Some m /\ buffers m D size /\
      forall j i, j < D -> i < size ->
        mrd m j i = Some (fold_left (fun s q => nadd U s (f q i)) (seq 1 (D - 1)) (f 0 i)).
  Proof.
    intros HD HB Hf. unfold host_sync_sum.
    destruct (buffers_get (a := 0) HB HD) as (b0 & E0 & L0). rewrite E0. cbn [obind].
    assert (H0 : forall i, i < size -> rd b0 i = Some (f 0 i)).
    { intros i Hi. rewrite <- (@mrd_rd devs 0 b0 i E0). now apply Hf. }
    set (tot := fun i n => fold_left (fun s q => nadd U s (f q i)) (seq 1 n) (f 0 i)).
    destruct (@for_inv (list T) (fun k b => length b = size /\
      forall i, i < size -> rd b i = Some (if i <? k then tot i (D - 1) else f 0 i))
      size 0 (host_sum_cell U devs) b0) as (s & E & A & B).
    - split; auto.
    - intros i b Hi [L HR]. unfold host_sum_cell. rewrite (proj1 HB).
      match goal with |- exists m, for_ (D - 1) 1 ?bd _ = _ /\ _ => set (body := bd) end.
      destruct (@for_inv (list T) (fun k b' => length b' = size /\
        forall p, p < size -> rd b' p = if p =? i then Some (tot i (k - 1)) else rd b p)
        (D - 1) 1 body b) as (b' & E' & A' & B').
      + split; auto. intros p Hp. destruct (Nat.eqb_spec p i) as [->|]; auto.
        rewrite HR by auto. rewrite Nat.ltb_irrefl. reflexivity.
      + intros k b' Hk [L' HR']. unfold body. rewrite HR' by lia. rewrite Nat.eqb_refl. cbn [obind].
        destruct (buffers_get HB (a := k)) as (bk & Ek & Lk); [lia|]. rewrite Ek. cbn [obind].
        rewrite <- (@mrd_rd devs k bk i Ek), Hf by lia. cbn [obind]. rewrite wr_ok by lia.
        eexists. split; [reflexivity|]. split; [now rewrite upd_length|].
        intros p Hp. unfold rd in *. rewrite upd_nth. destruct (Nat.eqb_spec p i) as [->|Hne].
        * assert (X : i <? length b' = true) by (apply Nat.ltb_lt; lia). rewrite X. f_equal.
          replace (S k - 1) with (S (k - 1)) by lia. unfold tot. rewrite seq_S, fold_left_app.
          simpl. do 2 f_equal; lia.
        * rewrite HR' by auto. apply Nat.eqb_neq in Hne. now rewrite Hne.
      + exists b'. split; auto. split; auto. intros p Hp. rewrite B' by auto.
        destruct (Nat.eqb_spec p i) as [->|].
        * assert (X : i <? S i = true) by (apply Nat.ltb_lt; lia). rewrite X. do 2 f_equal. lia.
        * rewrite HR by auto. destruct (Nat.ltb_spec p i), (Nat.ltb_spec p (S i)); auto; lia.
    - rewrite E. cbn [obind]. destruct (@write_ok devs D size s HB) as (m & Em & HB' & Hm); [lia|].
      exists m. split; auto. split; auto. intros j i Hj Hi. rewrite Hm, B by auto.
      destruct (Nat.ltb_spec i (0 + size)); [reflexivity|lia].
  Qed.
End Host.
