(** The loops of the block, Ahmad-Cohen and Barnes-Hut engines under every schedule. *)
From Coq Require Import ZArith List Arith Lia Bool Permutation.
From Verif Require Import Num Arr ArrLemmas ModelVertex ModelForce ModelSum ModelEngine
  ModelParallel ModelBlock ModelAH ModelTree ModelHeap ModelBH ModelOmpForce SpecPar SpecOmp LemEngine
  LemParallel LemOmp.
Import ListNotations.
Set Implicit Arguments.

(** When the iterations have disjoint footprints and the loop run in order is defined, every
    schedule ends in the memory of the loop run in order. *)
Section Seq.
  Context {T : Type}.
  Variables (n : nat) (P : nat -> prog T) (R W : nat -> region) (m0 mf : mem T).
  Hypothesis Hfp : forall k, k < n -> fp (R k) (W k) (P k).
  Hypothesis Hdisj : forall j k a i, j < n -> k < n -> j <> k ->
    W j a i = true -> R k a i = false /\ W k a i = false.
  Hypothesis Hseq : exec_seq (map P (seq 0 n)) m0 = Some mf.

  Lemma exec_seq_app (l1 l2 : list (prog T)) m : exec_seq (l1 ++ l2) m =
    match exec_seq l1 m with Some m' => exec_seq l2 m' | None => None end.
  Proof. revert m. induction l1 as [|p l1 IH]; intros m; simpl; auto. destruct (exec p m); auto. Qed.

  Lemma alone : forall k, k < n -> exists m, exec (P k) m0 = Some m.
  Proof.
    assert (G : forall j, j <= n -> exists m1, exec_seq (map P (seq 0 j)) m0 = Some m1 /\
      (forall k, j <= k -> k < n -> agree (runion (R k) (W k)) m1 m0) /\
      (forall k, k < j -> exists m, exec (P k) m0 = Some m)).
    { induction j as [|j IH]; intros Hj.
      - exists m0. split; auto. split; [intros k _ _ a i _; auto|]. intros; lia.
      - destruct IH as (m1 & E1 & A1 & B1); [lia|].
        replace n with (j + S (n - S j)) in Hseq by lia.
        rewrite seq_app, map_app, exec_seq_app, E1 in Hseq. cbn [seq map exec_seq] in Hseq.
        cbn [Nat.add] in Hseq.
        destruct (exec (P j) m1) as [m2|] eqn:E2; [|discriminate].
        exists m2. split; [|split].
        + rewrite seq_S, map_app, exec_seq_app, E1. cbn [map exec_seq Nat.add]. now rewrite E2.
        + intros k Hk Hkn a i Ha. rewrite <- (A1 k ltac:(lia) Hkn a i Ha).
          apply (@exec_outside T (R j) (W j) (P j) m1 m2); auto.
          unfold rcompl. destruct (W j a i) eqn:Ew; auto.
          destruct (@Hdisj j k a i ltac:(lia) Hkn ltac:(lia) Ew) as [X Y].
          unfold runion in Ha. rewrite X, Y in Ha. discriminate.
        + intros k Hk. destruct (Nat.eq_dec k j) as [->|]; [|apply B1; lia].
          destruct (@exec_agree T (R j) (W j) (P j) m1 m0 m2) as (m3 & E3 & _); eauto. }
    intros k Hk. destruct (G n (le_n n)) as (_ & _ & _ & H). auto.
  Qed.

  Lemma seq_schedules : every_schedule (map P (seq 0 n)) m0 (fun m => m = mf).
  Proof.
    set (mk := fun k => match exec (P k) m0 with Some m => m | None => m0 end).
    assert (Ha : forall k, k < n -> exec (P k) m0 = Some (mk k)).
    { intros k Hk. unfold mk. destruct (@alone k Hk) as [m E]. now rewrite E. }
    refine (proj1 (@loop_schedules T n P R W m0 mk Hfp Hdisj Ha mf _)).
    apply exec_seq_par in Hseq. eapply par_final; eauto.
    apply Forall_forall. intros p Hp. apply in_map_iff in Hp. destruct Hp as (? & <- & _). reflexivity.
  Qed.

  (** a sequential loop over states [s], the memory of which is [emb s] *)
  Lemma exec_seq_for {St} (Q : nat -> prog T) (emb : St -> mem T) (I : St -> Prop) body lo hi :
    (forall k s, lo <= k < hi -> I s ->
       exec (Q k) (emb s) = option_map emb (body k s) /\ (forall s', body k s = Some s' -> I s')) ->
    forall c i s, lo <= i -> i + c <= hi -> I s ->
    exec_seq (map Q (seq i c)) (emb s) = option_map emb (for_ c i body s).
  Proof.
    intros H. induction c as [|c IH]; intros i s Hi Hc Hs; [reflexivity|].
    cbn [seq map exec_seq for_]. destruct (H i s ltac:(lia) Hs) as [E Hn]. rewrite E.
    destruct (body i s) as [s'|]; [|reflexivity]. cbn [option_map]. apply IH; auto; lia.
  Qed.
End Seq.

Ltac osplit := repeat (match goal with
  | |- context [match rd ?l ?i with _ => _ end] => destruct (rd l i); cbn [obind option_map]
  | |- context [match wr ?l ?i ?v with _ => _ end] => destruct (wr l i v); cbn [obind option_map]
  end; try reflexivity).

Lemma nth_error_skipn' {A} (l : list A) i j : nth_error (skipn i l) j = nth_error l (i + j).
Proof. revert l. induction i as [|i IH]; intros [|x l]; cbn; auto. now destruct j. Qed.

Section Plain.
  Context {T : Type} (N : NumOps T) (y mass : list T).
  Definition fmem (f : list T) : mem T := [f; y; mass].

  Lemma exec_y i k f : exec (PRd 1 i k) (fmem f) = let* v := rd y i in exec (k v) (fmem f).
  Proof. reflexivity. Qed.
  Lemma exec_m i k f : exec (PRd 2 i k) (fmem f) = let* v := rd mass i in exec (k v) (fmem f).
  Proof. reflexivity. Qed.
  Lemma exec_f i v k f : exec (PWr 0 i v k) (fmem f) = let* f := wr f i v in exec k (fmem f).
  Proof. cbn [exec]. unfold mwr, fmem. cbn. now destruct (wr f i v). Qed.
  Lemma exec_fail f : exec (@pfail T) (fmem f) = None.
  Proof. reflexivity. Qed.
  Lemma exec_local {A} (x : option A) k f :
    exec (plocal x k) (fmem f) = let* a := x in exec (k a) (fmem f).
  Proof. destruct x; reflexivity. Qed.
  Lemma exec_prd3' count i k f :
    exec (prd3 1 count 0 i k) (fmem f) = let* v := rd3 y count 0 i in exec (k v) (fmem f).
  Proof.
    unfold prd3, rd3. rewrite exec_y. destruct (rd y (0 * count + i)); cbn [obind]; auto.
    rewrite exec_y. destruct (rd y ((0 + 1) * count + i)); cbn [obind]; auto.
    rewrite exec_y. destruct (rd y ((0 + 2) * count + i)); cbn [obind]; auto.
  Qed.

  Lemma obind_none {A B} (x : option A) : obind x (fun _ => @None B) = None.
  Proof. destruct x; auto. Qed.

  Lemma exec_pput count b a k f :
    exec (pput count b a k) (fmem f) =
    let* v := rd3 y count 3 b in let* f := wr3 f count 0 b v in
    let* f := wr3 f count 3 b a in exec k (fmem f).
  Proof.
    unfold pput, rd3, wr3. cbn [Nat.add Nat.mul vx vy vz].
    replace (count + 0) with count by lia.
    rewrite exec_y. destruct (rd y (count + (count + count) + b)) as [p|]; cbn [obind]; [|reflexivity].
    rewrite exec_f.
    destruct (wr f b p) as [f1|] eqn:E1; cbn [obind].
    2:{ destruct (rd y (count + (count + (count + count)) + b)); cbn [obind]; auto.
        destruct (rd y (count + (count + (count + (count + count))) + b)); cbn [obind vx]; auto.
        rewrite E1. reflexivity. }
    rewrite exec_y. destruct (rd y (count + (count + (count + count)) + b)) as [q|]; cbn [obind]; [|reflexivity].
    rewrite exec_f. destruct (wr f1 (count + b) q) as [f2|] eqn:E2; cbn [obind].
    2:{ destruct (rd y (count + (count + (count + (count + count))) + b)); cbn [obind vx vy]; auto.
        rewrite E1. cbn [obind]. rewrite E2. reflexivity. }
    rewrite exec_y. destruct (rd y (count + (count + (count + (count + count))) + b)) as [r|]; cbn [obind vx vy vz]; [|reflexivity].
    rewrite E1. cbn [obind]. rewrite E2. cbn [obind]. rewrite exec_f.
    destruct (wr f2 (count + count + b) r) as [f3|]; cbn [obind]; [|reflexivity].
    rewrite exec_f. destruct (wr f3 (count + (count + count) + b) (vx a)) as [f4|]; cbn [obind]; [|reflexivity].
    rewrite exec_f. destruct (wr f4 (count + (count + (count + count)) + b) (vy a)) as [f5|]; cbn [obind]; [|reflexivity].
    rewrite exec_f. reflexivity.
  Qed.

  (** the cells [pput] writes *)
  Definition putW (count b : nat) : region := fun a i =>
    (a =? 0) && ((i =? b) || (i =? count + b) || (i =? 2 * count + b) || (i =? 3 * count + b)
                 || (i =? 4 * count + b) || (i =? 5 * count + b)).
  Definition roR : region := fun a _ => negb (a =? 0).

  Lemma fp_pput W count b a k :
    (forall i, putW count b 0 i = true -> W 0 i = true) -> fp roR W k -> fp roR W (pput (T := T) count b a k).
  Proof.
    intros HW Hk. unfold pput. cbn [fp]. unfold putW in HW. cbn [Nat.eqb andb] in HW.
    repeat match goal with |- _ /\ _ => split | |- forall _, _ => intro end; auto;
      try (left; reflexivity); apply HW; rewrite Nat.eqb_refl; rewrite ?orb_true_r; auto.
  Qed.
  Lemma fp_local W {A} (x : option A) k : (forall a, fp roR W (k a)) -> fp roR W (plocal (T := T) x k).
  Proof. intros H. destruct x; cbn; auto. Qed.
  Lemma fp_prd3' W count i k : (forall v, fp roR W (k v)) -> fp roR W (prd3 (T := T) 1 count 0 i k).
  Proof. intros H. cbn. repeat split; auto. Qed.

  Lemma putW_disj count j k a i : j < count -> k < count -> j <> k ->
    putW count j a i = true -> roR a i = false /\ putW count k a i = false.
  Proof.
    intros Hj Hk Hne H. unfold putW, roR in *. apply andb_true_iff in H. destruct H as [-> H].
    split; auto. cbn [andb].
    assert (G : i mod count = j).
    { repeat (apply orb_true_iff in H; destruct H as [H|H]); apply Nat.eqb_eq in H; subst i.
      - now apply Nat.mod_small.
      - rewrite (Nat.add_comm count). replace count with (1 * count) at 1 by lia.
        rewrite Nat.mod_add by lia. now apply Nat.mod_small.
      - rewrite Nat.add_comm, Nat.mod_add by lia. now apply Nat.mod_small.
      - rewrite Nat.add_comm, Nat.mod_add by lia. now apply Nat.mod_small.
      - rewrite Nat.add_comm, Nat.mod_add by lia. now apply Nat.mod_small.
      - rewrite Nat.add_comm, Nat.mod_add by lia. now apply Nat.mod_small. }
    assert (Q : forall c, (i =? c * count + k) = false).
    { intros c. apply Nat.eqb_neq. intros ->. rewrite Nat.add_comm, Nat.mod_add in G by lia.
      rewrite Nat.mod_small in G by lia. congruence. }
    pose proof (Q 0) as Q0. pose proof (Q 1) as Q1. cbn [Nat.mul Nat.add] in Q0, Q1.
    rewrite Nat.add_0_r in Q1. rewrite Q0, Q1, !Q. reflexivity.
  Qed.

  (** *** Barnes-Hut: the loop over the bodies *)
  Section BH.
    Variable traverse : vec3 T -> T -> option (vec3 T).

    Lemma bh_loop_ok n f f' :
      bh_cycle N traverse n mass y f = Some f' ->
      every_schedule (omp_bh_loop N traverse n) (fmem f) (fun m => m = fmem f').
    Proof.
      intros E. unfold omp_bh_loop.
      apply seq_schedules with (R := fun _ => roR) (W := putW n).
      - intros k Hk. unfold omp_bh. apply fp_prd3'. intros v. cbn [fp]. split; [left; reflexivity|].
        intros m. apply fp_local. intros tf. apply fp_pput; auto. exact I.
      - intros j k a i. apply putW_disj.
      - rewrite (@exec_seq_for T (list T) (omp_bh N traverse n) fmem (fun _ => True)
          (fun body1 f => let* v1 := rd3 y n 0 body1 in let* mass1 := rd mass body1 in
             let* total_force := traverse v1 mass1 in update_f N n y body1 total_force mass1 f) 0 n).
        + unfold bh_cycle in E. now rewrite E.
        + intros k s Hk _. split; auto. unfold omp_bh. rewrite exec_prd3'.
          destruct (rd3 y n 0 k) as [v|]; cbn [obind]; auto. rewrite exec_m.
          destruct (rd mass k) as [m|]; cbn [obind]; auto. rewrite exec_local.
          destruct (traverse v m) as [tf|]; cbn [obind]; auto. rewrite exec_pput. unfold update_f.
          destruct (rd3 y n 3 k); cbn [obind]; auto. destruct (wr3 s n 0 k v0); cbn [obind]; auto.
        + lia.
        + lia.
        + exact I.
    Qed.

    (** the visits of the leaves of a heap *)
    Lemma for_in {St} (body : nat -> St -> option St) c : forall i s s', for_ c i body s = Some s' ->
      forall k, k < c -> exists s1 s2, body (i + k) s1 = Some s2.
    Proof.
      induction c as [|c IH]; intros i s s' E k Hk; [lia|]. cbn [for_] in E.
      destruct (body i s) as [s1|] eqn:E1; [|discriminate]. destruct k as [|k].
      - rewrite Nat.add_0_r. eauto.
      - replace (i + S k) with (S i + k) by lia. eapply IH; eauto. lia.
    Qed.

    Lemma wr_bound {A} (l : list A) i v l' : wr l i v = Some l' -> i < length l.
    Proof.
      revert i l'. induction l as [|x l IH]; intros [|i] l'; cbn; try discriminate; [lia|].
      destruct (wr l i v) eqn:E; [|discriminate]. intros _. apply IH in E. lia.
    Qed.

    Lemma visit_loop_ok h n f f' : length mass = n -> NoDup (leaf_bodies h) ->
      heap_visit (node_visitor N traverse n mass y) h f = Some f' ->
      every_schedule (omp_visit_loop N traverse h n) (fmem f) (fun m => m = fmem f').
    Proof.
      intros Hm Hn E. unfold omp_visit_loop. set (lo := length h / 2). set (c := length h - lo).
      set (body := fun k => match rd h (lo + k) with Some (Cell _ (Some b)) => b | _ => 0 end).
      assert (HB : forall k, k < c -> exists p, rd h (lo + k) = Some (Cell p (Some (body k))) /\ body k < n).
      { intros k Hk. unfold heap_visit in E. fold lo in E. fold c in E.
        destruct (@for_in _ _ _ _ _ _ E k Hk) as (s1 & s2 & H). unfold body.
        destruct (rd h (lo + k)) as [[p [b|]]|]; cbn [obind c_body c_pay] in H; try discriminate.
        - exists p. split; auto. unfold node_visitor in H.
          destruct (traverse (p_center p) (p_mass p)); [|discriminate]. cbn [obind] in H.
          destruct (rd mass b) eqn:Eb; [|discriminate]. apply rd_bound in Eb. lia.
        - unfold node_visitor in H. destruct (traverse (p_center p) (p_mass p)); discriminate. }
      assert (HI : forall j k, j < c -> k < c -> body j = body k -> j = k).
      { intros j k Hj Hk Eb. destruct (HB j Hj) as (pj & Ej & _), (HB k Hk) as (pk & Ek & _).
        rewrite NoDup_nth_error in Hn. apply Hn.
        - unfold leaf_bodies. rewrite map_length, skipn_length. exact Hj.
        - unfold leaf_bodies. fold lo. rewrite !nth_error_map, !nth_error_skipn'.
          unfold rd in *. rewrite Ej, Ek. cbn. congruence. }
      replace (map (omp_visit N traverse h n) (seq lo c)) with
        (map (fun k => omp_visit N traverse h n (lo + k)) (seq 0 c)).
      2:{ clear. generalize lo. induction c as [|c IH]; intros l; auto. cbn [seq map].
          rewrite Nat.add_0_r. f_equal. rewrite <- IH, <- seq_shift, map_map.
          apply map_ext. intros k. f_equal. lia. }
      apply seq_schedules with (R := fun _ => roR) (W := fun k => putW n (body k)).
      - intros k Hk. destruct (HB k Hk) as (p & Ep & _). unfold omp_visit. rewrite Ep.
        cbn [plocal c_pay c_body]. apply fp_local. intros tf. cbn [fp]. split; [left; reflexivity|].
        intros m. apply fp_pput; auto. exact I.
      - intros j k a i Hj Hk Hne. destruct (HB j Hj) as (pj & Ej & Lj), (HB k Hk) as (pk & Ek & Lk).
        apply putW_disj; auto.
      - rewrite (@exec_seq_for T (list T) (fun k => omp_visit N traverse h n (lo + k)) fmem (fun _ => True)
          (fun k st => let* c := rd h (lo + k) in node_visitor N traverse n mass y (c_body c) (c_pay c) st) 0 c).
        + unfold heap_visit in E. fold lo in E. fold c in E. 
          assert (G : forall c i s, for_ c i (fun k st => let* c := rd h (lo + k) in
              node_visitor N traverse n mass y (c_body c) (c_pay c) st) s =
            for_ c (lo + i) (fun k st => let* c := rd h k in
              node_visitor N traverse n mass y (c_body c) (c_pay c) st) s).
          { clear. induction c as [|c IH]; intros i s; auto. cbn [for_].
            match goal with |- match ?a with _ => _ end = _ => destruct a; auto end.
            rewrite IH. f_equal. lia. }
          rewrite G, Nat.add_0_r, E. reflexivity.
        + intros k s Hk _. split; auto. unfold omp_visit, node_visitor. rewrite exec_local.
          destruct (rd h (lo + k)) as [[p b]|]; cbn [obind c_pay c_body]; auto. rewrite exec_local.
          destruct (traverse (p_center p) (p_mass p)) as [tf|]; cbn [obind]; auto. rewrite exec_local.
          destruct b as [b|]; cbn [obind]; auto. rewrite exec_m.
          destruct (rd mass b) as [m|]; cbn [obind]; auto. rewrite exec_pput. unfold update_f.
          destruct (rd3 y n 3 b); cbn [obind]; auto. destruct (wr3 s n 0 b v); cbn [obind]; auto.
        + lia.
        + lia.
        + exact I.
    Qed.
  End BH.

  (** *** the block engine *)
  Section Block.
    Variable block : nat.
    Hypothesis Hblock : 0 < block.

    Lemma exec_block_pos count n k f : forall q b acc,
      exec (pblock_pos (T := T) count n q b acc k) (fmem f) =
      let* p := for_ q b (fun b acc => let* v := rd3 y count 0 (b + n) in Some (acc ++ [v])) acc in
      exec (k p) (fmem f).
    Proof.
      induction q as [|q IH]; intros b acc; [reflexivity|]. cbn [pblock_pos for_].
      rewrite exec_prd3'. destruct (rd3 y count 0 (b + n)); cbn [obind]; auto.
    Qed.

    Lemma exec_block_load count n k f : forall q b acc ms,
      exec (pblock_load (T := T) count n q b acc ms k) (fmem f) =
      let* p := for_ q b (fun b acc => let* v := rd3 y count 0 (b + n) in Some (acc ++ [v])) acc in
      let* m := for_ q b (fun b acc => let* v := rd mass (n + b) in Some (acc ++ [v])) ms in
      exec (k p m) (fmem f).
    Proof.
      induction q as [|q IH]; intros b acc ms; [reflexivity|]. cbn [pblock_load for_].
      rewrite exec_prd3'. destruct (rd3 y count 0 (b + n)) as [v|]; cbn [obind]; auto.
      rewrite exec_m. destruct (rd mass (n + b)) as [m|]; cbn [obind].
      - apply IH.
      - now rewrite obind_none.
    Qed.

    Lemma exec_blocks count p1 k f : forall q n2 tf,
      exec (pblocks N block count p1 q n2 tf k) (fmem f) =
      let* tf := for_step q n2 block (fun n2 tf =>
        let* p2 := block_load_pos block count y n2 in
        let* m2 := block_load_mass block mass n2 in
        block_pairs N block p1 p2 m2 tf) tf in
      exec (k tf) (fmem f).
    Proof.
      induction q as [|q IH]; intros n2 tf; [reflexivity|]. cbn [pblocks for_step].
      rewrite exec_block_load. fold (block_load_pos block count y n2).
      fold (block_load_mass block mass n2).
      destruct (block_load_pos block count y n2) as [p2|]; cbn [obind]; auto.
      destruct (block_load_mass block mass n2) as [m2|]; cbn [obind]; auto.
      rewrite exec_local. destruct (block_pairs N block p1 p2 m2 tf); cbn [obind]; auto.
    Qed.

    Lemma exec_block_put count n1 tf : forall q b f,
      exec (pblock_put count n1 tf q b) (fmem f) =
      option_map fmem (for_ q b (fun b1 f =>
         let* v := rd3 y count 3 (b1 + n1) in
         let* f := wr3 f count 0 (b1 + n1) v in
         let* t := rd tf b1 in
         wr3 f count 3 (b1 + n1) t) f).
    Proof.
      induction q as [|q IH]; intros b f; [reflexivity|]. cbn [pblock_put for_]. rewrite exec_local.
      destruct (rd tf b) as [t|]; cbn [obind].
      - rewrite exec_pput. destruct (rd3 y count 3 (b + n1)) as [v|]; cbn [obind]; auto.
        destruct (wr3 f count 0 (b + n1) v) as [f1|]; cbn [obind]; auto.
        destruct (wr3 f1 count 3 (b + n1) t) as [f2|]; cbn [obind]; auto.
      - destruct (rd3 y count 3 (b + n1)) as [v|]; cbn [obind]; auto.
        destruct (wr3 f count 0 (b + n1) v) as [f1|]; cbn [obind]; auto.
    Qed.

    Lemma exec_block count n1 f :
      exec (omp_block N block count n1) (fmem f) = option_map fmem (block_body N block count mass y n1 f).
    Proof.
      unfold omp_block, block_body. rewrite exec_block_pos. fold (block_load_pos block count y n1).
      destruct (block_load_pos block count y n1) as [p1|]; cbn [obind]; auto.
      rewrite exec_blocks. match goal with |- obind ?a _ = _ => destruct a as [tf|]; cbn [obind]; auto end.
      apply exec_block_put.
    Qed.

    Definition blkW (count n1 : nat) : region := fun a i =>
      existsb (fun b => putW count (b + n1) a i) (seq 0 block).

    Lemma fp_block_pos W count n k : (forall p, fp roR W (k p)) -> forall q b acc,
      fp roR W (pblock_pos (T := T) count n q b acc k).
    Proof.
      intros Hk. induction q as [|q IH]; intros b acc; cbn [pblock_pos]; auto.
      apply fp_prd3'. auto.
    Qed.
    Lemma fp_block_load W count n k : (forall p m, fp roR W (k p m)) -> forall q b acc ms,
      fp roR W (pblock_load (T := T) count n q b acc ms k).
    Proof.
      intros Hk. induction q as [|q IH]; intros b acc ms; cbn [pblock_load]; auto.
      apply fp_prd3'. intros v. cbn [fp]. split; [left; reflexivity|]. auto.
    Qed.
    Lemma fp_blocks W count p1 k : (forall p, fp roR W (k p)) -> forall q n2 tf,
      fp roR W (pblocks N block count p1 q n2 tf k).
    Proof.
      intros Hk. induction q as [|q IH]; intros n2 tf; cbn [pblocks]; auto.
      apply fp_block_load. intros p m. apply fp_local. auto.
    Qed.
    Lemma fp_block_put count n1 (tf : list (vec3 T)) : forall q b, b + q <= block ->
      fp roR (blkW count n1) (pblock_put count n1 tf q b).
    Proof.
      induction q as [|q IH]; intros b Hb; cbn [pblock_put]; [exact I|]. apply fp_local. intros t.
      apply fp_pput; [|apply IH; lia]. intros i Hi. unfold blkW. apply existsb_exists.
      exists b. split; auto. apply in_seq. lia.
    Qed.

    Lemma for_step_seq {St} (body : nat -> St -> option St) : forall c i s,
      for_step c (i * block) block body s = for_ c i (fun k s => body (k * block) s) s.
    Proof.
      induction c as [|c IH]; intros i s; auto. cbn [for_step for_].
      destruct (body (i * block) s); auto. rewrite <- IH. f_equal. cbn [Nat.mul]. lia.
    Qed.

    Lemma block_loop_ok n f f' : n mod block = 0 ->
      blocked_fcompute N block n mass y f = Some f' ->
      every_schedule (omp_block_loop N block n) (fmem f) (fun m => m = fmem f').
    Proof.
      intros Hn E. assert (En : n = block * (n / block)).
      { pose proof (Nat.div_mod n block ltac:(lia)). lia. }
      assert (EC : block_count block n = n / block).
      { unfold block_count. rewrite En at 1. symmetry.
        apply (Nat.div_unique _ _ _ (block - 1)); lia. }
      unfold omp_block_loop.
      apply seq_schedules with (R := fun _ => roR) (W := fun k => blkW n (k * block)).
      - intros k Hk. unfold omp_block. apply fp_block_pos. intros p1. apply fp_blocks. intros tf.
        apply fp_block_put. lia.
      - rewrite EC. intros j k a i Hj Hk Hne Hw. unfold blkW in *. apply existsb_exists in Hw.
        destruct Hw as (b & Hb & Hw). apply in_seq in Hb.
        assert (LB : forall q c, q < n / block -> c < block -> c + q * block < n).
        { intros q c Hq Hc. assert (S q * block <= n / block * block) by (apply Nat.mul_le_mono_r; lia).
          cbn [Nat.mul] in *. lia. }
        assert (ND : forall c, c < block -> b + j * block <> c + k * block).
        { intros c Hc Eq. apply Hne. assert (b = c).
          { rewrite <- (Nat.mod_small b block), <- (Nat.mod_small c block) by lia.
            rewrite <- (Nat.mod_add b j block), <- (Nat.mod_add c k block) by lia. congruence. }
          subst c. assert (j * block = k * block) by lia. apply Nat.mul_cancel_r in H; lia. }
        split.
        + unfold putW, roR in *. apply andb_true_iff in Hw. destruct Hw as [-> _]. reflexivity.
        + destruct (existsb _ _) eqn:Ee; auto. apply existsb_exists in Ee.
          destruct Ee as (c & Hc & Ee). apply in_seq in Hc.
          destruct (@putW_disj n (b + j * block) (c + k * block) a i) as [_ X]; auto.
          * apply LB; lia.
          * apply LB; lia.
          * apply ND. lia.
          * congruence.
      - rewrite (@exec_seq_for T (list T) (fun k => omp_block N block n (k * block)) fmem (fun _ => True)
          (fun k f => block_body N block n mass y (k * block) f) 0 (block_count block n)).
        + unfold blocked_fcompute in E. change 0 with (0 * block) in E at 1.
          rewrite for_step_seq in E. now rewrite E.
        + intros k s Hk _. split; auto. apply exec_block.
        + lia.
        + lia.
        + exact I.
    Qed.
  End Block.
End Plain.

(** *** the Ahmad-Cohen engine *)
Section AH.
  Context {T : Type} (N : NumOps T) (max_dist min_force : T) (y mass : list T).
  Notation cell := (ah_cell T).
  Definition amem (fs : list T * ah_state T) : mem cell := ah_mem (fst fs) y mass (snd fs).

  Lemma rd_map {A B} (g : A -> B) l i : rd (map g l) i = option_map g (rd l i).
  Proof. apply nth_error_map. Qed.
  Lemma wr_map {A B} (g : A -> B) l : forall i v, wr (map g l) i (g v) = option_map (map g) (wr l i v).
  Proof.
    induction l as [|x l IH]; intros [|i] v; cbn; auto. rewrite IH. destruct (wr l i v); auto.
  Qed.

  Lemma exec_ay i k fs : exec (crd N 1 i k) (amem fs) = let* v := rd y i in exec (k v) (amem fs).
  Proof.
    unfold crd. cbn [exec]. unfold amem, ah_mem, mrd. cbn [rd nth_error obind].
    change (nth_error (map (@CNum T) y) i) with (rd (map (@CNum T) y) i). rewrite rd_map.
    destruct (rd y i); reflexivity.
  Qed.
  Lemma exec_am i k fs : exec (crd N 2 i k) (amem fs) = let* v := rd mass i in exec (k v) (amem fs).
  Proof.
    unfold crd. cbn [exec]. unfold amem, ah_mem, mrd. cbn [rd nth_error obind].
    change (nth_error (map (@CNum T) mass) i) with (rd (map (@CNum T) mass) i). rewrite rd_map.
    destruct (rd mass i); reflexivity.
  Qed.
  Lemma exec_af i v k f s :
    exec (cwr 0 i v k) (amem (f, s)) = let* f := wr f i v in exec k (amem (f, s)).
  Proof.
    unfold cwr. cbn [exec]. unfold mwr, amem, ah_mem. cbn [rd nth_error obind fst snd].
    rewrite wr_map. destruct (wr f i v); reflexivity.
  Qed.
  Lemma exec_arda i k fs : exec (PRd 4 i k) (amem fs) =
    let* v := rd (ah_adjacent (snd fs)) i in exec (k (CAdj v)) (amem fs).
  Proof.
    cbn [exec]. unfold amem, ah_mem, mrd. cbn [rd nth_error obind].
    change (nth_error (map (@CAdj T) (ah_adjacent (snd fs))) i) with
      (rd (map (@CAdj T) (ah_adjacent (snd fs))) i). rewrite rd_map.
    destruct (rd (ah_adjacent (snd fs)) i); reflexivity.
  Qed.
  Lemma exec_ardu i k fs : exec (PRd 3 i k) (amem fs) =
    let* v := rd (ah_univerce (snd fs)) i in exec (k (CVec v)) (amem fs).
  Proof.
    cbn [exec]. unfold amem, ah_mem, mrd. cbn [rd nth_error obind].
    change (nth_error (map (@CVec T) (ah_univerce (snd fs))) i) with
      (rd (map (@CVec T) (ah_univerce (snd fs))) i). rewrite rd_map.
    destruct (rd (ah_univerce (snd fs)) i); reflexivity.
  Qed.
  Lemma exec_awra i v k f u a : exec (PWr 4 i (CAdj v) k) (amem (f, mkAH u a)) =
    let* a := wr a i v in exec k (amem (f, mkAH u a)).
  Proof.
    cbn [exec]. unfold mwr, amem, ah_mem. cbn [rd nth_error obind fst snd ah_adjacent ah_univerce].
    rewrite wr_map. destruct (wr a i v); reflexivity.
  Qed.
  Lemma exec_awru i v k f u a : exec (PWr 3 i (CVec v) k) (amem (f, mkAH u a)) =
    let* u := wr u i v in exec k (amem (f, mkAH u a)).
  Proof.
    cbn [exec]. unfold mwr, amem, ah_mem. cbn [rd nth_error obind fst snd ah_adjacent ah_univerce].
    rewrite wr_map. destruct (wr u i v); reflexivity.
  Qed.

  Lemma exec_crd3 count i k fs :
    exec (crd3 N count i k) (amem fs) = let* v := rd3 y count 0 i in exec (k v) (amem fs).
  Proof.
    unfold crd3, rd3. cbn [Nat.add Nat.mul]. rewrite (Nat.add_0_r count). rewrite exec_ay.
    destruct (rd y i); cbn [obind]; auto.
    rewrite exec_ay. destruct (rd y (count + i)); cbn [obind]; auto.
    rewrite exec_ay. destruct (rd y (count + count + i)); cbn [obind]; auto.
  Qed.

  Lemma exec_cput count b tf k f s :
    exec (cput N count b tf k) (amem (f, s)) =
    let* v := rd3 y count 3 b in let* f := wr3 f count 0 b v in
    let* m := rd mass b in
    let* f := wr3 f count 3 b (vdivs N tf m) in exec k (amem (f, s)).
  Proof.
    unfold cput, rd3, wr3, vdivs. cbn [Nat.add Nat.mul vx vy vz].
    replace (count + 0) with count by lia.
    rewrite exec_ay. destruct (rd y (count + (count + count) + b)) as [p|]; cbn [obind]; [|reflexivity].
    rewrite exec_af.
    destruct (wr f b p) as [f1|] eqn:E1; cbn [obind].
    2:{ destruct (rd y (count + (count + (count + count)) + b)); cbn [obind]; auto.
        destruct (rd y (count + (count + (count + (count + count))) + b)); cbn [obind vx]; auto.
        rewrite E1. reflexivity. }
    rewrite exec_ay. destruct (rd y (count + (count + (count + count)) + b)) as [q|]; cbn [obind]; [|reflexivity].
    rewrite exec_af. destruct (wr f1 (count + b) q) as [f2|] eqn:E2; cbn [obind].
    2:{ destruct (rd y (count + (count + (count + (count + count))) + b)); cbn [obind vx vy]; auto.
        rewrite E1. cbn [obind]. rewrite E2. reflexivity. }
    rewrite exec_ay. destruct (rd y (count + (count + (count + (count + count))) + b)) as [r|]; cbn [obind vx vy vz]; [|reflexivity].
    rewrite E1. cbn [obind]. rewrite E2. cbn [obind]. rewrite exec_af.
    destruct (wr f2 (count + count + b) r) as [f3|]; cbn [obind]; [|reflexivity].
    rewrite exec_am. destruct (rd mass b) as [m|] eqn:Em; cbn [obind]; [|reflexivity].
    rewrite exec_af. destruct (wr f3 (count + (count + count) + b) (ndiv N (vx tf) m)) as [f4|]; cbn [obind]; [|reflexivity].
    rewrite exec_am, Em. cbn [obind].
    rewrite exec_af. destruct (wr f4 (count + (count + (count + count)) + b) (ndiv N (vy tf) m)) as [f5|]; cbn [obind]; [|reflexivity].
    rewrite exec_am, Em. cbn [obind].
    rewrite exec_af. reflexivity.
  Qed.

  Lemma wr_upd {A} (l : list A) i v : i < length l -> wr l i v = Some (upd l i v).
  Proof. apply wr_ok. Qed.
  Lemma upd_twice {A} (l : list A) : forall i u v, upd (upd l i u) i v = upd l i v.
  Proof. induction l as [|z l IH]; intros [|i] u v; simpl; auto. now rewrite IH. Qed.
  Lemma upd_self {A} (l : list A) i v : rd l i = Some v -> upd l i v = l.
  Proof.
    revert i. unfold rd. induction l as [|z l IH]; intros [|i]; cbn; auto; intros H.
    - congruence.
    - now rewrite IH.
  Qed.

  Lemma exec_pairs' count b v1 k f u : forall q j tu tf a l,
    rd a b = Some l ->
    exec (omp_ah_pairs N max_dist min_force count b v1 q j tu tf k) (amem (f, mkAH u a)) =
    let* r := for_ q j (ah_full_pair N max_dist min_force count y mass b v1) (tu, tf, l) in
    let '(tu, tf, l) := r in exec (k tu tf) (amem (f, mkAH u (upd a b l))).
  Proof.
    induction q as [|q IH]; intros j tu tf a l Hl.
    - cbn [omp_ah_pairs for_ obind]. now rewrite (upd_self _ _ Hl).
    - cbn [omp_ah_pairs for_]. unfold ah_full_pair at 1. destruct (b =? j); [now apply IH|].
      rewrite exec_crd3. destruct (rd3 y count 0 j) as [v2|]; cbn [obind]; auto.
      rewrite exec_am. destruct (rd mass b) as [m1|]; cbn [obind]; auto.
      rewrite exec_am. destruct (rd mass j) as [m2|]; cbn [obind]; auto.
      destruct (is_adjacent N max_dist min_force v1 v2 (force N v1 v2 m1 m2)); [|now apply IH].
      rewrite exec_arda. cbn [snd ah_adjacent]. rewrite Hl. cbn [obind as_adj].
      rewrite exec_awra. assert (Hb := rd_bound _ _ Hl). rewrite wr_upd by auto. cbn [obind].
      rewrite (IH _ _ _ _ (l ++ [j])) by (unfold rd; now apply upd_nth_same).
      match goal with |- obind ?x _ = _ => destruct x as [[[? ?] ?]|]; cbn [obind]; auto end.
      now rewrite upd_twice.
  Qed.

  Definition ah_ok (count : nat) (st : list T * ah_state T) : Prop :=
    length (ah_univerce (snd st)) = count /\ length (ah_adjacent (snd st)) = count.

  Lemma exec_ah_full count b st : b < count -> ah_ok count st ->
    exec (omp_ah_full N max_dist min_force count b) (amem st) =
    option_map amem (ah_full_body N max_dist min_force count y mass b st) /\
    (forall st', ah_full_body N max_dist min_force count y mass b st = Some st' -> ah_ok count st').
  Proof.
    destruct st as [f [u a]]. intros Hb [Hu Ha]. cbn [snd ah_univerce ah_adjacent] in *.
    destruct (rd_some a (i := b)) as [l Hl]; [lia|].
    unfold ah_full_body, omp_ah_full. rewrite exec_crd3. cbn [ah_adjacent ah_univerce].
    destruct (rd3 y count 0 b) as [v1|]; cbn [obind]; [|split; auto; discriminate].
    rewrite Hl. cbn [obind]. rewrite (@exec_pairs' _ _ _ _ _ _ _ _ _ _ _ _ Hl).
    destruct (for_ count 0 _ _) as [[[tu tf] l']|]; cbn [obind]; [|split; auto; discriminate].
    rewrite exec_cput.
    destruct (rd3 y count 3 b) as [v|]; cbn [obind]; [|split; auto; discriminate].
    destruct (wr3 f count 0 b v) as [f1|]; cbn [obind]; [|split; auto; discriminate].
    destruct (rd mass b) as [m|]; cbn [obind]; [|split; auto; discriminate].
    destruct (wr3 f1 count 3 b (vdivs N tf m)) as [f2|]; cbn [obind]; [|split; auto; discriminate].
    rewrite exec_awru. rewrite !wr_upd by lia. cbn [obind option_map]. split; auto.
    intros st' [= <-]. split; cbn [snd ah_univerce ah_adjacent]; now rewrite upd_length.
  Qed.

  Lemma exec_near count b v1 k fs : forall adj tf i l,
    (forall q, rd l (i + q) = rd adj q) ->
    exec (omp_ah_near N count b v1 adj tf k) (amem fs) =
    let* tf := for_ (length adj) i (ah_sparse_pair N count y mass b v1 l) tf in exec (k tf) (amem fs).
  Proof.
    induction adj as [|j adj IH]; intros tf i l Hl; [reflexivity|].
    cbn [omp_ah_near length for_]. unfold ah_sparse_pair at 1.
    rewrite <- (Nat.add_0_r i), (Hl 0), Nat.add_0_r. cbn [rd nth_error obind].
    rewrite exec_crd3. destruct (rd3 y count 0 j) as [v2|]; cbn [obind]; auto.
    rewrite exec_am. destruct (rd mass b) as [m1|]; cbn [obind]; auto.
    rewrite exec_am. destruct (rd mass j) as [m2|]; cbn [obind]; auto.
    apply IH. intros q. replace (S i + q) with (i + S q) by lia. rewrite Hl. reflexivity.
  Qed.

  Lemma exec_ah_sparse count b f s :
    exec (omp_ah_sparse N count b) (amem (f, s)) =
    option_map (fun f => amem (f, s)) (ah_sparse_body N count y mass s b f).
  Proof.
    unfold ah_sparse_body, omp_ah_sparse. rewrite exec_crd3.
    destruct (rd3 y count 0 b) as [v1|]; cbn [obind]; auto. rewrite exec_ardu. cbn [snd].
    destruct (rd (ah_univerce s) b) as [u|]; cbn [obind]; auto. rewrite exec_arda. cbn [snd].
    destruct (rd (ah_adjacent s) b) as [l|]; cbn [obind]; auto. cbn [as_adj as_vec].
    rewrite (exec_near _ _ _ _ _ _ _ 0 l) by auto.
    destruct (for_ (length l) 0 _ u) as [tf|]; cbn [obind]; auto. rewrite exec_cput.
    destruct (rd3 y count 3 b) as [v|]; cbn [obind]; auto.
    destruct (wr3 f count 0 b v) as [f1|]; cbn [obind]; auto.
    destruct (rd mass b) as [m|]; cbn [obind]; auto.
  Qed.

  (** footprints *)
  Definition ahW (count b : nat) : region := fun a i =>
    putW count b a i || ((a =? 3) || (a =? 4)) && (i =? b).
  Definition ahR : region := fun a _ => (a =? 1) || (a =? 2).

  Lemma fp_crd3 R W count i k : (forall j, R 1 j = true) -> (forall v, fp R W (k v)) ->
    fp R W (crd3 N count i k).
  Proof. intros H Hk. cbn. repeat split; auto. Qed.
  Lemma fp_cput R W count b tf k : (forall j, R 1 j = true) -> (forall j, R 2 j = true) ->
    (forall i, putW count b 0 i = true -> W 0 i = true) -> fp R W k -> fp R W (cput N count b tf k).
  Proof.
    intros R1 R2 HW Hk. unfold cput, crd, cwr. cbn [fp]. unfold putW in HW. cbn [Nat.eqb andb] in HW.
    repeat match goal with |- _ /\ _ => split | |- forall _, _ => intro end; auto;
      apply HW; rewrite Nat.eqb_refl; rewrite ?orb_true_r; auto.
  Qed.
  Lemma fp_pairs' W count b v1 k : (forall tu tf, fp ahR W (k tu tf)) -> W 4 b = true ->
    forall q j tu tf, fp ahR W (omp_ah_pairs N max_dist min_force count b v1 q j tu tf k).
  Proof.
    intros Hk HW. induction q as [|q IH]; intros j tu tf; cbn [omp_ah_pairs]; auto.
    destruct (b =? j); auto. apply fp_crd3; [reflexivity|]. intros v2.
    cbn [fp crd]. split; [left; reflexivity|]. intros m1. split; [left; reflexivity|]. intros m2.
    destruct (is_adjacent _ _ _ _ _ _); auto. cbn [fp]. auto.
  Qed.
  Lemma fp_near R W count b v1 k : (forall j, R 1 j = true) -> (forall j, R 2 j = true) ->
    (forall tf, fp R W (k tf)) -> forall l tf, fp R W (omp_ah_near N count b v1 l tf k).
  Proof.
    intros R1 R2 Hk. induction l as [|j l IH]; intros tf; cbn [omp_ah_near]; auto.
    apply fp_crd3; auto. intros v2. cbn [fp crd]. auto.
  Qed.

  Lemma full_loop_ok n f s f' s' :
    ah_full N max_dist min_force n mass y f s = Some (f', s') ->
    every_schedule (omp_ah_full_loop N max_dist min_force n)
      (ah_mem f y mass (mkAH (repeat (vzero N) n) (repeat [] n)))
      (fun m => m = ah_mem f' y mass s').
  Proof.
    intros E. unfold omp_ah_full_loop.
    change (ah_mem f y mass (mkAH (repeat (vzero N) n) (repeat [] n))) with
      (amem (f, mkAH (repeat (vzero N) n) (repeat [] n))).
    change (ah_mem f' y mass s') with (amem (f', s')).
    apply seq_schedules with (R := fun _ => ahR) (W := ahW n).
    - intros k Hk. unfold omp_ah_full. apply fp_crd3; [reflexivity|]. intros v1. apply fp_pairs'.
      + intros tu tf. apply fp_cput; auto.
        * intros i Hi. unfold ahW. now rewrite Hi.
        * cbn [fp]. split; auto. unfold ahW. cbn. apply Nat.eqb_refl.
      + unfold ahW. cbn. apply Nat.eqb_refl.
    - intros j k a i Hj Hk Hne Hw. unfold ahW in *. apply orb_true_iff in Hw. destruct Hw as [Hw|Hw].
      + destruct (@putW_disj n j k a i Hj Hk Hne Hw) as [X Y]. unfold roR in X.
        apply negb_false_iff, Nat.eqb_eq in X. subst a. rewrite Y. split; reflexivity.
      + apply andb_true_iff in Hw. destruct Hw as [Hw Hi]. apply Nat.eqb_eq in Hi. subst i.
        assert (a = 3 \/ a = 4) as Ha.
        { apply orb_true_iff in Hw. destruct Hw as [Hw|Hw]; apply Nat.eqb_eq in Hw; auto. }
        replace (j =? k) with false by (symmetry; now apply Nat.eqb_neq).
        destruct Ha as [-> | ->]; split; reflexivity.
    - rewrite (@exec_seq_for cell (list T * ah_state T) (omp_ah_full N max_dist min_force n) amem
        (ah_ok n) (ah_full_body N max_dist min_force n y mass) 0 n).
      + unfold ah_full in E. now rewrite E.
      + intros k st Hk Hs. apply exec_ah_full; auto. lia.
      + lia.
      + lia.
      + split; cbn [snd ah_univerce ah_adjacent]; apply repeat_length.
  Qed.

  Lemma sparse_loop_ok n f s f' :
    ah_sparse N n mass y f s = Some f' ->
    every_schedule (omp_ah_sparse_loop N n) (ah_mem f y mass s) (fun m => m = ah_mem f' y mass s).
  Proof.
    intros E. unfold omp_ah_sparse_loop.
    change (ah_mem f y mass s) with ((fun f => amem (f, s)) f).
    change (ah_mem f' y mass s) with ((fun f => amem (f, s)) f').
    apply seq_schedules with (R := fun _ => roR) (W := putW n).
    - intros k Hk. unfold omp_ah_sparse. apply fp_crd3; [reflexivity|]. intros v1.
      cbn [fp]. split; [left; reflexivity|]. intros u. split; [left; reflexivity|]. intros l.
      apply fp_near; auto. intros tf. apply fp_cput; auto. exact I.
    - intros j k a i. apply putW_disj.
    - rewrite (@exec_seq_for cell (list T) (omp_ah_sparse N n) (fun f => amem (f, s))
        (fun _ => True) (ah_sparse_body N n y mass s) 0 n).
      + unfold ah_sparse in E. now rewrite E.
      + intros k g Hk _. split; auto. apply exec_ah_sparse.
      + lia.
      + lia.
      + exact I.
  Qed.
End AH.
