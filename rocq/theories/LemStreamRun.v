(** Whole recording sessions. *)
From Coq Require Import Ascii String List NArith ZArith Arith Lia Bool.
From Verif Require Import Arr ModelText ModelStream SpecStream LemText LemStream.
Import ListNotations.
Set Implicit Arguments.

Section L.
  Context {T : Type} (X : TextOps T) (cs : nat).
  Notation bdata := (@bdata T).
  Notation rec := (@rec T).

  (** the layout of the parts *)
  Record tidy (max : Z) (base : text) (fs : files) (recs : list rec) (last : N) : Prop := {
    t_files : forall p, (p <= last)%N -> fs (make_dat_name base p) = Some (part_bytes p recs);
    t_full : forall p, (p < last)%N -> (0 < max)%Z /\ (max <= Z.of_nat (length (part_bytes p recs)))%Z;
    t_off : (0 < max)%Z -> Forall (fun c => (Z.of_nat (c_off c) < max)%Z) recs;
    t_part : Forall (fun c => (c_part c <= last)%N) recs;
    t_used : forall p, (p <= last)%N -> exists c, In c recs /\ c_part c = p;
    t_where : forall pre c post, recs = pre ++ c :: post ->
      c_off c = length (part_bytes (c_part c) pre) /\ Forall (fun b => (c_part b <= c_part c)%N) pre }.

  Lemma part_app : forall p (a b : list rec), part_bytes p (a ++ b) = part_bytes p a ++ part_bytes p b.
  Proof.
    intros. unfold part_bytes. rewrite filter_app, map_app, concat_app. reflexivity.
  Qed.
  Lemma part_one : forall p (c : rec),
    part_bytes p [c] = if N.eqb (c_part c) p then image (c_frame c) else [].
  Proof.
    intros. unfold part_bytes. cbn [filter]. destruct (N.eqb (c_part c) p); cbn; [|reflexivity].
    now rewrite app_nil_r.
  Qed.
  Lemma part_none : forall p (l : list rec), Forall (fun c => (c_part c < p)%N) l -> part_bytes p l = [].
  Proof.
    intros p l H. unfold part_bytes. induction H as [|c l K H IH]; [reflexivity|]. cbn [filter].
    destruct (N.eqb_spec (c_part c) p); [lia|exact IH].
  Qed.
  Lemma snoc_split : forall A (l pre post : list A) a x,
    l ++ [a] = pre ++ x :: post -> (post = [] /\ pre = l /\ x = a) \/ exists post', post = post' ++ [a] /\ l = pre ++ x :: post'.
  Proof.
    intros A l pre post a x H. destruct post as [|y post] using rev_ind.
    - left. apply app_inj_tail in H. destruct H; auto.
    - right. exists post. clear IHpost. rewrite app_comm_cons, app_assoc in H.
      apply app_inj_tail in H. destruct H as [-> ->]. auto.
  Qed.

  (** one write keeps the layout *)
  Lemma tidy_write : forall max base fs fs' recs last pos b part off rot,
    tidy max base fs recs last -> pos = length (part_bytes last recs) ->
    rot = andb (Z.ltb 0 max) (Z.leb max (Z.of_nat pos)) ->
    (if rot then part = (last + 1)%N /\ off = 0 else part = last /\ off = pos) ->
    fs' (make_dat_name base part) =
      Some ((if rot then [] else contents fs (make_dat_name base part)) ++ image b) ->
    (forall n, n <> part -> fs' (make_dat_name base n) = fs (make_dat_name base n)) ->
    tidy max base fs' (recs ++ [mkRec b part off]) part /\
    off + length (image b) = length (part_bytes part (recs ++ [mkRec b part off])).
  Proof.
    intros max base fs fs' recs last pos b part off rot H Hp Hr Hl Hc Ho.
    destruct H as [Hf Hu Hof Hpt Hus Hw].
    assert (Q : part_bytes part (recs ++ [mkRec b part off]) = part_bytes part recs ++ image b).
    { rewrite part_app, part_one. cbn [c_part c_frame]. now rewrite N.eqb_refl. }
    assert (Q' : forall p, p <> part -> part_bytes p (recs ++ [mkRec b part off]) = part_bytes p recs).
    { intros p K. rewrite part_app, part_one. cbn [c_part]. destruct (N.eqb_spec part p); [congruence|].
      apply app_nil_r. }
    assert (PL : off = length (part_bytes part recs)).
    { destruct rot.
      - destruct Hl as [-> ->]. rewrite part_none; [reflexivity|]. eapply Forall_impl; [|exact Hpt].
        cbn beta. intros c K. lia.
      - destruct Hl as [-> ->]. exact Hp. }
    assert (LP : (last <= part)%N) by (destruct rot; lia).
    split; [|rewrite Q, app_length; lia].
    constructor.
    - intros p K. destruct (N.eq_dec p part) as [->|D].
      + rewrite Hc, Q. destruct rot.
        * destruct Hl as [-> ->]. rewrite part_none; [reflexivity|]. eapply Forall_impl; [|exact Hpt].
          cbn beta. intros c K'. lia.
        * destruct Hl as [-> ->]. unfold contents. rewrite Hf by lia. reflexivity.
      + rewrite Q' by exact D. rewrite Ho by exact D. apply Hf. destruct rot; lia.
    - intros p K. rewrite Q' by lia. destruct (N.eq_dec p last) as [->|D].
      + destruct rot; [|lia]. symmetry in Hr. apply andb_true_iff in Hr. destruct Hr as [A B].
        apply Z.ltb_lt in A. apply Z.leb_le in B. rewrite <- Hp. split; assumption.
      + apply Hu. destruct rot; lia.
    - intros K. apply Forall_app. split; [apply Hof, K|]. constructor; [|constructor]. cbn [c_off].
      destruct rot.
      + destruct Hl as [_ ->]. lia.
      + destruct Hl as [_ ->]. symmetry in Hr. apply andb_false_iff in Hr. destruct Hr as [A|B].
        * apply Z.ltb_ge in A. lia.
        * apply Z.leb_gt in B. exact B.
    - apply Forall_app. split; [eapply Forall_impl; [|exact Hpt]; cbn beta; intros; lia|].
      constructor; [|constructor]. cbn. lia.
    - intros p K. destruct (N.eq_dec p part) as [->|D].
      + eexists. split; [apply in_or_app; right; left; reflexivity|reflexivity].
      + destruct (Hus p) as (c & I & E); [destruct rot; lia|]. exists c. split; [|exact E].
        apply in_or_app. now left.
    - intros pre c post E. apply snoc_split in E. destruct E as [(-> & -> & ->)|(post' & -> & ->)].
      + cbn [c_off c_part]. split; [exact PL|]. eapply Forall_impl; [|exact Hpt]. cbn beta. intros; lia.
      + exact (Hw pre c post' eq_refl).
  Qed.

  Definition bound (n0 : N) (p0 sz k : nat) (c : rec) : Prop :=
    (c_part c <= n0 + N.of_nat k)%N /\ c_off c <= p0 + k * sz.
  Lemma bound_more : forall n0 p0 sz k c, bound n0 p0 sz k c -> bound n0 p0 sz (S k) c.
  Proof. intros n0 p0 sz k c [A B]. split; [lia|]. cbn [Nat.mul]. lia. Qed.

  Lemma write_all_ready : forall sz base first frames recs w fs lg,
    ready X cs base first recs w fs -> w_header w = true -> w_buf w = [] ->
    Forall (fun b => length (image b) = sz) frames ->
    exists recs' w' evs,
      write_all X cs frames w (mkDisk fs [] lg) = (w', mkDisk (after fs evs) [] (lg ++ evs), true) /\
      map (fun c => c_frame c) recs' = frames /\
      ready X cs base first (recs ++ recs') w' (after fs evs) /\
      w_header w' = true /\ w_buf w' = [] /\ w_max w' = w_max w /\
      Forall (bound (w_file_n w) (w_pos w) sz (length frames)) recs' /\
      (forall p, torn evs p -> crash_ok X cs (after fs p) base first (recs ++ recs')) /\
      (tidy (w_max w) base fs recs (w_file_n w) -> tidy (w_max w) base (after fs evs) (recs ++ recs') (w_file_n w')).
  Proof.
    intros sz base first frames. induction frames as [|b frames IH]; intros recs w fs lg H Hh Hb Hl.
    - exists [], w, []. cbn [write_all after fold_left]. rewrite !app_nil_r.
      split; [reflexivity|]. split; [reflexivity|]. split; [exact H|]. repeat (split; [assumption|]).
      split; [reflexivity|]. split; [constructor|]. split; [|auto].
      intros p Q. inversion Q; subst. apply calm_crash. eapply ready_calm, H.
    - inversion Hl as [|? ? Lb Ll]; subst.
      destruct (write_ready lg b H Hh)
        as (part & off & w1 & e1 & E1 & L1 & R1 & F1 & P1 & X1 & H1 & B1 & C1 & D1 & D1').
      destruct (IH _ _ _ (lg ++ e1) R1 H1 B1 Ll)
        as (recs' & w2 & e2 & E2 & M2 & R2 & H2 & B2 & X2 & O2 & C2 & T2).
      exists (mkRec b part off :: recs'), w2, (e1 ++ e2). cbn [write_all]. rewrite E1, E2.
      rewrite !after_app, app_assoc. split; [reflexivity|].
      split; [cbn [map c_frame]; f_equal; exact M2|].
      rewrite <- app_assoc in R2. split; [exact R2|]. split; [exact H2|]. split; [exact B2|].
      split; [congruence|]. split; [|split].
      + constructor.
        * split; cbn [c_part c_off length]; destruct (must_rotate w); destruct L1 as [-> ->]; try lia.
        * eapply Forall_impl; [|exact O2]. intros c [A B]. rewrite F1, P1 in *.
          split; cbn [length]; destruct (must_rotate w); destruct L1 as [-> ->]; try lia.
      + intros p Q. apply torn_app in Q. destruct Q as [Q|(q & -> & Q)].
        * change (recs ++ mkRec b part off :: recs') with (recs ++ [mkRec b part off] ++ recs').
          rewrite app_assoc. apply crash_more, C1, Q.
        * rewrite after_app. specialize (C2 q Q). rewrite <- app_assoc in C2. exact C2.
      + intros Ty. destruct (@tidy_write (w_max w) base fs (after fs e1) recs (w_file_n w) (w_pos w) b part off
          (must_rotate w) Ty) as [K _]; auto.
        { destruct (y_dat H) as (c & Ec & Lc). rewrite (t_files Ty) in Ec by lia. inversion Ec; subst. exact Lc. }
        rewrite X1, F1 in T2. specialize (T2 K). rewrite <- app_assoc in T2. exact T2.
  Qed.

  (** closing changes nothing *)
  Lemma close_ready : forall base first recs w fs lg,
    ready X cs base first recs w fs -> w_buf w = [] ->
    exists w' evs,
      stream_close w (mkDisk fs [] lg) = (w', mkDisk (after fs evs) [] (lg ++ evs)) /\
      w_data w' = None /\ w_idx w' = None /\ w_header w' = w_header w /\
      (forall n, after fs evs n = fs n) /\
      (forall p, torn evs p -> forall n, after fs p n = fs n).
  Proof.
    intros base first recs w fs lg H Hb. unfold stream_close, close_data. cbn [w_data w_pend].
    rewrite (y_data H), (y_pend H). unfold put, outcome. cbn [k_io taken length firstn].
    unfold happen. cbn [k_fs k_io k_log].
    assert (K : forall n, after fs [App (make_dat_name base (w_file_n w)) []] n = fs n).
    { intros n. cbn [after fold_left apply]. destruct (text_dec n (make_dat_name base (w_file_n w))) as [->|D].
      - rewrite set_same. destruct (y_dat H) as (c & E & _). unfold contents. rewrite E. now rewrite app_nil_r.
      - now apply set_other. }
    eexists _, [App (make_dat_name base (w_file_n w)) []]. split; [reflexivity|]. cbn [set_data w_data w_idx w_header].
    split; [reflexivity|]. split; [reflexivity|]. split; [reflexivity|]. split; [exact K|].
    intros p Q. inversion Q as [l|e l q Q'|m bs k l]; subst; [reflexivity|inversion Q'; subst; exact K|].
    rewrite firstn_nil. exact K.
  Qed.
  Lemma ready_on_disk : forall base first recs w fs,
    ready X cs base first recs w fs -> w_buf w = [] -> on_disk X cs fs base first recs.
  Proof.
    intros base first recs w fs H Hb. constructor.
    - destruct (y_text H) as (t & E & K). rewrite Hb, app_nil_r in K. now rewrite <- K.
    - exact (y_col H).
    - exact (y_mass H).
    - exact (y_stored H).
  Qed.
  Lemma on_disk_ext : forall base first recs fs fs', (forall n, fs' n = fs n) ->
    on_disk X cs fs base first recs -> on_disk X cs fs' base first recs.
  Proof.
    intros base first recs fs fs' E [A B C D]. constructor; [now rewrite E..|].
    eapply Forall_impl; [|exact D]. intros c (u & v & K & L). exists u, v. rewrite E. auto.
  Qed.
  Lemma crash_ext : forall base first recs fs fs', (forall n, fs' n = fs n) ->
    crash_ok X cs fs base first recs -> crash_ok X cs fs' base first recs.
  Proof.
    intros base first recs fs fs' E (A & B & C). unfold crash_ok, contents in *. rewrite !E.
    split; [exact A|]. split; [|exact C]. intros k K. eapply Forall_impl; [|exact (B k K)].
    intros c (u & v & L & M). exists u, v. rewrite E. auto.
  Qed.

  (** a complete session on a new stream *)
  Lemma session : forall sz base max b frames w0 fs,
    w_data w0 = None -> w_idx w0 = None -> w_header w0 = false ->
    Forall (fun b => length (image b) = sz) (b :: frames) ->
    exists recs w' evs,
      record_on X cs w0 base max None (b :: frames) fs = (w', mkDisk (after fs evs) [] evs, true) /\
      map (fun c => c_frame c) recs = b :: frames /\
      on_disk X cs (after fs evs) base b recs /\
      Forall (bound 0 0 sz (length (b :: frames))) recs /\
      (fs (make_idx_name base) = None -> forall p, torn evs p -> crash_ok X cs (after fs p) base b recs) /\
      (exists last, tidy max base (after fs evs) recs last) /\
      w_data w' = None /\ w_idx w' = None /\ w_header w' = true.
  Proof.
    intros sz base max b frames w0 fs Hd Hi Hh Hl. inversion Hl as [|? ? Lb Ll]; subst.
    unfold record_on. destruct (open_opened base max w0 fs [] Hd Hi) as (w1 & E1 & O1 & X1 & H1).
    rewrite E1. cbn [app]. set (e1 := [Create (make_dat_name base 0); Create (make_idx_name base)]) in *.
    rewrite <- H1 in Hh.
    destruct (write_first X cs e1 b O1 Hh) as (w2 & e2 & E2 & R2 & F2 & P2 & X2 & H2 & B2 & C2 & D2).
    cbn [write_all]. rewrite E2.
    destruct (write_all_ready (e1 ++ e2) R2 H2 B2 Ll)
      as (recs & w3 & e3 & E3 & M3 & R3 & H3 & B3 & X3 & O3 & C3 & T3).
    rewrite E3.
    destruct (close_ready ((e1 ++ e2) ++ e3) R3 B3) as (w4 & e4 & E4 & A4 & A4' & A4'' & K4 & K4').
    rewrite E4. exists (mkRec b 0 0 :: recs), w4, (e1 ++ e2 ++ e3 ++ e4).
    rewrite !after_app. rewrite <- !app_assoc. split; [reflexivity|].
    split; [cbn [map c_frame]; now rewrite M3|].
    split; [eapply on_disk_ext; [exact K4|]; eapply ready_on_disk; eassumption|]. split; [|split; [|split]].
    - constructor.
      + split; cbn; lia.
      + eapply Forall_impl; [|exact O3]. intros c [A B]. rewrite F2, P2 in *. split; cbn [length]; lia.
    - intros N p Q. apply torn_app in Q. destruct Q as [Q|(q & -> & Q)].
      { apply crash_blank. unfold contents. change e1 with ([Create (make_dat_name base 0)] ++ [Create (make_idx_name base)]) in Q.
        apply torn_app in Q. destruct Q as [Q|(q & -> & Q)].
        - rewrite (contents_torn Q); [now rewrite N|]. constructor; [|constructor]. cbn [names]. auto with names.
        - inversion Q as [l|e l q' Q'|]; subst.
          + rewrite app_nil_r. cbn [after fold_left]. rewrite apply_other by (cbn [names]; auto with names).
            now rewrite N.
          + inversion Q'; subst. cbn [after fold_left app]. cbn [apply]. rewrite set_same. reflexivity. }
      rewrite after_app. apply torn_app in Q. destruct Q as [Q|(q' & -> & Q)].
      { change (mkRec b 0 0 :: recs) with ([mkRec b 0 0] ++ recs). apply crash_more, C2, Q. }
      rewrite after_app. apply torn_app in Q. destruct Q as [Q|(q & -> & Q)].
      { exact (C3 q' Q). }
      rewrite after_app. eapply crash_ext; [exact (K4' q Q)|]. apply calm_crash. eapply ready_calm. exact R3.
    - exists (w_file_n w3). assert (TT : tidy (w_max w2) base (after (after (after fs e1) e2) e3) (mkRec b 0 0 :: recs) (w_file_n w3)).
      { apply T3. rewrite F2. constructor.
        - intros p K. assert (p = 0)%N as -> by lia. rewrite D2. unfold part_bytes. cbn. now rewrite app_nil_r.
        - intros p K. lia.
        - intros K. constructor; [|constructor]. cbn. exact K.
        - constructor; [|constructor]. cbn. lia.
        - intros p K. exists (mkRec b 0 0). split; [left; reflexivity|]. cbn. lia.
        - intros pre c post E. destruct pre as [|x pre].
          + inversion E; subst. split; [reflexivity|constructor].
          + inversion E as [[E1' E2']]. destruct pre; discriminate E2'. }
      rewrite X2, X1 in TT. destruct TT as [Z1 Z2 Z3 Z4 Z5 Z6]. constructor; auto.
      intros p K. rewrite K4. auto.
    - rewrite A4''. auto.
  Qed.

  (** the same while the writer is still open *)
  Lemma live_session : forall sz base max b frames w0 fs,
    w_data w0 = None -> w_idx w0 = None -> w_header w0 = false ->
    Forall (fun b => length (image b) = sz) (b :: frames) ->
    exists recs w1 d1 w' d',
      stream_open base max None w0 (mkDisk fs [] []) = (w1, d1, true) /\
      write_all X cs (b :: frames) w1 d1 = (w', d', true) /\
      map (fun c => c_frame c) recs = b :: frames /\
      on_disk X cs (k_fs d') base b recs /\
      Forall (bound 0 0 sz (length (b :: frames))) recs.
  Proof.
    intros sz base max b frames w0 fs Hd Hi Hh Hl. inversion Hl as [|? ? Lb Ll]; subst.
    destruct (open_opened base max w0 fs [] Hd Hi) as (w1 & E1 & O1 & X1 & H1).
    rewrite E1. cbn [app]. set (e1 := [Create (make_dat_name base 0); Create (make_idx_name base)]) in *.
    rewrite <- H1 in Hh.
    destruct (write_first X cs e1 b O1 Hh) as (w2 & e2 & E2 & R2 & F2 & P2 & X2 & H2 & B2 & C2 & D2).
    destruct (write_all_ready (e1 ++ e2) R2 H2 B2 Ll)
      as (recs & w3 & e3 & E3 & M3 & R3 & H3 & B3 & X3 & O3 & C3 & T3).
    exists (mkRec b 0 0 :: recs). do 4 eexists. split; [reflexivity|].
    split; [cbn [write_all]; rewrite E2; exact E3|]. cbn [k_fs].
    split; [cbn [map c_frame]; now rewrite M3|].
    split; [eapply ready_on_disk; eassumption|].
    constructor.
    - split; cbn; lia.
    - eapply Forall_impl; [|exact O3]. intros c [A B]. rewrite F2, P2 in *. split; cbn [length]; lia.
  Qed.

  (** ** Appending *)
  Lemma touch_same : forall fs n c, fs n = Some c -> forall m, apply fs (Touch n) m = fs m.
  Proof.
    intros fs n c E m. cbn [apply]. destruct (text_dec m n) as [->|D].
    - rewrite set_same. unfold contents. now rewrite E.
    - now apply set_other.
  Qed.
  Lemma append_ready : forall base max first recs w0 fs lg last c,
    w_data w0 = None -> w_idx w0 = None ->
    on_disk X cs fs base first recs -> Forall (fun c => (c_part c <= last)%N) recs ->
    fs (make_dat_name base last) = Some c ->
    exists w' evs,
      stream_open base max (Some last) w0 (mkDisk fs [] lg) = (w', mkDisk (after fs evs) [] (lg ++ evs), true) /\
      ready X cs base first recs w' (after fs evs) /\ w_header w' = true /\ w_buf w' = [] /\
      w_max w' = max /\ w_file_n w' = last /\ w_pos w' = length c /\
      (forall n, after fs evs n = fs n) /\
      (forall p, torn evs p -> forall n, after fs p n = fs n).
  Proof.
    intros base max first recs w0 fs lg last c Hd Hi Ho Hp Hc.
    unfold stream_open, open_data_file, close_data.
    cbn [w_data w_base w_file_n]. rewrite Hd. unfold open_file, outcome. cbn [k_io].
    unfold happen. cbn [k_fs k_log k_io]. cbn [negb].
    unfold open_index_file, open_file, outcome. cbn [set_data w_base k_io]. unfold happen. cbn [k_fs k_log k_io].
    set (e1 := Touch (make_dat_name base last)). set (e2 := Touch (make_idx_name base)).
    pose proof (touch_same _ _ Hc) as K1.
    assert (K2 : forall m, apply (apply fs e1) e2 m = apply fs e1 m).
    { refine (@touch_same _ _ (index_text X cs first recs) _). unfold e1. rewrite K1. exact (od_idx Ho). }
    assert (K : forall n, after fs [e1; e2] n = fs n).
    { intros n. cbn [after fold_left]. rewrite K2. apply K1. }
    eexists _, [e1; e2]. split; [rewrite <- app_assoc; reflexivity|].
    split; [|split; [reflexivity|]; split; [reflexivity|]; split; [reflexivity|]; split; [reflexivity|];
             split; [|split; [exact K|]]].
    - destruct Ho as [A B C D].
      constructor; cbn [set_index set_data w_base w_idx w_ok w_data w_file_n w_pos w_pend w_buf]; auto.
      + rewrite K, Hc. exists c. split; [reflexivity|]. unfold contents. unfold e1. rewrite K1, Hc. reflexivity.
      + rewrite K, A. eexists. split; [reflexivity|]. now rewrite app_nil_r.
      + now rewrite K.
      + now rewrite K.
      + eapply Forall_impl; [|exact D]. intros x (u & v & E & L). exists u, v. rewrite K. auto.
    - cbn [set_index set_data w_pos w_file_n]. unfold contents, e1. rewrite K1, Hc. reflexivity.
    - intros p Q n. inversion Q as [l|e l q Q'|]; subst; [reflexivity|].
      inversion Q' as [l|e l' q' Q''|]; subst; [apply K1|]. inversion Q''; subst. apply K.
  Qed.

  Lemma append_session : forall sz base max first recs frames w0 fs last c,
    w_data w0 = None -> w_idx w0 = None ->
    on_disk X cs fs base first recs -> Forall (fun c => (c_part c <= last)%N) recs ->
    fs (make_dat_name base last) = Some c ->
    Forall (fun b => length (image b) = sz) frames ->
    exists recs' w' evs,
      record_on X cs w0 base max (Some last) frames fs = (w', mkDisk (after fs evs) [] evs, true) /\
      map (fun c => c_frame c) recs' = frames /\
      on_disk X cs (after fs evs) base first (recs ++ recs') /\
      Forall (bound last (length c) sz (length frames)) recs' /\
      (forall p, torn evs p -> crash_ok X cs (after fs p) base first (recs ++ recs')).
  Proof.
    intros sz base max first recs frames w0 fs last c Hd Hi Ho Hp Hc Hl.
    unfold record_on.
    destruct (append_ready max w0 [] Hd Hi Ho Hp Hc) as (w1 & e1 & E1 & R1 & H1 & B1 & X1 & N1 & P1 & K1 & K1').
    rewrite E1. cbn [app].
    destruct (write_all_ready e1 R1 H1 B1 Hl) as (recs' & w3 & e3 & E3 & M3 & R3 & H3 & B3 & X3 & O3 & C3 & _).
    rewrite E3. destruct (close_ready (e1 ++ e3) R3 B3) as (w4 & e4 & E4 & _ & _ & _ & K4 & K4').
    rewrite E4. exists recs', w4, (e1 ++ e3 ++ e4). rewrite !after_app. rewrite <- !app_assoc.
    split; [reflexivity|]. split; [exact M3|].
    split; [eapply on_disk_ext; [exact K4|]; eapply ready_on_disk; eassumption|].
    split; [rewrite <- N1, <- P1; exact O3|].
    intros p Q. apply torn_app in Q. destruct Q as [Q|(q & -> & Q)].
    { apply crash_more. eapply crash_ext; [exact (K1' p Q)|]. apply calm_crash.
      destruct Ho as [A B C D]. split; [exists (index_text X cs first recs); split; [exact A|apply starts_refl]|]. auto. }
    rewrite after_app. apply torn_app in Q. destruct Q as [Q|(q' & -> & Q)].
    { exact (C3 q Q). }
    rewrite after_app. eapply crash_ext; [exact (K4' q' Q)|]. apply calm_crash. eapply ready_calm. exact R3.
  Qed.

  (** ** A writer that believes it has written the header already *)
  Record bare (base : text) (w : writer) : Prop := {
    h_head : w_header w = true;
    h_base : w_base w = base;
    h_idx : w_idx w = Some (make_idx_name base);
    h_ok : w_ok w = true;
    h_buf : w_buf w = [];
    h_data : w_data w = Some (make_dat_name base (w_file_n w)) }.
  Lemma bare_tail : forall base w fs lg b,
    bare base w ->
    exists w' fs' lg',
      (let fpos := w_pos w in
       let '(w1, d1, good) := write_data (d_vert b) w (mkDisk fs [] lg) in
       if negb good then (w1, d1, false) else
       let '(w2, d2, good) := write_data (d_velo b) w1 d1 in
       if negb good then (w2, d2, false) else
       let (w3, d3) := flush_data w2 d2 in
       let w4 := set_index w3 (w_idx w3) (w_buf w3 ++ index_line X b (w_file_n w3) fpos) (w_ok w3) in
       let (w5, d5) := flush_index w4 d3 in (w5, d5, true)) = (w', mkDisk fs' [] lg', true) /\
      bare base w' /\ w_file_n w' = w_file_n w /\ w_pos w' = w_pos w + length (image b) /\
      fs' (make_idx_name base) =
        Some (contents fs (make_idx_name base) ++ line_of X (mkRec b (w_file_n w) (w_pos w))).
  Proof.
    intros base w fs lg b [Hh Hb Hi Ho Hbuf Hd].
    cbn zeta. unfold write_data at 1. rewrite Hd. unfold outcome. cbn [k_io taken].
    rewrite !firstn_all, Nat.eqb_refl. cbn [negb].
    unfold write_data. cbn [set_data w_data w_pos w_pend]. unfold outcome. cbn [k_io taken].
    rewrite !firstn_all, Nat.eqb_refl. cbn [negb].
    unfold flush_data. cbn [set_data w_data w_pos w_pend]. unfold put, outcome. cbn [k_io taken].
    rewrite !firstn_all. unfold happen. cbn [k_fs k_log k_io].
    unfold flush_index. cbn [set_index set_data w_idx w_ok w_buf]. rewrite Hi, Ho, Hbuf. cbn [app].
    unfold put, outcome. cbn [k_io taken].
    rewrite !firstn_all. unfold happen. cbn [k_fs k_log k_io].
    rewrite Nat.eqb_refl. do 3 eexists. split; [reflexivity|].
    cbn [set_index set_data w_file_n w_pos].
    split; [constructor; auto|]. split; [reflexivity|]. split; [unfold image; rewrite app_length; lia|].
    cbn [apply]. rewrite set_same. f_equal. f_equal. unfold contents. rewrite set_other by auto with names.
    reflexivity.
  Qed.
  Lemma bare_write : forall base w fs lg b,
    bare base w ->
    exists part off w' fs' lg',
      stream_write X cs b w (mkDisk fs [] lg) = (w', mkDisk fs' [] lg', true) /\
      bare base w' /\ (part <= w_file_n w + 1)%N /\ w_file_n w' = part /\ off <= w_pos w /\
      w_pos w' = off + length (image b) /\
      fs' (make_idx_name base) = Some (contents fs (make_idx_name base) ++ line_of X (mkRec b part off)).
  Proof.
    intros base w fs lg b H. unfold stream_write. rewrite (h_idx H), (h_head H). cbn [negb].
    destruct (andb (Z.ltb 0 (w_max w)) (Z.leb (w_max w) (Z.of_nat (w_pos w)))).
    - assert (O : exists w1 fs1 lg1,
        open_data_file false (set_file_n w (w_file_n w + 1)) (mkDisk fs [] lg) = (w1, mkDisk fs1 [] lg1, true) /\
        bare base w1 /\ w_file_n w1 = (w_file_n w + 1)%N /\ w_pos w1 = 0 /\
        fs1 (make_idx_name base) = fs (make_idx_name base)).
      { destruct H as [Hh Hb Hi Ho Hbuf Hd]. unfold open_data_file, close_data.
        cbn [set_file_n w_data w_pend w_base w_file_n]. rewrite Hd.
        unfold put, outcome. cbn [k_io taken]. rewrite firstn_all. unfold happen. cbn [k_fs k_log k_io].
        unfold open_file, outcome. cbn [k_io]. unfold happen. cbn [k_fs k_log k_io set_data set_file_n w_base w_file_n].
        rewrite Hb. do 3 eexists. split; [reflexivity|].
        split; [constructor; auto|]. split; [reflexivity|].
        split; [unfold contents; cbn [apply]; rewrite set_same; reflexivity|].
        cbn [apply]. now rewrite !set_other by auto with names. }
      destruct O as (w1 & fs1 & lg1 & E1 & B1 & N1 & P1 & I1). rewrite E1. cbn [negb].
      destruct (bare_tail fs1 lg1 b B1) as (w2 & fs2 & lg2 & E2 & B2 & N2 & P2 & I2).
      cbv zeta in E2 |- *. rewrite E2. exists (w_file_n w1), (w_pos w1), w2, fs2, lg2.
      split; [reflexivity|]. split; [exact B2|]. split; [lia|]. split; [exact N2|]. split; [lia|].
      split; [exact P2|]. rewrite I2. unfold contents. now rewrite I1.
    - cbn [negb].
      destruct (bare_tail fs lg b H) as (w2 & fs2 & lg2 & E2 & B2 & N2 & P2 & I2).
      cbv zeta in E2 |- *. rewrite E2. exists (w_file_n w), (w_pos w), w2, fs2, lg2.
      split; [reflexivity|]. split; [exact B2|]. split; [lia|]. auto.
  Qed.
  Lemma bare_write_all : forall sz base frames w fs lg t,
    bare base w -> Forall (fun b => length (image b) = sz) frames -> fs (make_idx_name base) = Some t ->
    exists recs w' fs' lg',
      write_all X cs frames w (mkDisk fs [] lg) = (w', mkDisk fs' [] lg', true) /\ bare base w' /\
      map (fun c => c_frame c) recs = frames /\
      Forall (bound (w_file_n w) (w_pos w) sz (length frames)) recs /\
      fs' (make_idx_name base) = Some (t ++ concat (map (line_of X) recs)).
  Proof.
    intros sz base frames. induction frames as [|b frames IH]; intros w fs lg t H Hl Ht.
    - exists [], w, fs, lg. cbn. rewrite app_nil_r. auto.
    - inversion Hl as [|? ? Lb Ll]; subst.
      destruct (bare_write fs lg b H) as (part & off & w1 & fs1 & lg1 & E1 & B1 & N1 & N1' & O1 & P1 & I1).
      unfold contents in I1. rewrite Ht in I1.
      destruct (IH w1 fs1 lg1 _ B1 Ll I1) as (recs & w2 & fs2 & lg2 & E2 & B2 & M2 & O2 & I2).
      exists (mkRec b part off :: recs), w2, fs2, lg2. cbn [write_all]. rewrite E1, E2.
      split; [reflexivity|]. split; [exact B2|]. split; [cbn; now rewrite M2|]. split.
      + constructor.
        * split; cbn [c_part c_off length]; lia.
        * eapply Forall_impl; [|exact O2]. intros c [A B]. rewrite N1', P1 in *. split; cbn [length]; lia.
      + rewrite I2. cbn [map concat]. now rewrite app_assoc.
  Qed.
  Lemma bare_session : forall sz base max frames w0 fs,
    w_data w0 = None -> w_idx w0 = None -> w_header w0 = true ->
    Forall (fun b => length (image b) = sz) frames ->
    exists recs w' d',
      record_on X cs w0 base max None frames fs = (w', d', true) /\
      map (fun c => c_frame c) recs = frames /\
      Forall (bound 0 0 sz (length frames)) recs /\
      k_fs d' (make_idx_name base) = Some (concat (map (line_of X) recs)).
  Proof.
    intros sz base max frames w0 fs Hd Hi Hh Hl. unfold record_on.
    destruct (open_opened base max w0 fs [] Hd Hi) as (w1 & E1 & O1 & X1 & H1). rewrite E1.
    assert (B : bare base w1).
    { destruct O1. constructor; auto; [congruence|]. rewrite o_n. assumption. }
    destruct (@bare_write_all sz base frames w1 _ ([] ++ [Create (make_dat_name base 0); Create (make_idx_name base)])
                [] B Hl (o_text O1)) as (recs & w2 & fs2 & lg2 & E2 & B2 & M2 & O2 & I2).
    rewrite E2. destruct (stream_close w2 (mkDisk fs2 [] lg2)) as [w3 d3] eqn:E3.
    exists recs, w3, d3. split; [reflexivity|]. split; [exact M2|].
    split; [rewrite (o_n O1), (o_pos O1) in O2; exact O2|].
    revert E3. unfold stream_close, close_data. cbn [w_data w_pend]. rewrite (h_data B2).
    unfold put, outcome. cbn [k_io taken]. rewrite firstn_all. unfold happen. cbn [k_fs k_io k_log].
    intros E3. inversion E3; subst. cbn [k_fs]. cbn [apply]. rewrite set_other by auto with names. exact I2.
  Qed.
End L.
