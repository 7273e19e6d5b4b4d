(** Reading a stream whose files change meanwhile: C97. *)
From Coq Require Import Ascii String Bool List NArith ZArith Arith Lia.
From Verif Require Import Arr ModelText ModelStream SpecStream SpecRead PropIndex.
Import ListNotations.
Set Implicit Arguments.

(** ** C97 *)

Section S.
  Context {T : Type} (X : TextOps T) (cs : nat).

  Definition sits (r : @reader T) (k : nat) (i : @item T) : Prop :=
    r_current r = Some k /\ nth_error (r_frames r) k = Some i /\ (0 <= it_pos i)%Z /\
    r_file r = Some (make_dat_name (r_base r) (it_file i), Z.to_nat (it_pos i)).
  Definition small (r : @reader T) : Prop := Forall (fun i => (it_file i < 2 ^ 64 - 1)%N) (r_frames r).

  Lemma seek_keeps fs k (r r' : @reader T) g : reader_seek fs k r = (r', g) ->
    r_frames r' = r_frames r /\ r_base r' = r_base r.
  Proof.
    unfold reader_seek. destruct (match k, r_current r with Some a, Some b => _ | _, _ => _ end).
    { intros E. injection E as <- _. auto. }
    destruct k as [k|]; [|intros E; injection E as <- _; auto].
    destruct (nth_error _ _) as [i|]; [|intros E; injection E as <- _; auto].
    match goal with |- context [match ?f with Some _ => _ | None => _ end] => destruct f as [[name p]|] end.
    - destruct (Z.ltb _ _); intros E; injection E as <- _; auto.
    - intros E; injection E as <- _; auto.
  Qed.

  Lemma seek_sits fs k (r r' : @reader T) : small r -> r_current r <> Some k -> reader_seek fs (Some k) r = (r', true) ->
    exists i, sits r' k i.
  Proof.
    intros Sm Hk E. destruct (seek_keeps _ _ _ E) as (A & B). unfold reader_seek in E.
    assert (D : match r_current r with Some b => Nat.eqb k b | None => false end = false).
    { destruct (r_current r) as [b|]; auto. apply Nat.eqb_neq. congruence. }
    rewrite D in E. destruct (nth_error (r_frames r) k) as [i|] eqn:En; [|discriminate].
    assert (Q : N.eqb r_file_n (it_file i) = false).
    { apply N.eqb_neq. assert (Z := proj1 (Forall_forall _ _) Sm i (nth_error_In _ _ En)). cbv beta in Z. unfold r_file_n. lia. }
    rewrite Q in E. cbn [negb orb] in E. destruct (fs (make_dat_name (r_base r) (it_file i))); [|discriminate].
    destruct (Z.ltb_spec (it_pos i) 0) as [Hp|Hp]; [discriminate|]. injection E as <-. exists i.
    repeat split; auto.
  Qed.

  Lemma load_sits fs base (r0 r : @reader T) : reader_load X cs fs base r0 = (r, true) -> exists i, sits r 0 i.
  Proof.
    intros H. destruct (fs (make_idx_name base)) as [idx|] eqn:Ei.
    2: { unfold reader_load in H. rewrite Ei in H. discriminate. }
    pose proof (load_index X cs fs base r0 Ei) as L. rewrite H in L.
    destruct (load_lines X (read_lines idx) (reader_close r0)) as [r1 good]. destruct good; [|discriminate].
    destruct (orb _ _); [discriminate|]. destruct (negb _); [discriminate|].
    destruct (r_frames r1) as [|i l] eqn:Ef; [discriminate|]. cbv zeta in L.
    destruct (fs (make_dat_name base (it_file i))) eqn:Ed; [|discriminate]. destruct (Z.ltb_spec (it_pos i) 0); [discriminate|].
    injection L as ->. exists i. repeat split; auto.
  Qed.

  Lemma placed_sits (r : @reader T) k : small r -> placed X cs r k -> exists i, sits r k i.
  Proof.
    intros Sm H. revert Sm. destruct H as [fs base r0 r' E|fs r0 r' j Hj E]; intros Sm; [eapply load_sits; eauto|].
    apply (fun H => @seek_sits fs j r0 r' H Hj E). unfold small in *. now rewrite (proj1 (seek_keeps _ _ _ E)) in Sm.
  Qed.

  Lemma take_slice (c : text) p n : n <> 0 -> length (firstn n (skipn p c)) = n ->
    exists before after, c = before ++ firstn n (skipn p c) ++ after /\ length before = p.
  Proof.
    intros Hn E. exists (firstn p c), (skipn n (skipn p c)). split.
    - now rewrite firstn_skipn, firstn_skipn.
    - rewrite firstn_length in *. rewrite skipn_length in E. lia.
  Qed.

  Lemma firstn_plus (l : text) n m : firstn (n + m) l = firstn n l ++ firstn m (skipn n l).
  Proof. revert l. induction n as [|n IH]; intros [|a l]; cbn; auto; [now rewrite firstn_nil|]. now rewrite IH. Qed.

  Lemma skipn_more (l : text) p n : skipn n (skipn p l) = skipn (p + n) l.
  Proof. revert l. induction p as [|p IH]; intros [|a l]; cbn; auto. apply skipn_nil. Qed.

  Lemma two_slices (c : text) p n : firstn n (skipn p c) ++ firstn n (skipn (p + n) c) = firstn (n + n) (skipn p c).
  Proof. now rewrite firstn_plus, skipn_more. Qed.

  Lemma seek_body fs k (r r' : @reader T) g : reader_seek fs k r = (r', g) -> r_body r' = r_body r.
  Proof.
    unfold reader_seek. destruct (match k, r_current r with Some a, Some b => _ | _, _ => _ end).
    { intros E. injection E as <- _. auto. }
    destruct k as [k|]; [|intros E; injection E as <- _; auto].
    destruct (nth_error _ _) as [i|]; [|intros E; injection E as <- _; auto].
    match goal with |- context [match ?f with Some _ => _ | None => _ end] => destruct f as [[name p]|] end.
    - destruct (Z.ltb _ _); intros E; injection E as <- _; auto.
    - intros E; injection E as <- _; auto.
  Qed.

  Lemma seek_stays fs k (r r' : @reader T) : reader_seek fs k r = (r', false) -> r_current r' = r_current r.
  Proof.
    unfold reader_seek. destruct (match k, r_current r with Some a, Some b => _ | _, _ => _ end).
    { intros E. injection E as <- _. auto. }
    destruct k as [k|]; [|intros E; injection E as <-; auto].
    destruct (nth_error _ _) as [i|]; [|intros E; injection E as <-; auto].
    match goal with |- context [match ?f with Some _ => _ | None => _ end] => destruct f as [[name p]|] end.
    - destruct (Z.ltb _ _); intros E; [injection E as <-; auto|discriminate].
    - intros E; injection E as <-; auto.
  Qed.

  (** one read *)
  Lemma read_one fs (b : @bdata T) (r : @reader T) k i : sits r k i -> small r -> cs <> 0 -> d_count b <> 0 ->
    N.of_nat (d_count b) = r_body r -> length (d_vert b) = 3 * cs * d_count b -> length (d_velo b) = 3 * cs * d_count b ->
    exists r' g ok, reader_read cs fs b r = Some (r', g, ok) /\ d_count g = d_count b /\
      r_frames r' = r_frames r /\ r_base r' = r_base r /\ r_body r' = r_body r /\
      (if ok then
        held fs (r_base r) i (d_vert g ++ d_velo g) /\ length (d_vert g) = 3 * cs * d_count b /\
        length (d_velo g) = 3 * cs * d_count b /\ d_step g = it_step i /\ d_time g = it_time i /\
        (moved r r' = true -> exists j, sits r' (k + 1) j)
      else d_step g = d_step b /\ d_time g = d_time b /\ d_mass g = d_mass b /\ d_color g = d_color b /\
        ~ exists bytes, length bytes = 6 * cs * d_count b /\ held fs (r_base r) i bytes).
  Proof.
    intros (Hc & Hn & Hp & Hf) Sm Hcs Hb Eb Lv Lw. unfold reader_read. rewrite Eb, N.eqb_refl. cbn [negb].
    assert (Sk : reader_seek fs (r_current r) r = (r, true)).
    { unfold reader_seek. rewrite Hc. now rewrite Nat.eqb_refl. }
    rewrite Sk. cbn [negb]. rewrite Hc. unfold rd. rewrite Hn, Hf. set (sz := 3 * cs * d_count b).
    set (name := make_dat_name (r_base r) (it_file i)) in *. set (p := Z.to_nat (it_pos i)) in *.
    assert (Hsz : sz <> 0) by (unfold sz; destruct cs, (d_count b); cbn; lia).
    assert (Full : forall bytes, length bytes = 6 * cs * d_count b -> held fs (r_base r) i bytes ->
      length (firstn sz (skipn p (contents fs name))) = sz /\ length (firstn sz (skipn (p + sz) (contents fs name))) = sz).
    { intros bytes Lb (be & af & E & L). fold name in E. unfold contents. rewrite E.
      rewrite !firstn_length, !skipn_length, !app_length. assert (length bytes = sz + sz) by (unfold sz; lia).
      assert (length be = p) by (unfold p; lia). lia. }
    unfold read_bytes at 1. set (v := firstn sz (skipn p (contents fs name))) in *.
    destruct (Nat.eqb_spec (length v) sz) as [Ev|Ev]; cbn [negb].
    2: { do 3 eexists. split; [reflexivity|]. cbn. repeat (split; [reflexivity|]). intros (bytes & Lb & H). now apply Ev, (Full bytes). }
    unfold read_bytes at 1. rewrite Ev. set (w := firstn sz (skipn (p + sz) (contents fs name))) in *.
    destruct (Nat.eqb_spec (length w) sz) as [Ew|Ew]; cbn [negb].
    2: { do 3 eexists. split; [reflexivity|]. cbn. repeat (split; [reflexivity|]). intros (bytes & Lb & H). now apply Ew, (Full bytes). }
    set (r1 := set_rfile (set_rfile r _ _) _ _). cbn [d_count d_step d_time d_box d_vert d_velo d_mass d_color].
    assert (Fr : r_frames r1 = r_frames r) by reflexivity. assert (Cu : r_current r1 = Some k) by exact eq_refl.
    destruct (if k <? length (r_frames r1) - 1 then reader_seek fs (Some (k + 1)) r1 else (r1, true)) as [r2 g2] eqn:E2.
    assert (K2 : r_frames r2 = r_frames r /\ r_base r2 = r_base r /\ r_body r2 = r_body r /\
      ((exists j, sits r2 (k + 1) j) \/ r_current r2 = Some k)).
    { destruct (k <? length (r_frames r1) - 1).
      2: { injection E2 as <- _. repeat split; auto. }
      destruct (seek_keeps _ _ _ E2) as (A & B). rewrite A, B. repeat (split; [reflexivity|]).
      split; [exact (seek_body _ _ _ E2)|].
      destruct g2.
      - left. apply (@seek_sits fs (k + 1) r1 r2); auto. rewrite Cu. intros Z. injection Z. lia.
      - right. rewrite (seek_stays _ _ _ E2). exact Cu. }
    destruct K2 as (A2 & B2 & C2 & D2).
    destruct (if r_colors r2 then _ else _) as [col gc]. cbn [r_masses r_frames r_base r_file r_current r_coord r_body r_box r_colors].
    destruct (if r_masses r2 then _ else _) as [mas gm].
    do 3 eexists. split; [reflexivity|]. cbn [d_count d_step d_time d_box d_vert d_velo d_mass d_color r_frames r_base r_body].
    split; [reflexivity|]. split; [exact A2|]. split; [exact B2|]. split; [exact C2|].
    fold sz in Lv, Lw. rewrite Ew, (skipn_all2 (d_vert b)), (skipn_all2 (d_velo b)), !app_nil_r by lia. split.
    { unfold v, w. rewrite two_slices. destruct (@take_slice (contents fs name) p (sz + sz)) as (be & af & E & L).
      - lia.
      - rewrite <- two_slices, app_length. fold v w. lia.
      - exists be, af. split; [|unfold p in L; lia]. fold name. unfold contents in *.
        destruct (fs name) as [c|]; [now rewrite <- E|]. exfalso. unfold v in Ev. rewrite skipn_nil, firstn_nil in Ev. cbn in Ev. lia. }
    repeat (split; [auto|]). unfold moved. cbn [r_current]. rewrite Hc. destruct D2 as [(j & J1 & J2 & J3 & J4)|D2].
    - intros _. exists j. repeat split; auto.
    - rewrite D2, Nat.eqb_refl. discriminate.
  Qed.
End S.

(** Whatever happens to the files between the calls: after a reader was placed on frame [k] by loading the stream or by seeking there
    from another frame, reads that follow each other deliver the frames [k], [k + 1], ..., each with the step and the time the index
    gives and the bytes that are at that moment where the index says. *)
Theorem C97_live : forall (T : Type) (X : TextOps T) cs r k (l : list files) b j g,
  placed X cs r k -> Forall (fun i => (it_file i < 2 ^ 64 - 1)%N) (r_frames r) ->
  whole cs b -> cs <> 0 -> d_count b <> 0 -> N.of_nat (d_count b) = r_body r ->
  nth_error (read_live cs l b r) j = Some g ->
  exists fs i, nth_error l j = Some fs /\ nth_error (r_frames r) (k + j) = Some i /\
    held fs (r_base r) i (d_vert g ++ d_velo g) /\ length (d_vert g) = 3 * cs * d_count b /\
    length (d_velo g) = 3 * cs * d_count b /\ d_step g = it_step i /\ d_time g = it_time i.
Proof.
  intros T X cs r k l b j g P Sm (L1 & L2 & _) Hcs Hb Eb. destruct (placed_sits Sm P) as (i & Hi). clear P X.
  revert r k b i j Hi Sm L1 L2 Hb Eb. induction l as [|fs l IH]; intros r k b i j Hi Sm L1 L2 Hb Eb H; [destruct j; discriminate|].
  cbn [read_live] in H. destruct (@read_one T cs fs b r k i Hi Sm Hcs Hb Eb L1 L2) as (r' & g' & ok & E & E1 & E2 & E3 & E4 & E5). rewrite E in H.
  destruct ok; [|destruct j; discriminate]. destruct E5 as (F1 & F2 & F3 & F4 & F5 & F6).
  destruct j as [|j]; cbn in H.
  - injection H as <-. exists fs, i. rewrite Nat.add_0_r. destruct Hi as (_ & Hi & _). repeat split; auto.
  - destruct (moved r r') eqn:Em; [|destruct j; discriminate]. destruct (F6 eq_refl) as (i' & Hi').
    replace (k + S j) with (k + 1 + j) by lia. rewrite <- E1, <- E2, <- E3. cbn [nth_error].
    apply (IH r' (k + 1) g' i' j Hi'); rewrite ?E1, ?E2, ?E4; auto.
Qed.
Print Assumptions C97_live.

(** The first of these reads succeeds exactly when the data file holds the whole frame; when it fails the step, the time, the masses and
    the colours of the destination are what they were. *)
Theorem C97_when : forall (T : Type) (X : TextOps T) cs r k fs b i,
  placed X cs r k -> Forall (fun i => (it_file i < 2 ^ 64 - 1)%N) (r_frames r) -> nth_error (r_frames r) k = Some i ->
  whole cs b -> cs <> 0 -> d_count b <> 0 -> N.of_nat (d_count b) = r_body r ->
  exists r' g ok, reader_read cs fs b r = Some (r', g, ok) /\
    (ok = true <-> exists bytes, length bytes = 6 * cs * d_count b /\ held fs (r_base r) i bytes) /\
    (ok = false -> d_step g = d_step b /\ d_time g = d_time b /\ d_mass g = d_mass b /\ d_color g = d_color b).
Proof.
  intros T X cs r k fs b i P Sm Hi (L1 & L2 & _) Hcs Hb Eb. destruct (placed_sits Sm P) as (i' & Si).
  assert (i' = i) by (destruct Si as (_ & Si & _); congruence). subst i'.
  destruct (@read_one T cs fs b r k i Si Sm Hcs Hb Eb L1 L2) as (r' & g' & ok & E & _ & _ & _ & _ & F). exists r', g', ok. split; [exact E|].
  destruct ok.
  - destruct F as (F1 & F2 & F3 & _). split; [|discriminate]. split; [|reflexivity]. intros _. exists (d_vert g' ++ d_velo g').
    split; [rewrite app_length; lia|exact F1].
  - destruct F as (F1 & F2 & F3 & F4 & F5). split; [|auto]. split; [discriminate|]. intros H. contradiction.
Qed.
Print Assumptions C97_when.

Definition Nt : TextOps N := mkTextOps show_N show_N to_ulonglong.
Definition live (dat : string) (mass : option string) : files := fun n =>
  if text_dec n (chars "s.idx") then Some (two_lines "#") else if text_dec n (chars "s0.dat") then Some (chars dat)
  else if text_dec n (chars "s.mass") then option_map chars mass else None.
Definition dst : @bdata N := mkBdata 2 9 9%N 0 (chars "......") (chars "......") (chars "..") (chars "................................").
Lemma not_held (fs : files) base (i : @item N) bytes c : fs (make_dat_name base (it_file i)) = Some (chars c) ->
  firstn (length bytes) (skipn (Z.to_nat (it_pos i)) (chars c)) <> bytes -> ~ held fs base i bytes.
Proof.
  intros H1 H2 (be & af & E & L). apply H2. rewrite H1 in E. injection E as ->. rewrite <- L, Nat2Z.id.
  rewrite skipn_app, Nat.sub_diag, (skipn_all2 be) by lia. cbn [app skipn]. rewrite firstn_app, Nat.sub_diag, firstn_all. cbn. apply app_nil_r.
Qed.
Lemma live_grows a b m : (exists c, chars b = chars a ++ c) -> grows (live a m) (live b m).
Proof.
  intros (c & E) name d H. unfold live in *. destruct (text_dec name (chars "s.idx")); [exists []; now rewrite app_nil_r|].
  destruct (text_dec name (chars "s0.dat")); [injection H as <-; exists c; now rewrite E|]. exists []. now rewrite app_nil_r.
Qed.
(** A read whose data file is too short, repeated when the recorder has written more, reports success and delivers bytes that are not
    those of the frame. *)
Theorem C97_retry_refuted : exists fs fs' r0 r1 b1 r2 b2 r3 b3 i, grows fs fs' /\
  reader_load Nt 1 fs (chars "s") new_reader = (r0, true) /\
  reader_read 1 fs dst r0 = Some (r1, b1, true) /\ reader_read 1 fs b1 r1 = Some (r2, b2, false) /\ r_current r2 = Some 1 /\
  reader_read 1 fs' b2 r2 = Some (r3, b3, true) /\ nth_error (r_frames r0) 1 = Some i /\
  d_step b3 = it_step i /\ ~ held fs' (chars "s") i (d_vert b3 ++ d_velo b3).
Proof.
  exists (live "abcdefghijklmnopqr" (Some "MN"%string)), (live "abcdefghijklmnopqrstuvwxyz0123456789" (Some "MN"%string)). do 8 eexists.
  split; [apply live_grows; exists (chars "stuvwxyz0123456789"); reflexivity|].
  split; [vm_compute; reflexivity|]. split; [vm_compute; reflexivity|]. split; [vm_compute; reflexivity|]. split; [reflexivity|].
  split; [vm_compute; reflexivity|]. split; [reflexivity|]. split; [reflexivity|].
  apply not_held with (c := "abcdefghijklmnopqrstuvwxyz0123456789"%string); vm_compute; [reflexivity|discriminate].
Qed.
Print Assumptions C97_retry_refuted.

(** Reading the last frame again when the recorder has written the next one reports success and delivers the next frame with the step of
    the last one. *)
Theorem C97_again_refuted : exists fs fs' r0 r1 b1 r2 b2 r3 b3 i, grows fs fs' /\
  reader_load Nt 1 fs (chars "s") new_reader = (r0, true) /\
  reader_read 1 fs dst r0 = Some (r1, b1, true) /\ reader_read 1 fs b1 r1 = Some (r2, b2, true) /\
  reader_read 1 fs' b2 r2 = Some (r3, b3, true) /\ nth_error (r_frames r0) 1 = Some i /\ r_current r2 = Some 1 /\
  d_step b3 = it_step i /\ ~ held fs' (chars "s") i (d_vert b3 ++ d_velo b3).
Proof.
  exists (live "abcdefghijklmnopqrstuvwx" (Some "MN"%string)), (live "abcdefghijklmnopqrstuvwxyz0123456789" (Some "MN"%string)). do 8 eexists.
  split; [apply live_grows; exists (chars "yz0123456789"); reflexivity|].
  split; [vm_compute; reflexivity|]. split; [vm_compute; reflexivity|]. split; [vm_compute; reflexivity|].
  split; [vm_compute; reflexivity|]. split; [reflexivity|]. split; [reflexivity|]. split; [reflexivity|].
  apply not_held with (c := "abcdefghijklmnopqrstuvwxyz0123456789"%string); vm_compute; [reflexivity|discriminate].
Qed.
Print Assumptions C97_again_refuted.

(** A read reports success although there are no masses to be read. *)
Theorem C97_masses_refuted : exists fs r0 r1 b1, reader_load Nt 1 fs (chars "s") new_reader = (r0, true) /\
  reader_read 1 fs dst r0 = Some (r1, b1, true) /\ fs (make_mass_name (chars "s")) = None /\ d_mass b1 = d_mass dst.
Proof.
  exists (live "abcdefghijklmnopqrstuvwx" None). do 3 eexists. split; [vm_compute; reflexivity|]. split; [vm_compute; reflexivity|].
  split; reflexivity.
Qed.
Print Assumptions C97_masses_refuted.

(** A reader placed by loading reads both frames of a file that grows between the reads. *)
Example C97_case : exists r l g0 g1, placed Nt 1 r 0 /\ Forall (fun i => (it_file i < 2 ^ 64 - 1)%N) (r_frames r) /\ whole 1 dst /\
  N.of_nat (d_count dst) = r_body r /\ read_live 1 l dst r = [g0; g1] /\ d_vert g1 = chars "mnopqr" /\ d_time g1 = 3%N.
Proof.
  do 2 eexists. exists (mkBdata 2 0 0%N 0 (chars "abcdef") (chars "ghijkl") (chars "MN") (d_color dst)).
  exists (mkBdata 2 1 3%N 0 (chars "mnopqr") (chars "stuvwx") (chars "MN") (d_color dst)).
  split; [apply (@placed_load N Nt 1 (live "abcdefghijkl" (Some "MN"%string)) (chars "s") new_reader); vm_compute; reflexivity|].
  split; [repeat constructor; reflexivity|]. split; [repeat split; reflexivity|]. split; [reflexivity|].
  split; [instantiate (1 := [live "abcdefghijkl" (Some "MN"%string); live "abcdefghijklmnopqrstuvwx" (Some "MN"%string)]); vm_compute; reflexivity|].
  split; reflexivity.
Qed.

(** Reading after the reader was closed, into the same destination, uses frame number SIZE_MAX of an empty list: undefined behaviour. *)
Theorem C97_closed_refuted : exists fs r r1 b1, reader_load Nt 1 fs (chars "s") new_reader = (r, true) /\
  reader_read 1 fs dst r = Some (r1, b1, true) /\ reader_read 1 fs b1 (reader_close r1) = None.
Proof.
  exists (live "abcdefghijklmnopqrstuvwx" None). do 3 eexists. split; [vm_compute; reflexivity|]. split; [vm_compute; reflexivity|].
  vm_compute. reflexivity.
Qed.
Print Assumptions C97_closed_refuted.
