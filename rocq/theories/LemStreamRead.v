(** Loading and reading a stream that is on disk. *)
From Coq Require Import Ascii String List NArith ZArith Arith Lia Bool.
From Verif Require Import Arr ModelText ModelStream SpecStream LemText.
Import ListNotations.
Set Implicit Arguments.

Lemma digit_end : forall n (a m : text), a ++ show_N n <> m ++ [return_].
Proof.
  intros n a m H. pose proof (show_nonempty n) as E. pose proof (show_digits n) as D.
  destruct (show_N n) as [|x l _] using rev_ind; [contradiction|].
  rewrite app_assoc in H. apply app_inj_tail in H. destruct H as [_ ->].
  apply Forall_app in D. destruct D as [_ D]. inversion D as [|? ? K ?]; subst.
  apply K. reflexivity.
Qed.
Lemma not_in_app : forall (c : ascii) a b, ~ In c a -> ~ In c b -> ~ In c (a ++ b).
Proof. intros c a b A B H. apply in_app_or in H. tauto. Qed.
Lemma not_in_one : forall c d : ascii, d <> c -> ~ In c [d].
Proof. intros c d H [K|K]; [congruence|contradiction]. Qed.

Section L.
  Context {T : Type} (X : TextOps T) (cs : nat).
  Notation bdata := (@bdata T).
  Notation rec := (@rec T).
  Notation reader := (@reader T).

  Definition header_body (name : string) (n : N) : text := chars name ++ [space] ++ show_N n.
  Definition line_body (c : rec) : text :=
    show_N (d_step (c_frame c)) ++ [tab] ++ t_show X (d_time (c_frame c)) ++ [tab] ++ show_N (c_part c) ++ [tab] ++
    show_N (N.of_nat (c_off c)).
  Definition bodies (first : bdata) (recs : list rec) : list text :=
    [header_body "#coord_size" (N.of_nat cs); header_body "#body_count" (N.of_nat (d_count first));
     header_body "#box_size" (d_box first)] ++ map line_body recs.

  Lemma lines_app : forall a b, lines_text (a ++ b) = lines_text a ++ lines_text b.
  Proof. intros. unfold lines_text. now rewrite map_app, concat_app. Qed.
  Lemma index_lines : forall first recs, index_text X cs first recs = lines_text (bodies first recs).
  Proof.
    intros. unfold index_text, bodies. rewrite lines_app. f_equal.
    - unfold header_text, header_line, lines_text, header_body. cbn [map concat].
      rewrite <- ?app_assoc. reflexivity.
    - unfold lines_text. f_equal. rewrite map_map. apply map_ext. intros c.
      unfold line_of, index_line, line_body. now rewrite <- !app_assoc.
  Qed.

  Lemma header_plain : forall name n, ~ In newline (chars name) -> plain (header_body name n).
  Proof.
    intros name n H. split.
    - unfold header_body. repeat apply not_in_app; auto; [now apply not_in_one|].
      apply show_free. reflexivity.
    - intros m. unfold header_body. rewrite app_assoc. apply digit_end.
  Qed.
  Lemma line_plain : forall c, printable X (d_time (c_frame c)) -> plain (line_body c).
  Proof.
    intros c (A & B & C). split.
    - unfold line_body. repeat apply not_in_app; auto; try (apply not_in_one; discriminate);
        apply show_free; reflexivity.
    - intros m. unfold line_body. rewrite !app_assoc. apply digit_end.
  Qed.
  Lemma bodies_plain : forall first recs,
    Forall (fun c => printable X (d_time (c_frame c))) recs -> Forall plain (bodies first recs).
  Proof.
    intros first recs H. unfold bodies. cbn [app].
    repeat (constructor; [apply header_plain; cbn; intuition discriminate|]).
    rewrite Forall_forall in *. intros l K. apply in_map_iff in K. destruct K as (c & <- & I).
    apply line_plain, H, I.
  Qed.

  Lemma header_split : forall name n, ~ In space (chars name) ->
    split space (header_body name n) = [chars name; show_N n].
  Proof.
    intros name n H. unfold header_body. cbn [app]. rewrite split_cons by exact H.
    rewrite split_free; [reflexivity|]. apply show_free. reflexivity.
  Qed.

  Definition item_ok (c : rec) (i : @item T) : Prop :=
    it_step i = d_step (c_frame c) /\ t_read X (t_show X (d_time (c_frame c))) = Some (it_time i) /\
    it_file i = c_part c /\ it_pos i = Z.of_nat (c_off c).
  Lemma parse_line : forall n c, rec_ok X cs n c -> exists i, parse_item X (line_body c) = Some i /\ item_ok c i.
  Proof.
    intros n c ((W & _ & Hs & (A & B & t & Ht)) & Hp & Ho). unfold parse_item, line_body. cbn [app].
    rewrite split_cons by (apply show_free; reflexivity).
    rewrite split_cons by exact A.
    rewrite split_cons by (apply show_free; reflexivity).
    rewrite split_free by (apply show_free; reflexivity).
    rewrite to_ulonglong_show by exact Hs. rewrite Ht. rewrite to_ulonglong_show by lia.
    rewrite to_longlong_show by exact Ho. eexists. split; [reflexivity|].
    split; [reflexivity|]. split; [exact Ht|]. split; [reflexivity|]. cbn. apply nat_N_Z.
  Qed.

  Lemma line_start : forall c, starts_with "#"%char (line_body c) = false.
  Proof.
    intros c. unfold line_body. pose proof (show_nonempty (d_step (c_frame c))) as E.
    pose proof (show_digits (d_step (c_frame c))) as D. destruct (show_N (d_step (c_frame c))) as [|a l]; [contradiction|].
    cbn [app starts_with]. inversion D; subst. destruct (Ascii.eqb_spec a "#"%char); [|reflexivity].
    subst. exfalso. match goal with H : is_digit _ |- _ => apply H; reflexivity end.
  Qed.

  Lemma load_items : forall n recs, Forall (rec_ok X cs n) recs -> forall r : reader,
    exists items, Forall2 item_ok recs items /\
      load_lines X (map line_body recs) r =
        (mkReader (r_frames r ++ items) (r_base r) (r_file r) (r_current r) (r_coord r) (r_body r) (r_box r)
           (r_colors r) (r_masses r), true).
  Proof.
    induction 1 as [|c recs H Hs IH]; intros r.
    - exists []. split; [constructor|]. cbn. rewrite app_nil_r. now destruct r.
    - destruct (parse_line H) as (i & Ei & Oi). cbn [map load_lines]. rewrite line_start, Ei.
      destruct (IH (mkReader (r_frames r ++ [i]) (r_base r) (r_file r) (r_current r) (r_coord r)
                      (r_body r) (r_box r) (r_colors r) (r_masses r))) as (items & F & E).
      rewrite E. exists (i :: items). split; [constructor; assumption|]. cbn. now rewrite <- app_assoc.
  Qed.

  Lemma load_header : forall n first lines (r : reader), header_ok cs n first ->
    load_lines X (bodies first [] ++ lines) r =
      load_lines X lines (mkReader (r_frames r) (r_base r) (r_file r) (r_current r) (N.of_nat cs)
                            (N.of_nat n) (d_box first) (r_colors r) (r_masses r)).
  Proof.
    intros n first lines r (_ & Hc & Hn & Hcs & Hb). unfold bodies. cbn [map app]. rewrite Hc.
        change (load_lines X lines
      (parse_header_line (header_body "#box_size" (d_box first))
        (parse_header_line (header_body "#body_count" (N.of_nat n))
          (parse_header_line (header_body "#coord_size" (N.of_nat cs)) r))) =
      load_lines X lines (mkReader (r_frames r) (r_base r) (r_file r) (r_current r) (N.of_nat cs)
                            (N.of_nat n) (d_box first) (r_colors r) (r_masses r))).
    f_equal. unfold parse_header_line. rewrite !header_split by (cbn; intuition discriminate).
    rewrite !to_ulonglong_show by lia.
    repeat match goal with |- context [text_dec ?a ?b] =>
      destruct (text_dec a b) as [K|K]; [try discriminate K; clear K|try (exfalso; apply K; reflexivity); clear K] end.
    reflexivity.
  Qed.

  (** ** A loaded reader *)
  Section Stream.
    Context (fs : files) (base : text) (n : nat) (first : bdata) (recs : list rec).
    Context (Hd : on_disk X cs fs base first recs) (Hf : header_ok cs n first)
            (Hr : Forall (rec_ok X cs n) recs).

    (** everything about a loaded reader but its position *)
    Record loaded (r : reader) : Prop := {
      l_items : Forall2 item_ok recs (r_frames r);
      l_base : r_base r = base;
      l_body : r_body r = N.of_nat n;
      l_box : r_box r = d_box first;
      l_coord : r_coord r = N.of_nat cs }.
    (** positioned at the start of frame [k] *)
    Definition at_frame (r : reader) (k : nat) : Prop :=
      exists c, nth_error recs k = Some c /\ r_current r = Some k /\
                r_file r = Some (make_dat_name base (c_part c), c_off c).
    (** after the last frame *)
    Definition past_end (r : reader) : Prop :=
      exists c, nth_error recs (length recs - 1) = Some c /\ r_current r = Some (length recs - 1) /\
                r_file r = Some (make_dat_name base (c_part c), c_off c + 6 * cs * n).

    Lemma items_nth : forall r k c, loaded r -> nth_error recs k = Some c ->
      exists i, nth_error (r_frames r) k = Some i /\ item_ok c i.
    Proof.
      intros r k c L H. pose proof (l_items L) as F. clear L Hd Hr. revert k H.
      induction F as [|a i l li A F IH]; intros [|k] H; try discriminate H.
      - inversion H; subst. exists i. split; [reflexivity|exact A].
      - apply (IH k H).
    Qed.
    Lemma items_length : forall r, loaded r -> length (r_frames r) = length recs.
    Proof.
      intros r L. pose proof (l_items L) as F. clear L Hd Hr. induction F; cbn; congruence.
    Qed.
    Lemma rec_stored : forall k c, nth_error recs k = Some c -> stored fs base c /\ rec_ok X cs n c.
    Proof.
      intros k c H. apply nth_error_In in H. split.
      - pose proof (od_stored Hd) as S. rewrite Forall_forall in S. auto.
      - rewrite Forall_forall in Hr. auto.
    Qed.

    Lemma loaded_file : forall r f cur, loaded r -> loaded (set_rfile r f cur).
    Proof. intros r f cur [A B C D E]. constructor; assumption. Qed.

    Lemma seek_to : forall r k c, loaded r -> nth_error recs k = Some c -> r_current r <> Some k ->
      exists r', reader_seek fs (Some k) r = (r', true) /\ loaded r' /\ at_frame r' k /\
        r_colors r' = r_colors r /\ r_masses r' = r_masses r.
    Proof.
      intros r k c L H N. destruct (items_nth k L H) as (i & Ei & _ & _ & Hfi & Hpo).
      destruct (rec_stored _ H) as ((u & v & Es & Ls) & (_ & Hp & _)). unfold reader_seek.
      assert (S : match r_current r with Some b => Nat.eqb k b | None => false end = false).
      { destruct (r_current r) as [b|]; [|reflexivity]. apply Nat.eqb_neq. congruence. }
      rewrite S. rewrite Ei. rewrite Hfi.
      assert (P : N.eqb r_file_n (c_part c) = false).
      { apply N.eqb_neq. unfold r_file_n. lia. }
      rewrite P. cbn [negb orb]. rewrite (l_base L). rewrite Es. rewrite Hpo.
      assert (Z.ltb (Z.of_nat (c_off c)) 0 = false) as -> by (apply Z.ltb_ge; lia).
      rewrite Nat2Z.id. eexists. split; [reflexivity|]. split; [apply loaded_file, L|].
      split; [|split; reflexivity]. exists c. auto.
    Qed.
    Lemma seek_stay : forall (r : reader) k, r_current r = Some k -> reader_seek fs (Some k) r = (r, true).
    Proof. intros r k H. unfold reader_seek. rewrite H. now rewrite Nat.eqb_refl. Qed.
    Lemma seek_far : forall r k, loaded r -> length recs <= k -> r_current r <> Some k ->
      reader_seek fs (Some k) r = (r, false).
    Proof.
      intros r k L H N. unfold reader_seek.
      assert (S : match r_current r with Some b => Nat.eqb k b | None => false end = false).
      { destruct (r_current r) as [b|]; [|reflexivity]. apply Nat.eqb_neq. congruence. }
      rewrite S. assert (E : nth_error (r_frames r) k = None).
      { apply nth_error_None. rewrite (items_length L). exact H. }
      now rewrite E.
    Qed.

    Lemma load_ok : forall r0, recs <> [] ->
      exists r, reader_load X cs fs base r0 = (r, true) /\ loaded r /\ at_frame r 0 /\
        r_colors r = r_colors r0 /\ r_masses r = r_masses r0.
    Proof.
      intros r0 Hne. unfold reader_load. rewrite (od_idx Hd). rewrite index_lines.
      rewrite read_lines_text.
      2:{ apply bodies_plain. eapply Forall_impl; [|exact Hr]. intros c ((_ & _ & _ & P) & _). exact P. }
      change (bodies first recs) with (bodies first [] ++ map line_body recs).
      rewrite (load_header _ _ Hf).
      destruct (load_items Hr (mkReader (r_frames (reader_close r0)) (r_base (reader_close r0))
        (r_file (reader_close r0)) (r_current (reader_close r0)) (N.of_nat cs) (N.of_nat n) (d_box first)
        (r_colors (reader_close r0)) (r_masses (reader_close r0)))) as (items & F & E).
      rewrite E. cbn [negb]. cbn [r_body r_coord r_box].
      destruct Hf as (_ & _ & Hn & Hcs & Hb).
      assert ((N.of_nat n =? 0)%N = false) as -> by (apply N.eqb_neq; lia).
      assert ((N.of_nat cs =? 0)%N = false) as -> by (apply N.eqb_neq; lia).
      assert ((d_box first =? 0)%N = false) as -> by (apply N.eqb_neq; lia).
      rewrite N.eqb_refl. cbn [orb negb].
      assert (Er : exists c, nth_error recs 0 = Some c).
      { destruct (nth_error recs 0) as [c|] eqn:Er; [exists c; reflexivity|].
        apply nth_error_None in Er. destruct recs; [contradiction|cbn in Er; lia]. }
      destruct Er as (c & Er).
      match goal with |- context [reader_seek fs (Some 0) ?x] => destruct (@seek_to x 0 c) as (r & Es & L & A & C & M) end.
      - constructor; cbn; reflexivity || exact F.
      - exact Er.
      - cbn. discriminate.
      - rewrite Es. exists r. auto.
    Qed.

    Lemma read_mid : forall name u (a v buffer : text) pos k,
      fs name = Some (u ++ a ++ v) -> length u = pos -> length a = k -> length buffer = k ->
      read_bytes fs name pos k buffer = (a, pos + k, true).
    Proof.
      intros name u a v buffer pos k E <- <- Lb. unfold read_bytes, contents. rewrite E.
      rewrite skipn_app, skipn_all2 by lia. rewrite Nat.sub_diag. cbn [app skipn].
      rewrite firstn_app, Nat.sub_diag, firstn_all. cbn [firstn]. rewrite app_nil_r.
      rewrite skipn_all2 by lia. rewrite app_nil_r, Nat.eqb_refl. reflexivity.
    Qed.

    Lemma read_at : forall r k dst, loaded r -> at_frame r k -> whole cs dst -> d_count dst = n ->
      exists r' got c, reader_read cs fs dst r = Some (r', got, true) /\
        nth_error recs k = Some c /\ same_frame X (c_frame c) got /\
        loaded r' /\ (if Nat.ltb (k + 1) (length recs) then at_frame r' (k + 1) else past_end r') /\
        whole cs got /\ d_count got = n /\ d_box got = d_box dst /\
        d_mass got = (if r_masses r then d_mass dst else d_mass first) /\
        d_color got = (if r_colors r then d_color dst else d_color first) /\
        r_masses r' = true /\ r_colors r' = true.
    Proof.
      intros r k dst L (c & Ek & Cur & Fl) (W1 & W2 & W3 & W4) Hn.
      destruct (rec_stored k Ek) as ((u & v & Es & Lu) & ((V1 & V2 & V3 & V4) & Cn & St & Pr) & Pb & Ob).
      destruct (items_nth k L Ek) as (i & Ei & I1 & I2 & I3 & I4).
      unfold reader_read. rewrite Hn, (l_body L), N.eqb_refl. cbn [negb].
      rewrite Cur. rewrite (seek_stay r Cur). cbn [negb]. rewrite Cur.
      unfold rd. rewrite Ei. cbn [obind]. rewrite Fl.
      rewrite Hn in *. rewrite Cn in *. unfold image in Es. rewrite <- app_assoc in Es.
      rewrite (@read_mid _ u (d_vert (c_frame c)) (d_velo (c_frame c) ++ v) (d_vert dst) (c_off c) (3 * cs * n)) by auto.
      cbn [negb]. cbn [d_velo].
      rewrite (@read_mid _ (u ++ d_vert (c_frame c)) (d_velo (c_frame c)) v (d_velo dst)
                (c_off c + 3 * cs * n) (3 * cs * n));
        [|rewrite Es, <- app_assoc; reflexivity|rewrite app_length; lia|auto|auto].
      cbn [negb]. cbn [set_rfile r_current r_frames r_colors r_masses r_base d_count d_mass d_color].
      rewrite (items_length L).
      set (r1 := mkReader (r_frames r) (r_base r)
                   (Some (make_dat_name base (c_part c), c_off c + 3 * cs * n + 3 * cs * n)) (Some k)
                   (r_coord r) (r_body r) (r_box r) (r_colors r) (r_masses r)).
      change (set_rfile (set_rfile r (Some (make_dat_name base (c_part c), c_off c + 3 * cs * n)) (Some k))
               (Some (make_dat_name base (c_part c), c_off c + 3 * cs * n + 3 * cs * n)) (Some k)) with r1.
      assert (L1 : loaded r1) by (destruct L; constructor; assumption).
      set (mv := if Nat.ltb k (length recs - 1) then reader_seek fs (Some (k + 1)) r1 else (r1, true)).
      assert (Mv : exists r2, fst mv = r2 /\ loaded r2 /\
        (if Nat.ltb (k + 1) (length recs) then at_frame r2 (k + 1) else past_end r2) /\
        r_colors r2 = r_colors r /\ r_masses r2 = r_masses r).
      { unfold mv. assert (Kl : k < length recs) by (apply nth_error_Some; congruence).
        destruct (Nat.ltb_spec k (length recs - 1)) as [K|K];
          destruct (Nat.ltb_spec (k + 1) (length recs)) as [K'|K']; try lia.
        - destruct (nth_error recs (k + 1)) as [c'|] eqn:E'; [|apply nth_error_None in E'; lia].
          destruct (@seek_to r1 (k + 1) c' L1 E') as (r2 & S2 & L2 & A2 & C2 & M2).
          { unfold r1. cbn [r_current]. intros Q. inversion Q. lia. }
          rewrite S2. exists r2. auto.
        - exists r1. split; [reflexivity|]. split; [exact L1|]. split; [|split; reflexivity].
          assert (k = length recs - 1) as -> by lia.
          exists c. split; [exact Ek|]. split; [reflexivity|]. unfold r1. cbn [r_file]. do 2 f_equal. lia. }
      destruct Mv as (r2 & E2 & L2 & P2 & C2 & M2).
      fold mv. destruct mv as [r2' g2]. cbn [fst] in E2. subst r2'. rewrite C2, (l_base L2).
      assert (Col : forall buffer, length buffer = 16 * n ->
                read_array fs (make_col_name base) (16 * n) buffer = (d_color first, true)).
      { intros buffer B. unfold read_array. rewrite (od_col Hd).
        rewrite (@read_mid _ [] (d_color first) [] buffer 0 (16 * n)); auto.
        - cbn [app]. rewrite app_nil_r. exact (od_col Hd).
        - destruct Hf as ((_ & _ & _ & Q) & Qn & _). now rewrite Qn in Q. }
      assert (Mas : forall buffer, length buffer = cs * n ->
                read_array fs (make_mass_name base) (cs * n) buffer = (d_mass first, true)).
      { intros buffer B. unfold read_array. rewrite (od_mass Hd).
        rewrite (@read_mid _ [] (d_mass first) [] buffer 0 (cs * n)); auto.
        - cbn [app]. rewrite app_nil_r. exact (od_mass Hd).
        - destruct Hf as ((_ & _ & Q & _) & Qn & _). now rewrite Qn in Q. }
      rewrite (Col (d_color dst)) by exact W4.
      assert (Qc : exists gc, (if r_colors r then (d_color dst, true) else (d_color first, true)) =
                (if r_colors r then d_color dst else d_color first, gc) /\ orb (r_colors r) gc = true).
      { exists true. destruct (r_colors r); auto. }
      destruct Qc as (gc & -> & Gc). cbn [r_masses r_base r_frames r_file r_current r_coord r_body r_box r_colors].
      rewrite M2. rewrite (Mas (d_mass dst)) by exact W3.
      assert (Qm : exists gm, (if r_masses r then (d_mass dst, true) else (d_mass first, true)) =
                (if r_masses r then d_mass dst else d_mass first, gm) /\ orb (r_masses r) gm = true).
      { exists true. destruct (r_masses r); auto. }
      destruct Qm as (gm & -> & Gm).
      eexists _, _, c. split; [reflexivity|]. split; [exact Ek|].
      split. { unfold same_frame. cbn. rewrite Cn. auto. }
      split. { destruct L2. constructor; cbn; reflexivity || assumption. }
      split. { destruct (Nat.ltb (k + 1) (length recs)).
               - destruct P2 as (c' & A1 & A2 & A3). exists c'. auto.
               - destruct P2 as (c' & A1 & A2 & A3). exists c'. auto. }
      destruct Hf as ((_ & _ & F1 & F2) & Fn & _). rewrite Fn in *.
      split. { unfold whole. cbn [d_vert d_velo d_mass d_color d_count].
               split; [exact V1|]. split; [exact V2|]. destruct (r_masses r), (r_colors r); auto. }
      repeat (split; [reflexivity || assumption|]). assumption.
    Qed.

    Lemma read_past : forall r c dst, loaded r -> past_end r -> d_count dst = n -> 0 < cs * n ->
      nth_error recs (length recs - 1) = Some c -> ends_there fs base c ->
      exists r', reader_read cs fs dst r = Some (r', dst, false) /\ loaded r' /\ past_end r' /\
        r_masses r' = r_masses r /\ r_colors r' = r_colors r.
    Proof.
      intros r c dst L (c' & Ek & Cur & Fl) Hn Hpos Ec End. rewrite Ec in Ek. inversion Ek; subst c'. clear Ek.
      destruct (rec_stored _ Ec) as (_ & ((V1 & V2 & _) & Cn & _) & _). rewrite Cn in *.
      destruct (items_nth _ L Ec) as (i & Ei & _).
      unfold reader_read. rewrite Hn, (l_body L), N.eqb_refl. cbn [negb].
      rewrite Cur. rewrite (seek_stay r Cur). cbn [negb]. rewrite Cur.
      unfold rd. rewrite Ei. cbn [obind]. rewrite Fl.
      unfold ends_there, image in End. rewrite app_length in End.
      unfold read_bytes at 1. rewrite skipn_all2 by lia. rewrite firstn_nil. cbn [length app skipn].
      assert (Nat.eqb 0 (3 * cs * n) = false) as -> by (apply Nat.eqb_neq; lia).
      cbn [negb]. eexists. split; [destruct dst; cbn in *; subst; reflexivity|].
      split; [apply loaded_file, L|]. split; [|split; reflexivity].
      exists c. split; [exact Ec|]. split; [reflexivity|]. cbn. do 2 f_equal. lia.
    Qed.

    (** the reader is where the cursor says *)
    Definition is_at (r : reader) (cur : cursor) : Prop :=
      match cur with At k => at_frame r k | Past => past_end r end.

    Lemma perform_ok : forall o r dst cur, loaded r -> is_at r cur -> whole cs dst -> d_count dst = n ->
      (forall c, nth_error recs (length recs - 1) = Some c -> ends_there fs base c) ->
      exists a dst' r', perform cs fs o dst r = Some (a, dst', r') /\
        agrees X (map (fun c => c_frame c) recs) (fst (expect (length recs) o cur)) a /\
        loaded r' /\ is_at r' (snd (expect (length recs) o cur)) /\ whole cs dst' /\ d_count dst' = n.
    Proof.
      intros o r dst cur L A W Hn End. destruct o as [k|]; unfold perform.
      - destruct (Nat.ltb_spec k (length recs)) as [K|K].
        + destruct (nth_error recs k) as [c|] eqn:Ek; [|apply nth_error_None in Ek; lia].
          destruct cur as [j|].
          * destruct A as (cj & A1 & A2 & A3). destruct (Nat.eq_dec k j) as [->|D].
            -- rewrite (seek_stay r A2). do 3 eexists. split; [reflexivity|]. cbn [expect].
               apply Nat.ltb_lt in K. rewrite K. cbn [fst snd agrees is_at].
               split; [reflexivity|]. split; [exact L|]. split; [exists cj; auto|]. auto.
            -- destruct (seek_to L Ek) as (r' & S & L' & A' & _); [congruence|]. rewrite S.
               do 3 eexists. split; [reflexivity|]. cbn [expect]. apply Nat.ltb_lt in K. rewrite K.
               cbn [fst snd agrees is_at]. auto.
          * destruct A as (cj & A1 & A2 & A3). destruct (Nat.eqb_spec k (length recs - 1)) as [->|D].
            -- rewrite (seek_stay r A2). do 3 eexists. split; [reflexivity|]. cbn [expect].
               apply Nat.ltb_lt in K. rewrite K, Nat.eqb_refl. cbn [fst snd agrees is_at].
               split; [reflexivity|]. split; [exact L|]. split; [exists cj; auto|]. auto.
            -- destruct (seek_to L Ek) as (r' & S & L' & A' & _); [congruence|]. rewrite S.
               do 3 eexists. split; [reflexivity|]. cbn [expect]. apply Nat.ltb_lt in K. rewrite K.
               apply Nat.eqb_neq in D. rewrite D. cbn [fst snd agrees is_at]. auto.
        + assert (Cu : r_current r <> Some k).
          { destruct cur as [j|]; destruct A as (cj & A1 & A2 & A3); rewrite A2; intros Q; inversion Q; subst.
            - assert (k < length recs) by (apply nth_error_Some; congruence). lia.
            - assert (length recs - 1 < length recs) by (apply nth_error_Some; congruence). lia. }
          rewrite (seek_far L K Cu). do 3 eexists. split; [reflexivity|].
          apply Nat.ltb_ge in K. destruct cur as [j|]; cbn [expect]; rewrite K; cbn [fst snd agrees]; auto.
      - destruct cur as [j|].
        + destruct (read_at L A W Hn) as (r' & got & c & E & Ek & S & L' & P' & W' & N' & _).
          rewrite E. do 3 eexists. split; [reflexivity|]. cbn [expect fst snd agrees].
          split. { exists (c_frame c). split; [|exact S]. rewrite nth_error_map, Ek. reflexivity. }
          split; [exact L'|]. split; [destruct (Nat.ltb (j + 1) (length recs)); exact P'|]. auto.
        + pose proof A as (c & Ek & _). 
          assert (0 < cs * n). { destruct Hf as (_ & _ & A1 & A2 & _). apply Nat.mul_pos_pos; lia. }
          destruct (read_past dst L A Hn H Ek (End c Ek)) as (r' & E & L' & A' & _).
          rewrite E. do 3 eexists. split; [reflexivity|]. cbn [expect fst snd agrees is_at]. auto.
    Qed.
    Lemma perform_all_ok : forall ops r dst cur, loaded r -> is_at r cur -> whole cs dst -> d_count dst = n ->
      (forall c, nth_error recs (length recs - 1) = Some c -> ends_there fs base c) ->
      exists l dst' r', perform_all cs fs ops dst r = Some (l, dst', r') /\
        Forall2 (agrees X (map (fun c => c_frame c) recs)) (fst (expect_all (length recs) ops cur)) l /\
        loaded r' /\ is_at r' (snd (expect_all (length recs) ops cur)) /\ whole cs dst' /\ d_count dst' = n.
    Proof.
      induction ops as [|o ops IH]; intros r dst cur L A W Hn End.
      - do 3 eexists. split; [reflexivity|]. cbn. auto.
      - destruct (perform_ok o cur L A W Hn End) as (a & d1 & r1 & E1 & G1 & L1 & A1 & W1 & N1).
        cbn [perform_all expect_all]. rewrite E1. destruct (expect (length recs) o cur) as [e cur1].
        cbn [fst snd] in *.
        destruct (IH r1 d1 cur1 L1 A1 W1 N1 End) as (l & d2 & r2 & E2 & G2 & L2 & A2 & W2 & N2).
        rewrite E2. destruct (expect_all (length recs) ops cur1) as [es cur2]. cbn [fst snd] in *.
        do 3 eexists. split; [reflexivity|]. auto.
    Qed.

    (** sequential reading *)
    Lemma read_times_ok : forall k j r dst, loaded r -> at_frame r j -> whole cs dst -> d_count dst = n ->
      j + k = length recs ->
      exists got, read_times cs fs k dst r = Some got /\
        Forall2 (same_frame X) (map (fun c => c_frame c) (skipn j recs)) got /\
        Forall (fun g => d_mass g = (if r_masses r then d_mass dst else d_mass first) /\
                         d_color g = (if r_colors r then d_color dst else d_color first)) got.
    Proof.
      induction k as [|k IH]; intros j r dst L A W Hn Hj.
      - destruct A as (c & Ek & _). assert (j < length recs) by (apply nth_error_Some; congruence). lia.
      - destruct (read_at L A W Hn) as (r' & got & c & E & Ek & S & L' & P' & W' & N' & _ & M' & C' & Mr & Cr).
        cbn [read_times]. rewrite E.
        assert (Sk : skipn j recs = c :: skipn (j + 1) recs).
        { clear -Ek. revert j Ek. induction recs as [|x l IHl]; intros [|j] Ek; cbn in *; try discriminate.
          - now inversion Ek.
          - now apply IHl. }
        rewrite Sk. cbn [map].
        destruct (Nat.ltb_spec (j + 1) (length recs)) as [K|K].
        + destruct (IH (j + 1) r' got L' P' W' N' ltac:(lia)) as (l & El & Fl & Gl).
          rewrite El. eexists. split; [reflexivity|]. split; [constructor; assumption|].
          constructor; [split; assumption|]. rewrite Mr, Cr in Gl. rewrite <- M', <- C'. exact Gl.
        + assert (k = 0) as -> by lia. cbn [read_times]. eexists. split; [reflexivity|].
          rewrite (skipn_all2 recs) by exact K. split; constructor; auto; constructor.
    Qed.

    Lemma on_disk_replays : recs <> [] -> replays X cs fs base n first (map (fun c => c_frame c) recs).
    Proof.
      intros Hne. destruct (load_ok (new_reader (T:=T)) Hne) as (r & E & L & A & C & M).
      exists r. split; [exact E|]. rewrite map_length. split; [exact (items_length L)|].
      split; [exact (l_body L)|]. split; [exact (l_box L)|]. split; [exact (l_coord L)|].
      intros dst W Hn.
      destruct (@read_times_ok (length recs) 0 r dst L A W Hn eq_refl) as (got & Eg & Fg & Gg).
      exists got. rewrite C, M in Gg. cbn in Gg. auto.
    Qed.
  End Stream.
End L.
