From Coq Require Import Bool Ascii String List NArith Arith Lia Permutation.
From Verif Require Import ModelText LemText ModelCompressor SpecCompressor.
Import ListNotations.

(** names *)
Lemma unmarked_tail : forall a s, unmarked (a :: s) -> unmarked s.
Proof. intros a s H b c e ->. exact (H (a :: b) c e eq_refl). Qed.
Lemma digit_low : forall c n, digit c = Some n -> c <> "0"%char -> c <> "1"%char -> (2 <= n)%N.
Proof.
  intros c n H A B. destruct c as [b0 b1 b2 b3 b4 b5 b6 b7].
  destruct b0, b1, b2, b3, b4, b5, b6, b7; cbn in H; try discriminate H; injection H as <-; try lia;
    exfalso; first [now apply A | now apply B].
Qed.

Definition high (q : piece) : Prop := match q with Marker n _ _ => (2 <= n)%N | Plain _ => True end.
Lemma pieces_split : forall k d e, List.length d <= k -> unmarked d ->
  exists l, pieces (d ++ "/"%char :: e) = l ++ pieces ("/"%char :: e) /\ Forall high l /\
    forall local m w n, (m < 2)%N -> concat (map (put local m w n) l) = d.
Proof.
  induction k as [|k IH]; intros d e Hk Hd; set (tl := pieces ("/"%char :: e)).
  - destruct d; [|cbn in Hk; lia]. exists []. auto.
  - destruct d as [|c d]; [exists []; auto|]. cbn in Hk.
    pose proof (unmarked_tail _ _ Hd) as Hd1.
    destruct (IH d e ltac:(lia) Hd1) as (l & E & F & G).
    assert (P : exists l, Plain c :: pieces (d ++ "/"%char :: e) = l ++ pieces ("/"%char :: e) /\ Forall high l /\
      forall local m w n, (m < 2)%N -> concat (map (put local m w n) l) = c :: d).
    { exists (Plain c :: l). rewrite E. split; [reflexivity|]. split; [constructor; cbn; auto|].
      intros. cbn. now rewrite G. }
    change ((c :: d) ++ "/"%char :: e) with (c :: (d ++ "/"%char :: e)). cbn [pieces].
    destruct (Ascii.eqb_spec c "%"); [subst c|exact P]. cbn [negb].
    destruct d as [|a d]; [exact P|].
    change ((a :: d) ++ "/"%char :: e) with (a :: (d ++ "/"%char :: e)) in *.
    destruct (Hd [] a d eq_refl) as (A0 & A1 & AL).
    destruct (Ascii.eqb_spec a "L") as [?|NL]; [contradiction|].
    destruct (digit a) as [n|] eqn:En; [|exact P].
    pose proof (digit_low _ _ En A0 A1) as Hn. cbn in Hk.
    assert (P1 : exists l, Marker n false ["%"%char; a] :: pieces (d ++ "/"%char :: e) = l ++ pieces ("/"%char :: e) /\ Forall high l /\
      forall local m w n, (m < 2)%N -> concat (map (put local m w n) l) = "%"%char :: a :: d).
    { destruct (IH d e ltac:(lia) (unmarked_tail _ _ Hd1)) as (l1 & E1 & F1 & G1).
      exists (Marker n false ["%"%char; a] :: l1). rewrite E1. split; [reflexivity|]. split; [constructor; cbn; auto|].
      intros local m w n' Hm. cbn. destruct (N.eqb_spec n m); [lia|]. now rewrite G1. }
    destruct d as [|a2 d]; [exact P1|].
    change ((a2 :: d) ++ "/"%char :: e) with (a2 :: (d ++ "/"%char :: e)) in *.
    cbn [app]. destruct (digit a2) as [m2|]; [|exact P1].
    cbn in Hk. destruct (IH d e ltac:(lia) (unmarked_tail _ _ (unmarked_tail _ _ Hd1))) as (l1 & E1 & F1 & G1).
    exists (Marker (10 * n + m2) false ["%"%char; a; a2] :: l1). rewrite E1. split; [reflexivity|].
    split; [constructor; [unfold high; lia|auto]|].
    intros local m w n' Hm. cbn [map concat put]. destruct (N.eqb_spec (10 * n + m2) m); [lia|]. rewrite G1 by auto. reflexivity.
Qed.
Lemma lowest_high : forall l r, Forall high l -> lowest r = Some 1%N -> lowest (l ++ r) = Some 1%N.
Proof.
  induction 1 as [|q l Hq Hl IH]; intros Hr; [auto|]. destruct q; cbn [app lowest]; [now apply IH|].
  rewrite IH by auto. cbn in Hq. f_equal. lia.
Qed.
Lemma frame_name_eq : forall local d n, unmarked d ->
  frame_name local d n = d ++ "/"%char :: padded 8 n ++ chars ".png".
Proof.
  intros local d n Hd. unfold frame_name, arg, name_tmpl.
  change (chars "/%1.png") with ("/"%char :: chars "%1.png").
  destruct (pieces_split (List.length d) d (chars "%1.png") ltac:(lia) Hd) as (l & E & F & G). rewrite E.
  rewrite lowest_high by (auto; reflexivity). rewrite map_app, concat_app, G by lia.
  cbn - [padded]. reflexivity.
Qed.

Lemma read_zeros : forall k s, read_digits 0 (repeat "0"%char k ++ s) = read_digits 0 s.
Proof. induction k; intros s; [reflexivity|]. cbn. apply IHk. Qed.
Lemma padded_read : forall k n, read_N (padded k n) = Some n.
Proof.
  intros k n. pose proof (read_show n) as H. unfold read_N in *.
  destruct (show_N n) as [|a s] eqn:E; [now apply show_nonempty in E|].
  unfold padded. rewrite E.
  destruct (repeat "0"%char (k - List.length (a :: s)) ++ a :: s) eqn:E2; [destruct (repeat "0"%char (k - List.length (a :: s))); discriminate|].
  rewrite <- E2. now rewrite read_zeros.
Qed.
Lemma padded_digits : forall k n, Forall (fun c => digit c <> None) (padded k n).
Proof.
  intros. unfold padded. apply Forall_app. split.
  - apply Forall_forall. intros c Hc. apply repeat_spec in Hc. subst. discriminate.
  - apply show_digits.
Qed.
Lemma padded_length : forall k n, List.length (padded k n) = Nat.max k (List.length (show_N n)).
Proof. intros. unfold padded. rewrite app_length, repeat_length. lia. Qed.
Lemma show_head : forall n, hd_error (show_N n) = Some "0"%char -> List.length (show_N n) = 1.
Proof.
  intros n. unfold show_N. intros H.
  assert (U : Decimal.unorm (N.to_uint n) = N.to_uint n).
  { rewrite <- DecimalN.Unsigned.to_of. now rewrite DecimalN.Unsigned.of_to. }
  destruct (N.to_uint n) as [|u|u|u|u|u|u|u|u|u|u]; cbn in H; try discriminate H.
  assert (V : forall u, match Decimal.unorm u with Decimal.D0 Decimal.Nil => True | Decimal.D0 _ => False | _ => True end).
  { clear. induction u; cbn; auto. }
  specialize (V (Decimal.D0 u)). rewrite U in V. destruct u; try contradiction. reflexivity.
Qed.
Lemma padded_head : forall k n, 1 <= k -> k < List.length (padded k n) -> hd_error (padded k n) <> Some "0"%char.
Proof.
  intros k n Hk H E. rewrite padded_length in H. unfold padded in E.
  replace (k - List.length (show_N n)) with 0 in E by lia. cbn [repeat app] in E. apply show_head in E. lia.
Qed.
Lemma frame_file : forall local d n, unmarked d -> file_of d n (frame_name local d n).
Proof.
  intros local d n Hd. exists (padded 8 n). split; [now apply frame_name_eq|]. split; [apply padded_digits|].
  split; [apply padded_read|]. split; [rewrite padded_length; lia|]. intros H. apply padded_head; [lia|exact H].
Qed.

(** values of digits *)
Lemma read_bounds : forall s acc v, read_digits acc s = Some v ->
  (acc * 10 ^ N.of_nat (List.length s) <= v < (acc + 1) * 10 ^ N.of_nat (List.length s))%N.
Proof.
  induction s as [|a s IH]; intros acc v H; cbn [read_digits] in H.
  - injection H as <-. cbn. lia.
  - destruct (digit a) as [d|] eqn:E; [|discriminate].
    assert (d <= 9)%N.
    { unfold digit in E. destruct (andb _ _) eqn:B; [|discriminate]. apply andb_prop in B. destruct B as [B1 B2].
      apply N.leb_le in B1. apply N.leb_le in B2. injection E as <-. lia. }
    apply IH in H. cbn [List.length]. rewrite Nat2N.inj_succ, N.pow_succ_r'. 
    set (p := (10 ^ N.of_nat (List.length s))%N) in *. nia.
Qed.
Lemma digit_order : forall a b m n, digit a = Some m -> digit b = Some n -> (m < n)%N -> (N_of_ascii a < N_of_ascii b)%N.
Proof.
  unfold digit. intros a b m n A B H.
  destruct (andb (48 <=? N_of_ascii a) (N_of_ascii a <=? 57))%N eqn:Ea; [|discriminate].
  destruct (andb (48 <=? N_of_ascii b) (N_of_ascii b <=? 57))%N eqn:Eb; [|discriminate].
  apply andb_prop in Ea. apply andb_prop in Eb. destruct Ea as [A1 A2], Eb as [B1 B2].
  apply N.leb_le in A1. apply N.leb_le in B1. injection A as <-. injection B as <-. lia.
Qed.
Lemma digit_inj : forall a b n, digit a = Some n -> digit b = Some n -> a = b.
Proof.
  unfold digit. intros a b n A B.
  destruct (andb (48 <=? N_of_ascii a) (N_of_ascii a <=? 57))%N eqn:Ea; [|discriminate].
  destruct (andb (48 <=? N_of_ascii b) (N_of_ascii b <=? 57))%N eqn:Eb; [|discriminate].
  apply andb_prop in Ea. apply andb_prop in Eb. destruct Ea as [A1 A2], Eb as [B1 B2].
  apply N.leb_le in A1. apply N.leb_le in B1. injection A as A. injection B as B.
  rewrite <- (ascii_N_embedding a), <- (ascii_N_embedding b). f_equal. lia.
Qed.
Lemma digits_listed : forall s t e f acc m n, List.length s = List.length t ->
  read_digits acc s = Some m -> read_digits acc t = Some n -> (m < n)%N -> listed_before (s ++ e) (t ++ f).
Proof.
  induction s as [|a s IH]; intros [|b t] e f acc m n L A B H; try discriminate L.
  - cbn in A, B. rewrite A in B. injection B as <-. lia.
  - cbn in L. injection L as L. cbn [read_digits] in A, B.
    destruct (digit a) as [x|] eqn:Ea; [|discriminate]. destruct (digit b) as [y|] eqn:Eb; [|discriminate].
    cbn [app]. destruct (N.lt_trichotomy x y) as [C|[C|C]].
    + apply first_differs. eapply digit_order; eauto.
    + subst y. rewrite (digit_inj _ _ _ Ea Eb). apply rest_differs. eapply IH; eauto.
    + exfalso. apply read_bounds in A. apply read_bounds in B. rewrite L in A.
      set (p := (10 ^ N.of_nat (List.length t))%N) in *. nia.
Qed.
Lemma listed_app : forall d s t, listed_before s t -> listed_before (d ++ s) (d ++ t).
Proof. induction d; intros; [auto|]. cbn. apply rest_differs. auto. Qed.
Lemma file_short : forall d n f, file_of d n f -> (n < 10 ^ 8)%N ->
  exists w, f = d ++ "/"%char :: w ++ chars ".png" /\ read_digits 0 w = Some n /\ List.length w = 8.
Proof.
  intros d n f (w & E & D & R & L & Z) H. exists w. unfold read_N in R. destruct w as [|a w]; [discriminate R|].
  split; [exact E|]. split; [exact R|]. destruct (Nat.eq_dec (List.length (a :: w)) 8); [auto|]. exfalso.
  cbn [read_digits] in R. destruct (digit a) as [x|] eqn:Ea; [|discriminate].
  assert (x <> 0%N). { intros ->. apply Z; [lia|]. cbn. f_equal. eapply digit_inj; [exact Ea|reflexivity]. }
  apply read_bounds in R. cbn [List.length] in n0, L.
  assert (10 ^ 8 <= 10 ^ N.of_nat (List.length w))%N by (apply N.pow_le_mono_r; lia). nia.
Qed.
Lemma file_inj : forall d m n f, file_of d m f -> file_of d n f -> m = n.
Proof.
  intros d m n f (w & E & _ & R & _) (w' & E' & _ & R' & _). rewrite E in E'. apply app_inv_head in E'.
  injection E' as E'. apply app_inv_tail in E'. subst w'. congruence.
Qed.
Lemma dir_frame : forall local d n, unmarked d -> dir_of (frame_name local d n) = d.
Proof.
  intros local d n Hd. rewrite frame_name_eq by exact Hd. unfold dir_of.
  rewrite rev_app_distr. cbn [rev]. rewrite <- app_assoc. cbn [app].
  assert (forall s e, Forall (fun c => c <> "/"%char) s -> drop_to_slash (s ++ "/"%char :: e) = e) as K.
  { induction 1 as [|c s Hc Hs IH]; [reflexivity|]. cbn. destruct (Ascii.eqb_spec c "/"); [contradiction|exact IH]. }
  rewrite K; [now rewrite rev_involutive|]. apply Forall_rev. apply Forall_app. split.
  - eapply Forall_impl; [|apply padded_digits]. intros c Hc ->. now apply Hc.
  - repeat constructor; discriminate.
Qed.

(** the queue *)
Section Q.
  Context (fin : nat -> nat -> bool) (St : settles fin).
  Lemma erase_ok : forall q t q' t', erase_one fin t q = (q', t') ->
    t + Nat.min 1 (List.length q) <= t' /\
    (q' = q /\ t' = t + List.length q \/ exists a j b, q = a ++ j :: b /\ q' = a ++ b /\ fin t' j = true).
  Proof.
    induction q as [|j q IH]; intros t q' t' E; cbn in E; [injection E as <- <-; cbn; split; [lia|left; split; [auto|lia]]|].
    destruct (fin t j) eqn:Ef.
    - injection E as <- <-. cbn. split; [lia|]. right. exists [], j, q. split; [auto|]. split; [auto|].
      eapply St; [|exact Ef]. lia.
    - destruct (erase_one fin (S t) q) as [q1 t1] eqn:E1. injection E as <- <-.
      destruct (IH _ _ _ E1) as (A & [[-> ->]|(a & i & b & -> & -> & F)]).
      + cbn. split; [lia|]. left. split; [auto|lia].
      + split; [cbn; rewrite app_length in *; cbn in *; lia|]. right. exists (j :: a), i, b. auto.
  Qed.
  Lemma erase_some : forall q t, q <> [] -> (forall j, In j q -> fin t j = true) ->
    List.length (fst (erase_one fin t q)) < List.length q.
  Proof. intros [|j q] t H A; [congruence|]. cbn. rewrite (A j) by (now left). cbn. lia. Qed.

  Lemma wait_ok : forall fuel most q t q' t', wait_results fin fuel most q t = Some (q', t') ->
    List.length q' <= most /\ t <= t' /\ incl q' q /\ forall j, In j q -> In j q' \/ fin t' j = true.
  Proof.
    induction fuel as [|fuel IH]; intros most q t q' t' E; cbn in E.
    - destruct (Nat.leb_spec (List.length q) most); [|discriminate]. injection E as <- <-.
      split; [auto|]. split; [auto|]. split; [apply incl_refl|auto].
    - destruct (Nat.leb_spec (List.length q) most).
      + injection E as <- <-. split; [auto|]. split; [auto|]. split; [apply incl_refl|auto].
      + destruct (erase_one fin t q) as [q1 t1] eqn:E1. apply IH in E. destruct E as (A & B & C & D).
        apply erase_ok in E1. destruct E1 as (T & [[-> ->]|(a & i & b & -> & -> & F)]).
        * split; [auto|]. split; [lia|]. auto.
        * split; [auto|]. split; [lia|]. split.
          -- intros x Hx. apply C in Hx. apply in_app_or in Hx. apply in_or_app. cbn. tauto.
          -- intros x Hx. apply in_app_or in Hx. cbn in Hx.
             assert (X : i = x \/ In x (a ++ b)) by (rewrite in_app_iff; tauto).
             destruct X as [->|X]; [right; eapply St; eauto|apply D; exact X].
  Qed.
  Lemma wait_more : forall fuel fuel' most q t r, wait_results fin fuel most q t = Some r -> fuel <= fuel' ->
    wait_results fin fuel' most q t = Some r.
  Proof.
    induction fuel as [|fuel IH]; intros fuel' most q t r E H.
    - cbn in E. destruct fuel'; cbn; destruct (Nat.leb (List.length q) most); auto; discriminate.
    - destruct fuel' as [|fuel']; [lia|]. cbn in *. destruct (Nat.leb (List.length q) most); [auto|].
      destruct (erase_one fin t q) as [q1 t1]. eapply IH; eauto. lia.
  Qed.
  Context (Fi : finishes fin).
  Lemma all_finish : forall q, exists u, forall t j, u <= t -> In j q -> fin t j = true.
  Proof.
    induction q as [|j q [u Hu]]; [exists 0; intros ? ? ? []|]. destruct (Fi j) as [t Ht].
    exists (Nat.max t u). intros t' i L [<-|I]; [apply (St t); [lia|auto]|apply Hu; [lia|auto]].
  Qed.
  Lemma wait_ends : forall n q most t, List.length q <= n -> exists fuel r, wait_results fin fuel most q t = Some r.
  Proof.
    induction n as [|n IH]; intros q most t L.
    - exists 0, (q, t). cbn. destruct q; [|cbn in L; lia]. reflexivity.
    - destruct (all_finish q) as [u Hu].
      remember (u - t) as g. revert t Heqg. induction g as [g IHg] using lt_wf_ind. intros t Hg.
      destruct (le_lt_dec (List.length q) most) as [Hm|Hm].
      { exists 0, (q, t). cbn. destruct (Nat.leb_spec (List.length q) most); [auto|lia]. }
      assert (step : forall fuel r, (let (q1, t1) := erase_one fin t q in wait_results fin fuel most q1 t1) = Some r ->
                exists fuel r, wait_results fin fuel most q t = Some r).
      { intros fuel r E. exists (S fuel), r. cbn. destruct (Nat.leb_spec (List.length q) most); [lia|exact E]. }
      destruct (erase_one fin t q) as [q1 t1] eqn:E1. pose proof (erase_ok _ _ _ _ E1) as (T & C).
      destruct C as [[-> ->]|(a & i & b & -> & -> & F)].
      + destruct (le_lt_dec u t) as [Hu'|Hu'].
        * exfalso. assert (q <> []) by (destruct q; [cbn in Hm; lia|discriminate]).
          pose proof (erase_some q t H (fun j Hj => Hu t j Hu' Hj)) as X. rewrite E1 in X. cbn in X. lia.
        * destruct (IHg (u - (t + List.length q)) ltac:(lia) (t + List.length q) eq_refl) as (fuel & r & E).
          eapply step. exact E.
      + destruct (IH (a ++ b) most t1) as (fuel & r & E).
        { rewrite app_length in *. cbn in L. lia. }
        eapply step. exact E.
  Qed.
  Lemma push_more : forall fuel fuel' cores count from s r, push_jobs fin fuel cores from count s = Some r ->
    fuel <= fuel' -> push_jobs fin fuel' cores from count s = Some r.
  Proof.
    intros fuel fuel' cores. induction count as [|count IH]; intros from s r E H; [exact E|]. cbn in *.
    unfold push_job in *. destruct (wait_results fin fuel cores (fst s ++ [from]) (snd s)) as [s1|] eqn:E1; [|discriminate].
    rewrite (wait_more _ fuel' _ _ _ _ E1) by auto. now apply IH.
  Qed.
  Lemma push_ends : forall cores count from s, exists fuel r, push_jobs fin fuel cores from count s = Some r.
  Proof.
    intros cores. induction count as [|count IH]; intros from s; [exists 0, s; reflexivity|].
    destruct (wait_ends _ (fst s ++ [from]) cores (snd s) (le_n _)) as (f1 & s1 & E1).
    destruct (IH (S from) s1) as (f2 & r & E2). exists (Nat.max f1 f2), r. cbn. unfold push_job.
    rewrite (wait_more _ (Nat.max f1 f2) _ _ _ _ E1) by lia. apply (push_more f2); [exact E2|lia].
  Qed.
  Lemma compress_ends : forall cores count, exists fuel r, compress fin fuel cores count = Some r.
  Proof.
    intros cores count. destruct (push_ends cores count 0 ([], 0)) as (f1 & s1 & E1).
    destruct (wait_ends _ (fst s1) 0 (snd s1) (le_n _)) as (f2 & r & E2).
    exists (Nat.max f1 f2), r. unfold compress. rewrite (push_more f1 (Nat.max f1 f2) _ _ _ _ _ E1) by lia.
    apply (wait_more f2); [exact E2|lia].
  Qed.
End Q.
Lemma push_jobs_ok : forall fin, settles fin -> forall fuel cores count from s r,
  push_jobs fin fuel cores from count s = Some r ->
  (forall j, j < from -> In j (fst s) \/ fin (snd s) j = true) -> List.length (fst s) <= cores ->
  List.length (fst r) <= cores /\ snd s <= snd r /\
  forall j, j < from + count -> In j (fst r) \/ fin (snd r) j = true.
Proof.
  intros fin St fuel cores. induction count as [|count IH]; intros from s r E H L; cbn in E.
  - injection E as <-. rewrite Nat.add_0_r. auto.
  - unfold push_job in E. destruct (wait_results fin fuel cores (fst s ++ [from]) (snd s)) as [[q1 t1]|] eqn:E1; [|discriminate].
    destruct (wait_ok _ St _ _ _ _ _ _ E1) as (A & B & C & D).
    apply IH in E; cbn [fst snd] in *; auto.
    + destruct E as (E1' & E2 & E3). split; [auto|]. split; [lia|]. intros j Hj. apply E3. lia.
    + intros j Hj. destruct (Nat.eq_dec j from) as [->|].
      * apply D. apply in_or_app. right. now left.
      * destruct (H j ltac:(lia)) as [I|F]; [apply D; apply in_or_app; auto|right; eapply St; [exact B|exact F]].
Qed.

(** files *)
Section F.
  Context {I : Type} (there : text -> bool).
  Lemma content_replace : forall (k : @disk I) f i g,
    content (replace f i k) g = if list_eq_dec ascii_dec g f then Some i else content k g.
  Proof.
    induction k as [|[h j] k IH]; intros f i g; cbn.
    - destruct (list_eq_dec ascii_dec g f); reflexivity.
    - destruct (list_eq_dec ascii_dec f h) as [->|N]; cbn.
      + destruct (list_eq_dec ascii_dec g h); reflexivity.
      + rewrite IH. destruct (list_eq_dec ascii_dec g h) as [->|]; [|reflexivity].
        destruct (list_eq_dec ascii_dec h f) as [<-|]; [contradiction|reflexivity].
  Qed.
  Lemma written_content : forall (jobs : list (text * I)) k g,
    NoDup (map fst jobs) -> Forall (fun j => there (dir_of (fst j)) = true) jobs ->
    (forall i, In (g, i) jobs -> content (written there k jobs) g = Some i) /\
    (~ In g (map fst jobs) -> content (written there k jobs) g = content k g).
  Proof.
    unfold written. induction jobs as [|[f i0] jobs IH]; intros k g ND F; [split; [intros ? []|auto]|].
    inversion ND as [|? ? N ND']; subst. inversion F as [|? ? F0 F']; subst. cbn [fst] in *. cbn [fold_left].
    destruct (IH (frame_writer there k (f, i0)) g ND' F') as [A B]. split.
    - intros i [E|E]; [|now apply A]. injection E as -> ->. rewrite B by exact N. unfold frame_writer. cbn [fst snd].
      rewrite F0, content_replace. destruct (list_eq_dec ascii_dec g g); [reflexivity|contradiction].
    - intros Hn. cbn in Hn. rewrite B by tauto. unfold frame_writer. cbn [fst snd]. rewrite F0, content_replace.
      destruct (list_eq_dec ascii_dec g f) as [->|]; [tauto|reflexivity].
  Qed.
End F.
