(** Rounds of device commands. *)
From Coq Require Import ZArith List Arith Lia Bool.
From Verif Require Import Num Arr ArrLemmas LemEngine ModelParallel SpecPar LemParallel LemOmp ModelGpu SpecGpu.
Import ListNotations.
Set Implicit Arguments.

Section Rounds.
  Context {T : Type}.
  Implicit Types m : mem T.

  Lemma schedule_weaken ps m (g g' : mem T -> Prop) :
    (forall m', g m' -> g' m') -> every_schedule ps m g -> every_schedule ps m g'.
  Proof.
    intros H [F S]. split; auto. intros ps' m' R. destruct (S ps' m' R) as (A & B & C).
    repeat match goal with |- _ /\ _ => split end; auto. intros X. destruct (C X). auto.
  Qed.

  Lemma round_weaken rs m (g g' : mem T -> Prop) :
    (forall m', g m' -> g' m') -> every_round rs m g -> every_round rs m g'.
  Proof.
    revert m. induction rs as [|ps r IH]; intros m H; cbn [every_round]; auto.
    apply schedule_weaken. intros m'. apply IH. auto.
  Qed.

  (** the loop lemma for programs given by a list *)
  Section List.
    Context {B : Type} (d : B) (L : list B) (P : B -> prog T) (R W : B -> region) (m0 : mem T)
      (mk : B -> mem T).
    Hypothesis Hfp : forall c, In c L -> fp (R c) (W c) (P c).
    Hypothesis Hdisj : forall j k c c' a i, j <> k -> nth_error L j = Some c ->
      nth_error L k = Some c' -> W c a i = true -> R c' a i = false /\ W c' a i = false.
    Hypothesis Halone : forall c, In c L -> exec (P c) m0 = Some (mk c).

    Lemma list_schedules :
      every_schedule (map P L) m0 (fun m =>
        shape m = shape m0 /\
        (forall c a i, In c L -> W c a i = true -> mrd m a i = mrd (mk c) a i) /\
        (forall a i, (forall c, In c L -> W c a i = false) -> mrd m a i = mrd m0 a i)).
    Proof.
      set (P' := fun k => P (nth k L d)). set (R' := fun k => R (nth k L d)).
      set (W' := fun k => W (nth k L d)). set (mk' := fun k => mk (nth k L d)).
      assert (E : map P L = map P' (seq 0 (length L))).
      { apply nth_error_ext.
        - now rewrite !map_length, seq_length.
        - intros i Hi. rewrite map_length in Hi. rewrite !nth_error_map.
          assert (Es : nth_error (seq 0 (length L)) i = Some i).
          { rewrite (nth_error_nth' (seq 0 (length L)) 0) by (now rewrite seq_length).
            now rewrite seq_nth by auto. }
          rewrite Es. cbn [option_map]. unfold P'.
          rewrite (nth_error_nth' L d Hi). reflexivity. }
      rewrite E.
      assert (H1 : forall k, k < length L -> fp (R' k) (W' k) (P' k)).
      { intros k Hk. apply Hfp. now apply nth_In. }
      assert (H2 : forall j k a i, j < length L -> k < length L -> j <> k ->
         W' j a i = true -> R' k a i = false /\ W' k a i = false).
      { intros j k a i Hj Hk Hne. unfold W', R'.
        apply (@Hdisj j k); auto; now apply nth_error_nth'. }
      assert (H3 : forall k, k < length L -> exec (P' k) m0 = Some (mk' k)).
      { intros k Hk. apply Halone. now apply nth_In. }
      split; [apply all_schedules_finite|]. intros ps m Hr. split; [|split].
      - eapply par_safe; eauto.
      - intros j k p q a i Hne Hj Hk Hw Ha. eapply par_no_race; eauto.
      - intros Hs. assert (HD : Forall (eq PRet) ps) by (eapply par_progress; eauto).
        split; auto. assert (HF : final (length L) W' m0 mk' m) by (eapply par_final; eauto).
        destruct HF as (S & Hw & Ho). split; auto. split.
        + intros c a i Hc HW. apply In_nth with (d := d) in Hc. destruct Hc as (k & Hk & Ek).
          rewrite (Hw k a i Hk); unfold W', mk'; rewrite Ek; auto.
        + intros a i H. apply Ho. intros k Hk. apply H. now apply nth_In.
    Qed.
  End List.

  (** cell copies *)
  Definition c_w (c : cell) : nat * nat := (c_dst c, c_di c).
  Definition c_r (c : cell) : nat * nat := (c_src c, c_si c).
  Definition one (x : nat * nat) : region := fun a i => (a =? fst x) && (i =? snd x).
  Lemma one_true x a i : one x a i = true <-> x = (a, i).
  Proof.
    destruct x as [b j]. unfold one. simpl. rewrite andb_true_iff, !Nat.eqb_eq.
    split; [intros [-> ->]; auto|intros [= -> ->]; auto].
  Qed.

  Lemma mrd_shape m m' : shape m = shape m' -> forall a i, mrd m a i = None -> mrd m' a i = None.
  Proof.
    intros H a i. unfold mrd, rd, obind.
    assert (E : nth_error (shape m) a = nth_error (shape m') a) by now rewrite H.
    unfold shape in E. rewrite !nth_error_map in E.
    destruct (nth_error m a) as [l|], (nth_error m' a) as [l'|]; try discriminate; auto.
    simpl in E. injection E as E. intros X. apply nth_error_None. apply nth_error_None in X. lia.
  Qed.

  Lemma cells_schedules (L : list cell) m0 :
    NoDup (map c_w L) ->
    (forall c c', In c L -> In c' L -> c_w c <> c_r c') ->
    (forall c, In c L -> mrd m0 (c_src c) (c_si c) <> None /\ mrd m0 (c_dst c) (c_di c) <> None) ->
    every_schedule (map cell_copy L) m0 (fun m =>
      shape m = shape m0 /\
      (forall c, In c L -> mrd m (c_dst c) (c_di c) = mrd m0 (c_src c) (c_si c)) /\
      (forall a i, ~ In (a, i) (map c_w L) -> mrd m a i = mrd m0 a i)).
  Proof.
    intros HN HR HB.
    assert (Ex : forall c, In c L -> exists m', exec (cell_copy c) m0 = Some m' /\
              mrd m' (c_dst c) (c_di c) = mrd m0 (c_src c) (c_si c)).
    { intros c Hc. destruct (HB c Hc) as [H1 H2]. unfold cell_copy. cbn [exec].
      destruct (mrd m0 (c_src c) (c_si c)) as [v|] eqn:E; [|congruence].
      destruct (@mwr_some T m0 (c_dst c) (c_di c) v) as [m' E'].
      { destruct (mrd m0 (c_dst c) (c_di c)); [eauto|congruence]. }
      rewrite E'. exists m'. split; auto. rewrite (mrd_mwr _ _ _ _ _ _ E').
      now rewrite !Nat.eqb_refl. }
    set (mk := fun c => match exec (cell_copy c) m0 with Some m' => m' | None => m0 end).
    eapply schedule_weaken; [|apply (@list_schedules cell (Cell 0 0 0 0) L cell_copy
      (fun c => one (c_r c)) (fun c => one (c_w c)) m0 mk)].
    - cbv beta. intros m (S & Hw & Ho). split; auto. split.
      + intros c Hc. rewrite (Hw c); auto.
        * unfold mk. destruct (Ex c Hc) as (m' & -> & E). auto.
        * apply one_true. reflexivity.
      + intros a i H. apply Ho. intros c Hc. destruct (one (c_w c) a i) eqn:E; auto.
        apply one_true in E. destruct H. rewrite <- E. now apply in_map.
    - intros c Hc. unfold cell_copy. cbn [fp]. split; [left; now apply one_true|].
      intros v. split; [now apply one_true|exact I].
    - intros j k c c' a i Hne Hj Hk Hw. apply one_true in Hw.
      assert (Hc := nth_error_In _ _ Hj). assert (Hc' := nth_error_In _ _ Hk). split.
      + destruct (one (c_r c') a i) eqn:E; auto. apply one_true in E. destruct (HR c c'); auto. congruence.
      + destruct (one (c_w c') a i) eqn:E; auto. apply one_true in E. exfalso. apply Hne.
        apply (proj1 (NoDup_nth_error (map c_w L)) HN).
        * rewrite map_length. apply nth_error_Some. congruence.
        * rewrite !nth_error_map, Hj, Hk. simpl. congruence.
    - intros c Hc. unfold mk. destruct (Ex c Hc) as (m' & E & _). now rewrite E.
  Qed.
End Rounds.

Lemma NoDup_flat_map {A B : Type} (f : A -> list B) l :
  NoDup l -> (forall x, In x l -> NoDup (f x)) ->
  (forall x y b, In x l -> In y l -> In b (f x) -> In b (f y) -> x = y) ->
  NoDup (flat_map f l).
Proof.
  intros HN. induction HN as [|x l Hx HN IH]; intros H1 H2; simpl; [constructor|].
  assert (A1 : NoDup (flat_map f l)).
  { apply IH; [intros; apply H1; now right|]. intros a b c Ha Hb. apply H2; now right. }
  assert (A2 := H1 x (or_introl eq_refl)).
  assert (A3 : forall b, In b (f x) -> ~ In b (flat_map f l)).
  { intros b Hb Hc. apply in_flat_map in Hc. destruct Hc as (y & Hy & Hby).
    rewrite (H2 x y b) in Hx; auto; [now left|now right]. }
  clear -A1 A2 A3. induction (f x) as [|b r IHr]; simpl; auto. inversion A2; subst.
  constructor.
  - rewrite in_app_iff. intros [H|H]; [auto|]. apply (A3 b); [now left|auto].
  - apply IHr; auto. intros c Hc. apply A3. now right.
Qed.

Lemma map_flat_map {A B C : Type} (g : B -> C) (f : A -> list B) l :
  map g (flat_map f l) = flat_map (fun x => map g (f x)) l.
Proof. induction l as [|x l IH]; simpl; auto. now rewrite map_app, IH. Qed.

Lemma block_unique g g' k k' s : k < s -> k' < s -> g * s + k = g' * s + k' -> g = g' /\ k = k'.
Proof.
  intros H H' E. assert (E1 : g = g').
  { assert (E1 : g = (g * s + k) / s) by (apply Nat.div_unique with k; lia).
    assert (E2 : g' = (g' * s + k') / s) by (apply Nat.div_unique with k'; lia).
    rewrite E in E1. congruence. }
  subst g'. lia.
Qed.

(** the exchange over rows: row [r] of every buffer lies at [rows r] *)
Section Exchange.
  Context {A : Type}.
  Variables (row_count pitch : nat).
  Let cp (src dst off width : nat) : list cell := copy_2d src dst off pitch width row_count.

  Variables (D size base : nat).
  Hypothesis Hfit : 0 < row_count -> (row_count - 1) * pitch + D * base <= size.
  Hypothesis Hpitch : row_count <= 1 \/ D * base <= pitch.

  Lemma in_cp src dst off width c : In c (cp src dst off width) <->
    exists r i, r < row_count /\ i < width /\
      c = Cell src (off + r * pitch + i) dst (off + r * pitch + i).
  Proof.
    unfold cp, copy_2d, copy_1d. rewrite in_flat_map. split.
    - intros (r & Hr & Hc). apply in_seq in Hr. apply in_map_iff in Hc.
      destruct Hc as (i & <- & Hi). apply in_seq in Hi. exists r, i.
      repeat match goal with |- _ /\ _ => split end; auto; lia.
    - intros (r & i & Hr & Hi & ->). exists r. split; [apply in_seq; lia|].
      apply in_map_iff. exists i. split; auto. apply in_seq. lia.
  Qed.

  Lemma row_unique r r' c c' : r < row_count -> r' < row_count -> c < D * base -> c' < D * base ->
    r * pitch + c = r' * pitch + c' -> r = r' /\ c = c'.
  Proof.
    intros Hr Hr' Hc Hc' E. destruct Hpitch as [H|H].
    - assert (r = 0 /\ r' = 0) as [-> ->] by lia. lia.
    - apply block_unique with pitch; auto; lia.
  Qed.

  (** One round: [s] is the shift, [w = s * base] the width *)
  Section Round.
    Variable s : nat.
    Hypothesis Hs : 0 < s.
    Variable Q : nat.
    Hypothesis HQ : D = Q * (2 * s).
    Let w := s * base.
    Let L := exchange_round cp D s w.

    Lemma in_round c : In c L <-> exists g k r i, g < Q /\ k < s /\ r < row_count /\ i < w /\
      (c = Cell (g * (2 * s) + k) (2 * g * w + r * pitch + i) (g * (2 * s) + k + s) (2 * g * w + r * pitch + i) \/
       c = Cell (g * (2 * s) + k + s) (2 * g * w + w + r * pitch + i) (g * (2 * s) + k) (2 * g * w + w + r * pitch + i)).
    Proof.
      unfold L, exchange_round. rewrite in_flat_map.
      assert (EQ : D / (2 * s) = Q). { rewrite HQ. apply Nat.div_mul. lia. }
      rewrite EQ. split.
      - intros (g & Hg & Hc). apply in_seq in Hg. apply in_flat_map in Hc.
        destruct Hc as (k & Hk & Hc). apply in_seq in Hk. apply in_app_iff in Hc.
        destruct Hc as [Hc|Hc]; apply in_cp in Hc; destruct Hc as (r & i & Hr & Hi & ->);
          exists g, k, r, i; (repeat match goal with |- _ /\ _ => split end); auto; lia.
      - intros (g & k & r & i & Hg & Hk & Hr & Hi & Hc). exists g. split; [apply in_seq; lia|].
        apply in_flat_map. exists k. split; [apply in_seq; lia|]. apply in_app_iff.
        destruct Hc as [->| ->]; [left|right]; apply in_cp; exists r, i; auto.
    Qed.

    Lemma w_bound g i : g < Q -> i < w -> 2 * g * w + i < D * base /\ 2 * g * w + w + i < D * base.
    Proof. intros Hg Hi. rewrite HQ. unfold w in *. split; nia. Qed.

    Lemma base_pos i : i < w -> 0 < base.
    Proof. unfold w. destruct base; [nia|lia]. Qed.

    Lemma dev_bound g k : g < Q -> k < s -> g * (2 * s) + k + s < D.
    Proof. intros. rewrite HQ. nia. Qed.

    Lemma dev_unique1 g k g' k' : k < s -> k' < s ->
      g * (2 * s) + k = g' * (2 * s) + k' -> g = g' /\ k = k'.
    Proof. intros. apply block_unique with (2 * s); auto; lia. Qed.
    Lemma dev_unique2 g k g' k' : k < s -> k' < s ->
      g * (2 * s) + k + s = g' * (2 * s) + k' + s -> g = g' /\ k = k'.
    Proof. intros. apply dev_unique1; auto; lia. Qed.
    Lemma dev_differ g k g' k' : k < s -> k' < s -> g * (2 * s) + k + s <> g' * (2 * s) + k'.
    Proof.
      intros Hk Hk' E. assert (X : g = g' /\ k + s = k').
      { apply block_unique with (2 * s); lia. } lia.
    Qed.

    Lemma cp_nodup src dst off width : off + width <= D * base -> NoDup (map c_w (cp src dst off width)).
    Proof.
      intros H. unfold cp, copy_2d. rewrite map_flat_map. apply NoDup_flat_map.
      - apply seq_NoDup.
      - intros r _. unfold copy_1d. rewrite map_map. apply FinFun.Injective_map_NoDup.
        + intros x y [= E]. lia.
        + apply seq_NoDup.
      - intros r r' b Hr Hr' Hb Hb'. apply in_seq in Hr, Hr'. unfold copy_1d in *.
        rewrite map_map in Hb, Hb'. apply in_map_iff in Hb, Hb'.
        destruct Hb as (i & <- & Hi), Hb' as (i' & E & Hi'). apply in_seq in Hi, Hi'.
        unfold c_w in E. cbn [c_dst c_di] in E. injection E as E.
        destruct (@row_unique r' r (off + i') (off + i)); lia.
    Qed.

    Lemma round_nodup : NoDup (map c_w L).
    Proof.
      unfold L, exchange_round.
      assert (EQ : D / (2 * s) = Q). { rewrite HQ. apply Nat.div_mul. lia. }
      rewrite EQ, map_flat_map.
      assert (HA : forall g k b, g < Q -> k < s ->
        In b (map c_w (cp (g * (2 * s) + k) (g * (2 * s) + k + s) (2 * g * w) w ++
                  cp (g * (2 * s) + k + s) (g * (2 * s) + k) (2 * g * w + w) w)) ->
        fst b = g * (2 * s) + k + s \/ fst b = g * (2 * s) + k).
      { intros g k b Hg Hk Hb. rewrite map_app, in_app_iff in Hb.
        destruct Hb as [Hb|Hb]; apply in_map_iff in Hb; destruct Hb as (c & <- & Hc);
          apply in_cp in Hc; destruct Hc as (r & i & _ & _ & ->); [left|right]; reflexivity. }
      assert (HU : forall g k g' k' x, k < s -> k' < s ->
         (x = g * (2 * s) + k + s \/ x = g * (2 * s) + k) ->
         (x = g' * (2 * s) + k' + s \/ x = g' * (2 * s) + k') -> g = g' /\ k = k').
      { intros g k g' k' x Hk Hk' [->| ->] [E|E].
        - now apply dev_unique2.
        - exfalso. revert E. now apply dev_differ.
        - exfalso. symmetry in E. revert E. now apply dev_differ.
        - now apply dev_unique1. }
      apply NoDup_flat_map.
      - apply seq_NoDup.
      - intros g Hg. apply in_seq in Hg. rewrite map_flat_map. apply NoDup_flat_map.
        + apply seq_NoDup.
        + intros k Hk. apply in_seq in Hk. rewrite map_app.
          assert (N1 : NoDup (map c_w (cp (g * (2 * s) + k) (g * (2 * s) + k + s) (2 * g * w) w))).
          { apply cp_nodup. unfold w. rewrite HQ. nia. }
          assert (N2 : NoDup (map c_w (cp (g * (2 * s) + k + s) (g * (2 * s) + k) (2 * g * w + w) w))).
          { apply cp_nodup. unfold w. rewrite HQ. nia. }
          revert N1 N2.
          match goal with |- NoDup ?x -> NoDup ?y -> _ =>
            assert (Dj : forall b, In b x -> ~ In b y) end.
          { intros b Hb Hb'. apply in_map_iff in Hb, Hb'. destruct Hb as (c & <- & Hc), Hb' as (c' & E & Hc').
            apply in_cp in Hc, Hc'. destruct Hc as (r & i & _ & _ & ->), Hc' as (r' & i' & _ & _ & ->).
            unfold c_w in E. cbn [c_dst c_di] in E. injection E as E _. lia. }
          revert Dj. match goal with |- (forall b, In b ?x -> ~ In b ?y) -> _ =>
            generalize x y end. clear. intros x y Dj Nx Ny. induction x as [|b x IH]; simpl; auto.
          inversion Nx; subst. constructor.
          * rewrite in_app_iff. intros [H|H]; auto. apply (Dj b); [now left|auto].
          * apply IH; auto. intros c Hc. apply Dj. now right.
        + intros k k' b Hk Hk' Hb Hb'. apply in_seq in Hk, Hk'.
          apply HA in Hb; [|lia|lia]. apply HA in Hb'; [|lia|lia].
          destruct (HU g k g k' (fst b)); auto; lia.
      - intros g g' b Hg Hg' Hb Hb'. apply in_seq in Hg, Hg'.
        rewrite map_flat_map in Hb, Hb'. apply in_flat_map in Hb, Hb'.
        destruct Hb as (k & Hk & Hb), Hb' as (k' & Hk' & Hb'). apply in_seq in Hk, Hk'.
        apply HA in Hb; [|lia|lia]. apply HA in Hb'; [|lia|lia].
        destruct (HU g k g' k' (fst b)); auto; lia.
    Qed.

    Lemma round_norw c c' : In c L -> In c' L -> c_w c <> c_r c'.
    Proof.
      intros H H'. apply in_round in H, H'.
      destruct H as (g & k & r & i & Hg & Hk & Hr & Hi & H).
      destruct H' as (g' & k' & r' & i' & Hg' & Hk' & Hr' & Hi' & H').
      destruct (w_bound Hg Hi) as [B1 B2]. destruct (w_bound Hg' Hi') as [B1' B2'].
      destruct H as [->| ->], H' as [->| ->]; unfold c_w, c_r; cbn [c_src c_si c_dst c_di]; intros [= E1 E2].
      - revert E1. now apply dev_differ.
      - apply dev_unique2 in E1; auto. destruct E1 as [-> ->].
        destruct (@row_unique r r' (2 * g' * w + i) (2 * g' * w + w + i')); lia.
      - apply dev_unique1 in E1; auto. destruct E1 as [-> ->].
        destruct (@row_unique r r' (2 * g' * w + w + i) (2 * g' * w + i')); lia.
      - symmetry in E1. revert E1. now apply dev_differ.
    Qed.

    (** before the round device [j] is valid on column [c] of each row when the segment of the
        column and the device lie in the same block of [s]; after it, in the same block of [2s] *)
    Definition valid (t : nat) (m0 m : mem A) : Prop :=
      forall j r c, j < D -> r < row_count -> c < D * base -> c / base / t = j / t ->
        mrd m j (r * pitch + c) = mrd m0 (c / base) (r * pitch + c).

    Lemma cell_in (m : mem A) j r c : buffers m D size -> j < D -> r < row_count -> c < D * base ->
      mrd m j (r * pitch + c) <> None.
    Proof.
      intros [HL HF] Hj Hr Hc. unfold mrd, rd. rewrite <- HL in Hj.
      destruct (nth_error m j) as [b|] eqn:E; [|apply nth_error_None in E; lia].
      cbn [obind]. apply nth_error_Some. apply nth_error_In in E.
      rewrite (proj1 (Forall_forall _ _) HF b E). assert (0 < row_count) by lia.
      specialize (Hfit H). nia.
    Qed.

    Lemma buffers_shape (m m' : mem A) : shape m' = shape m -> buffers m D size -> buffers m' D size.
    Proof.
      intros E [H1 H2]. assert (EL : length m' = length m).
      { unfold shape in E. apply (f_equal (@length nat)) in E. now rewrite !map_length in E. }
      split; [congruence|]. apply Forall_forall. intros b Hb.
      apply (in_map (@length A)) in Hb. fold (shape m') in Hb. rewrite E in Hb.
      apply in_map_iff in Hb. destruct Hb as (b' & <- & Hb').
      apply (proj1 (Forall_forall _ _) H2). auto.
    Qed.

    Lemma round_step m0 m :
      buffers m D size -> valid s m0 m ->
      every_schedule (map cell_copy L) m (fun m' => buffers m' D size /\ valid (2 * s) m0 m').
    Proof.
      intros HB HV. eapply schedule_weaken; [|apply cells_schedules; [apply round_nodup|apply round_norw|]].
      - cbv beta. intros m' (S & Hw & Ho). split; [now apply (@buffers_shape m m')|].
        intros j r c Hj Hr Hc E.
        assert (Hb : 0 < base) by (destruct base; lia).
        set (q := c / base) in *. assert (Hq : q < D) by (apply Nat.div_lt_upper_bound; lia).
        assert (Ec : c = q * base + c mod base) by (unfold q; rewrite (Nat.mul_comm _ base); apply Nat.div_mod; lia).
        assert (Hm : c mod base < base) by (apply Nat.mod_upper_bound; lia).
        set (cm := c mod base) in *. clearbody cm.
        set (g := j / (2 * s)) in *.
        assert (Ej : j = g * (2 * s) + j mod (2 * s)) by (unfold g; rewrite (Nat.mul_comm _ (2 * s)); apply Nat.div_mod; lia).
        assert (Hjm : j mod (2 * s) < 2 * s) by (apply Nat.mod_upper_bound; lia).
        set (jm := j mod (2 * s)) in *.
        assert (Eq : q = g * (2 * s) + q mod (2 * s)) by (rewrite <- E, (Nat.mul_comm _ (2 * s)); apply Nat.div_mod; lia).
        assert (Hqm : q mod (2 * s) < 2 * s) by (apply Nat.mod_upper_bound; lia).
        set (qm := q mod (2 * s)) in *.
        assert (Hg : g < Q).
        { unfold g. apply Nat.div_lt_upper_bound; [lia|]. rewrite HQ in Hj. lia. }
        assert (Eqd : c / base = q) by reflexivity. clearbody jm qm g q.
        assert (Dq : forall x y, y < 2 * s -> x = g * (2 * s) + y -> x / s = if y <? s then 2 * g else 2 * g + 1).
        { intros x y Hy ->. destruct (Nat.ltb_spec y s).
          - symmetry. apply Nat.div_unique with y; lia.
          - symmetry. apply Nat.div_unique with (y - s); lia. }
        assert (D1 := Dq j jm Hjm Ej). assert (D2 := Dq q qm Hqm Eq).
        destruct (Nat.ltb_spec jm s) as [J|J], (Nat.ltb_spec qm s) as [K|K].
        + rewrite Ho. { rewrite <- Eqd. apply HV; auto. rewrite Eqd. lia. }
          intros Hi. apply in_map_iff in Hi. destruct Hi as (x & Ex & Hx). apply in_round in Hx.
          destruct Hx as (g' & k & r' & i & Hg' & Hk & Hr' & Hi & [->| ->]);
            unfold c_w in Ex; cbn [c_dst c_di] in Ex; injection Ex as E1 E2.
          * rewrite Ej in E1. revert E1. now apply dev_differ.
          * rewrite Ej in E1. apply dev_unique1 in E1; auto. destruct E1 as [-> ->].
            destruct (w_bound Hg Hi) as [_ B2].
            destruct (@row_unique r' r (2 * g * w + w + i) c) as [_ X]; auto; [lia|].
            clear -X Ec Eq K Hi Hm Hb. unfold w in *. rewrite Eq in Ec. nia.
        + assert (Hx : In (Cell (g * (2 * s) + jm + s) (2 * g * w + w + r * pitch + (c - (2 * g * w + w)))
                       (g * (2 * s) + jm) (2 * g * w + w + r * pitch + (c - (2 * g * w + w)))) L).
          { apply in_round. exists g, jm, r, (c - (2 * g * w + w)).
            repeat match goal with |- _ /\ _ => split end; auto. unfold w. rewrite Eq in Ec; nia. }
          assert (Hge : 2 * g * w + w <= c) by (unfold w; subst q c; nia).
          apply Hw in Hx. cbn [c_src c_si c_dst c_di] in Hx.
          replace (2 * g * w + w + r * pitch + (c - (2 * g * w + w))) with (r * pitch + c) in Hx by lia.
          rewrite <- Ej in Hx. rewrite Hx, <- Eqd. apply HV; auto.
          * rewrite Ej. now apply dev_bound.
          * rewrite Eqd, D2. symmetry. rewrite (Dq _ (jm + s)) by lia.
            destruct (Nat.ltb_spec (jm + s) s); lia.
        + assert (Hx : In (Cell (g * (2 * s) + (jm - s)) (2 * g * w + r * pitch + (c - 2 * g * w))
                       (g * (2 * s) + (jm - s) + s) (2 * g * w + r * pitch + (c - 2 * g * w))) L).
          { apply in_round. exists g, (jm - s), r, (c - 2 * g * w).
            repeat match goal with |- _ /\ _ => split end; auto; [lia|]. unfold w. rewrite Eq in Ec; nia. }
          assert (Hge : 2 * g * w <= c) by (unfold w; subst q c; nia).
          apply Hw in Hx. cbn [c_src c_si c_dst c_di] in Hx.
          replace (2 * g * w + r * pitch + (c - 2 * g * w)) with (r * pitch + c) in Hx by lia.
          replace (g * (2 * s) + (jm - s) + s) with j in Hx by lia.
          rewrite Hx, <- Eqd. apply HV; auto.
          * rewrite HQ. clear -Hg Hjm J. nia.
          * rewrite Eqd, D2. symmetry. rewrite (Dq _ (jm - s)) by lia.
            destruct (Nat.ltb_spec (jm - s) s); lia.
        + rewrite Ho. { rewrite <- Eqd. apply HV; auto. rewrite Eqd. lia. }
          intros Hi. apply in_map_iff in Hi. destruct Hi as (x & Ex & Hx). apply in_round in Hx.
          destruct Hx as (g' & k & r' & i & Hg' & Hk & Hr' & Hi & [->| ->]);
            unfold c_w in Ex; cbn [c_dst c_di] in Ex; injection Ex as E1 E2.
          * assert (E3 : g' * (2 * s) + k + s = g * (2 * s) + (jm - s) + s) by lia.
            apply dev_unique2 in E3; auto; [|lia]. destruct E3 as [-> ->].
            destruct (w_bound Hg Hi) as [B2 _].
            destruct (@row_unique r' r (2 * g * w + i) c) as [_ X]; auto; [lia|].
            clear -X Ec Eq K Hi Hm Hb. unfold w in *. rewrite Eq in Ec. nia.
          * assert (E3 : g * (2 * s) + (jm - s) + s = g' * (2 * s) + k) by lia.
            revert E3. apply dev_differ; lia.
      - intros c Hc. apply in_round in Hc. destruct Hc as (g & k & r & i & Hg & Hk & Hr & Hi & Hc).
        destruct (w_bound Hg Hi) as [B1 B2]. assert (B3 := dev_bound Hg Hk).
        destruct Hc as [->| ->]; cbn [c_src c_si c_dst c_di].
        + replace (2 * g * w + r * pitch + i) with (r * pitch + (2 * g * w + i)) by lia.
          split; apply cell_in; auto; lia.
        + replace (2 * g * w + w + r * pitch + i) with (r * pitch + (2 * g * w + w + i)) by lia.
          split; apply cell_in; auto; lia.
    Qed.
  End Round.

  Lemma exchange_ok d (HD : D = 2 ^ d) m0 :
    forall e t m fuel, d = e + t -> 2 ^ e <= fuel + 2 ^ e -> e <= d -> t <= fuel ->
      buffers m D size -> valid (2 ^ e) m0 m ->
      every_round (map (map cell_copy) (exchange_loop cp fuel D (2 ^ e) (2 ^ e * base))) m
        (fun m' => buffers m' D size /\ valid D m0 m').
  Proof.
    intros e t. revert e. induction t as [|t IH]; intros e m fuel Hd _ He Hf HB HV.
    - assert (e = d) by lia. subst e. 
      assert (EN : exchange_loop cp fuel D (2 ^ d) (2 ^ d * base) = []).
      { destruct fuel; simpl; auto. rewrite HD, Nat.ltb_irrefl. reflexivity. }
      rewrite EN. cbn [map every_round]. split; auto. now rewrite HD.
    - destruct fuel as [|fuel]; [lia|]. cbn [exchange_loop].
      assert (Hlt : 2 ^ e < D). { rewrite HD. apply Nat.pow_lt_mono_r; lia. }
      apply Nat.ltb_lt in Hlt. rewrite Hlt. cbn [map every_round].
      assert (E2 : D = 2 ^ t * (2 * 2 ^ e)).
      { rewrite HD, Hd. replace (2 * 2 ^ e) with (2 ^ (S e)) by reflexivity.
        rewrite <- Nat.pow_add_r. f_equal. lia. }
      eapply schedule_weaken; [|apply (@round_step (2 ^ e)) with (Q := 2 ^ t) (m0 := m0); auto].
      + cbv beta. intros m' [HB' HV'].
        replace (2 ^ e * 2) with (2 ^ S e) by (simpl; lia).
        replace (2 ^ e * base * 2) with (2 ^ S e * base) by (simpl; lia).
        apply IH; auto; lia.
      + assert (X := Nat.pow_nonzero 2 e ltac:(lia)). lia.
  Qed.

  Lemma exchange_all d (HD : D = 2 ^ d) (m : mem A) :
    buffers m D size ->
    every_round (map (map cell_copy) (exchange_loop cp D D 1 base)) m
      (fun m' => buffers m' D size /\
         forall j r c, j < D -> r < row_count -> c < D * base ->
           mrd m' j (r * pitch + c) = mrd m (c / base) (r * pitch + c)).
  Proof.
    intros HB. eapply round_weaken; [|change 1 with (2 ^ 0); replace base with (2 ^ 0 * base) by (simpl; lia);
      apply (@exchange_ok d HD m 0 d); auto; try lia].
    - cbv beta. intros m' [H1 H2]. split; auto. intros j r c Hj Hr Hc. apply H2; auto.
      destruct (Nat.eq_dec base 0) as [E0|E0]; [rewrite E0 in Hc; lia|].
      rewrite !Nat.div_small; auto. apply Nat.div_lt_upper_bound; lia.
    - rewrite HD. clear. induction d; simpl; [lia|]. assert (X := Nat.pow_nonzero 2 d ltac:(lia)). lia.
    - intros j r c Hj Hr Hc. simpl (2 ^ 0). rewrite !Nat.div_1_r. intros ->. reflexivity.
  Qed.
End Exchange.

(** one particular schedule *)
Section One.
  Context {T : Type}.
  Fixpoint run_rounds (rs : list (list (prog T))) (m : mem T) : option (mem T) :=
    match rs with
    | [] => Some m
    | ps :: r => match exec_seq ps m with Some m' => run_rounds r m' | None => None end
    end.

  Lemma all_ret_stuck (ps : list (prog T)) m c : Forall (eq PRet) ps -> ~ par_step (ps, m) c.
  Proof.
    intros H S. inversion S as [ps1 p ps2 m1 p' m' Ha E1 E2]; subst.
    apply Forall_app in H. destruct H as [_ H]. inversion H as [|? ? Hp]; subst. inversion Ha.
  Qed.

  Lemma every_round_run rs (m m' : mem T) good :
    every_round rs m good -> run_rounds rs m = Some m' -> good m'.
  Proof.
    revert m. induction rs as [|ps r IH]; intros m; cbn [every_round run_rounds].
    - now intros H [= ->].
    - intros [_ H]. destruct (exec_seq ps m) as [m1|] eqn:E; [|discriminate].
      apply exec_seq_par in E. destruct (H _ _ E) as (_ & _ & H2). apply IH. apply H2.
      intros c. apply all_ret_stuck. apply Forall_forall. intros p Hp.
      apply in_map_iff in Hp. destruct Hp as (? & <- & _). reflexivity.
  Qed.

  Lemma exec_crash (p : prog T) : forall m, exec p m = None -> forall ps1 ps2,
    exists p' m', par_run (ps1 ++ p :: ps2, m) (ps1 ++ p' :: ps2, m') /\ crashed p' m'.
  Proof.
    induction p as [|a i k IH|a i v k IH]; intros m E ps1 ps2; cbn [exec] in E.
    - discriminate.
    - destruct (mrd m a i) as [v|] eqn:R0.
      + destruct (IH v m E ps1 ps2) as (p' & m' & H & C). exists p', m'. split; auto.
        econstructor; [|exact H]. constructor. now constructor.
      + exists (PRd a i k), m. split; [constructor|exact R0].
    - destruct (mwr m a i v) as [m1|] eqn:R0.
      + destruct (IH m1 E ps1 ps2) as (p' & m' & H & C). exists p', m'. split; auto.
        econstructor; [|exact H]. constructor. now constructor.
      + exists (PWr a i v k), m. split; [constructor|exact R0].
  Qed.

  Lemma exec_seq_crash (ps : list (prog T)) : forall pre m, exec_seq ps m = None ->
    exists ps' m', par_run (pre ++ ps, m) (ps', m') /\ ~ Forall (fun p => ~ crashed p m') ps'.
  Proof.
    induction ps as [|p ps IH]; intros pre m E; cbn [exec_seq] in E; [discriminate|].
    destruct (exec p m) as [m1|] eqn:E1.
    - destruct (IH (pre ++ [PRet]) m1 E) as (ps' & m' & H & C).
      exists ps', m'. split; auto. eapply par_run_trans; [|exact H].
      rewrite <- app_assoc. cbn [app]. now apply exec_par.
    - destruct (exec_crash p m E1 pre ps) as (p' & m' & H & C).
      exists (pre ++ p' :: ps), m'. split; auto. intros F.
      apply Forall_app in F. destruct F as [_ F]. inversion F; auto.
  Qed.

  Lemma every_round_runs rs (m : mem T) good :
    every_round rs m good -> exists m', run_rounds rs m = Some m' /\ good m'.
  Proof.
    revert m. induction rs as [|ps r IH]; intros m; cbn [every_round run_rounds]; [eauto|].
    intros H. destruct (exec_seq ps m) as [m1|] eqn:E.
    - destruct H as [_ H]. apply exec_seq_par in E. destruct (H _ _ E) as (_ & _ & H2). apply IH, H2.
      intros c. apply all_ret_stuck. apply Forall_forall. intros p Hp.
      apply in_map_iff in Hp. destruct Hp as (? & <- & _). reflexivity.
    - destruct (@exec_seq_crash ps [] m E) as (ps' & m' & HR & C). destruct H as [_ H].
      destruct (H _ _ HR) as (F & _ & _). contradiction.
  Qed.
End One.
