(** The simulation program: lemmas. *)
From Coq Require Import Ascii String Bool ZArith NArith List Arith Lia.
From Verif Require Import Num Arr ArrLemmas ModelVertex ModelText ModelData ModelStream ModelEngine ModelSolverBase ModelSolver
  ModelRun ModelArgs ModelObject ModelMain SpecSolver SpecRun SpecResume SpecData SpecStream SpecMain LemEngine LemBuffers LemMisc
  LemOk LemSafe LemTwin LemRun LemResume LemStreamRead LemStreamRun LemStreamProp LemData LemArgs LemObject SpecArgs.
Import ListNotations.
Set Implicit Arguments.

(** ** the same run with another stream *)
Section Other.
  Context {T E W1 W2 : Type} (U : NumOps T) (ps : nat)
          (ef : E -> nat -> T -> list T -> list T -> option (E * list T))
          (garbage : nat -> list T) (count : nat)
          (write1 : W1 -> frame T -> W1 * bool) (write2 : W2 -> frame T -> W2 * bool).

  Definition alike (a : @run_state T E W1) (b : @run_state T E W2) : Prop :=
    rs_s a = rs_s b /\ rs_e a = rs_e b /\ rs_last_check a = rs_last_check b /\ rs_last_dump a = rs_last_dump b /\
    rs_checks a = rs_checks b /\ rs_dumps a = rs_dumps b.
  Notation good l := (Forall (fun b : bool => b = true) l).

  Lemma loop_other fuel p : forall a b w1 w2 a',
    alike a b -> rs_w a = Some w1 -> rs_w b = Some w2 ->
    run_loop U ps ef garbage count write1 fuel p a = Some (Returned 0 a') ->
    exists L, rs_dumps a' = rs_dumps a ++ L /\
      (good (snd (SpecRun.write_all write2 w2 L)) -> exists b',
        run_loop U ps ef garbage count write2 fuel p b = Some (Returned 0 b') /\ alike a' b' /\
        rs_w b' = Some (fst (SpecRun.write_all write2 w2 L))).
  Proof.
    induction fuel as [|fuel IH]; intros a b w1 w2 a' HA Ha Hb H; cbn [run_loop] in *;
      pose proof HA as (A1 & A2 & A3 & A4 & A5 & A6); rewrite <- A2;
      destruct (nltb U (e_time (rs_e a)) (rn_max_time p)) eqn:Ht.
    - discriminate.
    - injection H as <-. exists []. split; [now rewrite app_nil_r|]. intros _. exists b. cbn. auto.
    - unfold run_iter in H |- *. rewrite <- A1, <- A2, <- A3, <- A4, <- A5, <- A6.
      destruct (if rn_clamp p then _ else _) as [e1|]; [|discriminate]. cbn [obind] in *.
      destruct (advise U ps ef garbage (rn_dt p) (rs_s a) e1) as [[s1 x1]|]; [|discriminate]. cbn [obind] in *.
      destruct (if andb _ (due U p (rs_last_check a) _ _) then _ else _) as [lc ch].
      cbn [rs_w rs_last_dump] in *. rewrite Ha in H. rewrite Hb.
      destruct (andb (nltb U (nlit U 0) (rn_dump_dt p)) _).
      + unfold run_write in *. cbn [rs_e rs_s rs_last_check rs_last_dump rs_checks rs_dumps rs_w] in *.
        destruct (write1 w1 (frame_of x1)) as [w1' g1]. cbn [obind] in H.
        destruct g1; [|discriminate].
        destruct (write2 w2 (frame_of x1)) as [w2' g2] eqn:E2. cbn [obind].
        match type of H with run_loop _ _ _ _ _ _ _ _ ?st = _ => set (a1 := st) in * end.
        set (b1 := mkRunState s1 x1 (Some w2') lc (e_time x1) ch (rs_dumps a ++ [frame_of x1])).
        destruct (IH a1 b1 w1' w2' a') as (L & L1 & L2); auto.
        { unfold alike, a1, b1. cbn. auto 7. }
        exists (frame_of x1 :: L). split.
        { rewrite L1. unfold a1. cbn [rs_dumps]. now rewrite <- app_assoc. }
        cbn [SpecRun.write_all]. rewrite E2. destruct (SpecRun.write_all write2 w2' L) as [wl bs] eqn:EL.
        cbn [fst snd] in *. intros G. inversion G; subst. destruct (L2 H3) as (b' & B1 & B2 & B3).
        exists b'. split; auto.
      + cbn [obind] in *. match type of H with run_loop _ _ _ _ _ _ _ _ ?st = _ => set (a1 := st) in * end.
        set (b1 := mkRunState s1 x1 (Some w2) lc (rs_last_dump a) ch (rs_dumps a)).
        destruct (IH a1 b1 w1 w2 a') as (L & L1 & L2); auto.
        { unfold alike, a1, b1. cbn. auto 7. }
        exists L. split; auto.
    - injection H as <-. exists []. split; [now rewrite app_nil_r|]. intros _. exists b. cbn. auto.
  Qed.

  Lemma run_other fuel p s e w1 w2 a' :
    run U ps ef garbage count write1 fuel p s e (Some w1) = Some (Returned 0 a') ->
    good (snd (SpecRun.write_all write2 w2 (rs_dumps a'))) ->
    exists b', run U ps ef garbage count write2 fuel p s e (Some w2) = Some (Returned 0 b') /\ alike a' b' /\
      rs_w b' = Some (fst (SpecRun.write_all write2 w2 (rs_dumps a'))).
  Proof.
    unfold run, run_start. destruct (andb _ _).
    - unfold run_write. cbn [rs_e rs_s rs_last_check rs_last_dump rs_checks rs_dumps rs_w].
      destruct (write1 w1 (frame_of e)) as [w1' g1]. destruct g1; [|discriminate].
      destruct (write2 w2 (frame_of e)) as [w2' g2] eqn:E2. intros H G.
      match type of H with run_loop _ _ _ _ _ _ _ _ ?st = _ => set (a1 := st) in * end.
      match goal with |- context [run_loop _ _ _ _ _ _ _ _ ?st] => set (b1 := st) in * end.
      destruct (@loop_other fuel p a1 b1 w1' w2' a') as (L & L1 & L2); auto.
      { unfold alike, a1, b1. cbn. auto 7. }
      unfold a1 in L1. cbn [rs_dumps app] in L1. rewrite L1 in *. cbn [SpecRun.write_all] in *. rewrite E2 in *.
      destruct (SpecRun.write_all write2 w2' L) as [wl bs] eqn:EL. cbn [fst snd] in *. inversion G; subst. auto.
    - intros H G. match type of H with run_loop _ _ _ _ _ _ _ _ ?st = _ => set (a1 := st) in * end.
      match goal with |- context [run_loop _ _ _ _ _ _ _ _ ?st] => set (b1 := st) in * end.
      destruct (@loop_other fuel p a1 b1 w1 w2 a') as (L & L1 & L2); auto.
      { unfold alike, a1, b1. cbn. auto 7. }
      unfold a1 in L1. cbn [rs_dumps app] in L1. rewrite L1 in *. auto.
  Qed.
End Other.

(** ** bytes *)
Section Bytes.
  Context {T C : Type} (U : NumOps T) (B : Codec T C).
  Hypothesis HB : sized B.
  Notation cs := (n_size B).

  Lemma piece_concat s : forall (l : list text) i, Forall (fun b => length b = s) l -> i < length l ->
    piece s i (concat l) = nth i l [].
  Proof.
    unfold piece. induction l as [|a l IH]; intros i F Hi; [cbn in Hi; lia|]. inversion F as [|? ? Ha Fl]; subst.
    destruct i as [|i]; cbn [concat nth Nat.mul].
    - cbn [skipn]. rewrite firstn_app, Nat.sub_diag, firstn_all. cbn. apply app_nil_r.
    - cbn [length] in Hi. rewrite skipn_app, skipn_all2 by lia. cbn [app].
      replace (length a + i * length a - length a) with (i * length a) by lia. apply IH; auto. lia.
  Qed.
  Lemma numbers_back (l : list T) : Forall (recovers B) l ->
    map (number_at B (concat (map (n_bytes B) l))) (seq 0 (length l)) = l.
  Proof.
    intros V. destruct HB as (_ & L & _). apply nth_error_ext; [now rewrite map_length, seq_length|].
    rewrite map_length, seq_length. intros i Hi. rewrite nth_map by lia.
    unfold number_at. rewrite piece_concat.
    - rewrite (nth_indep _ [] (n_bytes B (nlit U 0))) by (rewrite map_length; lia). rewrite map_nth.
      rewrite Forall_forall in V. rewrite V by (apply nth_In; lia). symmetry. apply nth_error_nth'. lia.
    - apply Forall_forall. intros b Hb. apply in_map_iff in Hb. destruct Hb as (x & <- & _). apply L.
    - rewrite map_length. lia.
  Qed.
  Definition nums (l : list (vec3 T)) : list T := flat_map (fun v => [vx v; vy v; vz v]) l.
  Lemma nums_length l : length (nums l) = 3 * length l.
  Proof. induction l as [|v l IH]; cbn [nums flat_map app length] in *; auto. unfold nums in IH. lia. Qed.
  Lemma nums_bytes l : concat (map (vector_bytes B) l) = concat (map (n_bytes B) (nums l)).
  Proof.
    induction l as [|v l IH]; auto. cbn [map concat nums flat_map app]. unfold nums in IH. rewrite IH. unfold vector_bytes.
    now rewrite <- !app_assoc.
  Qed.
  Lemma nums_nth l : forall i v, nth_error l i = Some v ->
    nth_error (nums l) (3 * i) = Some (vx v) /\ nth_error (nums l) (3 * i + 1) = Some (vy v) /\
    nth_error (nums l) (3 * i + 2) = Some (vz v).
  Proof.
    induction l as [|a l IH]; intros [|i] v H; try discriminate.
    - injection H as ->. repeat split; reflexivity.
    - specialize (IH _ _ H). replace (3 * S i) with (3 + 3 * i) by lia. cbn [nums flat_map app]. exact IH.
  Qed.
  Lemma vectors_back (l : list (vec3 T)) : Forall (recovers B) (nums l) ->
    map (vector_at B (concat (map (vector_bytes B) l))) (seq 0 (length l)) = l.
  Proof.
    intros V. apply nth_error_ext; [now rewrite map_length, seq_length|].
    rewrite map_length, seq_length. intros i Hi. rewrite nth_map by lia.
    destruct (nth_error l i) as [v|] eqn:E; [|apply nth_error_None in E; lia].
    destruct (nums_nth l i E) as (A1 & A2 & A3). f_equal. unfold vector_at. rewrite nums_bytes.
    assert (G : forall j x, nth_error (nums l) j = Some x -> number_at B (concat (map (n_bytes B) (nums l))) j = x).
    { intros j x Hj. pose proof (numbers_back V) as NB.
      assert (j < length (nums l)) by (apply nth_error_Some; congruence).
      apply (f_equal (fun l => nth_error l j)) in NB. rewrite nth_map in NB by lia. congruence. }
    rewrite (G _ _ A1), (G _ _ A2), (G _ _ A3). now destruct v.
  Qed.

  (** *** state vectors *)
  Definition rows (n off : nat) (y : list T) : list (vec3 T) :=
    map (fun i => V3 (nth (off * n + i) y (nlit U 0)) (nth ((off + 1) * n + i) y (nlit U 0))
                     (nth ((off + 2) * n + i) y (nlit U 0))) (seq 0 n).
  Lemma rows_length n off y : length (rows n off y) = n.
  Proof. unfold rows. now rewrite map_length, seq_length. Qed.
  Lemma nums_rows n off y (P : T -> Prop) : (off + 3) * n <= length y -> Forall P y -> Forall P (nums (rows n off y)).
  Proof.
    intros H V. rewrite Forall_forall in V. apply Forall_forall. intros x Hx. unfold nums, rows in Hx.
    apply in_flat_map in Hx. destruct Hx as (v & Hv & Hx). apply in_map_iff in Hv. destruct Hv as (i & <- & Hi).
    apply in_seq in Hi. cbn in Hx. destruct Hx as [<-|[<-|[<-|[]]]]; apply V, nth_In; nia.
  Qed.
  Lemma vectors_rows n off y : vectors U B n off y = concat (map (vector_bytes B) (rows n off y)).
  Proof. unfold vectors, rows. rewrite map_map. reflexivity. Qed.
  Lemma rd3_rows n off y i : i < n -> (off + 3) * n <= length y -> rd3 y n off i = nth_error (rows n off y) i.
  Proof.
    intros Hi Hl. unfold rd3, rows. rewrite nth_map by lia.
    rewrite !(rd_nth y (nlit U 0)) by nia. reflexivity.
  Qed.
  Lemma get_data_rows n (y : list T) v0 w0 : length v0 = n -> length w0 = n -> 6 * n <= length y ->
    engine_get_data n y v0 w0 = Some (rows n 0 y, rows n 3 y).
  Proof.
    intros H1 H2 H3. apply get_data_ok; auto; try apply rows_length.
    intros i Hi. split; apply rd3_rows; auto; lia.
  Qed.
  Lemma get_data_long n (y : list T) v0 w0 r : engine_get_data n y v0 w0 = Some r -> 6 * n <= length y.
  Proof.
    destruct n as [|n]; [lia|]. unfold engine_get_data. rewrite for_succ.
    destruct (for_ n 0 _ (v0, w0)) as [st|]; [|discriminate]. cbn [obind Nat.add]. unfold get_data_body.
    destruct (rd3 y (S n) 0 n) as [?|]; [|discriminate]. cbn [obind].
    destruct (rd3 y (S n) 3 n) as [?|] eqn:E; [|discriminate]. intros _. unfold rd3, rd in E.
    destruct (nth_error y (3 * S n + n)); [|discriminate]. cbn [obind] in E.
    destruct (nth_error y ((3 + 1) * S n + n)); [|discriminate]. cbn [obind] in E.
    destruct (nth_error y ((3 + 2) * S n + n)) eqn:E2; [|discriminate].
    assert ((3 + 2) * S n + n < length y) by (apply nth_error_Some; congruence). lia.
  Qed.
  (** a state vector is its rows *)
  Lemma cut_nth {A} (l : list A) : forall i j, nth_error (skipn i l) j = nth_error l (i + j).
  Proof. induction l as [|a l IH]; intros [|i] j; cbn; auto. now destruct j. Qed.
  Lemma first_nth {A} (l : list A) : forall k j, j < k -> nth_error (firstn k l) j = nth_error l j.
  Proof. induction l as [|a l IH]; intros [|k] [|j] H; cbn; auto; try lia. apply IH. lia. Qed.
  Lemma cut_cut {A} : forall i (l : list A) j, skipn j (skipn i l) = skipn (i + j) l.
  Proof. induction i as [|i IH]; intros [|a l] j; cbn; auto. now destruct j. Qed.
  Definition row (n r : nat) (y : list T) : list T := map (fun i => nth (r * n + i) y (nlit U 0)) (seq 0 n).
  Lemma row_cut n r (y : list T) : (r + 1) * n <= length y -> row n r y = firstn n (skipn (r * n) y).
  Proof.
    intros H. apply nth_error_ext.
    - unfold row. rewrite map_length, seq_length, firstn_length, skipn_length. lia.
    - unfold row. rewrite map_length, seq_length. intros i Hi. rewrite nth_map by lia.
      rewrite first_nth by lia. rewrite cut_nth. symmetry. apply nth_error_nth'. lia.
  Qed.
  Lemma rows_all n (y : list T) : length y = 6 * n ->
    y = row n 0 y ++ row n 1 y ++ row n 2 y ++ row n 3 y ++ row n 4 y ++ row n 5 y.
  Proof.
    intros H. rewrite !row_cut by lia.
    assert (K : forall r, skipn n (skipn (r * n) y) = skipn (S r * n) y).
    { intros r. rewrite cut_cut. f_equal; lia. }
    rewrite <- (firstn_skipn n y) at 1. cbn [Nat.mul skipn]. f_equal.
    rewrite <- (firstn_skipn n (skipn n y)) at 1. f_equal; [f_equal; f_equal; lia|].
    replace (skipn n (skipn n y)) with (skipn (2 * n) y) by (rewrite cut_cut; f_equal; lia).
    rewrite <- (firstn_skipn n (skipn (2 * n) y)) at 1. f_equal. rewrite (K 2).
    rewrite <- (firstn_skipn n (skipn (3 * n) y)) at 1. f_equal. rewrite (K 3).
    rewrite <- (firstn_skipn n (skipn (4 * n) y)) at 1. f_equal. rewrite (K 4).
    symmetry. apply firstn_all2. rewrite skipn_length. lia.
  Qed.
  Lemma rows_x n off y : map (@vx T) (rows n off y) = row n off y.
  Proof. unfold rows, row. rewrite map_map. reflexivity. Qed.
  Lemma rows_y n off y : map (@vy T) (rows n off y) = row n (off + 1) y.
  Proof. unfold rows, row. rewrite map_map. reflexivity. Qed.
  Lemma rows_z n off y : map (@vz T) (rows n off y) = row n (off + 2) y.
  Proof. unfold rows, row. rewrite map_map. reflexivity. Qed.
  Lemma state_rows (d : @data T C) y : length y = 6 * b_count d ->
    b_vert d = rows (b_count d) 0 y -> b_velo d = rows (b_count d) 3 y -> state d = y.
  Proof.
    intros H A1 A2. unfold state. rewrite A1, A2, !rows_x, !rows_y, !rows_z. cbn [Nat.add].
    symmetry. now apply rows_all.
  Qed.
  Lemma init_state (d : @data T C) gm gy : rectangular d -> length gm = b_count d -> length gy = 6 * b_count d ->
    engine_init (b_count d) (b_vert d) (b_velo d) (b_mass d) gm gy = Some (b_mass d, state d) /\
    length (state d) = 6 * b_count d.
  Proof.
    intros (R1 & R2 & R3 & _) L1 L2.
    destruct (@init_ok T (b_count d) (b_vert d) (b_velo d) (b_mass d) gm gy R1 R2 R3 L1 L2) as (y & E & Hy & H).
    assert (S : state d = y).
    { apply state_rows; auto.
      - apply nth_error_ext; [now rewrite rows_length|]. rewrite R1. intros i Hi. destruct (H i Hi) as [<- _].
        apply rd3_rows; lia.
      - apply nth_error_ext; [now rewrite rows_length|]. rewrite R2. intros i Hi. destruct (H i Hi) as [_ <-].
        apply rd3_rows; lia. }
    rewrite S. split; auto.
  Qed.
End Bytes.

(** ** frames on disk *)
Section Frames.
  Context {T C : Type} (U : NumOps T) (X : TextOps T) (B : Codec T C).
  Notation cs := (n_size B).
  Notation data := (@data T C).
  Notation wfr := (write_frame X B).
  Notation good l := (Forall (fun b : bool => b = true) l).
  Notation long d := (fun f : frame T => 6 * b_count d <= length (fr_y f)).

  Lemma image_shot (d : data) f :
    image_of B (data_with d f (rows U (b_count d) 0 (fr_y f)) (rows U (b_count d) 3 (fr_y f))) = shot U B d f.
  Proof. unfold image_of, shot, data_with. cbn. now rewrite !(vectors_rows U B). Qed.
  Lemma shot_next (d : data) g v w f : shot U B (data_with d g v w) f = shot U B d f.
  Proof. reflexivity. Qed.

  Lemma write_one (d : data) f w k w' k' g : length (b_vert d) = b_count d -> length (b_velo d) = b_count d ->
    long d f -> stream_write X cs (shot U B d f) w k = (w', k', g) ->
    wfr (Some (w, k, d)) f =
      (Some (w', k', data_with d f (rows U (b_count d) 0 (fr_y f)) (rows U (b_count d) 3 (fr_y f))), g).
  Proof.
    intros H1 H2 H3 E. unfold write_frame.
    assert (EG : engine_get_data (b_count d) (fr_y f) (b_vert d) (b_velo d) =
      Some (rows U (b_count d) 0 (fr_y f), rows U (b_count d) 3 (fr_y f))) by (apply get_data_rows; auto).
    rewrite EG. cbv zeta. rewrite image_shot, E. reflexivity.
  Qed.
  Lemma writes_frames l : forall w k (d : data) w' k', length (b_vert d) = b_count d -> length (b_velo d) = b_count d ->
    Forall (long d) l -> SpecStream.write_all X cs (map (shot U B d) l) w k = (w', k', true) ->
    exists d' bs, SpecRun.write_all wfr (Some (w, k, d)) l = (Some (w', k', d'), bs) /\ good bs.
  Proof.
    induction l as [|f l IH]; intros w k d w' k' H1 H2 HL E.
    - cbn in E. injection E as <- <-. exists d, []. split; auto.
    - inversion HL as [|? ? Hf Hl]; subst. cbn [map SpecStream.write_all] in E.
      destruct (stream_write X cs (shot U B d f) w k) as [[w1 k1] g] eqn:E1. destruct g; [|discriminate].
      cbn [SpecRun.write_all]. rewrite (@write_one d f w k w1 k1 true H1 H2 Hf E1).
      set (d1 := data_with d f _ _).
      destruct (IH w1 k1 d1 w' k') as (d' & bs & E2 & G).
      + cbn. apply rows_length.
      + cbn. apply rows_length.
      + exact Hl.
      + exact E.
      + rewrite E2. exists d', (true :: bs). split; auto.
  Qed.
  Lemma frames_written l : forall w k (d : data) s bs, length (b_vert d) = b_count d -> length (b_velo d) = b_count d ->
    SpecRun.write_all wfr (Some (w, k, d)) l = (s, bs) -> good bs ->
    exists w' k' d', s = Some (w', k', d') /\
      SpecStream.write_all X cs (map (shot U B d) l) w k = (w', k', true) /\ Forall (long d) l.
  Proof.
    induction l as [|f l IH]; intros w k d s bs H1 H2 E G.
    - cbn in E. injection E as <- <-. exists w, k, d. split; [reflexivity|]. split; [reflexivity|]. constructor.
    - cbn [SpecRun.write_all] in E.
      destruct (engine_get_data (b_count d) (fr_y f) (b_vert d) (b_velo d)) as [r|] eqn:Eg.
      + pose proof (get_data_long _ _ _ _ Eg) as Hf.
        destruct (stream_write X cs (shot U B d f) w k) as [[w1 k1] g] eqn:E1.
        rewrite (@write_one d f w k w1 k1 g H1 H2 Hf E1) in E. set (d1 := data_with d f _ _) in *.
        destruct (SpecRun.write_all wfr (Some (w1, k1, d1)) l) as [s1 bs1] eqn:E2. injection E as <- <-.
        inversion G as [|? ? Hg Hg']; subst.
        destruct (IH w1 k1 d1 s1 bs1) as (w' & k' & d' & -> & E3 & HL).
        { cbn. apply rows_length. } { cbn. apply rows_length. } { exact E2. } { exact Hg'. }
        exists w', k', d'. split; [reflexivity|]. split.
        * cbn [map SpecStream.write_all]. rewrite E1. exact E3.
        * constructor; auto.
      + unfold write_frame in E. rewrite Eg in E. destruct (SpecRun.write_all _ None l) as [s1 bs1].
        injection E as <- <-. inversion G; subst. discriminate.
  Qed.

  (** no failures *)
  Definition ready (w : writer) (k : disk) : Prop := k_io k = [] /\ w_idx w <> None /\ w_data w <> None.
  Lemma put_io name bytes k : k_io k = [] -> exists n, put name bytes k = (n, happen k (App name bytes)) /\ n = length bytes.
  Proof. intros H. unfold put, outcome. rewrite H. cbn. rewrite firstn_all. eauto. Qed.
  Lemma write_file_io name bytes k : k_io k = [] -> exists k', write_file name bytes k = (k', true) /\ k_io k' = [].
  Proof.
    intros H. unfold write_file, open_file, outcome. rewrite H. cbn [happen k_io].
    rewrite H. cbn [taken]. destruct (@put_io name (firstn (length bytes) bytes) (happen k (Create name))) as (n & -> & _).
    { exact H. }
    rewrite Nat.eqb_refl. eexists. split; [reflexivity|exact H].
  Qed.
  Lemma write_ready b w k : ready w k -> exists w' k', stream_write X cs b w k = (w', k', true) /\ ready w' k'.
  Proof.
    intros (H1 & H2 & H3). unfold stream_write. destruct (w_idx w) as [ni|] eqn:Ei; [|congruence]. clear H2.
    assert (exists w1 k1, (if w_header w then (w, k, true) else write_header cs b w k) = (w1, k1, true) /\
      k_io k1 = [] /\ w_idx w1 = Some ni /\ w_data w1 <> None) as (w1 & k1 & -> & I1 & I2 & I3).
    { destruct (w_header w); [exists w, k; auto|]. unfold write_header.
      destruct (@write_file_io (make_col_name (w_base (set_index w (w_idx w) (w_buf w ++ header_text cs b) (w_ok w))))
        (d_color b) k H1) as (k2 & -> & K2).
      destruct (@write_file_io (make_mass_name (w_base (set_index w (w_idx w) (w_buf w ++ header_text cs b) (w_ok w))))
        (d_mass b) k2 K2) as (k3 & -> & K3).
      eexists _, _. split; [reflexivity|]. auto. }
    cbn [negb].
    match goal with |- context [if andb _ _ then ?a else ?c] =>
      assert (exists w2 k2, (if andb (Z.ltb 0 (w_max w1)) (Z.leb (w_max w1) (Z.of_nat (w_pos w1))) then a else c)
        = (w2, k2, true) /\ k_io k2 = [] /\ w_idx w2 = Some ni /\ w_data w2 <> None) as (w2 & k2 & -> & J1 & J2 & J3) end.
    { destruct (andb _ _); [|exists w1, k1; auto]. unfold open_data_file, close_data. cbn [w_data set_file_n].
      destruct (w_data w1) as [nm|]; [|congruence]. cbn [w_pend set_file_n].
      destruct (@put_io nm (w_pend w1) k1 I1) as (? & -> & _). cbn zeta. unfold open_file, outcome. cbn [happen k_io].
      rewrite I1. eexists _, _. split; [reflexivity|]. cbn. split; auto. split; [exact I2|discriminate]. }
    cbn [negb]. unfold write_data at 1. destruct (w_data w2) as [nm|]; [|congruence].
    unfold outcome at 1. rewrite J1. cbn [taken]. rewrite Nat.eqb_refl. cbn [negb].
    unfold write_data. cbn [w_data set_data]. unfold outcome at 1. rewrite J1. cbn [taken]. rewrite Nat.eqb_refl. cbn [negb].
    unfold flush_data. cbn [w_data set_data]. match goal with |- context [put nm ?bs k2] =>
      destruct (@put_io nm bs k2 J1) as (? & -> & _) end.
    unfold flush_index. cbn [w_idx set_index set_data]. rewrite J2.
    destruct (w_ok _).
    - match goal with |- context [put ni ?bs ?kk] => destruct (@put_io ni bs kk J1) as (? & -> & _) end.
      eexists _, _. split; [reflexivity|]. split; [exact J1|]. split; discriminate.
    - eexists _, _. split; [reflexivity|]. split; [exact J1|]. cbn. split; discriminate.
  Qed.
  Lemma open_ready base max append k : k_io k = [] ->
    exists w' k', stream_open base max append new_writer k = (w', k', true) /\ ready w' k'.
  Proof.
    intros H. unfold stream_open, open_data_file, close_data, open_file, outcome, new_writer. cbn [w_data].
    rewrite H. cbn [negb k_io happen]. unfold open_index_file, open_file, outcome. cbn [k_io happen]. rewrite H.
    eexists _, _. split; [reflexivity|]. split; [exact H|]. split; discriminate.
  Qed.
  (** without failures only undefined behaviour ends a sequence of writes *)
  Lemma frames_ready l : forall w k (d : data) s bs, length (b_vert d) = b_count d -> length (b_velo d) = b_count d ->
    ready w k -> SpecRun.write_all wfr (Some (w, k, d)) l = (s, bs) -> s = None \/ good bs.
  Proof.
    assert (NN : forall l0 s bs, SpecRun.write_all wfr None l0 = (s, bs) -> s = None).
    { induction l0 as [|f l0 IH]; intros s bs E; cbn in E; [congruence|].
      destruct (SpecRun.write_all wfr None l0) as [s1 bs1] eqn:E1. injection E as <- _. eauto. }
    induction l as [|f l IH]; intros w k d s bs H1 H2 HR E.
    - cbn in E. injection E as <- <-. auto.
    - cbn [SpecRun.write_all] in E.
      destruct (engine_get_data (b_count d) (fr_y f) (b_vert d) (b_velo d)) as [r|] eqn:Eg.
      + pose proof (get_data_long _ _ _ _ Eg) as Hf. destruct (write_ready (shot U B d f) HR) as (w1 & k1 & E1 & R1).
        rewrite (@write_one d f w k w1 k1 true H1 H2 Hf E1) in E. set (d1 := data_with d f _ _) in *.
        destruct (SpecRun.write_all wfr (Some (w1, k1, d1)) l) as [s1 bs1] eqn:E2. injection E as <- <-.
        destruct (IH w1 k1 d1 s1 bs1) as [Z|Z]; auto; cbn; apply rows_length.
      + assert (EX : wfr (Some (w, k, d)) f = (None, false)) by (unfold write_frame; now rewrite Eg).
        rewrite EX in E. destruct (SpecRun.write_all wfr None l) as [s1 bs1] eqn:E2.
        injection E as <- <-. left. eapply NN; eauto.
  Qed.
End Frames.

(** ** the simulation *)
Section Program.
  Context {T C : Type} (U : NumOps T) (X : TextOps T) (K : Colors C) (B : Codec T C)
          (to_size : T -> option N) (pow3 : T -> T) (uniform : T -> nat -> T)
          (split : nat -> T -> list T -> nat -> nat -> list nat -> list nat)
          (garbage : nat -> nat -> list T).
  Hypothesis Hg : forall n i, length (garbage n i) = 6 * n.
  Notation cs := (n_size B).
  Notation data := (@data T C).
  Notation wfr := (write_frame X B).
  Notation good l := (Forall (fun b : bool => b = true) l).
  Notation long d := (fun f : frame T => 6 * b_count d <= length (fr_y f)).
  Notation simulate := (simulate U X B split garbage).
  Notation simulation := (simulation U X split garbage).

  Lemma quiet_all l : good (snd (SpecRun.write_all (@quiet T) tt l)).
  Proof.
    induction l as [|f l IH]; cbn [SpecRun.write_all quiet]; [constructor|].
    destruct (SpecRun.write_all _ tt l) as [w bs]. cbn in *. auto.
  Qed.
  Lemma alike_frames E W1 W2 (a : @run_state T E W1) (b : @run_state T E W2) : alike a b -> rs_dumps b = rs_dumps a.
  Proof. intros (_ & _ & _ & _ & _ & H). auto. Qed.

  Lemma mass_length n : length (firstn n (garbage n 0)) = n.
  Proof. rewrite firstn_length, Hg. lia. Qed.

  Lemma simulate_inv fuel m b o c fs k' : rectangular (bg_data b) ->
    simulate fuel m b o c (fresh_disk fs) = Some (Exit 0 k') ->
    exists st w', simulation fuel m (bg_data b) o c = Some (Returned 0 st) /\
      Forall (long (bg_data b)) (rs_dumps st) /\
      record_on X cs new_writer (bg_output b) (arg_max_part m) (bg_append b)
        (map (shot U B (bg_data b)) (rs_dumps st)) fs = (w', k', true).
  Proof.
    intros HR. unfold ModelMain.simulate.
    destruct (@init_state T C U (bg_data b) (firstn (b_count (bg_data b)) (garbage (b_count (bg_data b)) 0))
      (garbage (b_count (bg_data b)) 1) HR (mass_length _) (Hg _ _)) as (-> & _). cbn [obind]. unfold record_on, fresh_disk.
    destruct (stream_open _ _ _ _ _) as [[w k] g]. destruct g; [|discriminate]. cbn [negb].
    match goal with |- obind ?x _ = _ -> _ => destruct x as [r|] eqn:ER; [|discriminate] end. cbn [obind].
    destruct r as [code st|st].
    2: { destruct (rs_w st) as [[[[]]|]|]; discriminate. }
    destruct (rs_w st) as [s|] eqn:ES; [|discriminate]. cbn [obind]. destruct s as [[[w1 k1] d1]|]; [|discriminate].
    cbn [obind]. intros H. injection H as -> <-.
    destruct (run_spec _ _ _ _ _ _ _ _ _ _ _ ER) as (fr & du & ch & _ & _ & _ & _ & _ & _ & _ & F & _).
    cbn [final succeeded Z.eqb] in F. destruct F as [F1 F2]. rewrite ES in F1.
    destruct (SpecRun.write_all wfr (Some (w, k, bg_data b)) (rs_dumps st)) as [s bs] eqn:EW. cbn [fst snd] in F1, F2.
    injection F1 as <-.
    destruct HR as (R1 & R2 & _).
    destruct (@frames_written T C U X B _ _ _ _ _ _ R1 R2 EW F2) as (w2 & k2 & d2 & E2 & E3 & HL).
    injection E2 as -> -> ->.
    destruct (@run_other T _ _ unit U _ _ _ _ wfr (@quiet T) _ _ _ _ _ tt _ ER (quiet_all _)) as (bb & RB & AB & _).
    exists bb, (fst (stream_close w2 k2)). rewrite (alike_frames AB). split; [exact RB|]. split; [exact HL|]. rewrite E3.
    destruct (stream_close w2 k2) as [w3 k3]. reflexivity.
  Qed.

  Lemma simulate_ok fuel m b o c fs k' st w' : rectangular (bg_data b) ->
    simulation fuel m (bg_data b) o c = Some (Returned 0 st) ->
    Forall (long (bg_data b)) (rs_dumps st) ->
    record_on X cs new_writer (bg_output b) (arg_max_part m) (bg_append b)
        (map (shot U B (bg_data b)) (rs_dumps st)) fs = (w', k', true) ->
    simulate fuel m b o c (fresh_disk fs) = Some (Exit 0 k').
  Proof.
    intros HR HS HL HRec. unfold ModelMain.simulate.
    destruct (@init_state T C U (bg_data b) (firstn (b_count (bg_data b)) (garbage (b_count (bg_data b)) 0))
      (garbage (b_count (bg_data b)) 1) HR (mass_length _) (Hg _ _)) as (-> & _). cbn [obind].
    unfold record_on, fresh_disk in *.
    destruct (stream_open _ _ _ _ _) as [[w k] g]. destruct g; [|discriminate]. cbn [negb].
    destruct (SpecStream.write_all X cs _ w k) as [[w1 k1] g1] eqn:EW.
    destruct (stream_close w1 k1) as [w2 k2] eqn:EC. injection HRec as -> -> ->.
    destruct HR as (R1 & R2 & _).
    destruct (@writes_frames T C U X B _ _ _ _ _ _ R1 R2 HL EW) as (d' & bs & E2 & G).
    destruct (@run_other T _ unit _ U _ _ _ _ (@quiet T) wfr _ _ _ _ tt (Some (w, k, bg_data b)) _ HS) as (bb & RB & AB & RW).
    { rewrite E2. exact G. }
    match goal with |- obind ?x _ = _ => replace x with (Some (Returned 0 bb)) end. cbn [obind].
    rewrite RW, E2. cbn [fst obind]. now rewrite EC.
  Qed.

  Lemma simulate_code fuel m b o c k code k' : rectangular (bg_data b) -> k_io k = [] ->
    simulate fuel m b o c k = Some (Exit code k') -> code = 0%Z.
  Proof.
    intros HR HI. unfold ModelMain.simulate.
    destruct (@init_state T C U (bg_data b) (firstn (b_count (bg_data b)) (garbage (b_count (bg_data b)) 0))
      (garbage (b_count (bg_data b)) 1) HR (mass_length _) (Hg _ _)) as (-> & _). cbn [obind].
    destruct (open_ready (bg_output b) (arg_max_part m) (bg_append b) k HI) as (w1 & k1 & -> & R1). cbn [negb].
    match goal with |- obind ?x _ = _ -> _ => destruct x as [r|] eqn:ER; [|discriminate] end. cbn [obind].
    destruct r as [cc st|st].
    2: { destruct (rs_w st) as [[[[]]|]|]; discriminate. }
    destruct (rs_w st) as [s|] eqn:ES; [|discriminate]. cbn [obind]. destruct s as [[[w2 k2] d2]|]; [|discriminate].
    cbn [obind]. intros H. injection H as -> <-.
    destruct (run_spec _ _ _ _ _ _ _ _ _ _ _ ER) as (fr & du & ch & _ & _ & _ & (CC & _) & _ & _ & _ & F & _).
    destruct CC as [->| ->]; [reflexivity|]. cbn [final succeeded Z.eqb] in F. destruct F as [F1 (bs & F2 & _)].
    rewrite ES in F1. destruct (SpecRun.write_all wfr (Some (w1, k1, bg_data b)) (rs_dumps st)) as [s bs'] eqn:EW.
    cbn [fst snd] in F1, F2. injection F1 as <-. destruct HR as (Q1 & Q2 & _).
    destruct (@frames_ready T C U X B _ _ _ _ _ _ Q1 Q2 R1 EW) as [Z|Z]; [discriminate|].
    rewrite F2 in Z. apply Forall_app in Z. destruct Z as [_ Z]. inversion Z. discriminate.
  Qed.

  Notation begin_with := (begin_with U X K B to_size pow3 uniform).
  Notation begins_at := (begins_at U X K to_size pow3 uniform).
  Notation main := (main U X K B to_size pow3 uniform split garbage).

  Lemma begin_fresh fuel m fs b : value m "resume" [] = [] -> begin_with fuel m fs = Some (Begins b) ->
    begins_at fuel m fs (bg_data b) /\ bg_output b = arg_output m /\ bg_append b = None /\ rectangular (bg_data b).
  Proof.
    intros HV. unfold ModelMain.begin_with, SpecMain.begins_at. rewrite HV. cbn [is_nil negb].
    destruct (value m "initial_state" []) as [|a l] eqn:EI.
    - cbn [is_nil negb]. match goal with |- obind ?x _ = _ -> _ => destruct x as [r|] eqn:ER; [|discriminate] end.
      cbn [obind]. destruct r as [d|d]; [|discriminate]. intros H. injection H as <-. cbn.
      split; [exact ER|]. split; auto. split; auto. apply (rect_universe _ _ _ _ _ _ _ _ _ _ _ ER).
    - cbn [is_nil negb]. match goal with |- obind ?x _ = _ -> _ => destruct x as [[d g]|] eqn:ER; [|discriminate] end.
      cbn [obind]. destruct g; [|discriminate]. intros H. injection H as <-. cbn.
      split; [reflexivity|]. split; auto. split; auto. eapply rect_initial; [|exact ER]. repeat split.
  Qed.
  Lemma fresh_begin fuel m fs d : value m "resume" [] = [] -> begins_at fuel m fs d ->
    begin_with fuel m fs = Some (Begins (mkBeginning d (arg_output m) None)).
  Proof.
    intros HV. unfold ModelMain.begin_with, SpecMain.begins_at. rewrite HV. cbn [is_nil negb].
    destruct (value m "initial_state" []) as [|a l] eqn:EI; cbn [is_nil negb].
    - unfold arg_box. intros ->. reflexivity.
    - intros ->. reflexivity.
  Qed.
End Program.

(** ** recording twice *)
Section Twice.
  Context {T : Type} (X : TextOps T) (cs : nat).
  Lemma two_sessions base max1 max2 n b fr1 fr2 fs :
    sequence_ok X cs n (b :: fr1) -> Forall (frame_ok X cs n) fr2 ->
    (bytes_of cs n (b :: fr1 ++ fr2) < 2 ^ 63)%N ->
    exists w1 k1 recs c,
      record_on X cs new_writer base max1 None (b :: fr1) fs = (w1, k1, true) /\
      map (fun c => c_frame c) recs = b :: fr1 /\ on_disk X cs (k_fs k1) base b recs /\ header_ok cs n b /\
      Forall (rec_ok X cs n) recs /\ nth_error recs (length recs - 1) = Some c /\
      exists w2 k2, record_on X cs new_writer base max2 (Some (c_part c)) fr2 (k_fs k1) = (w2, k2, true) /\
        replays X cs (k_fs k2) base n b (b :: fr1 ++ fr2).
  Proof.
    intros Hs F2 Hb. pose proof Hs as (F & A1 & A2 & A3).
    assert (Hb1 : (bytes_of cs n (b :: fr1) < 2 ^ 63)%N).
    { unfold bytes_of in *. cbn [length] in *. rewrite app_length in Hb. nia. }
    destruct (@session T X cs (6 * cs * n) base max1 b fr1 new_writer fs eq_refl eq_refl eq_refl (frames_size F))
      as (recs & w' & evs & E & M & O & Bd & _ & (last & Ty) & _).
    assert (Hh : header_ok cs n b) by (eapply sequence_header; exact Hs).
    assert (Hr : Forall (rec_ok X cs n) recs).
    { eapply bound_recs; [exact F|exact M|exact Bd| |cbn [N.of_nat]; lia].
      apply (@count_bytes T cs n); [lia|lia|exact Hb1]. }
    assert (Ne : recs <> []) by (intros Y; rewrite Y in M; discriminate M).
    assert (PL : forall p (l : list (@rec T)), Forall (fun c => length (image (c_frame c)) = 6 * cs * n) l ->
      length (part_bytes p l) <= length l * (6 * cs * n)).
    { intros p l. unfold part_bytes. induction 1 as [|x l Hx Hl IH]; [cbn; lia|]. cbn [filter length Nat.mul].
      destruct (N.eqb _ _); cbn [map concat]; [rewrite app_length; lia|lia]. }
    destruct (nth_error recs (length recs - 1)) as [c|] eqn:Ec.
    2:{ apply nth_error_None in Ec. destruct recs; [contradiction|]. cbn in Ec. lia. }
    exists w', (mkDisk (after fs evs) [] evs), recs, c. split; [exact E|]. split; [exact M|]. split; [exact O|].
    split; [exact Hh|]. split; [exact Hr|]. split; [exact Ec|]. cbn [k_fs].
    assert (Hp : Forall (fun d => (c_part d <= c_part c)%N) recs).
    { pose proof Ec as Y. apply nth_last_split in Y. destruct Y as (pre & Y). destruct (t_where Ty _ _ _ Y) as [_ W].
      rewrite Y. apply Forall_app. split; [exact W|]. constructor; [lia|constructor]. }
    pose proof (nth_error_In _ _ Ec) as Ic. rewrite Forall_forall in Bd. destruct (Bd c Ic) as [B1 B2].
    assert (Hc : length (contents (after fs evs) (make_dat_name base (c_part c))) = c_off c + 6 * cs * n).
    { rewrite (tidy_ends Ty Ec). f_equal. rewrite Forall_forall in Hr. destruct (Hr c Ic) as (Y & _).
      pose proof (frames_size (Forall_cons (c_frame c) Y (Forall_nil _))) as Z. inversion Z. auto. }
    destruct (@resume T X cs base max2 n b recs fr2 new_writer new_reader (after fs evs) c (conj eq_refl eq_refl) O Hh Hr Ec Hp F2)
      as (r & recs' & w2 & evs2 & L & E2 & M2 & O2 & Hr2 & _).
    { pose proof (@count_bytes T cs n (b :: fr1 ++ fr2) ltac:(lia) ltac:(lia) Hb) as Z.
      cbn [length] in *. rewrite app_length in Z. lia. }
    { rewrite Hc. pose proof Ec as Y. apply nth_last_split in Y. destruct Y as (pre & Y).
      destruct (t_where Ty _ _ _ Y) as [W _].
      assert (Fp : Forall (fun c => length (image (c_frame c)) = 6 * cs * n) recs).
      { pose proof (frames_size F) as Z. rewrite <- M in Z. rewrite Forall_forall in *. intros d Id.
        apply Z. now apply (in_map (fun c => c_frame c)). }
      rewrite Y in Fp. apply Forall_app in Fp. destruct Fp as [Fp _]. specialize (PL (c_part c) pre Fp).
      apply (f_equal (@length _)) in M. rewrite map_length, Y, app_length in M.
      unfold bytes_of in *. cbn [length] in *. rewrite app_length in Hb. nia. }
    destruct (load_ok O Hh Hr new_reader Ne) as (r' & L' & Ld & _). rewrite L in L'. injection L' as <-.
    rewrite (last_item_ok _ (l_items Ld) Ec) in E2.
    exists w2, (mkDisk (after (after fs evs) evs2) [] evs2). split; [exact E2|]. cbn [k_fs].
    change (b :: fr1 ++ fr2) with ((b :: fr1) ++ fr2). rewrite <- M, <- M2, <- map_app.
    apply on_disk_replays; auto. intros Y. apply app_eq_nil in Y. tauto.
  Qed.
End Twice.

(** ** what is recorded can be recorded, and read again *)
Section Shots.
  Context {T C : Type} (U : NumOps T) (X : TextOps T) (K : Colors C) (B : Codec T C).
  Hypothesis HB : sized B.
  Notation cs := (n_size B).
  Notation data := (@data T C).

  Lemma bytes_length A (f : A -> text) s l : (forall x, length (f x) = s) -> length (concat (map f l)) = s * length l.
  Proof. intros H. induction l as [|a l IH]; cbn [map concat length]; [lia|]. rewrite app_length, H, IH. lia. Qed.
  Lemma vector_length v : length (vector_bytes B v) = 3 * cs.
  Proof. destruct HB as (_ & H & _). unfold vector_bytes. rewrite !app_length, !H. lia. Qed.
  Lemma image_whole (d : data) : rectangular d -> whole cs (image_of B d).
  Proof.
    intros (R1 & R2 & R3 & R4 & _). pose proof HB as (_ & H1 & H2). unfold whole, image_of. cbn.
    rewrite !(bytes_length (vector_bytes B) _ vector_length), (bytes_length (n_bytes B) _ H1), (bytes_length (k_bytes B) _ H2).
    rewrite R1, R2, R3, R4. auto.
  Qed.
  Lemma shot_ok (d : data) f : rectangular d -> printable X (fr_time f) -> frame_ok X cs (b_count d) (shot U B d f).
  Proof.
    intros (R1 & R2 & R3 & R4 & _) HP. pose proof HB as (_ & H1 & H2). split; [|split; [reflexivity|split; auto]].
    - unfold whole, shot. cbn [d_vert d_velo d_mass d_color d_count]. rewrite !(vectors_rows U B).
      rewrite !(bytes_length (vector_bytes B) _ vector_length), (bytes_length (n_bytes B) _ H1), (bytes_length (k_bytes B) _ H2).
      rewrite !rows_length, R3, R4. auto.
    - cbn [shot d_step]. apply N.mod_lt. discriminate.
  Qed.
  Lemma shots_ok (d : data) l : rectangular d -> Forall (fun f => printable X (fr_time f)) l ->
    Forall (frame_ok X cs (b_count d)) (map (shot U B d) l).
  Proof. intros HR. induction 1; cbn [map]; constructor; auto. now apply shot_ok. Qed.

  (** only the state and the time of a frame are replayed *)
  Definition looks (a b : @bdata T) : Prop :=
    d_step a = d_step b /\ d_time a = d_time b /\ d_count a = d_count b /\ d_vert a = d_vert b /\ d_velo a = d_velo b.
  Lemma replays_ext c fs base n first frames frames' : Forall2 looks frames frames' ->
    replays X c fs base n first frames -> replays X c fs base n first frames'.
  Proof.
    intros HF (r & R1 & R2 & R3 & R4 & R5 & R6). exists r. assert (HL : length frames = length frames').
    { clear - HF. induction HF; cbn; congruence. }
    rewrite <- HL.
    do 5 (split; [assumption|]). intros dst W D. destruct (R6 dst W D) as (got & G1 & G2 & G3). exists got.
    split; auto. split; auto. clear - HF G2. revert got G2.
    induction HF as [|a b l l' HA HF IH]; intros got G; inversion G as [|? g ? gs Hg Hgs]; subst; constructor; auto.
    destruct HA as (A1 & A2 & A3 & A4 & A5). destruct Hg as (B1 & B2 & B3 & B4 & B5).
    unfold same_frame. rewrite <- A1, <- A2, <- A3, <- A4, <- A5. auto.
  Qed.
  Lemma shots_looks (d d' : data) l : b_count d' = b_count d ->
    Forall2 looks (map (shot U B d') l) (map (shot U B d) l).
  Proof.
    intros H. induction l as [|f l IH]; cbn [map]; constructor; auto. unfold looks, shot. cbn. rewrite H. auto.
  Qed.

  Definition colors_read (d : data) : list C :=
    map (fun i => k_value B (piece 16 i (concat (map (k_bytes B) (b_color d))))) (seq 0 (b_count d)).

  (** the last frame of a stream is where a resumed simulation starts *)
  Lemma resume_begins fs name (d : data) f0 f recs c : rectangular d -> length (fr_y f) = 6 * b_count d ->
    on_disk X cs fs name (shot U B d f0) recs -> header_ok cs (b_count d) (shot U B d f0) ->
    Forall (rec_ok X cs (b_count d)) recs -> nth_error recs (length recs - 1) = Some c -> c_frame c = shot U B d f ->
    t_read X (t_show X (fr_time f)) = Some (fr_time f) ->
    Forall (recovers B) (b_mass d) -> Forall (recovers B) (fr_y f) ->
    exists d', resume_from U X K B fs name = Some (Begins (mkBeginning d' name (Some (c_part c)))) /\
      rectangular d' /\ b_count d' = b_count d /\ b_mass d' = b_mass d /\ b_color d' = colors_read d /\
      b_time d' = fr_time f /\ b_step d' = (N.of_nat (fr_step f) mod 2 ^ 64)%N /\ state d' = fr_y f /\ b_box d' = 0%N.
  Proof.
    intros HR HL O Hh Hr Ec Ef Ht VM VY.
    assert (Ne : recs <> []) by (intros Y; rewrite Y in Ec; discriminate Ec).
    destruct (load_ok O Hh Hr new_reader Ne) as (r & E & L & A & C1 & C2). cbn [new_reader r_colors r_masses] in C1, C2.
    unfold resume_from. rewrite E. cbn [negb]. unfold reader_frame_count. rewrite (items_length L).
    destruct (length recs) as [|k] eqn:Lk; [destruct recs; [congruence|discriminate]|].
    replace (S k - 1) with k in Ec by lia.
    assert (exists r1, reader_seek fs (Some k) r = (r1, true) /\ loaded X cs name (b_count d) (shot U B d f0) recs r1 /\
      at_frame name recs r1 k /\ r_colors r1 = false /\ r_masses r1 = false) as (r1 & E1 & L1 & A1 & D1 & D2).
    { destruct k as [|k].
      - destruct A as (c' & A1 & A2 & A3). exists r. rewrite (seek_stay fs r A2). split; auto. split; auto. split; [|auto].
        exists c'. auto.
      - destruct (@seek_to T X cs fs name (b_count d) (shot U B d f0) recs O Hr r (S k) c L Ec) as (r1 & Q1 & Q2 & Q3 & Q4 & Q5).
        + destruct A as (c' & _ & -> & _). discriminate.
        + exists r1. rewrite Q4, Q5. auto. }
    rewrite E1. cbn [negb]. set (d0 := data_resize U K (N.to_nat (r_body r1)) (data_new U)).
    assert (N0 : N.to_nat (r_body r1) = b_count d) by (rewrite (l_body L1); apply Nat2N.id).
    assert (R0 : rectangular d0) by apply rect_resize.
    assert (D0 : b_count d0 = b_count d) by exact N0.
    destruct (@read_at T X cs fs name (b_count d) (shot U B d f0) recs O Hh Hr r1 k (image_of B d0) L1 A1 (image_whole R0) D0)
      as (r2 & got & c' & E2 & Ec' & SF & L2 & _ & _ & Cg & Bg & Mg & Kg & _).
    rewrite Ec in Ec'. injection Ec' as <-. rewrite D1, D2 in *. rewrite E2. cbn [obind negb].
    exists (data_of B got d0).
    assert (LI : reader_last_file_n r2 = c_part c).
    { apply (last_item_ok r2 (l_items L2)). rewrite Lk. replace (S k - 1) with k by lia. exact Ec. }
    rewrite LI. split; [reflexivity|]. rewrite Ef in SF. destruct SF as (S1 & S2 & S3 & S4 & S5).
    cbn [shot d_step d_time d_count d_vert d_velo d_mass d_color] in S1, S2, S3, S4, S5, Mg, Kg.
    pose proof HR as (R1 & R2 & R3 & R4 & R5).
    assert (BV : b_vert (data_of B got d0) = rows U (b_count d) 0 (fr_y f)).
    { cbn [data_of b_vert]. rewrite S3, S4, (vectors_rows U B).
      rewrite <- (@rows_length T U (b_count d) 0 (fr_y f)) at 2. apply (vectors_back U); auto. apply nums_rows; auto. lia. }
    assert (BW : b_velo (data_of B got d0) = rows U (b_count d) 3 (fr_y f)).
    { cbn [data_of b_velo]. rewrite S3, S5, (vectors_rows U B).
      rewrite <- (@rows_length T U (b_count d) 3 (fr_y f)) at 2. apply (vectors_back U); auto. apply nums_rows; auto. lia. }
    assert (BM : b_mass (data_of B got d0) = b_mass d).
    { cbn [data_of b_mass]. rewrite S3, Mg, <- R3. now apply (numbers_back U). }
    assert (BC : b_color (data_of B got d0) = colors_read d).
    { cbn [data_of b_color]. now rewrite S3, Kg. }
    split.
    { unfold rectangular. rewrite BV, BW, BM, BC, !rows_length. unfold colors_read. rewrite map_length, seq_length. cbn [data_of b_count b_radius]. rewrite S3.
      destruct R0 as (_ & _ & _ & _ & Q). rewrite D0 in Q. auto. }
    split; [exact S3|]. split; [exact BM|]. split; [exact BC|]. split; [cbn; congruence|]. split; [exact S1|].
    split; [|exact Bg]. apply (state_rows U); auto; cbn [data_of b_count] in *; rewrite ?S3; auto.
  Qed.
End Shots.

(** ** arguments *)
Section Args.
  Context {T : Type} (U : NumOps T) (X : TextOps T).
  (** the same arguments but for these two *)
  Definition agree (m m' : params) : Prop := forall key,
    text_eqb (chars "max_time") key = false -> text_eqb (chars "resume") key = false -> lookup key m = lookup key m'.

  Lemma parse_option args key v : ~ In "="%char (chars key) -> ~ In "="%char v ->
    parse_arguments (args ++ [option_text key v]) = assign (chars key) v (parse_arguments args).
  Proof.
    intros H1 H2. rewrite parse_app. cbn [fold_left]. apply parse_arg_assigns. unfold assigns, option_text. cbn [app]. auto.
  Qed.
  Lemma agree_assign key v m : key = "max_time"%string \/ key = "resume"%string -> agree m (assign (chars key) v m).
  Proof. intros [->| ->] k A1 A2; rewrite lookup_assign; [rewrite A1|rewrite A2]; reflexivity. Qed.
  Lemma agree_sym m m' : agree m m' -> agree m' m.
  Proof. intros H k A1 A2. symmetry. now apply H. Qed.
  Lemma agree_trans m m' m'' : agree m m' -> agree m' m'' -> agree m m''.
  Proof. intros H H' k A1 A2. rewrite H; auto. Qed.
  Lemma agree_both key v m m' : agree m m' -> agree (assign key v m) (assign key v m').
  Proof. intros H k A1 A2. rewrite !lookup_assign. destruct (text_eqb key k); auto. Qed.

  Notation apart k := (text_eqb (chars "max_time") (chars k) = false /\ text_eqb (chars "resume") (chars k) = false).
  Lemma value_agree m m' k v : agree m m' -> apart k -> value m k v = value m' k v.
  Proof. intros H [A1 A2]. unfold value. now rewrite H. Qed.
  Lemma number_agree m m' k v : agree m m' -> apart k -> number U X m k v = number U X m' k v.
  Proof. intros H [A1 A2]. unfold number. now rewrite H. Qed.
  Lemma unsigned_agree m m' k v : agree m m' -> apart k -> unsigned m k v = unsigned m' k v.
  Proof. intros H [A1 A2]. unfold unsigned. now rewrite H. Qed.
  Lemma flag_agree m m' k v : agree m m' -> apart k -> flag m k v = flag m' k v.
  Proof. intros H [A1 A2]. unfold flag. now rewrite H. Qed.
  Ltac arg H := rewrite ?(@value_agree _ _ _ _ H), ?(@number_agree _ _ _ _ H), ?(@unsigned_agree _ _ _ _ H), ?(@flag_agree _ _ _ _ H) by
    (split; reflexivity).

  Lemma engine_agree m m' : agree m m' -> create_engine U X m = create_engine U X m'.
  Proof.
    intros H. unfold create_engine. rewrite (H (chars "tree_build_rate") eq_refl eq_refl).
    rewrite (@value_agree _ _ "engine" [] H), (@value_agree _ _ "traverse_type" (chars "cycle") H),
      (@value_agree _ _ "tree_layout" (chars "tree") H) by (split; reflexivity).
    rewrite (@number_agree _ _ "max_dist" (nlit U 10) H), (@number_agree _ _ "min_force" (ndiv U (nlit U 1) (nlit U 10000)) H),
      (@number_agree _ _ "distance_to_node_radius_ratio" (nlit U 10) H),
      (@unsigned_agree _ _ "full_recompute_rate" 1000 H) by (split; reflexivity).
    reflexivity.
  Qed.
  Lemma solver_agree fuel : forall m m', agree m m' -> create_solver U X fuel m = create_solver U X fuel m'.
  Proof.
    induction fuel as [|fuel IH]; intros m m' H; [reflexivity|]. cbn [create_solver]. unfold create_butcher_solver.
    rewrite (H (chars "rank") eq_refl eq_refl).
    rewrite (@value_agree _ _ "solver" [] H), (@value_agree _ _ "starter_solver" (chars "euler") H) by (split; reflexivity).
    rewrite (@number_agree _ _ "min_step" (ndiv U (nlit U 1) (nlit U 1000000000)) H),
      (@number_agree _ _ "max_step" (ndiv U (nlit U 1) (nlit U 100)) H),
      (@number_agree _ _ "error_threshold" (ndiv U (nlit U 1) (nlit U 100000000000)) H),
      (@number_agree _ _ "error_threshold" (ndiv U (nlit U 1) (nlit U 10000)) H),
      (@unsigned_agree _ _ "max_recursion" 8 H), (@unsigned_agree _ _ "substep_subdivisions" 8 H),
      (@unsigned_agree _ _ "refine_steps_count" 1 H), (@unsigned_agree _ _ "max_level" 8 H),
      (@flag_agree _ _ "correction" false H), (@flag_agree _ _ "clamp" false H) by (split; reflexivity).
    rewrite (IH _ _ (agree_both (chars "solver") (value m' "starter_solver" (chars "euler")) H)). reflexivity.
  Qed.
  Lemma begins_agree C (K : Colors C) to_size pow3 uniform fuel m m' fs d : agree m m' ->
    begins_at U X K to_size pow3 uniform fuel m fs d -> begins_at U X K to_size pow3 uniform fuel m' fs d.
  Proof.
    intros H. unfold begins_at.
    rewrite (@value_agree _ _ "initial_state" [] H), (@value_agree _ _ "initial_type" (chars "Zeno") H),
      (@number_agree _ _ "box_size" (nlit U 100) H), (@unsigned_agree _ _ "stars_count" 64 H) by (split; reflexivity).
    auto.
  Qed.
  Lemma output_agree m m' : agree m m' -> arg_output m = arg_output m'.
  Proof. intros H. unfold arg_output. apply value_agree; auto. Qed.
  Lemma part_agree m m' : agree m m' -> arg_max_part m = arg_max_part m'.
  Proof. intros H. unfold arg_max_part. now rewrite (H (chars "max_part_size") eq_refl eq_refl). Qed.
End Args.

(** ** frames of a run without memory *)
Section Lengths.
  Context {T E : Type} (U : NumOps T) (ps : nat)
          (ef : E -> nat -> T -> list T -> list T -> option (E * list T))
          (garbage : nat -> list T) (count : nat).
  Hypothesis Hps : 0 < ps.
  Hypothesis Hgarb : forall n, length (garbage n) = ps.
  Hypothesis Hst : stateless ps ef.
  Notation quiet := (@quiet T).
  Notation full := (Forall (fun f : frame T => length (fr_y f) = ps)).

  Lemma iter_dumps p (a : @run_state T E unit) a' g : run_iter U ps ef garbage count quiet p a = Some (a', g) ->
    rs_dumps a' = rs_dumps a \/ rs_dumps a' = rs_dumps a ++ [frame_of (rs_e a')].
  Proof.
    unfold run_iter. destruct (if rn_clamp p then _ else _) as [e1|]; [|discriminate]. cbn [obind].
    destruct (advise _ _ _ _ _ _ _) as [[s1 x1]|]; [|discriminate]. cbn [obind].
    destruct (if andb _ (due U p (rs_last_check a) _ _) then _ else _) as [lc ch]. cbn [rs_w rs_last_dump].
    destruct (rs_w a) as [w|].
    - destruct (andb _ _).
      + unfold run_write, quiet. cbn. intros H. injection H as <- _. auto.
      + intros H. injection H as <- _. auto.
    - intros H. injection H as <- _. auto.
  Qed.
  Lemma run_long p s e fuel st : (rn_clamp p = true -> 3 * count <= ps) -> memoryless U (rn_dt p) s -> solver_ok s ->
    fresh s -> length (e_y e) = ps ->
    run U ps ef garbage count quiet fuel p s e (Some tt) = Some (Returned 0 st) -> full (rs_dumps st).
  Proof.
    intros HC HM HO HF HL R. destruct Hst as (F & HE).
    assert (Hef : forall q step t y f, length y = ps -> length f = ps -> exists q', ef q step t y f = Some (q', F step t y)).
    { intros. now apply HE. }
    assert (HFl : forall n t y, length y = ps -> length (F n t y) = ps).
    { intros n t y Hy. assert (q : E) by exact (e_priv e). apply (HE q n t y y); auto. }
    unfold run in R. destruct (run_start U quiet p s e (Some tt)) as [st0 g] eqn:E0. destruct g; [|discriminate].
    assert (I0 : rs_s st0 = s /\ rs_e st0 = e /\ rs_last_dump st0 = e_time e /\ rs_w st0 = Some tt /\ full (rs_dumps st0)).
    { unfold run_start in E0. destruct (andb _ _).
      - unfold run_write, quiet in E0. cbn in E0. injection E0 as <-. cbn. repeat split; auto.
      - injection E0 as <-. cbn. repeat split; auto. }
    destruct I0 as (I1 & I2 & I3 & I4 & I5).
    destruct (loop_goes _ _ _ _ _ _ _ _ _ R) as (n & _ & G & _).
    set (b0 := mkRunState s e (Some tt) (e_time e) (e_time e) [] []).
    assert (Q0 : RR U ps p (rs_dumps st0) st0 b0).
    { unfold RR, b0. cbn. rewrite I1, I2. split.
      { destruct s; cbn in HM |- *; auto; contradiction. }
      split; auto. split; auto. split; [now apply fresh_i|]. split; [now apply fresh_i|].
      split; [repeat split; auto|]. split; auto. split; [now rewrite app_nil_r|]. split; eauto. }
    clear - Hps Hgarb Hef HFl HC G Q0 I5. set (D := rs_dumps st0) in Q0. clearbody D. clearbody b0.
    revert st0 b0 G Q0 I5. induction n as [|n IH]; intros a b G Q I; cbn [goes] in G.
    - now subst.
    - destruct G as (_ & a1 & H2 & H3).
      destruct (@iter_twin T E unit unit U ps ef garbage count quiet quiet F Hps Hgarb Hef HFl p HC D a b a1 Q (fun _ _ => eq_refl) H2)
        as (b1 & _ & Q1).
      apply (IH a1 b1 H3 Q1). pose proof Q1 as (_ & _ & _ & _ & _ & (_ & _ & _ & BL) & _).
      destruct (iter_dumps _ _ H2) as [->| ->]; auto. apply Forall_app. split; auto.
  Qed.
End Lengths.

(** ** a resumed program *)
Section Resumed.
  Context {T C : Type} (U : NumOps T) (X : TextOps T) (K : Colors C) (B : Codec T C)
          (to_size : T -> option N) (pow3 : T -> T) (uniform : T -> nat -> T)
          (split : nat -> T -> list T -> nat -> nat -> list nat -> list nat)
          (garbage : nat -> nat -> list T).
  Hypothesis HB : sized B.
  Hypothesis Hg : forall n i, length (garbage n i) = 6 * n.
  Notation cs := (n_size B).
  Notation data := (@data T C).
  Notation simulation := (simulation U X split garbage).
  Notation main := (main U X K B to_size pow3 uniform split garbage).
  Notation begins_at := (begins_at U X K to_size pow3 uniform).

  Lemma loop_box E W ps ef gb count (write : W -> frame T -> W * bool) p p' fuel : forall st : @run_state T E W,
    rn_clamp p = false -> rn_clamp p' = false -> rn_dt p = rn_dt p' -> rn_max_time p = rn_max_time p' ->
    rn_dump_dt p = rn_dump_dt p' -> rn_check_dt p = rn_check_dt p' ->
    run_loop U ps ef gb count write fuel p st = run_loop U ps ef gb count write fuel p' st.
  Proof.
    induction fuel as [|fuel IH]; intros st H1 H2 H3 H4 H5 H6; cbn [run_loop].
    - now rewrite H4.
    - rewrite <- H4. destruct (nltb U _ _); auto.
      assert (I : run_iter U ps ef gb count write p st = run_iter U ps ef gb count write p' st).
      { unfold run_iter, due. now rewrite H1, H2, H3, H5, H6. }
      rewrite I. destruct (run_iter U ps ef gb count write p' st) as [[st1 g]|]; cbn [obind]; auto.
      destruct g; auto.
  Qed.
  Lemma run_box E W ps ef gb count (write : W -> frame T -> W * bool) p p' fuel s (e : @eng T E) w :
    rn_clamp p = false -> rn_clamp p' = false -> rn_dt p = rn_dt p' -> rn_max_time p = rn_max_time p' ->
    rn_dump_dt p = rn_dump_dt p' -> rn_check_dt p = rn_check_dt p' ->
    run U ps ef gb count write fuel p s e w = run U ps ef gb count write fuel p' s e w.
  Proof.
    intros H1 H2 H3 H4 H5 H6. unfold run.
    assert (S0 : run_start U write p s e w = run_start U write p' s e w) by (unfold run_start; now rewrite H5).
    rewrite S0. destruct (run_start U write p' s e w) as [st g]. destruct g; auto. now apply loop_box.
  Qed.

  Lemma main_fresh fuel args fs (d : data) o c st w' k' : let m := parse_arguments args in
    value m "resume" [] = [] -> begins_at fuel m fs d -> create_engine U X m = Some o ->
    create_solver U X fuel m = Some (Some c) -> simulation fuel m d o c = Some (Returned 0 st) ->
    Forall (fun f => 6 * b_count d <= length (fr_y f)) (rs_dumps st) ->
    record_on X cs new_writer (arg_output m) (arg_max_part m) None (map (shot U B d) (rs_dumps st)) fs = (w', k', true) ->
    main fuel args (fresh_disk fs) = Some (Exit 0 k').
  Proof.
    intros m V HBg HE HS HR HL HRec. unfold ModelMain.main. fold m.
    pose proof (@fresh_begin T C U X K B to_size pow3 uniform fuel m fs d V HBg) as FB.
    cbn [fresh_disk k_fs]. rewrite FB. cbn [obind]. rewrite HE, HS.
    assert (RD : rectangular d) by apply (begin_fresh _ _ _ _ _ _ _ _ _ _ V FB).
    exact (@simulate_ok T C U X B split garbage Hg fuel m (mkBeginning d (arg_output m) None) o c fs k' st w' RD HR HL HRec).
  Qed.

  Lemma resume_program fuel args a b fs (d : data) o c st1 st D f :
    let m := parse_arguments args in
    let m1 := parse_arguments (args ++ [option_text "max_time" a]) in
    let m0 := parse_arguments (args ++ [option_text "max_time" b]) in
    let n := b_count d in
    let out := arg_output m in
    ~ In "="%char a -> ~ In "="%char b -> ~ In "="%char out -> out <> [] -> value m "resume" [] = [] ->
    begins_at fuel m fs d -> create_engine U X m = Some o -> create_solver U X fuel m = Some (Some c) ->
    stateless (6 * n) (object_ef U n (b_mass d) split o) -> cr_clamp c = false ->
    memoryless U (cr_max_step c) (cr_solver c) ->
    (forall t, nltb U t (arg_max_time U X m1) = true -> nltb U t (arg_max_time U X m0) = true) ->
    simulation fuel m1 d o c = Some (Returned 0 st1) -> simulation fuel m0 d o c = Some (Returned 0 st) ->
    rs_dumps st1 = D ++ [f] -> nleb U (fr_time f) (nlit U 0) = false ->
    t_read X (t_show X (fr_time f)) = Some (fr_time f) -> (N.of_nat (fr_step f) < 2 ^ 64)%N ->
    Forall (recovers B) (b_mass d) -> Forall (recovers B) (fr_y f) ->
    Forall (fun f => printable X (fr_time f)) (rs_dumps st) ->
    (0 < N.of_nat n < 2 ^ 64)%N -> (N.of_nat cs < 2 ^ 64)%N -> (0 < b_box d < 2 ^ 64)%N ->
    (N.of_nat (length (rs_dumps st) * (6 * cs * n)) < 2 ^ 63)%N ->
    exists first k1 k2 k0,
      main fuel (args ++ [option_text "max_time" a]) (fresh_disk fs) = Some (Exit 0 k1) /\
      main fuel (args ++ [option_text "max_time" b; option_text "resume" out]) (fresh_disk (k_fs k1)) = Some (Exit 0 k2) /\
      main fuel (args ++ [option_text "max_time" b]) (fresh_disk fs) = Some (Exit 0 k0) /\
      replays X cs (k_fs k0) out n first (map (shot U B d) (rs_dumps st)) /\
      replays X cs (k_fs k2) out n first (map (shot U B d) (rs_dumps st)).
  Proof.
    intros m m1 m0 n out Na Nb No Ho HV HBg HE HS HSt HCl HMem HTime S1 S0 HD HPos HRd HStep VM VY HPr Hn Hcs Hbox Hbytes.
    assert (K1 : ~ In "="%char (chars "max_time")) by (cbn; intuition discriminate).
    assert (K2 : ~ In "="%char (chars "resume")) by (cbn; intuition discriminate).
    pose proof (@parse_option args "max_time" a K1 Na) as P1. fold m1 m in P1.
    pose proof (@parse_option args "max_time" b K1 Nb) as P0. fold m0 m in P0.
    set (args2 := args ++ [option_text "max_time" b; option_text "resume" out]).
    assert (P2 : parse_arguments args2 = assign (chars "resume") out m0).
    { unfold args2. change [option_text "max_time" b; option_text "resume" out] with ([option_text "max_time" b] ++ [option_text "resume" out]).
      rewrite app_assoc. now rewrite (@parse_option _ "resume" out K2 No). }
    set (m2 := parse_arguments args2) in *.
    assert (A1 : agree m m1) by (rewrite P1; apply agree_assign; auto).
    assert (A0 : agree m m0) by (rewrite P0; apply agree_assign; auto).
    assert (A2 : agree m m2) by (eapply agree_trans; [exact A0|]; rewrite P2; apply agree_assign; auto).
    assert (HBr : rectangular d) by
      apply (begin_fresh _ _ _ _ _ _ _ _ _ _ HV (@fresh_begin T C U X K B to_size pow3 uniform fuel m fs d HV HBg)).
    assert (HMade : fresh (cr_solver c) /\ solver_ok (cr_solver c)).
    { destruct (create_solver_made U X fuel m HS) as [(F1 & F2 & _) _]. split; auto. apply F2.
      destruct (cr_solver c); cbn in *; auto; contradiction. }
    destruct HMade as [HFr HOk].
    assert (Hps : 0 < 6 * n) by lia.
    assert (HSk : same_kind (cr_solver c) (cr_solver c)) by (destruct (cr_solver c); cbn in *; auto; contradiction).
    assert (HLs : length (state d) = 6 * n) by
      apply (@init_state T C U d (firstn n (garbage n 0)) (garbage n 1) HBr (mass_length _ Hg n) (Hg _ _)).
    unfold SpecMain.simulation in S1, S0. fold n in S1, S0.
    match type of S1 with run _ _ _ _ _ _ _ ?p _ ?e _ = _ => set (p1 := p) in S1; set (e0 := e) in S1 end.
    match type of S0 with run _ _ _ _ _ _ _ ?p _ _ _ = _ => set (p0 := p) in S0 end.
    assert (NM : forall m', agree m m' -> forall k v, text_eqb (chars "max_time") (chars k) = false ->
      text_eqb (chars "resume") (chars k) = false -> number U X m' k v = number U X m k v).
    { intros m' HA k v Q1 Q2. symmetry. now apply number_agree. }
    assert (BM : but_max p1 p0).
    { unfold but_max, p1, p0. cbn. rewrite !(NM m1 A1), !(NM m0 A0) by reflexivity. auto. }
    (* frames *)
    assert (NC1 : rn_clamp p1 = true -> 3 * n <= 6 * n) by (intros; lia).
    assert (NC0 : rn_clamp p0 = true -> 3 * n <= 6 * n) by (intros; lia).
    assert (L1 : Forall (fun f => length (fr_y f) = 6 * n) (rs_dumps st1)).
    { refine (@run_long T _ U (6 * n) (object_ef U n (b_mass d) split o) (fun i => garbage n (2 + i)) n Hps (fun i => Hg _ _) HSt
        p1 (cr_solver c) e0 fuel _ NC1 HMem HOk HFr HLs S1). }
    assert (L0 : Forall (fun f => length (fr_y f) = 6 * n) (rs_dumps st)).
    { refine (@run_long T _ U (6 * n) (object_ef U n (b_mass d) split o) (fun i => garbage n (2 + i)) n Hps (fun i => Hg _ _) HSt
        p0 (cr_solver c) e0 fuel _ NC0 HMem HOk HFr HLs S0). }
    assert (LE : forall l, Forall (fun f : frame T => length (fr_y f) = 6 * n) l -> Forall (fun f => 6 * n <= length (fr_y f)) l).
    { intros l. apply Forall_impl. intros; lia. }
    (* the resumed run, on any table with this state *)
    assert (HRes : forall d' : data, b_count d' = n -> b_mass d' = b_mass d -> state d' = fr_y f -> b_time d' = fr_time f ->
      b_step d' = N.of_nat (fr_step f) -> exists st2, simulation fuel m2 d' o c = Some (Returned 0 st2) /\
      rs_dumps st = (D ++ [f]) ++ rs_dumps st2).
    { intros d' E1 E2 E3 E4 E5.
      set (e' := mkEng (state d') (b_time d') (N.to_nat (b_step d')) (object_start o) 0 : @eng T (@object_state T)).
      destruct (@resumes T _ U (6 * n) (object_ef U n (b_mass d) split o) (fun i => garbage n (2 + i)) n Hps (fun i => Hg _ _) HSt
        unit unit (@quiet T) (@quiet T) p1 p0 (cr_solver c) (cr_solver c) e0 e' tt tt fuel fuel st1 st D f BM HTime NC1
        HMem HOk HFr HFr HSk HLs (fun _ _ => eq_refl) S1 S0 HD) as (st2 & R2 & _ & R3).
      { unfold holds_frame, e'. cbn. rewrite E3, E4, E5, Nat2N.id. auto. }
      rewrite HPos in R3. exists st2. split; auto. unfold SpecMain.simulation. rewrite E1, E2.
      rewrite <- R2. apply run_box; auto; unfold p0; cbn; rewrite ?(NM m2 A2), ?(NM m0 A0) by reflexivity; auto.
      unfold number. rewrite P2, lookup_assign. reflexivity. }
    destruct (D ++ [f]) as [|f0 l] eqn:EF; [destruct D; discriminate|].
    set (d2 := mkData n (fr_time f) (N.of_nat (fr_step f)) 0 (rows U n 0 (fr_y f)) (rows U n 3 (fr_y f)) (b_mass d)
      (colors_read B d) (b_radius d) : data).
    assert (Lf : length (fr_y f) = 6 * n).
    { rewrite HD, <- EF in L1. apply Forall_app in L1. destruct L1 as [_ L1]. now inversion L1. }
    assert (St2 : state d2 = fr_y f) by (apply (state_rows U); auto).
    destruct (HRes d2 eq_refl eq_refl St2 eq_refl eq_refl) as (st2 & _ & R3).
    rewrite R3 in HPr, Hbytes, L0. apply Forall_app in HPr. destruct HPr as [HPr1 HPr2].
    apply Forall_app in L0. destruct L0 as [_ L2].
    pose proof HPr1 as HPr1'. inversion HPr1 as [|? ? HPf0 HPl]; subst.
    assert (SQ : forall l', Forall (fun f => printable X (fr_time f)) l' ->
      sequence_ok X cs n (shot U B d f0 :: map (shot U B d) l')).
    { intros l' HP. unfold sequence_ok. split.
      - apply (@shots_ok T C U X B HB d (f0 :: l') HBr). constructor; auto.
      - destruct HB as (Q & _). split; [exact Hn|]. split; [lia|]. exact Hbox. }
    (* the first program *)
    assert (Rect2 : rectangular d2).
    { destruct HBr as (Q1 & Q2 & Q3 & Q4 & Q5). unfold rectangular, d2. cbn. rewrite !rows_length. unfold colors_read. rewrite map_length, seq_length. auto. }
    assert (FO2 : Forall (frame_ok X cs n) (map (shot U B d2) (rs_dumps st2))) by (apply (@shots_ok T C U X B HB d2); auto).
    destruct (@two_sessions T X cs out (arg_max_part m1) (arg_max_part m2) n (shot U B d f0) (map (shot U B d) l)
      (map (shot U B d2) (rs_dumps st2)) fs (SQ l HPl) FO2) as (w1 & k1 & recs & cc & E1 & M & O & Hh & Hr & Ec & w2 & k2 & E2 & RP).
    { unfold bytes_of. cbn [length]. rewrite app_length, !map_length. cbn [app length] in Hbytes. rewrite app_length in Hbytes.
      exact Hbytes. }
    (* the uninterrupted program *)
    destruct (@round_trip T X cs out (arg_max_part m0) n (shot U B d f0) (map (shot U B d) (l ++ rs_dumps st2)) new_writer fs
      (conj eq_refl eq_refl) eq_refl (SQ _ (proj2 (Forall_app _ _ _) (conj HPl HPr2)))) as (w0 & k0 & E0 & RP0).
    { unfold bytes_of. cbn [length]. rewrite map_length. exact Hbytes. }
    exists (shot U B d f0), k1, k2, k0.
    assert (Fc : c_frame cc = shot U B d f).
    { pose proof (map_nth_error (fun c => c_frame c) _ _ Ec) as Y. rewrite M in Y.
      assert (LL : length recs = length (f0 :: l)).
      { apply (f_equal (@length _)) in M. rewrite map_length in M. cbn [length] in M |- *. now rewrite map_length in M. }
      change (shot U B d f0 :: map (shot U B d) l) with (map (shot U B d) (f0 :: l)) in Y. rewrite LL, <- EF in Y.
      rewrite map_app, app_length in Y. cbn [map length] in Y. rewrite nth_error_app2 in Y by (rewrite map_length; lia).
      rewrite map_length in Y. replace (length D + 1 - 1 - length D) with 0 in Y by lia. cbn in Y. congruence. }
    destruct (@resume_begins T C U X K B HB (k_fs k1) out d f0 f recs cc HBr Lf O Hh Hr Ec Fc HRd VM VY)
      as (d' & EB & RB1 & RB2 & RB3 & RB4 & RB5 & RB6 & RB7 & RB8).
    rewrite N.mod_small in RB6 by lia.
    destruct (HRes d' RB2 RB3 RB7 RB5 RB6) as (st2' & SI & R3').
    assert (SD : rs_dumps st2' = rs_dumps st2) by (rewrite R3 in R3'; apply app_inv_head in R3'; auto).
    assert (SH : map (shot U B d') (rs_dumps st2) = map (shot U B d2) (rs_dumps st2)).
    { apply map_ext. intros g. unfold shot, d2. cbn. now rewrite RB2, RB3, RB4, RB8. }
    split.
    { apply (@main_fresh fuel _ fs d o c st1 w1 k1).
      - fold m1. rewrite P1. unfold value. rewrite lookup_assign. exact HV.
      - now apply (@begins_agree T U X C K to_size pow3 uniform fuel m m1 fs d A1).
      - fold m1. now rewrite <- (engine_agree U X A1).
      - fold m1. now rewrite <- (solver_agree U X fuel A1).
      - exact S1.
      - apply LE. rewrite HD. rewrite HD in L1. exact L1.
      - fold m1. rewrite <- (output_agree A1). rewrite HD. exact E1. }
    split.
    { unfold ModelMain.main. fold args2 m2. cbn [fresh_disk k_fs].
      assert (BW : begin_with U X K B to_size pow3 uniform fuel m2 (k_fs k1) = resume_from U X K B (k_fs k1) out).
      { unfold begin_with. assert (V2 : value m2 "resume" [] = out) by (unfold value; now rewrite P2, lookup_assign).
        rewrite V2. destruct out; [congruence|reflexivity]. }
      rewrite BW, EB. cbn [obind]. rewrite <- (engine_agree U X A2), HE, <- (solver_agree U X fuel A2), HS.
      apply (@simulate_ok T C U X B split garbage Hg fuel m2 (mkBeginning d' out (Some (c_part cc))) o c (k_fs k1) k2 st2' w2 RB1 SI).
      - cbn [bg_data]. rewrite RB2, SD. now apply LE.
      - cbn [bg_data bg_output bg_append]. rewrite SD, SH. exact E2. }
    split.
    { apply (@main_fresh fuel _ fs d o c st w0 k0).
      - fold m0. rewrite P0. unfold value. rewrite lookup_assign. exact HV.
      - now apply (@begins_agree T U X C K to_size pow3 uniform fuel m m0 fs d A0).
      - fold m0. now rewrite <- (engine_agree U X A0).
      - fold m0. now rewrite <- (solver_agree U X fuel A0).
      - exact S0.
      - rewrite R3. apply LE, Forall_app. split; [rewrite <- HD; exact L1|exact L2].
      - fold m0. rewrite <- (output_agree A0). rewrite R3. exact E0. }
    rewrite R3. split; [exact RP0|]. cbn [map app]. rewrite map_app.
    eapply replays_ext; [|exact RP]. constructor; [unfold looks; auto 6|]. apply Forall2_app.
    - clear. induction l; cbn; constructor; auto. unfold looks; auto 6.
    - now apply shots_looks.
  Qed.
End Resumed.
