(** C48-C52, C63-C66: body tables, their files, generated universes *)
From Coq Require Import Ascii String List NArith ZArith Arith Lia Reals Lra SpecFloat.
From Verif Require Import Num Arr ModelVertex ModelForce ModelText ModelData SpecData RLemmas SpecPhys LemForce
  LemText LemDataText LemData LemClock LemData2 LemDataR LemFloat.
Import ListNotations.

(** Concrete numbers for the examples: integers, written with their sign. *)
Definition Zshow (z : Z) : text :=
  if Z.ltb z 0 then "-"%char :: show_N (Z.to_N (- z)) else "+"%char :: show_N (Z.to_N z).
Definition Ztext : TextOps Z := mkTextOps Zshow Zshow to_longlong.
Definition Zcolors : Colors nat := mkColors 0 1 2 3 4.
Definition Zsize (z : Z) : option N :=
  if andb (Z.leb 0 z) (Z.ltb z (2 ^ 64)) then Some (Z.to_N z) else None.
Definition two_bodies : @data Z nat :=
  mkData 2 5%Z 7 9 [V3 1 (-2) 30; V3 4 5 6]%Z [V3 0 0 0; V3 (-1) 8 9]%Z [100; 3]%Z [2; 2] [0; 11]%Z.
Lemma two_rect : rectangular two_bodies.
Proof. repeat split. Qed.

(** ** C48 *)

(** Loading a saved table gives the table back, each number replaced by what its printed form is read
    as (and the mass multiplied by the mass factor 1); colours become white, and the clock is that of
    the object loaded into. *)
Theorem C48_round_trip : forall (T C : Type) (U : NumOps T) (X : TextOps T) (K : Colors C) (d d0 : @data T C),
  rectangular d -> printable_data X d ->
  exists f d', save X d = Some f /\ load U X K (Some f) G1 d0 = (d', true) /\
    rectangular d' /\ b_count d' = b_count d /\
    Forall2 (reread3 X) (b_vert d) (b_vert d') /\ Forall2 (reread3 X) (b_velo d) (b_velo d') /\
    Forall2 (fun m m' => exists y, reread X m y /\ m' = nmul U y (nlit U 1)) (b_mass d) (b_mass d') /\
    Forall2 (reread X) (b_radius d) (b_radius d') /\
    Forall (fun c => c = c_white K) (b_color d') /\ same_clock d' d0.
Proof.
  intros T C U X K d d0 (L1 & L2 & L3 & L4 & L5) (P1 & P2 & P3 & P4).
  set (n := b_count d) in *.
  assert (Hys : exists ys, length ys = n /\ (forall i y, nth_error ys i = Some y -> body_at d i y) /\
     b_vert d = map (@y_r T) ys /\ b_velo d = map (@y_v T) ys /\ b_mass d = map (@y_m T) ys /\
     b_radius d = map (@y_radius T) ys /\ Forall (body_printable X) ys).
  { unfold body_at. subst n. revert P1 P2 P3 P4 L1 L2 L3 L5. generalize (b_count d) as n.
    generalize (b_vert d) (b_velo d) (b_mass d) (b_radius d). clear.
    intros rs vs ms qs n. revert rs vs ms qs. induction n as [|n IH]; intros rs vs ms qs P1 P2 P3 P4 L1 L2 L3 L5.
    - exists []. destruct rs, vs, ms, qs; try discriminate. repeat split; try constructor.
      all: destruct i; discriminate.
    - destruct rs as [|r rs], vs as [|v vs], ms as [|m ms], qs as [|q qs]; try discriminate.
      inversion P1; inversion P2; inversion P3; inversion P4; subst. cbn in L1, L2, L3, L5.
      destruct (IH rs vs ms qs) as (ys & G1 & G2 & -> & -> & -> & -> & G3); auto.
      exists (mkBody r v m q :: ys). repeat split; cbn; try congruence.
      5: { constructor; [repeat (split; [assumption|]); assumption|exact G3]. }
      all: destruct i as [|i]; cbn in H; [now injection H as <-|now apply (G2 i y)]. }
  destruct Hys as (ys & Hlen & Hat & E1 & E2 & E3 & E4 & Hp).
  destruct (@save_lines T C U X n 0 d ys Hlen Hat Hp) as (lines & ys' & Es & Hpl & Hsay & H2).
  exists (lines_text lines).
  unfold save. fold n. rewrite Es. cbn [load].
  rewrite (read_lines_text Hpl). pose proof (load_bodies_good K (mass_factor U G1) Hsay [] (data_clear d0)) as El.
  rewrite app_nil_r in El. eexists. split; [reflexivity|]. split; [exact El|].
  cbn [load_bodies data_clear b_count b_time b_step b_box b_vert b_velo b_mass b_color b_radius app Nat.add].
  rewrite E1, E2, E3, E4, <- Hlen.
  split; [repeat split; cbn; rewrite ?map_length; reflexivity|].
  cbn [b_count b_time b_step b_box b_vert b_velo b_mass b_color b_radius].
  split; [symmetry; eapply Forall2_len; eauto|].
  assert (M : forall A (f g : @body T -> A) (P : A -> A -> Prop),
    (forall a b, body_reread X a b -> P (f a) (g b)) -> Forall2 P (map f ys) (map g ys')).
  { intros A f g P HP. clear - H2 HP. induction H2; cbn; constructor; auto. }
  split; [apply M; intros a b H; apply H|].
  split; [apply M; intros a b H; apply H|].
  split; [apply M; intros a b H; exists (y_m b); split; [apply H|reflexivity]|].
  split; [apply M; intros a b H; apply H|].
  split; [|repeat split].
  clear. induction ys'; cbn; constructor; auto.
Qed.
Print Assumptions C48_round_trip.

(** With a printer that loses nothing the table comes back unchanged. *)
Theorem C48_exact : forall (T C : Type) (U : NumOps T) (X : TextOps T) (K : Colors C) (d d0 : @data T C),
  rectangular d -> printable_data X d -> (forall x y, reread X x y -> y = x) ->
  (forall x, nmul U x (nlit U 1) = x) ->
  exists f d', save X d = Some f /\ load U X K (Some f) G1 d0 = (d', true) /\
    b_count d' = b_count d /\ b_vert d' = b_vert d /\ b_velo d' = b_velo d /\ b_mass d' = b_mass d /\
    b_radius d' = b_radius d.
Proof.
  intros T C U X K d d0 Hr Hp Hx H1.
  destruct (C48_round_trip T C U X K d d0 Hr Hp) as (f & d' & Es & El & _ & Hc & A & B & D & F & _).
  exists f, d'.
  assert (G : forall A (P : A -> A -> Prop) l l', (forall x y, P x y -> y = x) -> Forall2 P l l' -> l' = l).
  { intros A0 P l l' HP HF. induction HF; [reflexivity|]. f_equal; auto. }
  assert (H3 : forall x y, reread3 X x y -> y = x).
  { intros [a b c] [a' b' c'] (Q1 & Q2 & Q3). cbn in *. apply Hx in Q1. apply Hx in Q2. apply Hx in Q3. congruence. }
  repeat split; auto.
  - exact (G _ _ _ _ H3 A).
  - exact (G _ _ _ _ H3 B).
  - eapply G; [|exact D]. intros x y (z & Hz & ->). rewrite H1. now apply Hx.
  - exact (G _ _ _ _ Hx F).
Qed.
Print Assumptions C48_exact.

Example C48_case :
  printable_data Ztext two_bodies /\
  save Ztext two_bodies = Some (chars "+1 -2 +30 +0 +0 +0 +100 +0" ++ [newline] ++
                                chars "+4 +5 +6 -1 +8 +9 +3 +11" ++ [newline]) /\
  exists d', load Zops Ztext Zcolors (save Ztext two_bodies) G1 (data_new Zops) = (d', true) /\
    b_vert d' = b_vert two_bodies /\ b_mass d' = b_mass two_bodies.
Proof.
  assert (P : forall x, In x [0; 1; -1; -2; 3; 4; 5; 6; 8; 9; 11; 30; 100]%Z -> printable_full Ztext x).
  { intros x Hi. cbn in Hi.
    repeat (destruct Hi as [<-|Hi]; [split; [discriminate|]; split; [cbn; intuition discriminate|];
      split; [repeat constructor|eexists; vm_compute; reflexivity]|]). destruct Hi. }
  split; [|split; [reflexivity|eexists; split; [reflexivity|split; reflexivity]]].
  repeat split; cbn; repeat constructor; apply P; cbn; tauto.
Qed.

(** ** C49 *)

(** Every load succeeds on the lines before the first wrong one; it reports failure exactly when there
    is a wrong one, and keeps the bodies read so far. *)
Theorem C49_load : forall (T C : Type) (U : NumOps T) (X : TextOps T) (K : Colors C) f u (d d' : @data T C) good,
  load U X K (Some f) u d = (d', good) <->
  exists ys pre post, read_lines f = pre ++ post /\ lines_say U X pre ys /\
    holds U K (mass_factor U u) ys d' /\ same_clock d' d /\
    if good then post = [] else exists l rest, post = l :: rest /\ bad_line U X l.
Proof.
  intros T C U X K f u d d' good. split.
  - intros E. cbn [load] in E. apply load_bodies_spec in E.
    destruct E as (ys & pre & post & E1 & E2 & -> & E4).
    exists ys, pre, post. split; [exact E1|]. split; [exact E2|]. split; [repeat split|]. split; [repeat split|exact E4].
  - intros (ys & pre & post & E1 & E2 & (H1 & H2 & H3 & H4 & H5 & H6) & (K1 & K2 & K3) & E4).
    cbn [load]. rewrite E1, (load_bodies_good K _ E2).
    assert (Ed : d' = mkData (b_count (data_clear d) + length ys) (b_time (data_clear d)) (b_step (data_clear d))
             (b_box (data_clear d))
             (b_vert (data_clear d) ++ map (@y_r T) ys) (b_velo (data_clear d) ++ map (@y_v T) ys)
             (b_mass (data_clear d) ++ map (fun y => nmul U (y_m y) (mass_factor U u)) ys)
             (b_color (data_clear d) ++ map (fun _ => c_white K) ys)
             (b_radius (data_clear d) ++ map (@y_radius T) ys)).
    { destruct d'. cbn in *. congruence. }
    rewrite <- Ed. destruct good.
    + subst post. reflexivity.
    + destruct E4 as (l & rest & -> & Hb). now apply load_bodies_bad.
Qed.
Print Assumptions C49_load.

(** In particular it succeeds if and only if no line is wrong. *)
Theorem C49_reports : forall (T C : Type) (U : NumOps T) (X : TextOps T) (K : Colors C) f u (d : @data T C),
  snd (load U X K (Some f) u d) = true <-> Forall (fun l => ~ bad_line U X l) (read_lines f).
Proof.
  intros T C U X K f u d. destruct (load U X K (Some f) u d) as [d' good] eqn:E. cbn [snd].
  apply C49_load in E. destruct E as (ys & pre & post & E1 & E2 & _ & _ & E4). rewrite E1. clear E1.
  assert (Hpre : Forall (fun l => ~ bad_line U X l) pre).
  { induction E2; constructor; auto; intros [H1 H2']; eauto. eapply H2'; eauto. }
  destruct good.
  - subst post. rewrite app_nil_r. tauto.
  - split; [discriminate|]. intros H. apply Forall_app in H. destruct H as [_ H].
    destruct E4 as (l & rest & -> & Hb). inversion H. contradiction.
Qed.
Print Assumptions C49_reports.

Theorem C49_unopened : forall (T C : Type) (U : NumOps T) (X : TextOps T) (K : Colors C) u (d : @data T C),
  load U X K None u d = (d, false).
Proof. reflexivity. Qed.
Print Assumptions C49_unopened.

(** The three kinds of lines exclude each other and every line is of one kind. *)
Theorem C49_lines : forall (T : Type) (U : NumOps T) (X : TextOps T) l,
  (blank_line l \/ (exists y, body_line U X l y) \/ bad_line U X l) /\
  (blank_line l -> forall y, ~ body_line U X l y) /\
  (forall y y', body_line U X l y -> body_line U X l y' -> y = y').
Proof.
  intros T U X l. split; [|split].
  - pose proof (parse_said U X l) as H. destruct (parse_line U X l); cbn in H; eauto.
  - intros H y Hy. apply (blank_line_inv U X) in H. apply body_line_inv in Hy. congruence.
  - intros [a b c e] [a' b' c' e'] H H'. apply body_line_inv in H. apply body_line_inv in H'. cbn in *. congruence.
Qed.
Print Assumptions C49_lines.

Example C49_case : exists d',
  load Zops Ztext Zcolors
    (Some (chars "// x y z vx vy vz m" ++ [newline] ++ chars "  1 2 3 4 5 6  7 // seven" ++ [newline] ++ [newline] ++
           chars "1 2 3 4 5 6 7 8 nine" ++ [return_; newline] ++ chars "1 2 three 4 5 6 7" ++ [newline] ++
           chars "1 1 1 1 1 1 1")) G1 two_bodies = (d', false) /\
  b_count d' = 2 /\ b_vert d' = [V3 1 2 3; V3 1 2 3]%Z /\ b_radius d' = [0; 8]%Z /\ b_step d' = 7%N.
Proof. eexists. vm_compute. repeat split. Qed.

(** ** C50 *)

(** the least multiple of [f] that is not below [n] *)
Theorem C50_round_up : forall n f, (1 <= f)%N -> (1 <= n)%N -> (n + f <= 2 ^ 64)%N ->
  (n <= round_up n f)%N /\ (f | round_up n f)%N /\ (forall m, (n <= m)%N -> (f | m)%N -> (round_up n f <= m)%N).
Proof.
  intros n f Hf Hn Hb. destruct (round_up_spec Hf Hn Hb) as [[H1 H2] (k & Hk)].
  split; [exact H1|]. split; [exists k; exact Hk|]. intros m Hm (j & ->). rewrite Hk in *.
  assert (k <= j)%N by nia. nia.
Qed.
Print Assumptions C50_round_up.
Example C50_round_case : round_up 1 64 = 64%N /\ round_up 64 64 = 64%N /\ round_up 65 64 = 128%N /\ round_up 0 64 = 0%N.
Proof. repeat split. Qed.

(** If the generator of a universe ends, it has made two galaxies of whole blocks. *)
Lemma galaxy_ends : forall (T C : Type) (U : NumOps T) (K : Colors C) pow3 fuel uniform center velosity radius m n color
    (d : @data T C),
  let c := wsub (round_up n 64) 1 in
  exists d1, b_count d <= b_count d1 /\
    if (c <=? N.of_nat (accepted U (uniform radius) radius fuel))%N
    then add_galaxy U K pow3 fuel uniform center velosity radius m n color d = Done d1 /\
         N.of_nat (b_count d1) = (N.of_nat (b_count d) + 1 + c)%N
    else add_galaxy U K pow3 fuel uniform center velosity radius m n color d = Exhausted d1.
Proof.
  intros T C U K pow3 fuel uniform center velosity radius m n color e c.
  unfold add_galaxy. fold data_block in c. fold c.
  match goal with |- context [star_loop _ _ _ _ _ _ _ _ _ _ ?sm ?all ?hole _ ?e0] =>
      destruct (@star_loop_spec T C U pow3 fuel (uniform radius) 0 0%N c center velosity radius
        sm all hole color e0 (N.le_0_l c)) as (stars & S1 & _ & _ & _ & _ & _ & _ & _ & _ & _ & _ & S2) end.
  pose proof (accepted_split U (uniform radius) radius 0 fuel) as Ha. cbn [accepted Nat.add] in Ha.
  rewrite <- Ha, N.sub_0_r in S2. eexists. split; [|destruct (_ <=? _)%N].
  2: { split; [exact (proj1 S2)|]. rewrite S1. cbn [add_body b_count]. lia. }
  2: { exact (proj1 S2). }
  rewrite S1. cbn [add_body b_count]. lia.
Qed.
Theorem C50_whole_blocks : forall (T C : Type) (U : NumOps T) (K : Colors C) to_size pow3 fuel uniform n sx sy sz
    (d d' : @data T C),
  (1 <= n)%N -> (n + 64 <= 2 ^ 64)%N ->
  make_universe U K to_size pow3 fuel uniform n sx sy sz d = Some (Done d') ->
  N.of_nat (b_count d') = (2 * round_up n 64)%N /\ (64 | N.of_nat (b_count d'))%N /\ rectangular d'.
Proof.
  intros T C U K to_size pow3 fuel uniform n sx sy sz d d' H1 H2 E.
  pose proof (rect_universe U K to_size pow3 fuel uniform n sx sy sz d E) as Hr. cbn [ended] in Hr.
  destruct (@round_up_spec n 64 ltac:(lia) H1 H2) as [[B1 B2] (k & Hk)].
  assert (Hc : wsub (round_up n 64) 1 = (round_up n 64 - 1)%N) by (apply wsub_small; lia).
  assert (E' : N.of_nat (b_count d') = (2 * round_up n 64)%N).
  { assert (G : forall center velosity radius m color (d d1 : @data T C),
      add_galaxy U K pow3 fuel uniform center velosity radius m n color d = Done d1 ->
      N.of_nat (b_count d1) = (N.of_nat (b_count d) + round_up n 64)%N).
    { intros center velosity radius m color e e1 Eg.
      destruct (galaxy_ends T C U K pow3 fuel uniform center velosity radius m n color e) as (d1 & _ & G).
      rewrite Hc in G. destruct (_ <=? _)%N; [|rewrite Eg in G; discriminate].
      destruct G as [G1 G2]. rewrite Eg in G1. injection G1 as <-. lia. }
    unfold make_universe in E. cbv zeta in E.
    match type of E with match ?g with _ => _ end = _ => destruct g as [d1|d1] eqn:E1 end; [|discriminate].
    match type of E with match ?g with _ => _ end = _ => destruct g as [d2|d2] eqn:E2 end; [|discriminate].
    destruct (to_size _); [|discriminate]. injection E as <-. cbn [set_box b_count].
    apply G in E1. apply G in E2. cbn [data_clear b_count] in E1. lia. }
  split; [exact E'|]. split; [|exact Hr]. rewrite E'. exists (2 * k)%N. lia.
Qed.
Print Assumptions C50_whole_blocks.

(** It ends exactly when enough of the samples drawn fall into the ball. *)
Theorem C50_ends : forall (T C : Type) (U : NumOps T) (K : Colors C) to_size pow3 fuel uniform n sx sy sz box (d : @data T C),
  (1 <= n)%N -> (n + 64 <= 2 ^ 64)%N ->
  to_size (nmax U (nmax U (nlit U 1) sx) (nmax U sy sz)) = Some box ->
  let radius := half U sx in
  (exists d', make_universe U K to_size pow3 fuel uniform n sx sy sz d = Some (Done d')) <->
  (round_up n 64 <= N.of_nat (accepted U (uniform radius) radius fuel) + 1)%N.
Proof.
  intros T C U K to_size pow3 fuel uniform n sx sy sz box d H1 H2 Hb radius.
  destruct (@round_up_spec n 64 ltac:(lia) H1 H2) as [[B1 B2] _].
  assert (Hc : wsub (round_up n 64) 1 = (round_up n 64 - 1)%N) by (apply wsub_small; lia).
  unfold make_universe. cbv zeta. fold radius.
  match goal with |- context [add_galaxy U K pow3 fuel uniform ?c ?v ?r ?m n ?col ?e] =>
    destruct (galaxy_ends T C U K pow3 fuel uniform c v r m n col e) as (d1 & _ & G) end.
  rewrite Hc in G. destruct (N.leb_spec (round_up n 64 - 1) (N.of_nat (accepted U (uniform radius) radius fuel))).
  - split; [intros; lia|]. intros _. destruct G as [-> _].
    match goal with |- context [add_galaxy U K pow3 fuel uniform ?c ?v ?r ?m n ?col ?e] =>
      destruct (galaxy_ends T C U K pow3 fuel uniform c v r m n col e) as (d2 & _ & G2) end.
    rewrite Hc in G2. destruct (N.leb_spec (round_up n 64 - 1) (N.of_nat (accepted U (uniform radius) radius fuel))); [|lia].
    destruct G2 as [-> _]. rewrite Hb. cbn [obind]. eauto.
  - rewrite G. split; [intros (d' & E); discriminate|lia].
Qed.
Print Assumptions C50_ends.

(** For zero stars the count wraps around: nothing short of 2^64 - 1 samples makes the generator end. *)
Lemma accepted_le : forall (T : Type) (U : NumOps T) uniform radius n, accepted U uniform radius n <= n.
Proof. induction n as [|n IH]; cbn; [lia|]. destruct (nltb _ _ _); lia. Qed.
Theorem C50_zero_wraps : forall (T C : Type) (U : NumOps T) (K : Colors C) to_size pow3 fuel uniform sx sy sz (d : @data T C),
  (N.of_nat fuel < 2 ^ 64 - 1)%N ->
  exists d', make_universe U K to_size pow3 fuel uniform 0 sx sy sz d = Some (Exhausted d').
Proof.
  intros T C U K to_size pow3 fuel uniform sx sy sz d Hf. unfold make_universe. cbv zeta.
  match goal with |- context [add_galaxy U K pow3 fuel uniform ?c ?v ?r ?m 0 ?col ?e] =>
    destruct (galaxy_ends T C U K pow3 fuel uniform c v r m 0 col e) as (d1 & _ & G) end.
  assert (Hc : wsub (round_up 0 64) 1 = (2 ^ 64 - 1)%N) by (vm_compute; reflexivity).
  rewrite Hc in G.
  destruct (N.leb_spec (2 ^ 64 - 1) (N.of_nat (accepted U (uniform (half U sx)) (half U sx) fuel))) as [H|H].
  - exfalso. pose proof (accepted_le T U (uniform (half U sx)) (half U sx) fuel). lia.
  - rewrite G. eauto.
Qed.
Print Assumptions C50_zero_wraps.

(** integers: all samples at the centre of the ball *)
Example C50_case : exists d',
  make_universe Zops Zcolors Zsize (fun x => x * x * x)%Z 63 (fun _ _ => 0%Z) 5 10%Z 10%Z 10%Z (data_new Zops) = Some (Done d') /\
  b_count d' = 128 /\ b_box d' = 10%N.
Proof. eexists. vm_compute. repeat split. Qed.

(** ** C51 *)

(** Whatever is done to a table, its columns have [get_count()] entries. *)
Theorem C51_rectangular : forall (T C : Type) (U : NumOps T) (X : TextOps T) (K : Colors C) to_size pow3 ops (d : @data T C),
  data_history U X K to_size pow3 ops (data_new U) = Some d -> rectangular d.
Proof. intros T C U X K to_size pow3 ops d E. eapply rect_history; [|exact E]. repeat split. Qed.
Print Assumptions C51_rectangular.

(** So stores below the count, saving and comparing stay inside the arrays. *)
Theorem C51_safe : forall (T C : Type) (U : NumOps T) (X : TextOps T) (K : Colors C) to_size pow3 ops ops' (d d' : @data T C),
  data_history U X K to_size pow3 ops (data_new U) = Some d ->
  data_history U X K to_size pow3 ops' (data_new U) = Some d' ->
  (forall i v m, i < b_count d -> store_vert i v d <> None /\ store_velo i v d <> None /\ store_mass i m d <> None) /\
  save X d <> None /\ (forall eps, is_equal U d d' eps <> None).
Proof.
  intros T C U X K to_size pow3 ops ops' d d' E E'.
  apply C51_rectangular in E. apply C51_rectangular in E'.
  assert (W : forall A (l : list A) i v, i < length l -> wr l i v <> None).
  { intros A l. induction l as [|a l IH]; intros [|i] v H; cbn in *; try lia; try discriminate.
    specialize (IH i v ltac:(lia)). destruct (wr l i v); [discriminate|congruence]. }
  destruct E as (L1 & L2 & L3 & L4 & L5).
  split; [|split].
  - intros i v m Hi. unfold store_vert, store_velo, store_mass.
    pose proof (W _ (b_vert d) i v ltac:(lia)). pose proof (W _ (b_velo d) i v ltac:(lia)).
    pose proof (W _ (b_mass d) i m ltac:(lia)).
    destruct (wr (b_vert d) i v), (wr (b_velo d) i v), (wr (b_mass d) i m); try congruence.
    repeat split; discriminate.
  - unfold save. assert (G : forall todo n, n + todo = b_count d -> save_bodies X todo n d <> None).
    { assert (R : forall A (l : list A) n, n < length l -> exists x, rd l n = Some x).
      { intros A l n H. unfold rd. destruct (nth_error l n) eqn:En; [eauto|]. apply nth_error_None in En. lia. }
      induction todo as [|todo IH]; intros n Hn; [discriminate|]. cbn [save_bodies].
      destruct (R _ (b_vert d) n) as [r ->]; [lia|]. destruct (R _ (b_velo d) n) as [v ->]; [lia|].
      destruct (R _ (b_mass d) n) as [m ->]; [lia|]. destruct (R _ (b_radius d) n) as [q ->]; [lia|].
      cbn [obind]. specialize (IH (S n) ltac:(lia)). destruct (save_bodies X todo (S n) d); [discriminate|congruence]. }
    now apply G.
  - intros eps. destruct (@is_equal_spec T C U d d' eps) as (r & -> & _); [repeat split; auto|exact E'|discriminate].
Qed.
Print Assumptions C51_safe.

(** Only [advise_time], [set_time] and [set_step] change the clock: the others, loading and generating included, leave it. *)
Theorem C51_clock : forall (T C : Type) (U : NumOps T) (X : TextOps T) (K : Colors C) to_size pow3 ops (d d' : @data T C),
  data_history U X K to_size pow3 ops d = Some d' -> (b_time d', b_step d') = fold_left (ticked U) ops (b_time d, b_step d).
Proof.
  intros T C U X K to_size pow3 ops. induction ops as [|o ops IH]; intros d d' E; cbn -[data_do ticked] in E |- *; [now injection E as <-|].
  destruct (data_do U X K to_size pow3 o d) as [d1|] eqn:E1; [|discriminate]. cbn [obind] in E. rewrite <- (clock_do U X K to_size pow3 o d E1). auto.
Qed.
Print Assumptions C51_clock.

Example C51_case : exists d,
  data_history Zops Ztext Zcolors Zsize (fun x => x)
    [OAdd (V3 1 2 3)%Z (V3 0 0 0)%Z 5%Z 7 0%Z; OResize 3; OMass 2 8%Z; OLoad None G1; OAdd (V3 9 9 9)%Z (V3 0 0 0)%Z 1%Z 7 2%Z]
    (data_new Zops) = Some d /\ b_count d = 4 /\ b_mass d = [5; 0; 8; 1]%Z /\ b_radius d = [0; 0; 0; 2]%Z.
Proof. eexists. repeat split. Qed.

(** ** C52 *)

Theorem C52_real : forall (C : Type) mind (a b : @data R C) eps, rectangular a -> rectangular b ->
  exists r, is_equal (Rops mind) a b eps = Some r /\
    (r = true <-> agree (fun x y => (Rabs (x - y) <= eps)%R) a b).
Proof.
  intros C mind a b eps Ha Hb. destruct (is_equal_spec (Rops mind) eps Ha Hb) as (r & E & H).
  exists r. split; [exact E|]. rewrite H.
  assert (P : forall x y, same_within (Rops mind) eps x y <-> (Rabs (x - y) <= eps)%R).
  { intros x y. unfold same_within, differ. rewrite nltb_R_false. cbn [nabs nsub Rops]. lra. }
  assert (F : forall A (P Q : A -> A -> Prop) l l', (forall x y, P x y <-> Q x y) -> (Forall2 P l l' <-> Forall2 Q l l')).
  { intros A P0 Q l l' H0. split; intros F; induction F; constructor; auto; now apply H0. }
  assert (P3 : forall x y, rel3 (same_within (Rops mind) eps) x y <-> rel3 (fun x y => (Rabs (x - y) <= eps)%R) x y).
  { intros x y. unfold rel3. rewrite !P. tauto. }
  unfold agree. rewrite !(F _ _ _ _ _ P3), !(F _ _ _ _ _ P). tauto.
Qed.
Print Assumptions C52_real.

(** reflexive, symmetric, monotone; tables of different sizes differ *)
Theorem C52_laws : forall (C : Type) mind (a b : @data R C) eps eps', rectangular a -> rectangular b ->
  (0 <= eps -> is_equal (Rops mind) a a eps = Some true)%R /\
  (is_equal (Rops mind) a b eps = is_equal (Rops mind) b a eps) /\
  ((eps <= eps')%R -> is_equal (Rops mind) a b eps = Some true -> is_equal (Rops mind) a b eps' = Some true) /\
  (b_count a <> b_count b -> is_equal (Rops mind) a b eps = Some false).
Proof.
  intros C mind a b eps eps' Ha Hb.
  assert (F3 : forall (P Q : R -> R -> Prop) l l', (forall x y, P x y -> Q x y) -> Forall2 (rel3 P) l l' -> Forall2 (rel3 Q) l l').
  { intros P Q l l' H F. induction F as [|x y l l' (H1 & H2 & H3) F IH]; constructor; auto. repeat split; auto. }
  assert (F1 : forall (P Q : R -> R -> Prop) l l', (forall x y, P x y -> Q x y) -> Forall2 P l l' -> Forall2 Q l l').
  { intros P Q l l' H F. induction F; constructor; auto. }
  split; [|split; [|split]].
  - intros He. destruct (C52_real C mind a a eps Ha Ha) as (r & -> & H). f_equal. apply H.
    assert (Z : forall x : R, (Rabs (x - x) <= eps)%R) by (intros; rewrite Rminus_eq_0, Rabs_R0; exact He).
    assert (Z1 : forall l : list R, Forall2 (fun x y => (Rabs (x - y) <= eps)%R) l l) by (induction l; constructor; auto).
    assert (Z3 : forall l : list (vec3 R), Forall2 (rel3 (fun x y => (Rabs (x - y) <= eps)%R)) l l)
      by (induction l; constructor; auto; repeat split; apply Z).
    repeat split; auto.
  - destruct (C52_real C mind a b eps Ha Hb) as (r & -> & H). destruct (C52_real C mind b a eps Hb Ha) as (r' & -> & H').
    f_equal.
    assert (S : forall x y : @data R C, agree (fun x y => (Rabs (x - y) <= eps)%R) x y -> agree (fun x y => (Rabs (x - y) <= eps)%R) y x).
    { assert (S1 : forall l l', Forall2 (fun x y => (Rabs (x - y) <= eps)%R) l l' -> Forall2 (fun x y => (Rabs (x - y) <= eps)%R) l' l).
      { intros l l' F. induction F; constructor; auto. now rewrite Rabs_minus_sym. }
      assert (S3 : forall l l', Forall2 (rel3 (fun x y => (Rabs (x - y) <= eps)%R)) l l' -> Forall2 (rel3 (fun x y => (Rabs (x - y) <= eps)%R)) l' l).
      { intros l l' F. induction F as [|x y l l' (H1 & H2 & H3) F IH]; constructor; auto.
        repeat split; now rewrite Rabs_minus_sym. }
      intros x y (E & H1 & H2 & H3 & H4). repeat split; auto. }
    destruct r, r'; try reflexivity.
    + symmetry. apply H'. apply S. now apply H.
    + apply H. apply S. now apply H'.
  - intros He E. destruct (C52_real C mind a b eps Ha Hb) as (r & Er & H). destruct (C52_real C mind a b eps' Ha Hb) as (r' & -> & H').
    rewrite E in Er. injection Er as <-. f_equal. apply H'. destruct H as [H _]. specialize (H eq_refl).
    destruct H as (E0 & H1 & H2 & H3 & H4). repeat split; auto.
    all: (eapply F3 || eapply F1); [|eassumption]; cbn; intros; lra.
  - intros Hn. unfold is_equal. apply Nat.eqb_neq in Hn. now rewrite Hn.
Qed.
Print Assumptions C52_laws.

(** The same laws in binary64, whatever the numbers (infinities and NaN included). *)
Theorem C52_binary64 : forall (C : Type) (a b : @data spec_float C) eps eps', rectangular a -> rectangular b ->
  (SFleb (S754_zero false) eps = true -> is_equal Fops a a eps = Some true) /\
  (is_equal Fops a b eps = is_equal Fops b a eps) /\
  (SFleb eps eps' = true -> is_equal Fops a b eps = Some true -> is_equal Fops a b eps' = Some true).
Proof.
  intros C a b eps eps' Ha Hb.
  split; [|split].
  - intros He. destruct (is_equal_spec Fops eps Ha Ha) as (r & -> & H). f_equal. apply H.
    assert (Z : forall x, same_within Fops eps x x).
    { intros x. unfold same_within, differ. cbn [nltb nabs nsub Fops].
      destruct (sub_self F_prec F_emax x) as [->| ->]; cbn [SFabs].
      - destruct (SFltb eps (S754_zero false)) eqn:E; [|reflexivity].
        pose proof (SFle_lt_trans _ _ _ He E) as X. discriminate X.
      - unfold SFltb. destruct eps; reflexivity. }
    assert (Z1 : forall l, Forall2 (same_within Fops eps) l l) by (induction l; constructor; auto).
    assert (Z3 : forall l, Forall2 (rel3 (same_within Fops eps)) l l)
      by (induction l; constructor; auto; repeat split; apply Z).
    repeat split; auto.
  - destruct (is_equal_spec Fops eps Ha Hb) as (r & -> & H). destruct (is_equal_spec Fops eps Hb Ha) as (r' & -> & H').
    f_equal.
    assert (S0 : forall x y, same_within Fops eps x y -> same_within Fops eps y x).
    { intros x y. unfold same_within, differ. cbn [nltb nabs nsub Fops]. now rewrite sub_abs_sym. }
    assert (S : forall x y : @data spec_float C, agree (same_within Fops eps) x y -> agree (same_within Fops eps) y x).
    { assert (S1 : forall l l', Forall2 (same_within Fops eps) l l' -> Forall2 (same_within Fops eps) l' l).
      { intros l l' F. induction F; constructor; auto. }
      assert (S3 : forall l l', Forall2 (rel3 (same_within Fops eps)) l l' -> Forall2 (rel3 (same_within Fops eps)) l' l).
      { intros l l' F. induction F as [|x y l l' (H1 & H2 & H3) F IH]; constructor; auto.
        repeat split; auto. }
      intros x y (E & H1 & H2 & H3 & H4). repeat split; auto. }
    destruct r, r'; try reflexivity.
    + symmetry. apply H'. apply S. now apply H.
    + apply H. apply S. now apply H'.
  - intros He E. destruct (is_equal_spec Fops eps Ha Hb) as (r & Er & H). destruct (is_equal_spec Fops eps' Ha Hb) as (r' & -> & H').
    rewrite E in Er. injection Er as <-. f_equal. apply H'. destruct H as [H _]. specialize (H eq_refl).
    assert (M : forall x y, same_within Fops eps x y -> same_within Fops eps' x y).
    { intros x y. unfold same_within, differ. cbn [nltb nabs nsub Fops]. intros Hs.
      destruct (SFltb eps' _) eqn:E'; [|reflexivity]. rewrite (SFle_lt_trans _ _ _ He E') in Hs. discriminate. }
    destruct H as (E0 & H1 & H2 & H3 & H4).
    assert (F3 : forall l l', Forall2 (rel3 (same_within Fops eps)) l l' -> Forall2 (rel3 (same_within Fops eps')) l l').
    { intros l l' F. induction F as [|x y l l' (G1 & G2 & G3) F IH]; constructor; auto. repeat split; auto. }
    assert (F1 : forall l l', Forall2 (same_within Fops eps) l l' -> Forall2 (same_within Fops eps') l l').
    { intros l l' F. induction F; constructor; auto. }
    repeat split; auto.
Qed.
Print Assumptions C52_binary64.

(** A coordinate that is not a number equals every other: such a state passes any comparison. *)
Theorem C52_nan_equals : forall (x y c : spec_float) eps, SFleb (S754_zero false) eps = true ->
  is_equal Fops (mkData 1 (nlit Fops 0) 0 0 [V3 S754_nan x y] [V3 x y x] [y] [tt] [x])
                (mkData 1 (nlit Fops 0) 0 0 [V3 c x y] [V3 x y x] [y] [tt] [x]) eps = Some true.
Proof.
  intros x y c eps He.
  match goal with |- is_equal _ ?a ?b _ = _ =>
    destruct (@is_equal_spec spec_float unit Fops a b eps) as (r & -> & Hr); [repeat split|repeat split|] end.
  f_equal. apply Hr.
  assert (Z : forall z, same_within Fops eps z z).
  { intros z. unfold same_within, differ. cbn [nltb nabs nsub Fops].
    destruct (sub_self F_prec F_emax z) as [->| ->]; cbn [SFabs].
    - destruct (SFltb eps (S754_zero false)) eqn:E; [|reflexivity].
      pose proof (SFle_lt_trans _ _ _ He E) as Q. discriminate Q.
    - unfold SFltb. destruct eps; reflexivity. }
  assert (Zn : same_within Fops eps S754_nan c).
  { unfold same_within, differ. cbn. unfold SFltb. destruct c, eps; reflexivity. }
  repeat split; repeat constructor; auto.
Qed.
Print Assumptions C52_nan_equals.
Example C52_case : is_equal Zops two_bodies two_bodies 0%Z = Some true /\
  is_equal Zops two_bodies (mkData 2 0%Z 0 0 [V3 1 (-2) 30; V3 4 5 6]%Z [V3 0 0 0; V3 (-1) 8 7]%Z [100; 3]%Z [2; 2] [0; 11]%Z) 1%Z = Some false /\
  is_equal Zops two_bodies (mkData 2 0%Z 0 0 [V3 1 (-2) 30; V3 4 5 6]%Z [V3 0 0 0; V3 (-1) 8 7]%Z [100; 3]%Z [2; 2] [0; 11]%Z) 2%Z = Some true /\
  is_equal Fops (mkData 1 (nlit Fops 0) 0 0 [V3 S754_nan S754_nan S754_nan] [V3 S754_nan S754_nan S754_nan] [S754_nan] [tt] [S754_nan])
    (mkData 1 (nlit Fops 0) 0 0 [V3 (nlit Fops 1) (nlit Fops 2) (nlit Fops 3)] [V3 (nlit Fops 1) (nlit Fops 2) (nlit Fops 3)]
       [nlit Fops 7] [tt] [nlit Fops 0]) (nlit Fops 0) = Some true.
Proof. repeat split. Qed.
