(** C63-C66: generated galaxies, the box of a loaded table, units, Zeno files *)
From Coq Require Import Ascii String List NArith ZArith Arith Lia Reals Lra Psatz SpecFloat.
From Verif Require Import Num Arr ModelVertex ModelForce ModelText ModelData SpecData RLemmas SpecPhys LemForce
  LemText LemDataText LemData LemData2 LemDataR LemFloat SpecCase LemCase PropData.
Import ListNotations.

(** ** C63 *)

(** A generated galaxy: a hole with 999/1000 of the mass at the centre, then stars of equal mass that
    share the rest, each moving around the centre. *)
Theorem C63_galaxy : forall (C : Type) mind (K : Colors C) fuel uniform center velosity radius M n color (d d' : @data R C),
  (0 < mind)%R -> (0 < radius)%R -> (0 < M)%R -> (1 <= n)%N -> (n + 64 <= 2 ^ 64)%N ->
  add_galaxy (Rops mind) K (fun x => x ^ 3)%R fuel uniform center velosity radius M n color d = Done d' ->
  exists stars : list (vec3 R * vec3 R),
    N.of_nat (length stars) = (round_up n 64 - 1)%N /\ length stars <> 0 /\
    b_vert d' = b_vert d ++ center :: map fst stars /\
    b_velo d' = b_velo d ++ velosity :: map snd stars /\
    b_mass d' = b_mass d ++ (999 / 1000 * M)%R :: repeat (M / 1000 / INR (length stars))%R (length stars) /\
    total (b_mass d') = (total (b_mass d) + M)%R /\
    b_color d' = b_color d ++ c_hole K :: repeat color (length stars) /\
    Forall (fun s => orbiting mind center velosity radius (M / 1000) (999 / 1000 * M) (fst s) (snd s)) stars.
Proof.
  intros C mind K fuel uniform center velosity radius M n color d d' Hmind Hr HM H1 H2 E.
  destruct (@round_up_spec n 64 ltac:(lia) H1 H2) as [[B1 B2] (k & Hk)].
  assert (Hc : wsub (round_up n 64) 1 = (round_up n 64 - 1)%N) by (apply wsub_small; lia).
  unfold add_galaxy, data_block in E. rewrite Hc in E. set (c := (round_up n 64 - 1)%N) in *.
  match type of E with star_loop _ _ _ _ _ _ _ _ _ _ ?sm ?all ?hole _ ?e0 = _ =>
      destruct (@star_loop_spec R C (Rops mind) (fun x => x ^ 3)%R fuel (uniform radius) 0 0%N c center velosity radius
        sm all hole color e0 (N.le_0_l c)) as
        (stars & S1 & _ & _ & _ & S5 & S6 & S7 & S8 & _ & S10 & _ & S12);
      set (m := sm) in *; set (al := all) in *; set (ho := hole) in * end.
  rewrite E in S1, S5, S6, S7, S8, S12. cbn [ended add_body b_count b_vert b_velo b_mass b_color] in *.
  rewrite N.sub_0_r in S12. destruct (_ <=? _)%N; [|destruct S12; discriminate]. destruct S12 as [_ Hlen].
  exists stars. rewrite <- !app_assoc in *. cbn [app] in *.
  assert (Hl0 : length stars <> 0) by lia.
  assert (Hof : of_size (Rops mind) c = INR (length stars)).
  { unfold of_size. cbn [nlit Rops]. rewrite <- Hlen, nat_N_Z. symmetry. apply INR_IZR_INZ. }
  assert (HI : (0 < INR (length stars))%R) by (apply lt_0_INR; lia).
  assert (Hho : ho = (999 / 1000 * M)%R) by (unfold ho; cbn [nmul ndiv nlit Rops]; field).
  assert (Hm : m = (M / 1000 / INR (length stars))%R).
  { unfold m. rewrite Hof. cbn [nsub ndiv Rops]. rewrite Hho. field. lra. }
  assert (Hal : al = (M / 1000)%R).
  { unfold al. rewrite Hof. cbn [nsub nmul ndiv Rops]. rewrite Hho. field. lra. }
  change (nmul (Rops mind) (of_size (Rops mind) c) m) with al in S10.
  clearbody m al ho. subst m al ho.
  repeat (split; [first [assumption|idtac]|]).
  - rewrite S7, total_app, total_cons, total_repeat. f_equal. field. lra.
  - rewrite Forall_forall in S10 |- *. intros s Hs. eapply star_orbits; [..|exact (S10 s Hs)]; auto.
    + apply Rmult_lt_0_compat; [lra|]. now apply Rinv_0_lt_compat.
    + lra.
    + lra.
Qed.
Print Assumptions C63_galaxy.

(** A generated universe: two such galaxies of mass 1000, one around each end of the middle line of the
    box along x, moving in opposite directions along y. *)
Theorem C63_universe : forall (C : Type) mind (K : Colors C) to_size fuel uniform n sx sy sz (d d' : @data R C),
  (0 < mind)%R -> (0 < sx)%R -> (1 <= n)%N -> (n + 64 <= 2 ^ 64)%N ->
  make_universe (Rops mind) K to_size (fun x => x ^ 3)%R fuel uniform n sx sy sz d = Some (Done d') ->
  exists one two u,
    b_vert d' = V3 0%R (sy / 2)%R (sz / 2)%R :: map fst one ++ V3 sx (sy / 2)%R (sz / 2)%R :: map fst two /\
    b_velo d' = V3 0%R u 0%R :: map snd one ++ V3 0%R (- u)%R 0%R :: map snd two /\
    Forall (fun s => orbiting mind (V3 0%R (sy / 2)%R (sz / 2)%R) (V3 0%R u 0%R) (sx / 2) 1 999 (fst s) (snd s)) one /\
    Forall (fun s => orbiting mind (V3 sx (sy / 2)%R (sz / 2)%R) (V3 0%R (- u)%R 0%R) (sx / 2) 1 999 (fst s) (snd s)) two /\
    total (b_mass d') = 2000%R /\
    (0 <= u)%R /\ (mind <= (sx / 2) ^ 2 -> 9 * u ^ 2 = 1000 / sx)%R.
Proof.
  intros C mind K to_size fuel uniform n sx sy sz d d' Hmind Hsx H1 H2 E.
  unfold make_universe in E. cbv zeta in E.
  match type of E with match ?g with _ => _ end = _ => destruct g as [d1|d1] eqn:E1 end; [|discriminate].
  match type of E with match ?g with _ => _ end = _ => destruct g as [d2|d2] eqn:E2 end; [|discriminate].
  destruct (to_size _); [|discriminate]. injection E as <-.
  cbn [set_box b_vert b_velo b_mass].
  assert (Hh : forall x, half (Rops mind) x = (x / 2)%R).
  { intros x. unfold half. cbn [nmul ndiv nlit Rops]. field. }
  rewrite !Hh in *.
  apply C63_galaxy in E1; auto; [|lra|cbn [nlit Rops]; lra].
  apply C63_galaxy in E2; auto; [|lra|cbn [nlit Rops]; lra].
  destruct E1 as (one & _ & _ & V1 & W1 & _ & T1 & _ & O1). destruct E2 as (two & _ & _ & V2 & W2 & _ & T2 & _ & O2).
  cbn [data_clear b_vert b_velo b_mass app] in *. rewrite V1 in V2. rewrite W1 in W2. rewrite T1 in T2.
  unfold vsub, vadd, vdivs, vopp in *. cbn [vx vy vz nsub nadd ndiv nopp nlit Rops] in *.
  set (u := nsqrt (Rops mind) _) in *.
  replace (sx / 2 - sx / 2)%R with 0%R in * by lra. replace (sx / 2 + sx / 2)%R with sx in * by lra.
  replace (sy / 2 - 0)%R with (sy / 2)%R in * by lra. replace (sz / 2 - 0)%R with (sz / 2)%R in * by lra.
  replace (sy / 2 + 0)%R with (sy / 2)%R in * by lra. replace (sz / 2 + 0)%R with (sz / 2)%R in * by lra.
  replace (0 / 3)%R with 0%R in * by lra. replace (- 0 / 3)%R with 0%R in * by lra.
  replace (- u / 3)%R with (- (u / 3))%R in * by lra.
  replace (1000 / 1000)%R with 1%R in * by lra. replace (999 / 1000 * 1000)%R with 999%R in * by lra.
  exists one, two, (u / 3)%R. repeat (split; [first [assumption|idtac]|]).
  - rewrite T2. change (total []) with 0%R. lra.
  - assert (Hu : (0 <= u)%R) by (unfold u; cbn [nsqrt Rops]; apply sqrt_pos). lra.
  - intros Hs.
    destruct (force_central mind (V3 0%R 0%R 0%R) (V3 (sx / 2)%R 0%R 0%R) 1000 1000 Hmind) as (_ & _ & _ & _ & _ & HF & _).
    cbn [vx vy vz] in HF.
    replace ((0 - sx / 2) ^ 2 + (0 - 0) ^ 2 + (0 - 0) ^ 2)%R with ((sx / 2) ^ 2)%R in HF by ring. specialize (HF Hs).
    rewrite Rabs_right in HF by lra.
    assert (El : vlength (Rops mind) (V3 (sx / 2)%R 0%R 0%R) = (sx / 2)%R).
    { unfold vlength, vdot. cbn [vx vy vz nsqrt nadd nmul Rops].
      replace (sx / 2 * (sx / 2) + 0 * 0 + 0 * 0)%R with (Rsqr (sx / 2)) by (unfold Rsqr; ring).
      apply sqrt_Rsqr. lra. }
    assert (Eu : (u * u = 1000 / sx)%R).
    { unfold u. change (vzero (Rops mind)) with (V3 0%R 0%R 0%R). rewrite HF, El. cbn [nsqrt ndiv nmul Rops].
      rewrite sqrt_sqrt; [field; lra|].
      replace (1000 * 1000 / (sx / 2) ^ 2 * (sx / 2) / (2 * 1000))%R with (1000 / sx)%R by (field; lra).
      apply Rmult_le_pos; [lra|]. left. now apply Rinv_0_lt_compat. }
    replace (9 * (u / 3) ^ 2)%R with (u * u)%R by field. exact Eu.
Qed.
Print Assumptions C63_universe.

(** samples in the middle of the ball's first octant *)
Example C63_case : forall fuel, 63 <= fuel -> exists d',
  make_universe (Rops 1) (mkColors 0 1 2 3 4) (fun _ => Some 10%N) (fun x => x ^ 3)%R fuel (fun r _ => r / 2)%R 5 10%R 10%R 10%R
    (data_new (Rops 1)) = Some (Done d') /\ (0 < 1)%R /\ (1 <= 5)%N /\ (5 + 64 <= 2 ^ 64)%N.
Proof.
  intros fuel Hf.
  assert (A : forall n, accepted (Rops 1) (fun _ : nat => (5 / 2)%R) 5%R n = n).
  { induction n as [|n IH]; [reflexivity|]. cbn [accepted]. rewrite IH.
    destruct (nltb _ _ _) eqn:E; [|lia]. apply nltb_R in E.
    assert (H : (vlength (Rops 1) (sample (fun _ : nat => 5 / 2) n) <= 5)%R).
    { unfold vlength, vdot, sample. cbn [vx vy vz nsqrt nadd nmul Rops].
      rewrite <- (sqrt_square 5) at 7 by lra. apply sqrt_le_1_alt. lra. }
    lra. }
  destruct (C50_ends R nat (Rops 1) (mkColors 0 1 2 3 4) (fun _ => Some 10%N) (fun x => x ^ 3)%R fuel
    (fun r _ => r / 2)%R 5 10%R 10%R 10%R 10%N (data_new (Rops 1))) as [_ H]; [lia|lia|reflexivity|].
  destruct H as [d' E].
  - assert (Eh : half (Rops 1) 10%R = 5%R) by (unfold half; cbn [nmul ndiv nlit Rops]; lra).
    rewrite Eh, A. change (round_up 5 64) with 64%N. lia.
  - exists d'. repeat split; try lia; try lra. exact E.
Qed.

(** ** C64 *)

(** The box of a loaded table is the largest coordinate (at least 1), rounded down. *)
Lemma nmax_R : forall mind a b, nmax (Rops mind) a b = Rmax a b.
Proof.
  intros mind a b. unfold nmax. destruct (nltb (Rops mind) a b) eqn:E.
  - apply nltb_R in E. rewrite Rmax_right; lra.
  - apply nltb_R_false in E. rewrite Rmax_left; lra.
Qed.
Lemma extent_R : forall mind l, let e := extent (Rops mind) l in
  (1 <= e)%R /\ Forall (fun c => (c <= e)%R) (coordinates l) /\ (e = 1%R \/ In e (coordinates l)).
Proof.
  intros mind l e. unfold extent in e.
  assert (G : forall l r, let r' := fold_left (widen (Rops mind)) l r in
    (vx r <= vx r' /\ vy r <= vy r' /\ vz r <= vz r')%R /\
    Forall (fun p => vx p <= vx r' /\ vy p <= vy r' /\ vz p <= vz r')%R l /\
    (vx r' = vx r \/ In (vx r') (coordinates l)) /\ (vy r' = vy r \/ In (vy r') (coordinates l)) /\
    (vz r' = vz r \/ In (vz r') (coordinates l))).
  { induction l0 as [|p l0 IH]; intros r r'; [cbn in r'; subst r'; repeat split; try lra; auto|].
    cbn [fold_left] in r'. specialize (IH (widen (Rops mind) r p)). cbv zeta in IH. fold r' in IH.
    unfold widen in IH. rewrite !nmax_R in IH. cbn [vx vy vz] in IH.
    destruct IH as ((I1 & I2 & I3) & I4 & I5 & I6 & I7).
    pose proof (Rmax_l (vx p) (vx r)). pose proof (Rmax_r (vx p) (vx r)).
    pose proof (Rmax_l (vy p) (vy r)). pose proof (Rmax_r (vy p) (vy r)).
    pose proof (Rmax_l (vz p) (vz r)). pose proof (Rmax_r (vz p) (vz r)).
    assert (Q : forall a b c (l : list R), (c = Rmax a b \/ In c l) -> In a (coordinates (p :: l0)) -> (forall x, In x l -> In x (coordinates (p :: l0))) ->
      c = b \/ In c (coordinates (p :: l0))).
    { intros a b c l1 [->|Hc] Ha Hl; [|right; auto]. unfold Rmax. destruct (Rle_dec a b); auto. }
    assert (Hin : forall x, In x (coordinates l0) -> In x (coordinates (p :: l0))) by (intros; cbn; auto).
    split; [lra|]. split; [constructor; [lra|exact I4]|].
    split; [|split]; (eapply Q; [eassumption|cbn; auto|exact Hin]). }
  specialize (G l (V3 (nlit (Rops mind) 1) (nlit (Rops mind) 1) (nlit (Rops mind) 1))). cbv zeta in G, e.
  set (r := fold_left _ l _) in *.
  assert (Ee : e = Rmax (vx r) (Rmax (vy r) (vz r))) by (unfold e; rewrite !nmax_R; reflexivity).
  clearbody e. cbn [vx vy vz nlit Rops] in G.
  destruct G as ((G1 & G2 & G3) & G4 & G5 & G6 & G7).
  assert (X : (vx r <= e /\ vy r <= e /\ vz r <= e)%R).
  { rewrite Ee. pose proof (Rmax_l (vx r) (Rmax (vy r) (vz r))). pose proof (Rmax_r (vx r) (Rmax (vy r) (vz r))).
    pose proof (Rmax_l (vy r) (vz r)). pose proof (Rmax_r (vy r) (vz r)). lra. }
  split; [lra|]. split.
  - unfold coordinates. rewrite Forall_forall in *. intros c Hc. apply in_flat_map in Hc. destruct Hc as (p & Hp & Hc).
    specialize (G4 p Hp). cbn in Hc. destruct Hc as [<-|[<-|[<-|[]]]]; lra.
  - rewrite Ee. unfold Rmax. repeat destruct (Rle_dec _ _); assumption.
Qed.
Theorem C64_box : forall (C : Type) mind (X : TextOps R) (K : Colors C) file type (d d' : @data R C),
  load_initial (Rops mind) X K R_to_size file type d = Some (d', true) ->
  let box := IZR (Z.of_N (b_box d')) in
  (1 <= box)%R /\ Forall (fun c => (c < box + 1)%R) (coordinates (b_vert d')) /\
  (box = 1%R \/ exists c, In c (coordinates (b_vert d')) /\ (box <= c)%R).
Proof.
  intros C mind X K file type d d' E box. unfold load_initial in E.
  match type of E with obind ?x _ = _ => destruct x as [[d1 good]|] end; cbn [obind] in E; [|discriminate].
  destruct good; cbn [negb] in E; [|injection E as _ E; discriminate].
  destruct (R_to_size _) as [b|] eqn:Eb; cbn [obind] in E; [|discriminate]. injection E as <-.
  cbn [set_box b_box b_vert] in *. subst box.
  destruct (extent_R mind (b_vert d1)) as (H1 & H2 & H3). set (e := extent _ _) in *.
  unfold R_to_size in Eb. destruct (Rlt_dec (-1) e); [|discriminate]. destruct (_ <? _)%Z; [|discriminate].
  injection Eb as <-. destruct (archimed e) as [A1 A2].
  assert (Hup : (2 <= up e)%Z).
  { assert (1 < up e)%Z; [|lia]. apply lt_IZR. lra. }
  rewrite Z2N.id by lia. rewrite minus_IZR.
  split; [|split].
  - rewrite <- minus_IZR. apply IZR_le. lia.
  - eapply Forall_impl; [|exact H2]. cbn. intros c Hc. lra.
  - destruct H3 as [H3|H3].
    + left. rewrite <- minus_IZR. f_equal. assert (up e - 1 < 2)%Z; [|lia].
      apply lt_IZR. rewrite minus_IZR. lra.
    + right. exists e. split; [exact H3|lra].
Qed.
Print Assumptions C64_box.

(** But the bodies need not be inside [-box, box]: negative coordinates do not count, *)
Theorem C64_inside_refuted : exists file d' p,
  load_initial Zops Ztext Zcolors Zsize (Some file) (chars "g1") (data_new Zops) = Some (d', true) /\
  In p (b_vert d') /\ (vx p < - Z.of_N (b_box d'))%Z.
Proof. exists (chars "-100 2 3 4 5 6 7"). eexists _, (V3 (-100) 2 3)%Z. split; [vm_compute; reflexivity|]. cbn. split; [now left|lia]. Qed.
Print Assumptions C64_inside_refuted.
(** a coordinate that is not a number hides all those before it, *)
Theorem C64_nan_refuted : exists l p, In p l /\
  nltb Fops (extent Fops l) (vx p) = true /\ nltb Fops (nlit Fops 10) (nsub Fops (vx p) (extent Fops l)) = true.
Proof.
  exists [V3 (nlit Fops 100) (nlit Fops 0) (nlit Fops 0); V3 S754_nan (nlit Fops 0) (nlit Fops 0);
          V3 (nlit Fops 5) (nlit Fops 0) (nlit Fops 0)].
  eexists. split; [now left|]. vm_compute. split; reflexivity.
Qed.
Print Assumptions C64_nan_refuted.
(** and a coordinate that does not fit into size_t makes the conversion undefined. *)
Definition Ztext_long : TextOps Z :=
  mkTextOps Zshow Zshow (fun s => match read_N s with Some n => Some (Z.of_N n) | None => None end).
Theorem C64_defined_refuted : exists file d',
  load Zops Ztext_long Zcolors (Some file) G1 (data_new Zops) = (d', true) /\
  load_initial Zops Ztext_long Zcolors Zsize (Some file) (chars "G1") (data_new Zops) = None.
Proof. exists (chars "20000000000000000000 2 3 4 5 6 7"). eexists. split; vm_compute; reflexivity. Qed.
Print Assumptions C64_defined_refuted.
(** (For real numbers that is the only case in which a loadable file has no result.) *)
Theorem C64_defined : forall (C : Type) mind (X : TextOps R) (K : Colors C) file type (d : @data R C),
  load_initial (Rops mind) X K R_to_size file type d = None ->
  exists f d', file = Some f /\
    (load_zeno_ascii (Rops mind) X K file d = Some (d', true) \/ exists u, load (Rops mind) X K file u d = (d', true)) /\
    exists c, In c (coordinates (b_vert d')) /\ (IZR (2 ^ 64) <= c)%R.
Proof.
  intros C mind X K file type d E. unfold load_initial in E.
  assert (G : forall d1 : @data R C, R_to_size (extent (Rops mind) (b_vert d1)) = None ->
    exists c, In c (coordinates (b_vert d1)) /\ (IZR (2 ^ 64) <= c)%R).
  { intros d1 Es. destruct (extent_R mind (b_vert d1)) as (H1 & H2 & H3). set (e := extent _ _) in *.
    unfold R_to_size in Es. destruct (Rlt_dec (-1) e); [|lra].
    destruct (Z.ltb_spec (up e - 1) (2 ^ 64)); [discriminate|]. destruct (archimed e) as [A1 A2].
    assert (Hb : (IZR (2 ^ 64) <= e)%R).
    { apply IZR_le in H. rewrite minus_IZR in H. lra. }
    destruct H3 as [H3|H3]; [|eauto]. exfalso. rewrite H3 in Hb. apply le_IZR in Hb. lia. }
  assert (L : forall u, (let* (d, ret) := Some (load (Rops mind) X K file u d) in
      if negb ret then Some (d, false) else let* box := R_to_size (extent (Rops mind) (b_vert d)) in Some (set_box box d, true)) = None ->
    exists f d', file = Some f /\
    (load_zeno_ascii (Rops mind) X K file d = Some (d', true) \/ exists u, load (Rops mind) X K file u d = (d', true)) /\
    exists c, In c (coordinates (b_vert d')) /\ (IZR (2 ^ 64) <= c)%R).
  { clear E. intros u El. cbn [obind] in El. destruct (load (Rops mind) X K file u d) as [d1 good] eqn:Ed.
    destruct good; cbn [obind negb] in El; [|discriminate].
    destruct (R_to_size _) eqn:Es; [discriminate|].
    destruct file as [f|]; [|discriminate]. exists f, d1. split; [reflexivity|]. split; [right; eauto|]. now apply G. }
  destruct (same_name type (chars "Zeno")).
  - destruct file as [f|]; [|discriminate].
    destruct (zeno_spec (Rops mind) X K f d) as (d1 & good & Ez & _). rewrite Ez in E. cbn [obind] in E.
    destruct good; cbn [obind negb] in E; [|discriminate].
    destruct (R_to_size _) eqn:Es; [discriminate|].
    exists f, d1. split; [reflexivity|]. split; [now left|]. now apply G.
  - destruct (same_name type (chars "G1")); [now apply (L G1)|].
    destruct (same_name type (chars "SI")); [now apply (L SI)|].
    destruct (same_name type (chars "ADK")); [now apply (L AuDayKg)|].
    discriminate.
Qed.
Print Assumptions C64_defined.
Example C64_case : exists d', load_initial Zops Ztext Zcolors Zsize (Some (chars "1 2 3 4 5 6 7")) (chars "G1") (data_new Zops) = Some (d', true) /\ b_box d' = 3%N.
Proof. eexists. split; vm_compute; reflexivity. Qed.

(** The name of the units is understood in upper and lower case, and every other name is refused without touching the table. *)
Theorem C64_types : forall (T C : Type) (U : NumOps T) (X : TextOps T) (K : Colors C) to_size file type (d : @data T C) u name,
  In (u, name) [(G1, "g1"); (SI, "si"); (AuDayKg, "adk")]%string ->
  (same_word type (chars name) ->
    (snd (load U X K file u d) = false -> load_initial U X K to_size file type d = Some (load U X K file u d)) /\
    (forall d', load U X K file u d = (d', true) ->
      load_initial U X K to_size file type d = option_map (fun box => (set_box box d', true)) (to_size (extent U (b_vert d'))))) /\
  (same_word type (chars "zeno") -> forall d', load_zeno_ascii U X K file d = Some (d', true) ->
    load_initial U X K to_size file type d = option_map (fun box => (set_box box d', true)) (to_size (extent U (b_vert d')))) /\
  (~ same_word type (chars "g1") -> ~ same_word type (chars "si") -> ~ same_word type (chars "adk") ->
    ~ same_word type (chars "zeno") -> load_initial U X K to_size file type d = Some (d, false)).
Proof.
  intros T C U X K to_size file type d u name Hu.
  assert (Q : forall w w', map lower w = map lower w' -> (same_name type w = true <-> same_word type w')).
  { intros w w' E. rewrite same_name_word, <- !lower_word. now rewrite E. }
  assert (Q1 := Q (chars "Zeno") (chars "zeno") eq_refl). assert (Q2 := Q (chars "G1") (chars "g1") eq_refl).
  assert (Q3 := Q (chars "SI") (chars "si") eq_refl). assert (Q4 := Q (chars "ADK") (chars "adk") eq_refl). clear Q.
  assert (D : forall v w, same_word type v -> same_word type w -> map lower v = map lower w).
  { intros v w Hv Hw. apply lower_word in Hv. apply lower_word in Hw. congruence. }
  assert (N : forall a v w, (same_name type a = true <-> same_word type v) -> same_word type w -> map lower v <> map lower w -> same_name type a = false).
  { intros a v w H1 H2 H3. destruct (same_name type a); auto. exfalso. apply H3, D; auto. now apply H1. }
  split; [|split].
  - intros Hw. unfold load_initial.
    assert (E : (if same_name type (chars "Zeno") then load_zeno_ascii U X K file d else
       if same_name type (chars "G1") then Some (load U X K file G1 d) else
       if same_name type (chars "SI") then Some (load U X K file SI d) else
       if same_name type (chars "ADK") then Some (load U X K file AuDayKg d) else Some (d, false)) = Some (load U X K file u d)).
    { destruct Hu as [Hu|[Hu|[Hu|[]]]]; injection Hu as <- <-.
      - rewrite (N _ _ _ Q1 Hw) by discriminate. now rewrite (proj2 Q2 Hw).
      - rewrite (N _ _ _ Q1 Hw), (N _ _ _ Q2 Hw) by discriminate. now rewrite (proj2 Q3 Hw).
      - rewrite (N _ _ _ Q1 Hw), (N _ _ _ Q2 Hw), (N _ _ _ Q3 Hw) by discriminate. now rewrite (proj2 Q4 Hw). }
    rewrite E. cbn [obind]. destruct (load U X K file u d) as [d1 good]. cbn [snd]. split.
    + intros ->. reflexivity.
    + intros d' H. injection H as -> ->. cbn [negb]. now destruct (to_size _).
  - intros Hw d' Hz. unfold load_initial. rewrite (proj2 Q1 Hw), Hz. cbn [obind negb]. now destruct (to_size _).
  - intros H1 H2 H3 H4. unfold load_initial.
    destruct (same_name type (chars "Zeno")); [exfalso; now apply H4, Q1|].
    destruct (same_name type (chars "G1")); [exfalso; now apply H1, Q2|].
    destruct (same_name type (chars "SI")); [exfalso; now apply H2, Q3|].
    destruct (same_name type (chars "ADK")); [exfalso; now apply H3, Q4|]. reflexivity.
Qed.
Print Assumptions C64_types.
Example C64_types_case : same_word (chars "aDk") (chars "adk").
Proof.
  constructor; [now left|]. constructor; [|constructor; [now left|constructor]].
  right. exists 68. split; [lia|]. left. split; reflexivity.
Qed.

(** ** C65 *)

(** The acceleration [m2] causes at [v1] in the ADK units is the one in SI units, converted. *)
Theorem C65_units : forall mind (v1 v2 : vec3 R) m2,
  let U := Rops mind in
  let scaled v := vdivs U v (au U) in
  let d2 := ((vx v1 - vx v2) ^ 2 + (vy v1 - vy v2) ^ 2 + (vz v1 - vz v2) ^ 2)%R in
  (0 < mind)%R -> (mind <= d2)%R -> (mind <= d2 / (149597870700 * 149597870700))%R ->
  force U (scaled v1) (scaled v2) 1%R (m2 * mass_factor U AuDayKg)%R =
  vdivs U (vscale U (force U v1 v2 1%R (m2 * mass_factor U SI)%R) (86400 * 86400)%R) 149597870700%R.
Proof.
  intros mind v1 v2 m2 U scaled d2 Hm H1 H2.
  destruct (force_central mind v1 v2 1 (m2 * mass_factor U SI) Hm) as (X1 & Y1 & Z1 & P1 & _).
  destruct (force_central mind (scaled v1) (scaled v2) 1 (m2 * mass_factor U AuDayKg) Hm) as (X2 & Y2 & Z2 & P2 & _).
  fold U d2 in X1, Y1, Z1, P1, X2, Y2, Z2, P2.
  set (A := 149597870700%R) in *.
  assert (HA : (0 < A)%R) by (unfold A; lra).
  assert (Ed : ((vx (scaled v1) - vx (scaled v2)) ^ 2 + (vy (scaled v1) - vy (scaled v2)) ^ 2 +
      (vz (scaled v1) - vz (scaled v2)) ^ 2 = d2 / (A * A))%R).
  { unfold scaled, vdivs, d2, au, U. cbn [vx vy vz ndiv nlit Rops]. fold A. field. lra. }
  rewrite Ed in X2, Y2, Z2, P2. rewrite Rmax_right in X1, Y1, Z1, P1 by exact H1.
  rewrite Rmax_right in X2, Y2, Z2, P2 by exact H2.
  assert (Hd : (0 < d2)%R) by lra. pose proof (sqrt_lt_R0 _ Hd) as Hs.
  assert (Es : sqrt (d2 / (A * A)) = (sqrt d2 / A)%R).
  { rewrite sqrt_div_alt by nra. rewrite sqrt_square by lra. reflexivity. }
  rewrite Es in X2, Y2, Z2, P2.
  assert (Eg : (mass_factor U AuDayKg = mass_factor U SI * 86400 * 86400 / (A * A * A))%R).
  { unfold mass_factor, gravity_adk, day, au, U. cbn [nmul ndiv nlit Rops]. reflexivity. }
  set (F2 := force U (scaled v1) (scaled v2) 1%R _) in *. set (F1 := force U v1 v2 1%R _) in *.
  rewrite Eg in X2, Y2, Z2.
  clearbody F1 F2. destruct F1 as [a b c], F2 as [a' b' c']. cbn [vx vy vz] in X1, Y1, Z1, X2, Y2, Z2. subst a b c a' b' c'.
  unfold vdivs, vscale, scaled, vdivs, au, U. cbn [vx vy vz nmul ndiv nlit Rops]. fold A.
  set (g := mass_factor (Rops mind) SI). set (s := sqrt d2) in *.
  f_equal; field; lra.
Qed.
Print Assumptions C65_units.

(** Not so for close bodies: the same softening number means another length in other units. *)
Theorem C65_softened_refuted : exists mind (v1 v2 : vec3 R) m2,
  let U := Rops mind in
  let scaled v := vdivs U v (au U) in
  (0 < mind)%R /\ (mind <= (vx v1 - vx v2) ^ 2 + (vy v1 - vy v2) ^ 2 + (vz v1 - vz v2) ^ 2)%R /\
  force U (scaled v1) (scaled v2) 1%R (m2 * mass_factor U AuDayKg)%R <>
  vdivs U (vscale U (force U v1 v2 1%R (m2 * mass_factor U SI)%R) (86400 * 86400)%R) 149597870700%R.
Proof.
  exists 1%R, (V3 1%R 0%R 0%R), (V3 0%R 0%R 0%R), 1%R. cbv zeta. cbn [vx vy vz].
  split; [lra|]. split; [lra|]. intros E. apply (f_equal (@vx R)) in E.
  set (U := Rops 1) in *. set (A := 149597870700%R) in *.
  assert (HA : (1 < A)%R) by (unfold A; lra).
  destruct (force_central 1 (V3 1%R 0%R 0%R) (V3 0%R 0%R 0%R) 1 (1 * mass_factor U SI) ltac:(lra)) as (X1 & _).
  destruct (force_central 1 (vdivs U (V3 1%R 0%R 0%R) (au U)) (vdivs U (V3 0%R 0%R 0%R) (au U)) 1 (1 * mass_factor U AuDayKg) ltac:(lra)) as (X2 & _).
  fold U in X1, X2. rewrite X2 in E. clear X2.
  unfold vdivs at 12, vscale in E. cbn [vx ndiv nmul] in E. rewrite X1 in E. clear X1.
  assert (Eg : (mass_factor U AuDayKg = mass_factor U SI * 86400 * 86400 / (A * A * A))%R).
  { unfold mass_factor, gravity_adk, day, au, U. cbn [nmul ndiv nlit Rops]. reflexivity. }
  rewrite Eg in E. unfold vdivs, au, U in E. cbn [vx vy vz nmul ndiv nlit Rops] in E. fold A in E.
  assert (G0 : (mass_factor (Rops 1) SI > 0)%R) by (unfold mass_factor, gravity_si; cbn [ndiv nlit Rops]; lra).
  set (g := mass_factor (Rops 1) SI) in *.
  rewrite Rmax_left in E.
  2: { replace ((1 / A - 0 / A) ^ 2 + (0 / A - 0 / A) ^ 2 + (0 / A - 0 / A) ^ 2)%R with ((/ A) ^ 2)%R by (field; lra).
       assert (0 < / A)%R by (apply Rinv_0_lt_compat; lra).
       assert (/ A < 1)%R by (rewrite <- Rinv_1; apply Rinv_lt_contravar; lra). nra. }
  rewrite Rmax_left in E by lra. rewrite sqrt_1 in E.
  assert (E' : (A * A * A * A = A)%R).
  { apply (Rmult_eq_reg_l (g * 86400 * 86400)); [|nra].
    apply (f_equal (fun x => (- x * (A * A * A * A * A))%R)) in E. field_simplify in E; [|lra|lra]. nra. }
  clearbody A. clear - HA E'.
  assert (A < A * A)%R by nra. assert (A * A < A * A * A)%R by nra. assert (A * A * A < A * A * A * A)%R by nra. lra.
Qed.
Print Assumptions C65_softened_refuted.
Example C65_case : let d2 := ((0 - 300000000000) ^ 2 + (0 - 0) ^ 2 + (0 - 0) ^ 2)%R in
  (0 < 1)%R /\ (1 <= d2)%R /\ (1 <= d2 / (149597870700 * 149597870700))%R.
Proof. cbv zeta. repeat split; lra. Qed.

(** ** C66 *)

(** A Zeno file loads exactly when it has the right shape, and then the table is its contents. *)
Theorem C66_zeno : forall (T C : Type) (U : NumOps T) (X : TextOps T) (K : Colors C) f (d : @data T C),
  exists d' good, load_zeno_ascii U X K (Some f) d = Some (d', good) /\
    (good = true <-> exists ms rs vs, zeno_file U X (read_lines f) ms rs vs) /\
    forall ms rs vs, zeno_file U X (read_lines f) ms rs vs ->
      d' = mkData (length ms) (b_time d) (b_step d) 1 rs vs ms (repeat (c_white K) (length ms))
             (repeat (nlit U 0) (length ms)).
Proof.
  intros T C U X K f d. destruct (zeno_spec U X K f d) as (d' & good & E & G1 & G2).
  exists d', good. split; [exact E|]. split.
  - split; [intros H; destruct (G1 H) as (ms & rs & vs & H1 & _); eauto|].
    intros (ms & rs & vs & H). destruct good; [reflexivity|]. exfalso. exact (G2 eq_refl ms rs vs H).
  - intros ms rs vs H. destruct good; [|exfalso; exact (G2 eq_refl ms rs vs H)].
    destruct (G1 eq_refl) as (ms' & rs' & vs' & H' & ->).
    destruct (zeno_unique H H') as (-> & -> & ->). reflexivity.
Qed.
Print Assumptions C66_zeno.
(** Numbers that cannot be read are not reported: they become zero. *)
Theorem C66_numbers_refuted : exists f d',
  In (chars "heavy") (read_lines f) /\ to_longlong (chars "heavy") = None /\
  load_zeno_ascii Zops Ztext Zcolors (Some f) (data_new Zops) = Some (d', true) /\ b_mass d' = [0%Z].
Proof.
  exists (lines_text (map chars ["1"; "3"; "0.0"; "heavy"; "1 2 x"; "4 5 6"]%string)).
  eexists. split; [vm_compute; tauto|]. split; [reflexivity|]. split; vm_compute; reflexivity.
Qed.
Print Assumptions C66_numbers_refuted.
(** A file that fails half way leaves a table of the announced size behind. *)
Theorem C66_failed_refuted : exists f d',
  load_zeno_ascii Zops Ztext Zcolors (Some f) (data_new Zops) = Some (d', false) /\ b_count d' = 2 /\ b_mass d' = [5; 0]%Z.
Proof.
  exists (lines_text (map chars ["2"; "3"; "0.0"; "5"]%string)).
  eexists. split; vm_compute; [reflexivity|auto].
Qed.
Print Assumptions C66_failed_refuted.
Example C66_case : exists d',
  load_zeno_ascii Zops Ztext Zcolors (Some (lines_text (map chars ["1"; "3"; "0.0"; "8"; "1 2 3"; "4 5 6"]%string)))
    (data_new Zops) = Some (d', true) /\ b_mass d' = [8%Z] /\ b_vert d' = [V3 1 2 3]%Z /\ b_velo d' = [V3 4 5 6]%Z.
Proof. eexists. split; vm_compute; auto. Qed.
