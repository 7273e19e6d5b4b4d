(** Body tables: comparison, generated galaxies, Zeno files *)
From Coq Require Import Ascii String List NArith ZArith Arith Lia.
From Verif Require Import Num Arr ArrLemmas ModelVertex ModelText ModelData SpecData LemText LemDataText LemData.
Import ListNotations.
Set Implicit Arguments.

Lemma Forall2_len : forall A B (P : A -> B -> Prop) l l', Forall2 P l l' -> length l = length l'.
Proof. induction 1; cbn; congruence. Qed.

Section Eq.
  Context {T C : Type} (U : NumOps T).
  Notation data := (@data T C).

  Definition same_within (eps x y : T) : Prop := differ U eps x y = false.

  Lemma body_differs_spec : forall (a b : data) eps n ma mb ra rb pa pb va vb,
    nth_error (b_mass a) n = Some ma -> nth_error (b_mass b) n = Some mb ->
    nth_error (b_radius a) n = Some ra -> nth_error (b_radius b) n = Some rb ->
    nth_error (b_vert a) n = Some pa -> nth_error (b_vert b) n = Some pb ->
    nth_error (b_velo a) n = Some va -> nth_error (b_velo b) n = Some vb ->
    exists r, body_differs U a b eps n = Some r /\
      (r = false <-> same_within eps ma mb /\ same_within eps ra rb /\
                     rel3 (same_within eps) pa pb /\ rel3 (same_within eps) va vb).
  Proof.
    intros a b eps n ma mb ra rb pa pb va vb E1 E2 E3 E4 E5 E6 E7 E8.
    unfold body_differs, rd. rewrite E1, E2. cbn [obind].
    unfold rel3, same_within.
    destruct (differ U eps ma mb); [exists true; split; [reflexivity|]; split; [discriminate|tauto]|].
    rewrite E3, E4. cbn [obind].
    destruct (differ U eps ra rb); [exists true; split; [reflexivity|]; split; [discriminate|tauto]|].
    rewrite E5, E6. cbn [obind].
    destruct (differ U eps (vx pa) (vx pb)); cbn [orb];
      [exists true; split; [reflexivity|]; split; [discriminate|]; intros; exfalso; intuition congruence|].
    destruct (differ U eps (vy pa) (vy pb)); cbn [orb];
      [exists true; split; [reflexivity|]; split; [discriminate|]; intros; exfalso; intuition congruence|].
    destruct (differ U eps (vz pa) (vz pb)); cbn [orb];
      [exists true; split; [reflexivity|]; split; [discriminate|]; intros; exfalso; intuition congruence|].
    rewrite E7, E8. cbn [obind]. eexists. split; [reflexivity|].
    destruct (differ U eps (vx va) (vx vb)), (differ U eps (vy va) (vy vb)),
      (differ U eps (vz va) (vz vb)); cbn; intuition congruence.
  Qed.

  Lemma forall2_tail : forall A (P : A -> A -> Prop) (l l' : list A) n x y,
    nth_error l n = Some x -> nth_error l' n = Some y ->
    (Forall2 P (skipn n l) (skipn n l') <-> P x y /\ Forall2 P (skipn (S n) l) (skipn (S n) l')).
  Proof.
    intros A P l l' n. revert l l'. induction n as [|n IH]; intros [|a l] [|b l'] x y E E';
      cbn in E, E'; try discriminate.
    - injection E as ->. injection E' as ->. cbn. split.
      + intros H. inversion H; subst. auto.
      + intros [H1 H2]. now constructor.
    - cbn [skipn]. now apply IH.
  Qed.

  Lemma bodies_equal_spec : forall todo n (a b : data) eps,
    rectangular a -> rectangular b -> b_count a = n + todo -> b_count b = n + todo ->
    exists r, bodies_equal U todo n a b eps = Some r /\
      (r = true <->
       Forall2 (rel3 (same_within eps)) (skipn n (b_vert a)) (skipn n (b_vert b)) /\
       Forall2 (rel3 (same_within eps)) (skipn n (b_velo a)) (skipn n (b_velo b)) /\
       Forall2 (same_within eps) (skipn n (b_mass a)) (skipn n (b_mass b)) /\
       Forall2 (same_within eps) (skipn n (b_radius a)) (skipn n (b_radius b))).
  Proof.
    induction todo as [|todo IH]; intros n a b eps Ha Hb Ea Eb.
    - exists true. split; [reflexivity|]. split; [|reflexivity]. intros _.
      destruct Ha as (A1 & A2 & A3 & A4 & A5). destruct Hb as (B1 & B2 & B3 & B4 & B5).
      rewrite !skipn_all2 by lia. repeat split; constructor.
    - destruct (IH (S n) a b eps Ha Hb) as (r & E & Hr); [lia|lia|].
      assert (G : forall A (l : list A), length l = n + S todo -> exists x, nth_error l n = Some x).
      { intros A l Hl. destruct (nth_error l n) eqn:En; [eauto|]. apply nth_error_None in En. lia. }
      destruct Ha as (A1 & A2 & A3 & A4 & A5). destruct Hb as (B1 & B2 & B3 & B4 & B5).
      destruct (G _ (b_mass a)) as [ma Ema]; [lia|]. destruct (G _ (b_mass b)) as [mb Emb]; [lia|].
      destruct (G _ (b_radius a)) as [ra Era]; [lia|]. destruct (G _ (b_radius b)) as [rb Erb]; [lia|].
      destruct (G _ (b_vert a)) as [pa Epa]; [lia|]. destruct (G _ (b_vert b)) as [pb Epb]; [lia|].
      destruct (G _ (b_velo a)) as [va Eva]; [lia|]. destruct (G _ (b_velo b)) as [vb Evb]; [lia|].
      destruct (body_differs_spec a b eps n Ema Emb Era Erb Epa Epb Eva Evb) as (bad & Eb' & Hbad).
      cbn [bodies_equal]. rewrite Eb'. cbn [obind].
      pose proof (forall2_tail (rel3 (same_within eps)) _ _ n Epa Epb) as F1.
      pose proof (forall2_tail (rel3 (same_within eps)) _ _ n Eva Evb) as F2.
      pose proof (forall2_tail (same_within eps) _ _ n Ema Emb) as F3.
      pose proof (forall2_tail (same_within eps) _ _ n Era Erb) as F4.
      destruct bad.
      + exists false. split; [reflexivity|]. split; [discriminate|]. intros H. exfalso.
        assert (true = false) by (apply Hbad; tauto). discriminate.
      + exists r. split; [exact E|]. rewrite Hr.
        assert (H : false = false) by reflexivity. apply Hbad in H. tauto.
  Qed.

  Lemma is_equal_spec : forall (a b : data) eps, rectangular a -> rectangular b ->
    exists r, is_equal U a b eps = Some r /\ (r = true <-> agree (same_within eps) a b).
  Proof.
    intros a b eps Ha Hb. unfold is_equal, agree. destruct (Nat.eqb_spec (b_count a) (b_count b)) as [E|E].
    - destruct (@bodies_equal_spec (b_count a) 0 a b eps Ha Hb) as (r & Er & Hr); [reflexivity|lia|].
      exists r. split; [exact Er|]. cbn [skipn] in Hr. rewrite Hr. tauto.
    - exists false. split; [reflexivity|]. split; [discriminate|]. tauto.
  Qed.
End Eq.

Section Galaxy.
  Context {T C : Type} (U : NumOps T) (K : Colors C) (pow3 : T -> T).
  Notation data := (@data T C).

  (** the star of sample [k] *)
  Definition star_of (uniform : nat -> T) (center velosity : vec3 T) (radius sm all hole : T)
    (p v : vec3 T) : Prop :=
    exists k, nltb U radius (vlength U (sample uniform k)) = false /\
      p = star_place U center (sample uniform k) /\
      v = vadd U (star_velocity U pow3 center radius sm all hole (vlength U (sample uniform k)) p) velosity.

  Fixpoint accepted_from (uniform : nat -> T) (radius : T) (k fuel : nat) : nat :=
    match fuel with
    | O => 0
    | S fuel => (if nltb U radius (vlength U (sample uniform k)) then 0 else 1) +
                accepted_from uniform radius (k + 1) fuel
    end.
  Lemma accepted_split : forall uniform radius k fuel,
    accepted U uniform radius (k + fuel) = accepted U uniform radius k + accepted_from uniform radius k fuel.
  Proof.
    intros uniform radius k fuel. revert k. induction fuel as [|fuel IH]; intros k.
    - rewrite Nat.add_0_r. cbn. lia.
    - replace (k + S fuel) with ((k + 1) + fuel) by lia. rewrite IH.
      replace (k + 1) with (S k) by lia. cbn [accepted accepted_from].
      replace (k + 1) with (S k) by lia. lia.
  Qed.

  Lemma star_loop_spec : forall fuel uniform k n count center velosity radius sm all hole color (d : data),
    (n <= count)%N ->
    let o := star_loop U pow3 fuel uniform k n count center velosity radius sm all hole color d in
    exists stars : list (vec3 T * vec3 T),
      b_count (ended o) = b_count d + length stars /\
      b_time (ended o) = b_time d /\ b_step (ended o) = b_step d /\ b_box (ended o) = b_box d /\
      b_vert (ended o) = b_vert d ++ map fst stars /\ b_velo (ended o) = b_velo d ++ map snd stars /\
      b_mass (ended o) = b_mass d ++ repeat sm (length stars) /\
      b_color (ended o) = b_color d ++ repeat color (length stars) /\
      b_radius (ended o) = b_radius d ++ repeat (nlit U 0) (length stars) /\
      Forall (fun s => star_of uniform center velosity radius sm all hole (fst s) (snd s)) stars /\
      (N.of_nat (length stars) <= N.of_nat fuel)%N /\
      if (count - n <=? N.of_nat (accepted_from uniform radius k fuel))%N
      then o = Done (ended o) /\ N.of_nat (length stars) = (count - n)%N
      else o = Exhausted (ended o) /\ (N.of_nat (length stars) < count - n)%N.
  Proof.
    induction fuel as [|fuel IH]; intros uniform k n count center velosity radius sm all hole color d Hn o.
    - exists []. subst o. cbn. destruct (N.eqb_spec n count) as [->|E]; cbn.
      + rewrite !app_nil_r, Nat.add_0_r, N.sub_diag. cbn. repeat split; auto. lia.
      + rewrite !app_nil_r, Nat.add_0_r. repeat split; auto; try lia.
        destruct (N.leb_spec (count - n) 0); [lia|]. split; [reflexivity|lia].
    - subst o. cbn [star_loop]. destruct (N.eqb_spec n count) as [->|E].
      + exists []. cbn [ended length map repeat]. rewrite !app_nil_r, Nat.add_0_r, N.sub_diag.
        repeat split; auto; try (cbn; lia).
        destruct (N.leb_spec 0 (N.of_nat (accepted_from uniform radius k (S fuel)))); [auto|lia].
      + cbn [accepted_from]. fold (sample uniform k).
        destruct (nltb U radius (vlength U (sample uniform k))) eqn:Er.
        * destruct (IH uniform (k + 1) n count center velosity radius sm all hole color d Hn) as
            (stars & H1 & H2 & H3 & H4 & H5 & H6 & H7 & H8 & H9 & H10 & H11 & H12).
          exists stars. repeat split; auto. lia.
        * set (p := star_place U center (sample uniform k)).
          set (v := vadd U _ velosity).
          set (d1 := add_body p v sm color (nlit U 0) d).
          destruct (IH uniform (k + 1) (n + 1)%N count center velosity radius sm all hole color d1 ltac:(lia)) as
            (stars & H1 & H2 & H3 & H4 & H5 & H6 & H7 & H8 & H9 & H10 & H11 & H12).
          exists ((p, v) :: stars). cbn [length map fst snd repeat].
          rewrite H1, H2, H3, H4, H5, H6, H7, H8, H9. subst d1. cbn [add_body b_count b_time b_step b_box
            b_vert b_velo b_mass b_color b_radius]. rewrite <- !app_assoc. cbn [app].
          split; [lia|]. do 8 (split; [reflexivity|]).
          split; [constructor; [|exact H10]; cbn [fst snd]; exists k; repeat split; assumption|].
          split; [lia|].
          destruct (N.leb_spec (count - (n + 1)) (N.of_nat (accepted_from uniform radius (k + 1) fuel)));
            destruct (N.leb_spec (count - n) (N.of_nat (1 + accepted_from uniform radius (k + 1) fuel)));
            try lia; destruct H12 as [H12 H13]; (split; [exact H12|lia]).
  Qed.
End Galaxy.

Section Zeno.
  Context {T C : Type} (U : NumOps T) (X : TextOps T) (K : Colors C).
  Notation data := (@data T C).

  Lemma number_read : forall s x, number_or_zero U X s x <-> x = read_or_zero U X s.
  Proof.
    intros s x. unfold number_or_zero, read_or_zero. destruct (t_read X s) as [y|].
    - split; [intros [[= ->]|[E _]]; [reflexivity|discriminate]|intros ->; auto].
    - split; [intros [E|[_ E]]; [discriminate|exact E]|auto].
  Qed.
  Lemma vector_read : forall l v, vector_line U X l v <->
    exists a b c, split_skip space l = [a; b; c] /\
      v = V3 (read_or_zero U X a) (read_or_zero U X b) (read_or_zero U X c).
  Proof.
    intros l v. split.
    - intros (a & b & c & H & H1 & H2 & H3). exists a, b, c. split; [now apply spread_split|].
      apply number_read in H1. apply number_read in H2. apply number_read in H3.
      destruct v; cbn in *. congruence.
    - intros (a & b & c & H & ->). exists a, b, c.
      split; [rewrite <- H; apply split_spread|]. cbn. repeat split; now apply number_read.
  Qed.

  Lemma wr_prefix : forall A (pre : list A) a post v,
    wr (pre ++ a :: post) (length pre) v = Some (pre ++ v :: post).
  Proof.
    induction pre as [|b pre IH]; intros a post v; cbn; [reflexivity|]. now rewrite IH.
  Qed.

  Definition with_mass (l : list T) (d : data) : data :=
    mkData (b_count d) (b_time d) (b_step d) (b_box d) (b_vert d) (b_velo d) l (b_color d) (b_radius d).
  Definition with_vert (l : list (vec3 T)) (d : data) : data :=
    mkData (b_count d) (b_time d) (b_step d) (b_box d) l (b_velo d) (b_mass d) (b_color d) (b_radius d).
  Definition with_velo (l : list (vec3 T)) (d : data) : data :=
    mkData (b_count d) (b_time d) (b_step d) (b_box d) (b_vert d) l (b_mass d) (b_color d) (b_radius d).

  (** what the loop over the masses does *)
  Lemma masses_spec : forall todo ls (d : data) pre post,
    b_mass d = pre ++ post -> length post = todo ->
    exists d' ls' good, zeno_masses U X todo (length pre) ls d = Some (d', ls', good) /\
      (good = true -> exists lm ms, ls = lm ++ ls' /\ Forall2 (number_or_zero U X) lm ms /\
         length ms = todo /\ d' = with_mass (pre ++ ms) d) /\
      (good = false -> length ls < todo).
  Proof.
    induction todo as [|todo IH]; intros ls d pre post Em Hl.
    - destruct post; [|discriminate]. exists d, ls, true. split; [reflexivity|]. split; [|discriminate].
      intros _. exists [], []. repeat split; try constructor. rewrite app_nil_r in *.
      destruct d; cbn in *. now subst.
    - destruct post as [|a post]; [discriminate|]. injection Hl as Hl. cbn [zeno_masses].
      destruct ls as [|l ls].
      + exists d, [], false. split; [reflexivity|]. split; [discriminate|]. cbn. lia.
      + unfold store_mass. rewrite Em, wr_prefix. cbn [obind].
        set (x := read_or_zero U X l). fold (with_mass (pre ++ x :: post) d).
        destruct (IH ls (with_mass (pre ++ x :: post) d) (pre ++ [x]) post) as (d' & ls' & good & E & Hg & Hb).
        { cbn. now rewrite <- app_assoc. }
        { exact Hl. }
        rewrite app_length in E. cbn in E. rewrite Nat.add_1_r in E.
        exists d', ls', good. split; [exact E|]. split.
        * intros Eg. destruct (Hg Eg) as (lm & ms & -> & H2 & H3 & ->).
          exists (l :: lm), (x :: ms). repeat split.
          -- constructor; [now apply number_read|exact H2].
          -- cbn. now rewrite H3.
          -- unfold with_mass. cbn. now rewrite <- app_assoc.
        * intros Eg. specialize (Hb Eg). cbn. lia.
  Qed.

  (** what the loops over positions and velocities do *)
  Lemma vectors_spec : forall (store : nat -> vec3 T -> data -> option data)
      (get : data -> list (vec3 T)) (set : list (vec3 T) -> data -> data),
    (forall d i v, store i v d = let* l := wr (get d) i v in Some (set l d)) ->
    (forall d l, get (set l d) = l) -> (forall d, set (get d) d = d) ->
    (forall d l l', set l (set l' d) = set l d) ->
    forall todo ls (d : data) pre post,
    get d = pre ++ post -> length post = todo ->
    exists d' ls' good, zeno_vectors U X store todo (length pre) ls d = Some (d', ls', good) /\
      (good = true -> exists lm ms, ls = lm ++ ls' /\ Forall2 (vector_line U X) lm ms /\
         length ms = todo /\ d' = set (pre ++ ms) d) /\
      (good = false -> ~ exists lm ms rest, ls = lm ++ rest /\ Forall2 (vector_line U X) lm ms /\
         length ms = todo).
  Proof.
    intros store get set Hst Hgs Hsg Hss. induction todo as [|todo IH]; intros ls d pre post Em Hl.
    - destruct post; [|discriminate]. exists d, ls, true. split; [reflexivity|]. split; [|discriminate].
      intros _. exists [], []. repeat split; try constructor. rewrite <- Em. symmetry. apply Hsg.
    - destruct post as [|a post]; [discriminate|]. injection Hl as Hl. cbn [zeno_vectors].
      destruct ls as [|l ls].
      + exists d, [], false. split; [reflexivity|]. split; [discriminate|].
        intros _ (lm & ms & rest & E & H2 & H3). apply Forall2_len in H2.
        destruct lm; [|discriminate]. cbn in H2. lia.
      + assert (Hcase : (exists a b c, split_skip space l = [a; b; c]) \/
                        (forall v, ~ vector_line U X l v) /\
                        forall i d, (match split_skip space l with
                         | [x; y; z] =>
                             let* d := store i (V3 (read_or_zero U X x) (read_or_zero U X y) (read_or_zero U X z)) d in
                             zeno_vectors U X store todo (S i) ls d
                         | _ => Some (d, ls, false)
                         end) = Some (d, ls, false)).
        { destruct (split_skip space l) as [|x [|y [|z [|w ws]]]] eqn:Es.
          4: left; eauto.
          all: right; split; [intros v Hv; apply vector_read in Hv; destruct Hv as (a' & b' & c' & E & _);
                              rewrite Es in E; discriminate|reflexivity]. }
        destruct Hcase as [(x & y & z & Es) | [Hno Hbad]].
        * rewrite Es. rewrite Hst, Em, wr_prefix. cbn [obind].
          set (v := V3 _ _ _).
          destruct (IH ls (set (pre ++ v :: post) d) (pre ++ [v]) post) as (d' & ls' & good & E & Hg & Hb).
          { rewrite Hgs. now rewrite <- app_assoc. }
          { exact Hl. }
          rewrite app_length in E. cbn in E. rewrite Nat.add_1_r in E.
          exists d', ls', good. split; [exact E|]. split.
          -- intros Eg. destruct (Hg Eg) as (lm & ms & -> & H2 & H3 & ->).
             exists (l :: lm), (v :: ms). repeat split.
             ++ constructor; [apply vector_read; exists x, y, z; auto|exact H2].
             ++ cbn. now rewrite H3.
             ++ rewrite Hss. now rewrite <- app_assoc.
          -- intros Eg (lm & ms & rest & E2 & H2 & H3). apply (Hb Eg).
             destruct H2 as [|l' v' lm ms Hv H2]; [discriminate|]. cbn in E2. injection E2 as -> ->.
             exists lm, ms, rest. repeat split; auto.
        * rewrite Hbad. exists d, ls, false. split; [reflexivity|]. split; [discriminate|].
          intros _ (lm & ms & rest & E2 & H2 & H3).
          destruct H2 as [|l' v' lm ms Hv H2]; [discriminate|]. cbn in E2. injection E2 as -> ->.
          now apply (Hno v').
  Qed.
End Zeno.

Section ZenoFile.
  Context {T C : Type} (U : NumOps T) (X : TextOps T) (K : Colors C).
  Notation data := (@data T C).

  Lemma zeno_spec : forall f (d : data),
    exists d' good, load_zeno_ascii U X K (Some f) d = Some (d', good) /\
      (good = true -> exists ms rs vs, zeno_file U X (read_lines f) ms rs vs /\
         d' = mkData (length ms) (b_time d) (b_step d) 1 rs vs ms (repeat (c_white K) (length ms))
                (repeat (nlit U 0) (length ms))) /\
      (good = false -> forall ms rs vs, ~ zeno_file U X (read_lines f) ms rs vs).
  Proof.
    intros f d. cbn [load_zeno_ascii].
    destruct (read_lines f) as [|l1 ls1] eqn:Ef; cbn [next_line].
    { cbn. eexists _, false. split; [reflexivity|]. split; [discriminate|].
      intros _ ms rs vs (l1 & l2 & l3 & lm & lr & lv & rest & E & _). discriminate. }
    destruct (to_ulonglong l1) as [count|] eqn:E1.
    2: { eexists _, false. split; [reflexivity|]. split; [discriminate|].
      intros _ ms rs vs (? & l2 & l3 & lm & lr & lv & rest & E & E' & _). injection E as <- _. congruence. }
    destruct ls1 as [|l2 ls2]; cbn [next_line].
    { cbn. eexists _, false. split; [reflexivity|]. split; [discriminate|].
      intros _ ms rs vs (? & l2 & l3 & lm & lr & lv & rest & E & _). discriminate. }
    destruct (to_ulonglong l2) as [dim|] eqn:E2.
    2: { eexists _, false. split; [reflexivity|]. split; [discriminate|].
      intros _ ms rs vs (? & ? & l3 & lm & lr & lv & rest & E & _ & E' & _). injection E as <- <- _. congruence. }
    destruct (N.eqb_spec dim 3) as [->|Hd]; cbn [negb].
    2: { eexists _, false. split; [reflexivity|]. split; [discriminate|].
      intros _ ms rs vs (? & ? & l3 & lm & lr & lv & rest & E & _ & E' & _). injection E as <- <- _. congruence. }
    destruct ls2 as [|l3 ls3]; cbn [next_line].
    { cbn. eexists _, false. split; [reflexivity|]. split; [discriminate|].
      intros _ ms rs vs (? & ? & l3 & lm & lr & lv & rest & E & _). discriminate. }
    destruct l3 as [|c l3]; cbn [is_nil].
    { eexists _, false. split; [reflexivity|]. split; [discriminate|].
      intros _ ms rs vs (? & ? & ? & lm & lr & lv & rest & E & _ & _ & E' & _). injection E as <- <- <- _.
      congruence. }
    set (n := N.to_nat count).
    set (d0 := data_resize U K n (data_clear d)).
    destruct (@masses_spec T C U X n ls3 d0 [] (b_mass d0) eq_refl) as (d1 & ls4 & g1 & Em & Hm & Hm').
    { apply resize_len. }
    cbn [length] in Em. rewrite Em. cbn [obind].
    destruct g1; cbn [negb].
    2: { exists d1, false. split; [reflexivity|]. split; [discriminate|].
      intros _ ms rs vs (? & ? & ? & lm & lr & lv & rest & E & E' & _ & _ & F1 & _). injection E as <- <- <- ->.
      specialize (Hm' eq_refl). rewrite app_length in Hm'. apply Forall2_len in F1.
      rewrite E1 in E'. injection E' as ->. unfold n in Hm'. rewrite Nnat.Nat2N.id in Hm'. lia. }
    destruct (Hm eq_refl) as (lm & ms & -> & Fm & Lm & ->). clear Hm Hm'.
    set (d1 := with_mass ([] ++ ms) d0) in *.
    destruct (@vectors_spec T C U X store_vert (fun d => b_vert d) (@with_vert T C)
      ltac:(reflexivity) ltac:(reflexivity) ltac:(intros []; reflexivity) ltac:(reflexivity)
      n ls4 d1 [] (b_vert d1) eq_refl) as (d2 & ls5 & g2 & Er & Hr & Hr').
    { apply resize_len. }
    cbn [length] in Er. rewrite Er. cbn [obind].
    assert (Hlen : forall lm' ms' (rs' vs' : list (vec3 T)) lr' lv' rest,
      lm ++ ls4 = lm' ++ lr' ++ lv' ++ rest -> Forall2 (number_or_zero U X) lm' ms' -> count = N.of_nat (length ms') ->
      length rs' = length ms' -> length vs' = length ms' ->
      ls4 = lr' ++ lv' ++ rest /\ length rs' = n /\ length vs' = n /\ True).
    { intros lm' ms' rs' vs' lr' lv' rest E F1 Ec L1 L2.
      assert (Hn : n = length ms') by (unfold n; rewrite Ec; apply Nnat.Nat2N.id).
      split; [|repeat split; lia].
      assert (Ll : length lm = length lm').
      { apply Forall2_len in F1. apply Forall2_len in Fm. lia. }
      clear - E Ll. revert lm' E Ll. induction lm as [|a lm IH]; intros [|b lm'] E Ll; try discriminate.
      - exact E.
      - cbn in E, Ll. injection E as _ E. injection Ll as Ll. eauto. }
    destruct g2; cbn [negb].
    2: { exists d2, false. split; [reflexivity|]. split; [discriminate|].
      intros _ ms' rs' vs' (? & ? & ? & lm' & lr' & lv' & rest & E & E' & _ & _ & F1 & F2 & F3 & L1 & L2).
      injection E as <- <- <- E. rewrite E1 in E'. injection E' as E'.
      destruct (Hlen lm' ms' rs' vs' lr' lv' rest E F1 E' L1 L2) as (-> & H1 & H2 & _).
      apply (Hr' eq_refl). exists lr', rs', (lv' ++ rest). auto. }
    destruct (Hr eq_refl) as (lr & rs & -> & Fr & Lr & ->). clear Hr Hr'.
    set (d2 := with_vert ([] ++ rs) d1) in *.
    destruct (@vectors_spec T C U X store_velo (fun d => b_velo d) (@with_velo T C)
      ltac:(reflexivity) ltac:(reflexivity) ltac:(intros []; reflexivity) ltac:(reflexivity)
      n ls5 d2 [] (b_velo d2) eq_refl) as (d3 & ls6 & g3 & Ev & Hv & Hv').
    { apply resize_len. }
    cbn [length] in Ev. rewrite Ev. cbn [obind].
    destruct g3; cbn [negb].
    2: { exists d3, false. split; [reflexivity|]. split; [discriminate|].
      intros _ ms' rs' vs' (? & ? & ? & lm' & lr' & lv' & rest & E & E' & _ & _ & F1 & F2 & F3 & L1 & L2).
      injection E as <- <- <- E. rewrite E1 in E'. injection E' as E'.
      destruct (Hlen lm' ms' rs' vs' lr' lv' rest E F1 E' L1 L2) as (E5 & H1 & H2 & _).
      assert (E6 : ls5 = lv' ++ rest).
      { assert (Ll : length lr = length lr').
        { apply Forall2_len in F2. apply Forall2_len in Fr. lia. }
        clear - E5 Ll. revert lr' E5 Ll. induction lr as [|a lr IH]; intros [|b lr'] E Ll; try discriminate.
        - exact E.
        - cbn in E, Ll. injection E as _ E. injection Ll as Ll. eauto. }
      apply (Hv' eq_refl). exists lv', vs', rest. auto. }
    destruct (Hv eq_refl) as (lv & vs & -> & Fv & Lv & ->). clear Hv Hv'.
    eexists _, true. split; [reflexivity|]. split; [|discriminate]. intros _.
    exists ms, rs, vs. split.
    - exists l1, l2, (c :: l3), lm, lr, lv, ls6. repeat split; auto; try congruence; try discriminate.
      rewrite E1. f_equal. rewrite Lm. unfold n. symmetry. apply Nnat.N2Nat.id.
    - unfold d2, d1, d0, with_velo, with_vert, with_mass, data_resize, data_clear, fill_color, set_box, vector_resize.
      cbn [app b_count b_time b_step b_box b_vert b_velo b_mass b_color b_radius].
      rewrite !firstn_nil. cbn [app length]. rewrite !Nat.sub_0_r, repeat_length, Lm. reflexivity.
  Qed.

  (** what a file says is unique *)
  Lemma zeno_unique : forall ls ms rs vs ms' rs' vs',
    zeno_file U X ls ms rs vs -> zeno_file U X ls ms' rs' vs' -> ms = ms' /\ rs = rs' /\ vs = vs'.
  Proof.
    assert (Hsplit : forall A B (P Q : A -> B -> Prop) (a a' r r' : list A) (b b' : list B),
      (forall x y y', P x y -> P x y' -> y = y') ->
      a ++ r = a' ++ r' -> Forall2 P a b -> Forall2 P a' b' -> length b = length b' -> b = b' /\ r = r').
    { intros A B P Q a a' r r' b b' HP E F. revert a' b' E. induction F as [|x y a b Hxy F IH];
        intros a' b' E F' Hl.
      - destruct b'; [|discriminate]. inversion F'; subst. auto.
      - destruct F' as [|x' y' a' b' Hxy' F']; [discriminate|]. cbn in E. injection E as <- E.
        injection Hl as Hl. destruct (IH a' b' E F' Hl) as [-> ->]. split; [|reflexivity].
        f_equal. eauto. }
    assert (Hn : forall x y y', number_or_zero U X x y -> number_or_zero U X x y' -> y = y').
    { intros x y y' H H'. apply number_read in H. apply number_read in H'. congruence. }
    assert (Hv : forall x y y', vector_line U X x y -> vector_line U X x y' -> y = y').
    { intros x y y' H H'. apply vector_read in H. apply vector_read in H'.
      destruct H as (a & b & c & E & ->). destruct H' as (a' & b' & c' & E' & ->). congruence. }
    intros ls ms rs vs ms' rs' vs'
      (l1 & l2 & l3 & lm & lr & lv & rest & -> & C1 & _ & _ & F1 & F2 & F3 & L1 & L2)
      (l1' & l2' & l3' & lm' & lr' & lv' & rest' & E & C1' & _ & _ & F1' & F2' & F3' & L1' & L2').
    injection E as <- <- <- E. rewrite C1 in C1'. injection C1' as C1'. apply Nnat.Nat2N.inj in C1'.
    destruct (Hsplit _ _ _ (number_or_zero U X) _ _ _ _ _ _ Hn E F1 F1' C1') as [-> E2].
    destruct (Hsplit _ _ _ (vector_line U X) _ _ _ _ _ _ Hv E2 F2 F2' ltac:(lia)) as [-> E3].
    destruct (Hsplit _ _ _ (vector_line U X) _ _ _ _ _ _ Hv E3 F3 F3' ltac:(lia)) as [-> E4].
    auto.
  Qed.
End ZenoFile.
