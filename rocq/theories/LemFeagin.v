(** Order conditions in ball arithmetic.

    A ball is a sign, a size and a radius, in units of 2^-50, computed in the native 63-bit integers of the
    standard library.  All rooted trees with a given number of vertices are enumerated as multisets of subtrees; a tree comes with the balls of its weights and its
    density. *)
From Coq Require Import ZArith Uint63 Reals List Arith Lia Lra Permutation.
From Verif Require Import Num SpecPhys RLemmas ModelButcher ModelFeagin SpecOrder LemOrder.
Import ListNotations.
Set Implicit Arguments.

Definition one : Z := (2 ^ 50)%Z.
(** a sign, a size and a radius in units of 2^-50; a radius of [lim] or more says nothing *)
Inductive ball := Ball (s : bool) (m e : int).
Definition lim : int := 0x20000000%uint63.
Definition bad : ball := Ball false 0 lim.
Definition sg (s : bool) (z : Z) : Z := if s then (- z)%Z else z.
Definition holds (b : ball) (x : R) : Prop :=
  match b with Ball s m e => (to_Z e < to_Z lim)%Z -> (Rabs (IZR (sg s (to_Z m)) - x * IZR one) <= IZR (to_Z e))%R end.
Definition blit (z : Z) : ball :=
  let m := (Z.abs z * one)%Z in if Z.ltb m (2 ^ 62) then Ball (Z.ltb z 0) (of_Z m) 0 else bad.
Definition bquo (n d : Z) : ball :=
  if Z.eqb n 0 then Ball false 0 0 else
  let m := (Z.abs n * one / d)%Z in
  if Z.ltb m (2 ^ 62) then Ball (Z.ltb n 0) (of_Z m) 1 else bad.

Definition bmul (a b : ball) : ball :=
  match a, b with
  | Ball s x e, Ball t y g =>
      if (e <? lim)%uint63 then if (g <? lim)%uint63 then
        match mulc x y with
        | (h, l) =>
            if (h <? 0x2000000000000)%uint63 then
              Ball (xorb s t) ((h << 13) + (l >> 50))%uint63
                   (((((x >> 30) + 1) * g) >> 20) + ((((y >> 30) + 1) * e) >> 20) + ((e * g) >> 50) + 4)%uint63
            else bad
        end
      else bad else bad
  end.
Definition is_zero (a : ball) : bool := match a with Ball _ x e => if (x =? 0)%uint63 then (e =? 0)%uint63 else false end.
(** the sum of the products, positive and negative ones apart *)
Fixpoint dot3 (a b : list ball) (p q e : int) : ball :=
  match a with
  | x :: a =>
      match b with
      | y :: b =>
          if is_zero x then dot3 a b p q e else
          match bmul x y with
          | Ball s m g =>
              if (m <? 0x4000000000000000)%uint63 then if (g <? lim)%uint63 then if (e <? lim)%uint63 then
                if s then (if (q <? 0x4000000000000000)%uint63 then dot3 a b p (q + m)%uint63 (e + g)%uint63 else bad)
                else (if (p <? 0x4000000000000000)%uint63 then dot3 a b (p + m)%uint63 q (e + g)%uint63 else bad)
              else bad else bad else bad
          end
      | [] => if (q <=? p)%uint63 then Ball false (p - q)%uint63 e else Ball true (q - p)%uint63 e
      end
  | [] => if (q <=? p)%uint63 then Ball false (p - q)%uint63 e else Ball true (q - p)%uint63 e
  end.
Definition bdot (a b : list ball) : ball := dot3 a b 0 0 0.
Fixpoint bzip (a b : list ball) : list ball :=
  match a, b with
  | x :: a, y :: b => bmul x y :: bzip a b
  | _, _ => []
  end.

(** the operations that build a table; a quotient of two integers is rounded once *)
Inductive num := Quo (n d : Z) | Rnd (b : ball).
Definition force (x : num) : ball := match x with Quo n d => bquo n d | Rnd b => b end.
Definition bopp (a : num) : num := match force a with Ball s m e => Rnd (Ball (negb s) m e) end.
Definition badd (a b : num) : num := Rnd (bdot [blit 1; blit 1] [force a; force b]).
Definition Bops : NumOps num := {|
  nadd := badd; nsub := fun a b => badd a (bopp b); nmul := fun a b => Rnd bad;
  ndiv := fun a b => match a, b with Quo n 1, Quo d 1 => Quo n d | _, _ => Rnd bad end;
  nopp := bopp; nabs := fun a => Rnd bad; nsqrt := fun a => Rnd bad;
  nltb := fun a b => false; nleb := fun a b => false; neqb := fun a b => false;
  nlit := fun z => Quo z 1; nmind := Rnd bad |}.

(** ** trees *)

(** the balls of sum_j a_ij weight_j(t), and the density of t *)
Definition entry := (list ball * Z)%type.
(** the entries of the trees of some orders *)
Definition groups := list (nat * list entry).
(** all products of entries whose orders add up to [rem], times [(v, d)] *)
Fixpoint go (fuel : nat) (rem : nat) (gs : groups) (v : list ball) (d : Z) : list entry :=
  match fuel with
  | O => []
  | S fuel =>
      match rem with
      | O => [(v, d)]
      | _ =>
          match gs with
          | [] => []
          | (o, l) :: gs' =>
              if Nat.ltb rem o then go fuel rem gs' v d else
              match l with
              | [] => go fuel rem gs' v d
              | (u, du) :: l' => go fuel (rem - o) gs (bzip v u) (d * du)%Z ++ go fuel rem ((o, l') :: gs') v d
              end
          end
      end
  end.
Definition size (gs : groups) : nat := fold_right (fun g n => S (length (snd g) + n)) 0 gs.

Section Table.
  Variables (n : nat) (a : list (list ball)) (b : list ball).
  (** weights and density / order of the trees of order [p] *)
  Definition level (p : nat) (gs : groups) : list entry :=
    go (S (size gs + p)) (p - 1) gs (repeat (blit 1) n) 1.
  (** the condition of a tree holds up to [eps] *)
  Definition check_ball (eps : Z) (p : nat) (w : entry) : bool :=
    match bdot b (fst w) with
    | Ball s m e =>
        let g := (Z.of_nat p * snd w)%Z in
        andb (ltb e lim) (Z.leb (Z.abs (sg s (to_Z m) * g - one) + to_Z e * g) (eps * g))
    end.
  (** levels [p], [p + 1], ..., [p + k - 1] *)
  Fixpoint check_levels (eps : Z) (k p : nat) (gs : groups) : bool :=
    match k with
    | O => true
    | S k =>
        let l := level p gs in
        if forallb (check_ball eps p) l then
          match k with
          | O => true
          | _ => check_levels eps k (S p)
                   ((p, map (fun w => (map (fun row => bdot row (fst w)) a, (Z.of_nat p * snd w)%Z)) l) :: gs)
          end
        else false
    end.
End Table.

(** ** soundness of the balls *)
Lemma abs_le x y : (Rabs x <= y -> - y <= x <= y)%R.
Proof. unfold Rabs. destruct (Rcase_abs x); lra. Qed.
Lemma one_pos : (0 < IZR one)%R.
Proof. unfold one. apply IZR_lt. reflexivity. Qed.
Lemma bad_ok x : holds bad x.
Proof. unfold holds, bad. intros H. lia. Qed.

Definition W63 : Z := (2 ^ 63)%Z.
Lemma rng x : (0 <= to_Z x < W63)%Z.
Proof. exact (to_Z_bounded x). Qed.
Lemma addz x y : (to_Z x + to_Z y < W63)%Z -> to_Z (x + y)%uint63 = (to_Z x + to_Z y)%Z.
Proof. intros H. rewrite add_spec. apply Z.mod_small. pose proof (rng x). pose proof (rng y). change wB with W63. lia. Qed.
Lemma mulz x y : (to_Z x * to_Z y < W63)%Z -> to_Z (x * y)%uint63 = (to_Z x * to_Z y)%Z.
Proof. intros H. rewrite mul_spec. apply Z.mod_small. pose proof (rng x). pose proof (rng y). change wB with W63. nia. Qed.

(** the sizes in [bmul] *)
Lemma size_bound X g : (0 <= X -> 0 <= g -> X * g <= ((X / 2 ^ 30 + 1) * g / 2 ^ 20 + 1) * one)%Z.
Proof.
  intros HX Hg. pose proof (Z.div_mod X (2 ^ 30) ltac:(lia)) as D. pose proof (Z.mod_pos_bound X (2 ^ 30) ltac:(lia)) as M.
  set (k := (X / 2 ^ 30)%Z) in *. set (r := (X mod 2 ^ 30)%Z) in *. set (A := ((k + 1) * g)%Z) in *.
  pose proof (Z.div_mod A (2 ^ 20) ltac:(lia)) as D'. pose proof (Z.mod_pos_bound A (2 ^ 20) ltac:(lia)) as M'.
  set (j := (A / 2 ^ 20)%Z) in *. unfold one.
  assert (X * g <= A * 2 ^ 30)%Z by (unfold A; nia). nia.
Qed.
Lemma part_z x g : (to_Z g < to_Z lim)%Z ->
  to_Z ((((x >> 30) + 1) * g) >> 20)%uint63 = ((to_Z x / 2 ^ 30 + 1) * to_Z g / 2 ^ 20)%Z /\
  (0 <= (to_Z x / 2 ^ 30 + 1) * to_Z g / 2 ^ 20 < 2 ^ 43)%Z.
Proof.
  intros Hg. pose proof (rng x) as Rx. pose proof (rng g) as Rg.
  assert (Q : (0 <= to_Z x / 2 ^ 30 < 2 ^ 33)%Z).
  { split; [apply Z.div_pos; lia|]. apply Z.div_lt_upper_bound; [lia|]. unfold W63 in Rx. lia. }
  change (to_Z lim) with (2 ^ 29)%Z in Hg.
  assert (E1 : to_Z (x >> 30)%uint63 = (to_Z x / 2 ^ 30)%Z) by (rewrite lsr_spec; reflexivity).
  assert (E2 : to_Z ((x >> 30) + 1)%uint63 = (to_Z x / 2 ^ 30 + 1)%Z).
  { rewrite addz; rewrite E1; change (to_Z 1) with 1%Z; [reflexivity|unfold W63; lia]. }
  assert (P : (0 <= (to_Z x / 2 ^ 30 + 1) * to_Z g < 2 ^ 63)%Z) by nia.
  rewrite lsr_spec, mulz, E2; [|rewrite E2; unfold W63; lia]. change (to_Z 20) with 20%Z. split; [reflexivity|].
  split; [apply Z.div_pos; lia|]. apply Z.div_lt_upper_bound; lia.
Qed.
Lemma sg_xor s t x y : (sg (xorb s t) (x * y) = sg s x * sg t y)%Z.
Proof. destruct s, t; cbn; ring. Qed.
Lemma sg_abs s x : (0 <= x -> Z.abs (sg s x) = x)%Z.
Proof. destruct s; cbn; lia. Qed.
Lemma bmul_ok a b x y : holds a x -> holds b y -> holds (bmul a b) (x * y).
Proof.
  destruct a as [s X e], b as [t Y g]. unfold bmul, holds at 1 2.
  destruct (ltb e lim) eqn:He; [|intros; apply bad_ok]. destruct (ltb g lim) eqn:Hg; [|intros; apply bad_ok].
  apply ltb_spec in He, Hg. intros Ha Hb. specialize (Ha He). specialize (Hb Hg).
  pose proof (mulc_spec X Y) as HM. destruct (mulc X Y) as [h l]. cbn [fst snd] in HM.
  destruct (ltb h 0x2000000000000) eqn:Hh; [|apply bad_ok]. apply ltb_spec in Hh. change (to_Z 0x2000000000000) with (2 ^ 49)%Z in Hh.
  unfold holds. intros _.
  destruct (part_z X g Hg) as [P1 B1]. destruct (part_z Y e He) as [P2 B2].
  pose proof (rng X) as RX. pose proof (rng Y) as RY. pose proof (rng e) as Re. pose proof (rng g) as Rg. pose proof (rng h) as Rh. pose proof (rng l) as Rl.
  change wB with W63 in HM. change (to_Z lim) with (2 ^ 29)%Z in He, Hg.
  assert (EG : to_Z ((e * g) >> 50)%uint63 = (to_Z e * to_Z g / 2 ^ 50)%Z /\ (0 <= to_Z e * to_Z g / 2 ^ 50 < 2 ^ 10)%Z).
  { assert (0 <= to_Z e * to_Z g < 2 ^ 58)%Z by nia. rewrite lsr_spec, mulz by (unfold W63; lia).
    split; [reflexivity|]. split; [apply Z.div_pos; lia|apply Z.div_lt_upper_bound; lia]. }
  destruct EG as [P3 B3].
  assert (EE : to_Z (((((X >> 30) + 1) * g) >> 20) + ((((Y >> 30) + 1) * e) >> 20) + ((e * g) >> 50) + 4)%uint63 =
    ((to_Z X / 2 ^ 30 + 1) * to_Z g / 2 ^ 20 + (to_Z Y / 2 ^ 30 + 1) * to_Z e / 2 ^ 20 + to_Z e * to_Z g / 2 ^ 50 + 4)%Z).
  { assert (Q1 : to_Z (((((X >> 30) + 1) * g) >> 20) + ((((Y >> 30) + 1) * e) >> 20))%uint63 =
      ((to_Z X / 2 ^ 30 + 1) * to_Z g / 2 ^ 20 + (to_Z Y / 2 ^ 30 + 1) * to_Z e / 2 ^ 20)%Z).
    { rewrite addz; rewrite P1, P2; [reflexivity|unfold W63; lia]. }
    assert (Q2 : to_Z (((((X >> 30) + 1) * g) >> 20) + ((((Y >> 30) + 1) * e) >> 20) + ((e * g) >> 50))%uint63 =
      ((to_Z X / 2 ^ 30 + 1) * to_Z g / 2 ^ 20 + (to_Z Y / 2 ^ 30 + 1) * to_Z e / 2 ^ 20 + to_Z e * to_Z g / 2 ^ 50)%Z).
    { rewrite addz; rewrite Q1, P3; [reflexivity|unfold W63; lia]. }
    rewrite addz; rewrite Q2; change (to_Z 4) with 4%Z; [reflexivity|unfold W63; lia]. }
  rewrite EE.
  assert (SH : to_Z (h << 13)%uint63 = (to_Z h * 2 ^ 13)%Z).
  { rewrite lsl_spec. change (to_Z 13) with 13%Z. apply Z.mod_small. change wB with (2 ^ 63)%Z. lia. }
  assert (SL : to_Z (l >> 50)%uint63 = (to_Z l / 2 ^ 50)%Z) by (rewrite lsr_spec; reflexivity).
  assert (BL : (0 <= to_Z l / 2 ^ 50 < 2 ^ 13)%Z).
  { split; [apply Z.div_pos; lia|]. apply Z.div_lt_upper_bound; [lia|]. unfold W63 in Rl. lia. }
  assert (MM : to_Z ((h << 13) + (l >> 50))%uint63 = (to_Z h * 2 ^ 13 + to_Z l / 2 ^ 50)%Z).
  { rewrite addz; rewrite SH, SL; [reflexivity|unfold W63; lia]. }
  rewrite MM. clear MM SL SH EE P1 P2 P3.
  pose proof (size_bound ltac:(apply RX) ltac:(apply Rg)) as S1. pose proof (size_bound ltac:(apply RY) ltac:(apply Re)) as S2.
  set (E1 := ((to_Z X / 2 ^ 30 + 1) * to_Z g / 2 ^ 20)%Z) in *. set (E2 := ((to_Z Y / 2 ^ 30 + 1) * to_Z e / 2 ^ 20)%Z) in *.
  assert (S3 : (to_Z e * to_Z g <= (to_Z e * to_Z g / 2 ^ 50 + 1) * one)%Z).
  { pose proof (Z.div_mod (to_Z e * to_Z g) (2 ^ 50) ltac:(lia)). pose proof (Z.mod_pos_bound (to_Z e * to_Z g) (2 ^ 50) ltac:(lia)). unfold one. lia. }
  set (E3 := (to_Z e * to_Z g / 2 ^ 50)%Z) in *.
  assert (MB : ((to_Z h * 2 ^ 13 + to_Z l / 2 ^ 50) * one <= to_Z X * to_Z Y < (to_Z h * 2 ^ 13 + to_Z l / 2 ^ 50) * one + one)%Z).
  { pose proof (Z.div_mod (to_Z l) (2 ^ 50) ltac:(lia)). pose proof (Z.mod_pos_bound (to_Z l) (2 ^ 50) ltac:(lia)).
    unfold W63 in HM. unfold one. lia. }
  set (M := (to_Z h * 2 ^ 13 + to_Z l / 2 ^ 50)%Z) in *. clearbody M E1 E2 E3. clear Rh Rl Hh HM BL h l.
  (* over the reals *)
  pose proof one_pos as Q. set (w := IZR one) in *.
  assert (T1 : (Rabs (IZR (sg s (to_Z X)) * IZR (sg t (to_Z Y)) - x * y * w * w) <= (IZR E1 + IZR E2 + IZR E3 + 3) * w)%R).
  { replace (IZR (sg s (to_Z X)) * IZR (sg t (to_Z Y)) - x * y * w * w)%R with
      (IZR (sg s (to_Z X)) * (IZR (sg t (to_Z Y)) - y * w) + y * w * (IZR (sg s (to_Z X)) - x * w))%R by ring.
    eapply Rle_trans; [apply Rabs_triang|]. rewrite !Rabs_mult with (y := (IZR _ - _)%R).
    assert (AX : Rabs (IZR (sg s (to_Z X))) = IZR (to_Z X)) by (rewrite <- abs_IZR, sg_abs by lia; reflexivity).
    assert (AY : Rabs (IZR (sg t (to_Z Y))) = IZR (to_Z Y)) by (rewrite <- abs_IZR, sg_abs by lia; reflexivity).
    assert (YW : (Rabs (y * w) <= IZR (to_Z Y) + IZR (to_Z g))%R).
    { replace (y * w)%R with (IZR (sg t (to_Z Y)) - (IZR (sg t (to_Z Y)) - y * w))%R by ring.
      eapply Rle_trans; [apply Rabs_triang|]. rewrite Rabs_Ropp, AY. now apply Rplus_le_compat_l. }
    rewrite AX. apply IZR_le in S1, S2, S3. rewrite !mult_IZR, !plus_IZR in S1, S2, S3. fold w in S1, S2, S3.
    assert (0 <= IZR (to_Z X) /\ 0 <= IZR (to_Z Y) /\ 0 <= IZR (to_Z e) /\ 0 <= IZR (to_Z g))%R as (PX & PY & Pe & Pg)
      by (repeat split; apply (IZR_le 0); lia).
    pose proof (Rabs_pos (y * w)) as N1. pose proof (Rabs_pos (IZR (sg s (to_Z X)) - x * w)) as N2. pose proof (Rabs_pos (IZR (sg t (to_Z Y)) - y * w)) as N3.
    assert (A1 : (IZR (to_Z X) * Rabs (IZR (sg t (to_Z Y)) - y * w) <= IZR (to_Z X) * IZR (to_Z g))%R) by (apply Rmult_le_compat_l; auto).
    assert (A2 : (Rabs (y * w) * Rabs (IZR (sg s (to_Z X)) - x * w) <= (IZR (to_Z Y) + IZR (to_Z g)) * IZR (to_Z e))%R) by (apply Rmult_le_compat; auto).
    lra. }
  assert (T2 : (Rabs (IZR (sg (xorb s t) M) * w - IZR (sg s (to_Z X)) * IZR (sg t (to_Z Y))) <= w)%R).
  { rewrite <- mult_IZR with (n := sg s (to_Z X)), <- sg_xor. destruct MB as [MB1 MB2]. apply IZR_le in MB1. apply IZR_lt in MB2.
    rewrite plus_IZR in MB2. rewrite !mult_IZR in MB1, MB2. fold w in MB1, MB2.
    apply Rabs_le. destruct (xorb s t); cbn [sg]; rewrite ?opp_IZR, mult_IZR; lra. }
  apply (Rmult_le_reg_r w); [exact Q|]. rewrite <- (Rabs_right w) at 2 by lra. rewrite <- Rabs_mult.
  replace ((IZR (sg (xorb s t) M) - x * y * w) * w)%R with
    ((IZR (sg (xorb s t) M) * w - IZR (sg s (to_Z X)) * IZR (sg t (to_Z Y))) + (IZR (sg s (to_Z X)) * IZR (sg t (to_Z Y)) - x * y * w * w))%R by ring.
  eapply Rle_trans; [apply Rabs_triang|]. rewrite !plus_IZR. lra.
Qed.

Notation rdot := (dot Rplus Rmult 0%R).
Lemma end_ok p q e z :
  ((to_Z e < to_Z lim)%Z -> (Rabs (IZR (to_Z p) - IZR (to_Z q) - z * IZR one) <= IZR (to_Z e))%R) ->
  holds (if (q <=? p)%uint63 then Ball false (p - q)%uint63 e else Ball true (q - p)%uint63 e) z.
Proof.
  intros H. pose proof (rng p) as Rp. pose proof (rng q) as Rq. destruct (Uint63.leb q p) eqn:E.
  - apply leb_spec in E. unfold holds. intros Hl. cbn [sg]. rewrite sub_spec, Z.mod_small by (change wB with W63; lia).
    rewrite minus_IZR. now apply H.
  - assert (E' : (to_Z p < to_Z q)%Z). { apply Z.nle_gt. intros L. apply leb_spec in L. congruence. }
    unfold holds. intros Hl. cbn [sg]. rewrite sub_spec, Z.mod_small by (change wB with W63; lia).
    rewrite opp_IZR, minus_IZR. specialize (H Hl).
    replace (- (IZR (to_Z q) - IZR (to_Z p)) - z * IZR one)%R with (IZR (to_Z p) - IZR (to_Z q) - z * IZR one)%R by ring. exact H.
Qed.
Lemma dot3_ok a : forall b xs ys p q e z, Forall2 holds a xs -> Forall2 holds b ys ->
  ((to_Z e < to_Z lim)%Z -> (Rabs (IZR (to_Z p) - IZR (to_Z q) - z * IZR one) <= IZR (to_Z e))%R) ->
  holds (dot3 a b p q e) (z + rdot xs ys).
Proof.
  induction a as [|x a IH]; intros b xs ys p q e z Ha Hb H.
  - inversion Ha; subst. cbn [dot3 dot]. rewrite Rplus_0_r. now apply end_ok.
  - inversion Ha as [|? u ? us Hp Ha']; subst. destruct b as [|y b].
    + inversion Hb; subst. cbn [dot3 dot]. rewrite Rplus_0_r. now apply end_ok.
    + inversion Hb as [|? v ? vs Hq Hb']; subst. cbn [dot3 dot]. destruct (is_zero x) eqn:EZ.
      * destruct x as [s m g]. unfold is_zero in EZ. destruct (Uint63.eqb m 0) eqn:E1; [|discriminate].
        apply eqb_correct in E1, EZ. subst. unfold holds in Hp. specialize (Hp ltac:(reflexivity)).
        assert (u = 0)%R.
        { change (to_Z 0) with 0%Z in Hp. replace (sg s 0) with 0%Z in Hp by (destruct s; reflexivity).
          apply abs_le in Hp. pose proof one_pos. nra. }
        subst u. rewrite Rmult_0_l, Rplus_0_l. now apply IH.
      * pose proof (bmul_ok _ _ _ _ Hp Hq) as HP. destruct (bmul x y) as [s m g].
        destruct (ltb m 0x4000000000000000) eqn:Em; [|apply bad_ok]. destruct (ltb g lim) eqn:Eg; [|apply bad_ok].
        destruct (ltb e lim) eqn:Ee; [|apply bad_ok]. apply ltb_spec in Em, Eg, Ee. specialize (HP Eg). specialize (H Ee).
        change (to_Z 0x4000000000000000) with (2 ^ 62)%Z in Em.
        assert (AE : to_Z (e + g)%uint63 = (to_Z e + to_Z g)%Z).
        { apply addz. change (to_Z lim) with (2 ^ 29)%Z in Eg, Ee. unfold W63. lia. }
        replace (z + (u * v + rdot us vs))%R with ((z + u * v) + rdot us vs)%R by ring.
        destruct s.
        -- destruct (ltb q 0x4000000000000000) eqn:Eq; [|apply bad_ok]. apply ltb_spec in Eq. change (to_Z 0x4000000000000000) with (2 ^ 62)%Z in Eq.
           apply IH; auto. intros _. rewrite AE, addz by (unfold W63; lia). rewrite !plus_IZR. cbn [sg] in HP. rewrite opp_IZR in HP.
           replace (IZR (to_Z p) - (IZR (to_Z q) + IZR (to_Z m)) - (z + u * v) * IZR one)%R with
             ((IZR (to_Z p) - IZR (to_Z q) - z * IZR one) + (- IZR (to_Z m) - u * v * IZR one))%R by ring.
           eapply Rle_trans; [apply Rabs_triang|]. now apply Rplus_le_compat.
        -- destruct (ltb p 0x4000000000000000) eqn:Eq; [|apply bad_ok]. apply ltb_spec in Eq. change (to_Z 0x4000000000000000) with (2 ^ 62)%Z in Eq.
           apply IH; auto. intros _. rewrite AE, addz by (unfold W63; lia). rewrite !plus_IZR. cbn [sg] in HP.
           replace (IZR (to_Z p) + IZR (to_Z m) - IZR (to_Z q) - (z + u * v) * IZR one)%R with
             ((IZR (to_Z p) - IZR (to_Z q) - z * IZR one) + (IZR (to_Z m) - u * v * IZR one))%R by ring.
           eapply Rle_trans; [apply Rabs_triang|]. now apply Rplus_le_compat.
Qed.
Lemma bdot_ok a b xs ys : Forall2 holds a xs -> Forall2 holds b ys -> holds (bdot a b) (rdot xs ys).
Proof.
  intros Ha Hb. replace (rdot xs ys) with (0 + rdot xs ys)%R by ring. apply dot3_ok; auto.
  intros _. change (to_Z 0) with 0%Z. replace (0 - 0 - 0 * IZR one)%R with 0%R by ring. rewrite Rabs_R0. lra.
Qed.
Lemma rdot_sum n a f : rdot a (map f (seq 0 n)) = rsum n (fun j => nth j a 0 * f j)%R.
Proof.
  pose proof (@dot_R R Rplus Rmult 0%R (fun x => x) (fun _ _ => eq_refl) (fun _ _ => eq_refl) eq_refl n a (map f (seq 0 n))) as H.
  cbv beta in H. rewrite H by (now rewrite map_length, seq_length). apply rsum_ext. intros j Hj. rewrite map_id.
  rewrite (nth_indep (map f (seq 0 n)) 0%R (f 0)) by (now rewrite map_length, seq_length).
  rewrite map_nth, seq_nth by auto. reflexivity.
Qed.

Lemma sg_ltb z m : m = Z.abs z -> sg (Z.ltb z 0) m = z.
Proof. intros ->. destruct (Z.ltb_spec z 0); cbn; lia. Qed.
Lemma blit_ok z : holds (blit z) (IZR z).
Proof.
  unfold blit. assert (P : (0 < one)%Z) by reflexivity. destruct (Z.ltb_spec (Z.abs z * one) (2 ^ 62)) as [H|H]; [|apply bad_ok].
  unfold holds. intros _. rewrite of_Z_spec, Z.mod_small by (change wB with (2 ^ 63)%Z; lia).
  replace (sg (z <? 0)%Z (Z.abs z * one)) with (z * one)%Z.
  - rewrite mult_IZR, Rminus_diag_eq by reflexivity. rewrite Rabs_R0. apply (IZR_le 0). reflexivity.
  - destruct (Z.ltb_spec z 0); cbn; nia.
Qed.
Lemma bquo_ok n d : (0 < d)%Z -> holds (bquo n d) (IZR n / IZR d).
Proof.
  intros Hd. unfold bquo. pose proof one_pos as Q. assert (D : (0 < IZR d)%R) by (apply (IZR_lt 0); lia).
  destruct (Z.eqb_spec n 0) as [->|Hn].
  - unfold holds. intros _. change (IZR (sg false (to_Z 0))) with 0%R. replace (0 - 0 / IZR d * IZR one)%R with 0%R by (field; lra).
    rewrite Rabs_R0. apply (IZR_le 0). reflexivity.
  - assert (P : (0 < one)%Z) by reflexivity.
    pose proof (Z.div_mod (Z.abs n * one) d ltac:(lia)) as E. pose proof (Z.mod_pos_bound (Z.abs n * one) d Hd) as M.
    set (k := (Z.abs n * one / d)%Z) in *. set (r := ((Z.abs n * one) mod d)%Z) in *.
    assert (K : (0 <= k)%Z) by (apply Z.div_pos; lia).
    destruct (Z.ltb_spec k (2 ^ 62)) as [H|H]; [|apply bad_ok].
    unfold holds. intros _. rewrite of_Z_spec, Z.mod_small by (change wB with (2 ^ 63)%Z; lia). change (to_Z 1) with 1%Z.
    assert (E' : (IZR n * IZR one = IZR d * IZR (sg (n <? 0)%Z k) + IZR (sg (n <? 0)%Z r))%R).
    { rewrite <- !mult_IZR, <- plus_IZR. f_equal. destruct (Z.ltb_spec n 0); cbn [sg]; nia. }
    replace (IZR (sg (n <? 0)%Z k) - IZR n / IZR d * IZR one)%R with (- (IZR (sg (n <? 0)%Z r) / IZR d))%R.
    2: { replace (IZR n / IZR d * IZR one)%R with ((IZR n * IZR one) / IZR d)%R by (field; lra). rewrite E'. field. lra. }
    rewrite Rabs_Ropp. unfold Rdiv. rewrite Rabs_mult, <- abs_IZR, sg_abs, (Rabs_right (/ IZR d)) by (try lia; left; now apply Rinv_0_lt_compat).
    apply (Rmult_le_reg_r (IZR d)); auto. rewrite Rmult_assoc, Rinv_l, Rmult_1_r, Rmult_1_l by lra. apply IZR_le. lia.
Qed.


(** ** completeness of the enumeration *)
Definition item := (nat * entry)%type.
Definition in_groups (gs : groups) (x : item) : Prop := exists l, In (fst x, l) gs /\ In (snd x) l.
Definition orders (es : list item) : nat := fold_right (fun x n => fst x + n) 0 es.
Definition times_v (es : list item) (v : list ball) : list ball := fold_left (fun v x => bzip v (fst (snd x))) es v.
Definition times_d (es : list item) (d : Z) : Z := fold_left (fun d x => (d * snd (snd x))%Z) es d.

Lemma item_dec : forall x y : item, {x = y} + {x <> y}.
Proof.
  intros [o [u d]] [o' [u' d']].
  destruct (Nat.eq_dec o o') as [->|]; [|right; congruence].
  destruct (Z.eq_dec d d') as [->|]; [|right; congruence].
  assert (B : forall p r : ball, {p = r} + {p <> r}).
  { intros [s1 p1 p2] [s2 r1 r2]. destruct (Bool.bool_dec s1 s2) as [->|]; [|right; congruence].
    destruct (Uint63.eqs p1 r1) as [->|]; [|right; congruence].
    destruct (Uint63.eqs p2 r2) as [->|]; [now left|right; congruence]. }
  destruct (list_eq_dec B u u') as [->|]; [now left|right; congruence].
Qed.
Lemma orders_in x es : In x es -> fst x <= orders es.
Proof. induction es as [|y es IH]; [intros []|]. intros [->|H]; unfold orders in *; cbn [fold_right]; [lia|]. specialize (IH H). lia. Qed.
Lemma orders_app e1 e2 : orders (e1 ++ e2) = orders e1 + orders e2.
Proof. unfold orders. induction e1 as [|x e1 IH]; cbn [app fold_right]; auto. rewrite IH. lia. Qed.

Lemma go_complete fuel : forall rem gs es v d, (forall o l, In (o, l) gs -> 0 < o) ->
  (forall x, In x es -> in_groups gs x) -> orders es = rem -> rem + size gs < fuel ->
  exists es', Permutation es es' /\ In (times_v es' v, times_d es' d) (go fuel rem gs v d).
Proof.
  induction fuel as [|fuel IH]; intros rem gs es v d Hp Hin Ho Hf; [lia|]. cbn [go].
  destruct rem as [|rem'].
  { exists []. split; [|now left]. destruct es as [|x es]; [constructor|]. exfalso.
    destruct (Hin x (or_introl eq_refl)) as (l & H1 & _). apply Hp in H1. cbn in Ho. lia. }
  set (rem := S rem') in *. destruct gs as [|[o l] gs'].
  { exfalso. destruct es as [|x es]; [discriminate|]. destruct (Hin x (or_introl eq_refl)) as (l & [] & _). }
  assert (Hp' : forall o l, In (o, l) gs' -> 0 < o) by (intros; eapply Hp; right; eassumption).
  cbn [size fold_right] in Hf. fold (size gs') in Hf. cbn [snd] in Hf.
  destruct (Nat.ltb_spec rem o) as [Hro|Hro].
  { apply IH; auto; try lia. intros x Hx. destruct (Hin x Hx) as (l0 & [E|H1] & H2); [|exists l0; auto].
    injection E as E1 E2. pose proof (orders_in x es Hx). lia. }
  destruct l as [|[u du] l'].
  { apply IH; auto; try (cbn in Hf; lia). intros x Hx. destruct (Hin x Hx) as (l0 & [E|H1] & H2); [|exists l0; auto].
    injection E as E1 E2. subst l0. destruct H2. }
  cbn [length] in Hf.
  destruct (in_dec item_dec (o, (u, du)) es) as [Hx|Hx].
  - apply in_split in Hx. destruct Hx as (e1 & e2 & ->).
    assert (P0 : 0 < o) by (eapply Hp; left; reflexivity).
    destruct (IH (rem - o) ((o, (u, du) :: l') :: gs') (e1 ++ e2) (bzip v u) (d * du)%Z) as (es' & P & Q); auto.
    + intros x Hx. apply Hin. apply in_app_iff in Hx. apply in_app_iff. cbn. tauto.
    + rewrite orders_app in *. cbn [orders fold_right fst] in Ho. fold (orders e2) in Ho. lia.
    + cbn [size fold_right snd length]. fold (size gs'). lia.
    + exists ((o, (u, du)) :: es'). split.
      * eapply Permutation_trans; [apply Permutation_sym, Permutation_middle|]. now constructor.
      * apply in_app_iff. left. exact Q.
  - destruct (IH rem ((o, l') :: gs') es v d) as (es' & P & Q); auto.
    + intros o0 l0 [E|H]; [|now apply Hp' with l0]. injection E as <- <-. eapply Hp. left. reflexivity.
    + intros x Hxi. destruct (Hin x Hxi) as (l0 & [E|H1] & H2); [|exists l0; split; [now right|auto]].
      injection E as E1 E2. subst l0. destruct H2 as [E|H2].
      * exfalso. apply Hx. destruct x as [ox ex]. cbn in E1, E. subst. exact Hxi.
      * exists l'. split; [left; now f_equal|exact H2].
    + cbn [size fold_right snd]. fold (size gs'). lia.
    + exists es'. split; [exact P|]. apply in_app_iff. now right.
Qed.

(** ** soundness of the check *)
Lemma prod_perm {A} (f : A -> R) l l' : Permutation l l' ->
  fold_right (fun s x => f s * x)%R 1%R l = fold_right (fun s x => f s * x)%R 1%R l'.
Proof. induction 1; cbn; [reflexivity|now rewrite IHPermutation|lra|congruence]. Qed.

(** the balls of the weights of one tree *)
Fixpoint wball (n : nat) (a : list (list ball)) (t : rtree) : list ball :=
  match t with
  | Node l => fold_right (fun s v => let w := wball n a s in bzip (map (fun row => bdot row w) a) v) (repeat (blit 1) n) l
  end.

Section Sound.
  Variables (bt : table R) (a : list (list ball)) (b : list ball) (bR : list R).
  Notation n := (bt_steps bt).
  Hypothesis Ha : Forall2 (Forall2 holds) a (bt_a bt).
  Hypothesis Hl : length (bt_a bt) = n.
  Hypothesis Hb : Forall2 holds b bR.

  Definition holdsv (v : list ball) (f : nat -> R) : Prop := Forall2 holds v (map f (seq 0 n)).
  (** what a subtree contributes to stage [i] *)
  Definition part (t : rtree) (i : nat) : R := rsum n (fun j => nth j (nth i (bt_a bt) []) 0 * weight bt t j)%R.
  Definition is_entry (t : rtree) (e : entry) : Prop :=
    holdsv (fst e) (part t) /\ IZR (snd e) = density t.
  Definition known_below (p : nat) (gs : groups) : Prop :=
    (forall o l, In (o, l) gs -> 0 < o) /\
    forall t, vertices t < p -> exists e, in_groups gs (vertices t, e) /\ is_entry t e.

  Lemma zip_ok u v f g : holdsv u f -> holdsv v g -> holdsv (bzip u v) (fun i => f i * g i)%R.
  Proof.
    unfold holdsv. generalize (seq 0 n) as s. intros s. revert u v. induction s as [|i s IH]; intros u v Hu Hv.
    - inversion Hu; inversion Hv; subst. constructor.
    - inversion Hu; inversion Hv; subst. cbn [bzip map]. constructor; [now apply bmul_ok|]. now apply IH.
  Qed.
  Lemma holdsv_ext v f g : (forall i, i < n -> f i = g i) -> holdsv v f -> holdsv v g.
  Proof.
    intros E H. unfold holdsv in *. rewrite (map_ext_in g f); auto. intros i Hi. apply in_seq in Hi. symmetry. apply E. lia.
  Qed.
  Lemma ones_ok : holdsv (repeat (blit 1) n) (fun _ => 1%R).
  Proof.
    unfold holdsv. generalize (seq 0 n) (seq_length n 0). intros s <-. induction s; cbn [length repeat map]; constructor; auto.
    apply (blit_ok 1).
  Qed.
  Lemma times_ok es : forall l v d f, Forall2 (fun x s => is_entry s (snd x)) es l -> holdsv v f ->
    holdsv (times_v es v) (fun i => f i * fold_right (fun s x => part s i * x) 1 l)%R /\
    IZR (times_d es d) = (IZR d * fold_right (fun s x => density s * x) 1 l)%R.
  Proof.
    induction es as [|x es IH]; intros l v d f H Hv.
    - inversion H; subst. cbn. split; [|lra]. eapply holdsv_ext; [|exact Hv]. intros. cbn. lra.
    - inversion H as [|? s ? l' Hx H']; subst. cbn [times_v times_d fold_left fold_right].
      destruct Hx as [Hx1 Hx2]. destruct (IH l' (bzip v (fst (snd x))) (d * snd (snd x))%Z (fun i => f i * part s i)%R H') as [Q1 Q2].
      + now apply zip_ok.
      + split.
        * eapply holdsv_ext; [|exact Q1]. intros i _. cbn. lra.
        * transitivity (IZR (times_d es (d * snd (snd x))%Z)); [reflexivity|]. rewrite Q2, mult_IZR, Hx2. lra.
  Qed.

  Lemma level_ok p gs t : known_below p gs -> vertices t = p ->
    exists w, In w (level n p gs) /\ holdsv (fst w) (weight bt t) /\ IZR (Z.of_nat p * snd w) = density t.
  Proof.
    intros [Hp Hk] Ht. destruct t as [l].
    assert (E : exists es, Forall2 (fun x s => fst x = vertices s /\ in_groups gs x /\ is_entry s (snd x)) es l).
    { assert (L : forall s, In s l -> vertices s < p).
      { intros s Hs. rewrite <- Ht. cbn [vertices]. clear - Hs. induction l as [|r l IH]; [destruct Hs|].
        cbn [fold_right]. destruct Hs as [->|Hs]; [lia|]. specialize (IH Hs). lia. }
      clear Ht. induction l as [|s l IH]; [exists []; constructor|].
      destruct IH as (es & IH); [intros; apply L; now right|]. destruct (Hk s (L s (or_introl eq_refl))) as (e & E1 & E2).
      exists ((vertices s, e) :: es). constructor; auto. }
    destruct E as (es & E).
    assert (O : orders es = p - 1).
    { rewrite <- Ht. cbn [vertices]. rewrite Nat.sub_succ, Nat.sub_0_r. clear Ht. induction E as [|x s es l (E1 & _) E IH]; cbn; auto. }
    destruct (@go_complete (S (size gs + p)) (p - 1) gs es (repeat (blit 1) n) 1 Hp) as (es' & P & Q); auto; try lia.
    { intros x Hx. clear - E Hx. induction E as [|y s es l (_ & E1 & _) E IH]; [destruct Hx|]. destruct Hx as [<-|Hx]; auto. }
    destruct (Permutation_Forall2 P E) as (l' & P' & E').
    destruct (@times_ok es' l' (repeat (blit 1) n) 1 (fun _ => 1%R)) as [V D].
    { clear - E'. induction E' as [|x s xs l (_ & _ & E) E' IH]; constructor; auto. }
    { apply ones_ok. }
    exists (times_v es' (repeat (blit 1) n), times_d es' 1). split; [exact Q|]. split.
    - eapply holdsv_ext; [|exact V]. intros i _. cbn [weight]. rewrite Rmult_1_l. symmetry.
      exact (prod_perm (fun s => part s i) P').
    - cbn [snd]. rewrite mult_IZR, D. cbn [density]. rewrite Ht, <- INR_IZR_INZ, Rmult_1_l. f_equal. symmetry. now apply prod_perm.
  Qed.

  Lemma part_ok w f : holdsv w f -> holdsv (map (fun row => bdot row w) a) (fun i => rsum n (fun j => nth j (nth i (bt_a bt) []) 0 * f j)%R).
  Proof.
    intros Hw. unfold holdsv.
    assert (G : forall A AR, Forall2 (Forall2 holds) A AR ->
      Forall2 holds (map (fun row => bdot row w) A) (map (fun i => rsum n (fun j => nth j (nth i AR []) 0 * f j)%R) (seq 0 (length AR)))).
    { intros A AR H. induction H as [|r rr A AR Hr H IH]; cbn [map length seq]; constructor.
      - cbn [nth]. rewrite <- rdot_sum. now apply bdot_ok.
      - rewrite <- seq_shift, map_map. exact IH. }
    specialize (G a (bt_a bt) Ha). rewrite Hl in G. exact G.
  Qed.

  Lemma check_ball_ok eps p w t : check_ball b eps p w = true -> holdsv (fst w) (weight bt t) ->
    IZR (Z.of_nat p * snd w) = density t ->
    (Rabs (rsum n (fun i => nth i bR 0 * weight bt t i) - 1 / density t) <= IZR eps / IZR one)%R.
  Proof.
    intros HC HW HD. unfold check_ball in HC. pose proof (bdot_ok Hb HW) as HS. rewrite rdot_sum in HS.
    destruct (bdot b (fst w)) as [sx m e0]. apply andb_prop in HC. destruct HC as [HL HC].
    unfold holds in HS. apply ltb_spec in HL. specialize (HS HL).
    set (x := sg sx (to_Z m)) in *. set (e := to_Z e0) in *. apply Z.leb_le in HC. set (g := (Z.of_nat p * snd w)%Z) in *.
    apply IZR_le in HC. rewrite plus_IZR, !mult_IZR, abs_IZR, minus_IZR, mult_IZR, HD in HC.
    pose proof (density_pos t) as P. pose proof one_pos as Q.
    set (s := rsum _ _) in *. set (G := density t) in *. set (W := IZR one) in *.
    apply (Rmult_le_reg_r (W * G)); [nra|].
    replace (IZR eps / W * (W * G))%R with (IZR eps * G)%R by (field; lra).
    rewrite <- (Rabs_right (W * G)) at 1 by nra. rewrite <- Rabs_mult.
    replace ((s - 1 / G) * (W * G))%R with ((IZR x * G - W) - G * (IZR x - s * W))%R by (field; lra).
    eapply Rle_trans; [apply Rabs_triang|]. rewrite Rabs_Ropp, Rabs_mult, (Rabs_right G) by lra. nra.
  Qed.

  Lemma levels_ok eps k : forall p gs, 0 < p -> known_below p gs -> check_levels n a b eps k p gs = true ->
    forall t, p <= vertices t < p + k ->
    (Rabs (rsum n (fun i => nth i bR 0 * weight bt t i) - 1 / density t) <= IZR eps / IZR one)%R.
  Proof.
    induction k as [|k IH]; intros p gs Hp0 Hk HC t Ht; [lia|]. cbn [check_levels] in HC.
    destruct (forallb (check_ball b eps p) (level n p gs)) eqn:EF; [|discriminate].
    destruct (Nat.eq_dec (vertices t) p) as [E|E].
    - destruct (level_ok t Hk E) as (w & W1 & W2 & W3). rewrite forallb_forall in EF. eapply check_ball_ok; eauto.
    - destruct k as [|k']; [lia|]. eapply (IH (S p)); [lia| |exact HC|lia].
      destruct Hk as [Hp Hk]. split.
      + intros o l [Q|Q]; [injection Q as <- _; exact Hp0|now apply Hp with l].
      + intros t' Ht'. destruct (Nat.eq_dec (vertices t') p) as [E'|E'].
        * destruct (level_ok t' (conj Hp Hk) E') as (w & W1 & W2 & W3). eexists (_, _). split.
          -- eexists. split; [left; rewrite E'; reflexivity|]. cbn [snd]. apply in_map_iff. exists w. split; [reflexivity|exact W1].
          -- split; [cbn [fst]; now apply part_ok|exact W3].
        * destruct (Hk t') as (e & (l & E1 & E2) & E3); [lia|]. exists e. split; [exists l; split; [now right|exact E2]|exact E3].
  Qed.

  Lemma order_ok eps k : check_levels n a b eps k 1 [] = true -> forall t, vertices t <= k ->
    (Rabs (rsum n (fun i => nth i bR 0 * weight bt t i) - 1 / density t) <= IZR eps / IZR one)%R.
  Proof.
    intros H t Ht. pose proof (vertices_pos t). eapply (@levels_ok eps k 1 []); eauto; [|lia]. split.
    - intros o l [].
    - intros t' Ht'. pose proof (vertices_pos t'). lia.
  Qed.

  Lemma wball_ok t : holdsv (wball n a t) (weight bt t).
  Proof.
    induction t as [l H] using rtree_ind2. cbn [wball weight].
    induction H as [|s l Hs H IH]; cbn [fold_right]; [exact ones_ok|].
    apply (@zip_ok _ _ (part s)); [now apply part_ok|exact IH].
  Qed.
  Lemma off_ok eps t : match bdot b (wball n a t) with
      | Ball s m e => andb (ltb e lim) (Z.ltb (eps * zdensity t + to_Z e * zdensity t) (Z.abs (sg s (to_Z m) * zdensity t - one)))
      end = true ->
    (IZR eps / IZR one < Rabs (rsum n (fun i => nth i bR 0 * weight bt t i) - 1 / density t))%R.
  Proof.
    intros HC. pose proof (bdot_ok Hb (wball_ok t)) as HS. rewrite rdot_sum in HS.
    destruct (bdot b (wball n a t)) as [sx m e0]. apply andb_prop in HC. destruct HC as [HL HC].
    unfold holds in HS. apply ltb_spec in HL. specialize (HS HL).
    set (x := sg sx (to_Z m)) in *. set (e := to_Z e0) in *. apply Z.ltb_lt in HC.
    apply IZR_lt in HC. rewrite plus_IZR, abs_IZR, minus_IZR, !mult_IZR, zdensity_R in HC.
    pose proof (density_pos t) as P. pose proof one_pos as Q.
    set (s := rsum _ _) in *. set (G := density t) in *. set (W := IZR one) in *.
    apply (Rmult_lt_reg_r (W * G)); [nra|].
    replace (IZR eps / W * (W * G))%R with (IZR eps * G)%R by (field; lra).
    rewrite <- (Rabs_right (W * G)) by nra. rewrite <- Rabs_mult.
    replace ((s - 1 / G) * (W * G))%R with ((IZR x * G - W) - G * (IZR x - s * W))%R by (field; lra).
    assert (T : (Rabs (IZR x * G - W) <= Rabs (IZR x * G - W - G * (IZR x - s * W)) + Rabs (G * (IZR x - s * W)))%R).
    { eapply Rle_trans; [|apply Rabs_triang]. right. f_equal. ring. }
    rewrite (Rabs_mult G), (Rabs_right G) in T by lra. nra.
  Qed.
End Sound.

(** ** tables *)
Definition holdn (x : num) (r : R) : Prop := holds (force x) r.
Definition table_holds (B : table num) (T : table R) : Prop :=
  bt_steps B = bt_steps T /\ length (bt_a T) = bt_steps T /\ length (bt_c T) = bt_steps T /\
  Forall2 (Forall2 holdn) (bt_a B) (bt_a T) /\ Forall2 holdn (bt_b1 B) (bt_b1 T) /\
  Forall2 holdn (bt_b2 B) (bt_b2 T) /\ Forall2 holdn (bt_c B) (bt_c T).
Definition check_order_b (B : table num) (b : list num) (eps : Z) (p : nat) : bool :=
  check_levels (bt_steps B) (map (map force) (bt_a B)) (map force b) eps p 1 [].
Definition check_row (n : nat) (eps : Z) (rc : list ball * ball) : bool :=
  match bdot (fst rc) (repeat (blit 1) n), snd rc with
  | Ball s x e, Ball t y g =>
      andb (andb (ltb e lim) (ltb g lim))
           (Z.leb (Z.abs (sg s (to_Z x) - sg t (to_Z y)) + to_Z e + to_Z g) eps)
  end.
Definition check_rows_b (B : table num) (eps : Z) : bool :=
  forallb (check_row (bt_steps B) eps) (combine (map (map force) (bt_a B)) (map force (bt_c B))).
Lemma force_list l r : Forall2 holdn l r -> Forall2 holds (map force l) r.
Proof. induction 1; cbn; constructor; auto. Qed.
Lemma force_lists l r : Forall2 (Forall2 holdn) l r -> Forall2 (Forall2 holds) (map (map force) l) r.
Proof. induction 1; cbn; constructor; auto. now apply force_list. Qed.

Lemma nearly_ok B T b bR eps p : table_holds B T -> Forall2 holdn b bR -> check_order_b B b eps p = true ->
  nearly_order T bR p (IZR eps / IZR one).
Proof.
  intros (H1 & H2 & _ & H4 & _) Hb HC t Ht. unfold check_order_b in HC. rewrite H1 in HC.
  eapply order_ok; [apply force_lists; exact H4|exact H2|apply force_list; exact Hb|exact HC|exact Ht].
Qed.
Definition check_off (B : table num) (b : list num) (eps : Z) (t : rtree) : bool :=
  match bdot (map force b) (wball (bt_steps B) (map (map force) (bt_a B)) t) with
  | Ball s m e => andb (ltb e lim) (Z.ltb (eps * zdensity t + to_Z e * zdensity t) (Z.abs (sg s (to_Z m) * zdensity t - one)))
  end.
Lemma off_table B T b bR eps t : table_holds B T -> Forall2 holdn b bR -> check_off B b eps t = true ->
  (IZR eps / IZR one < Rabs (rsum (bt_steps T) (fun i => nth i bR 0 * weight T t i) - 1 / density t))%R.
Proof.
  intros (H1 & H2 & _ & H4 & _) Hb HC. unfold check_off in HC. rewrite H1 in HC.
  eapply off_ok; [apply force_lists; exact H4|exact H2|apply force_list; exact Hb|exact HC].
Qed.
Lemma ones_holds n : Forall2 holds (repeat (blit 1) n) (map (fun _ => 1%R) (seq 0 n)).
Proof. generalize (seq 0 n) (seq_length n 0). intros s <-. induction s; cbn [length repeat map]; constructor; auto. apply (blit_ok 1). Qed.
Lemma nearly_rows_ok B T eps : table_holds B T -> check_rows_b B eps = true -> nearly_row_sums T (IZR eps / IZR one).
Proof.
  intros (H1 & H2 & H3 & H4 & _ & _ & H7) HC. unfold nearly_row_sums, check_rows_b in *. rewrite H1 in HC.
  assert (G : forall n A AR, Forall2 (Forall2 holds) A AR -> forall c cR, Forall2 holds c cR -> forall i, i < length AR -> i < length cR ->
    forallb (check_row n eps) (combine A c) = true ->
    (Rabs (rsum n (fun j => nth j (nth i AR []) 0) - nth i cR 0) <= IZR eps / IZR one)%R).
  { clear. intros n A AR H. induction H as [|r rr A AR Hr H IH]; intros c cR Hc i Hi Hi' HF; [cbn in Hi; lia|].
    inversion Hc as [|y yy c' cR' Hy Hc']; subst; [cbn in Hi'; lia|]. cbn [combine forallb] in HF.
    apply andb_prop in HF. destruct HF as [HF1 HF2]. destruct i as [|i].
    - cbn [nth]. pose proof (ones_holds n) as O.
      pose proof (bdot_ok Hr O) as HS. rewrite rdot_sum in HS.
      rewrite (rsum_ext n (fun j => nth j rr 0 * 1)%R (fun j => nth j rr 0)%R) in HS by (intros; lra).
      unfold check_row in HF1. cbn [fst snd] in HF1.
      destruct (bdot r (repeat (blit 1) n)) as [sx x0 e0]. destruct y as [sy y0 g0].
      apply andb_prop in HF1. destruct HF1 as [HL HF1]. apply andb_prop in HL. destruct HL as [L1 L2].
      apply ltb_spec in L1, L2. unfold holds in HS, Hy. specialize (HS L1). specialize (Hy L2).
      set (x := sg sx (to_Z x0)) in *. set (y := sg sy (to_Z y0)) in *. set (e := to_Z e0) in *. set (g := to_Z g0) in *.
      apply Z.leb_le in HF1. apply IZR_le in HF1. rewrite !plus_IZR, abs_IZR, minus_IZR in HF1.
      pose proof one_pos as Q. set (s := rsum _ _) in *. set (W := IZR one) in *.
      apply (Rmult_le_reg_r W); auto. replace (IZR eps / W * W)%R with (IZR eps) by (field; lra).
      rewrite <- (Rabs_right W) at 1 by lra. rewrite <- Rabs_mult.
      replace ((s - yy) * W)%R with ((IZR x - IZR y) - (IZR x - s * W) + (IZR y - yy * W))%R by ring.
      eapply Rle_trans; [apply Rabs_triang|].
      assert (Rabs (IZR x - IZR y - (IZR x - s * W)) <= Rabs (IZR x - IZR y) + Rabs (IZR x - s * W))%R.
      { eapply Rle_trans; [apply Rabs_triang|]. rewrite Rabs_Ropp. lra. }
      lra.
    - cbn [nth]. apply (IH _ _ Hc'); auto; cbn in *; lia. }
  intros i Hi. apply (G _ _ _ (force_lists H4) _ _ (force_list H7) i); auto; congruence.
Qed.
Lemma nearly_weaken T b p eps eps' : nearly_order T b p eps -> (eps <= eps')%R -> nearly_order T b p eps'.
Proof. intros H L t Ht. eapply Rle_trans; [apply H; auto|exact L]. Qed.

Lemma lit_ok mind z : holdn (nlit Bops z) (nlit (Rops mind) z).
Proof. unfold holdn. cbn [nlit Bops Rops force]. replace (IZR z) with (IZR z / IZR 1)%R by (cbn; field). now apply bquo_ok. Qed.
Lemma quo_ok mind n d : (0 < d)%Z -> holdn (q Bops n d) (q (Rops mind) n d).
Proof. intros H. unfold holdn, q. cbn [ndiv nlit Bops Rops force]. now apply bquo_ok. Qed.
Lemma badd_ok mind a b x y : holdn a x -> holdn b y -> holdn (nadd Bops a b) (nadd (Rops mind) x y).
Proof.
  unfold holdn. intros Ha Hb. cbn [nadd Bops Rops]. unfold badd. cbn [force].
  replace (x + y)%R with (rdot [1; 1] [x; y])%R by (cbn; ring).
  apply bdot_ok; repeat (apply Forall2_cons); try apply Forall2_nil; auto; apply (blit_ok 1).
Qed.
Lemma bsub_ok mind a b x y : holdn a x -> holdn b y -> holdn (nsub Bops a b) (nsub (Rops mind) x y).
Proof.
  intros Ha Hb. change (holdn (nadd Bops a (bopp b)) (nadd (Rops mind) x (- y))%R). apply badd_ok; auto.
  unfold holdn, bopp in *. destruct (force b) as [s m e]. cbn [force]. unfold holds in *. intros L. specialize (Hb L).
  replace (IZR (sg (negb s) (to_Z m)) - - y * IZR one)%R with (- (IZR (sg s (to_Z m)) - y * IZR one))%R.
  - now rewrite Rabs_Ropp.
  - destruct s; cbn [sg negb]; rewrite ?opp_IZR; ring.
Qed.
Lemma dec_ok mind n k : (0 <= k)%Z -> holdn (dec Bops n k) (dec (Rops mind) n k).
Proof. intros H. apply quo_ok. now apply Z.pow_pos_nonneg. Qed.
Lemma off_order T b t p eps : vertices t = p ->
  (eps < Rabs (rsum (bt_steps T) (fun i => nth i b 0 * weight T t i) - 1 / density t))%R -> ~ nearly_order T b p eps.
Proof. intros Hv H HN. specialize (HN t ltac:(lia)). lra. Qed.
Ltac hold_entry := match goal with
  | |- holdn (nlit _ _) _ => apply lit_ok
  | |- holdn (dec _ _ _) _ => apply dec_ok; apply Zle_bool_imp_le; reflexivity
  | |- holdn (q _ _ _) _ => apply quo_ok; reflexivity
  | |- holdn (nadd _ _ _) _ => apply badd_ok; hold_entry
  | |- holdn (nsub _ _ _) _ => apply bsub_ok; hold_entry
  end.
Ltac hold_entries := repeat (apply Forall2_cons; [hold_entry|]); apply Forall2_nil.
Ltac hold_table := split; [reflexivity|]; split; [reflexivity|]; split; [reflexivity|];
  split; [cbv [bt_a]; repeat (apply Forall2_cons; [hold_entries|]); apply Forall2_nil|];
  split; [cbv [bt_b1]; hold_entries|]; split; [cbv [bt_b2]; hold_entries|cbv [bt_c]; hold_entries].
