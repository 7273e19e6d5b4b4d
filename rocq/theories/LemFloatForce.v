(** Newton's third law in IEEE arithmetic: lemmas *)
From Coq Require Import ZArith SpecFloat Bool Lia.
From Verif Require Import Num ModelVertex ModelForce SpecFloatForce.

Lemma round_aux_opp : forall p e s m ex l, binary_round_aux p e (negb s) m ex l = SFopp (binary_round_aux p e s m ex l).
Proof.
  intros. unfold binary_round_aux. destruct (shr_fexp p e m ex l) as [mrs' e'].
  destruct (shr_fexp p e _ e' loc_Exact) as [mrs'' e''].
  destruct (shr_m mrs''); try reflexivity. destruct (Z.leb e'' (e - p)); reflexivity.
Qed.
Lemma round_opp : forall p e s m ex, binary_round p e (negb s) m ex = SFopp (binary_round p e s m ex).
Proof. intros. unfold binary_round. destruct (shl_align m ex _) as [mz ez]. apply round_aux_opp. Qed.
Lemma sub_opp : forall p e a b, opposite (SFsub p e a b) (SFsub p e b a).
Proof.
  intros p e [sa|sa| |sa ma ea] [sb|sb| |sb mb eb]; try (left; reflexivity); try (destruct sa, sb; (left; reflexivity) || (right; cbn; eauto); fail).
  cbn [SFsub]. rewrite (Z.min_comm eb ea). set (x := cond_Zopp sa _). set (y := cond_Zopp sb _).
  replace (y - x)%Z with (- (x - y))%Z by ring. destruct (x - y)%Z as [|q|q]; cbn [binary_normalize Z.opp].
  - right. eauto.
  - left. exact (round_opp p e false q _).
  - left. rewrite <- (round_opp p e true q). reflexivity.
Qed.
Lemma mul_comm : forall p e a b, SFmul p e a b = SFmul p e b a.
Proof.
  intros p e [sa|sa| |sa ma ea] [sb|sb| |sb mb eb]; try reflexivity; cbn; try (now rewrite xorb_comm).
  now rewrite xorb_comm, Pos.mul_comm, Z.add_comm.
Qed.
Lemma mul_opp_l : forall p e a b, SFmul p e (SFopp a) b = SFopp (SFmul p e a b).
Proof.
  intros p e [sa|sa| |sa ma ea] [sb|sb| |sb mb eb]; try reflexivity; cbn; rewrite ?negb_xorb_l; try reflexivity.
  rewrite <- negb_xorb_l. apply round_aux_opp.
Qed.
Lemma opp_opp : forall a, SFopp (SFopp a) = a.
Proof. intros [s|s| |s m e]; cbn; rewrite ?negb_involutive; reflexivity. Qed.
Lemma mul_opposite : forall p e a b c, opposite a b -> opposite (SFmul p e a c) (SFmul p e b c).
Proof.
  intros p e a b c [->|(s & t & -> & ->)].
  - left. apply mul_opp_l.
  - destruct c as [u|u| |u m ex]; cbn; [right; eauto|left; reflexivity|left; reflexivity|right; eauto].
Qed.
Lemma square_opposite : forall p e a b, opposite a b -> SFmul p e a a = SFmul p e b b.
Proof.
  intros p e a b [->|(s & t & -> & ->)].
  - now rewrite mul_opp_l, (mul_comm p e a (SFopp a)), mul_opp_l, opp_opp.
  - cbn. now destruct s, t.
Qed.

(** multiplication by -1 is exact *)
Lemma shift52 : forall m, iter_pos shr_1 52 {| shr_m := Zpos (4503599627370496 * m); shr_r := false; shr_s := false |} =
  {| shr_m := Zpos m; shr_r := false; shr_s := false |}.
Proof. intros m. reflexivity. Qed.
Lemma minus_one : forall x, valid_binary F_prec F_emax x = true -> SFmul F_prec F_emax (SFopp (F_of_Z 1)) x = SFopp x.
Proof.
  assert (E : SFopp (F_of_Z 1) = S754_finite true 4503599627370496 (-52)) by (vm_compute; reflexivity).
  rewrite E. intros [s|s| |s m ex] V; try (destruct s; reflexivity); [reflexivity|].
  cbn [valid_binary] in V. unfold bounded, canonical_mantissa in V. apply andb_prop in V. destruct V as [V1 V2].
  apply Zeq_bool_eq in V1. apply Z.leb_le in V2.
  cbn [SFmul SFopp]. unfold binary_round_aux.
  assert (D : Zdigits2 (Zpos (4503599627370496 * m)) = (52 + Zpos (digits2_pos m))%Z).
  { cbn [Pos.mul Zdigits2 digits2_pos]. rewrite !Pos2Z.inj_succ. lia. }
  unfold shr_fexp at 1. rewrite D.
  replace (52 + Zpos (digits2_pos m) + (-52 + ex))%Z with (Zpos (digits2_pos m) + ex)%Z by lia. rewrite V1.
  replace (ex - (-52 + ex))%Z with 52%Z by lia. cbn [shr shr_record_of_loc]. rewrite shift52.
  replace (-52 + ex + 52)%Z with ex by lia. cbn [loc_of_shr_record shr_m shr_r shr_s round_nearest_even].
  unfold shr_fexp. cbn [Zdigits2]. rewrite V1, Z.sub_diag. cbn [shr shr_record_of_loc shr_m].
  destruct (Z.leb_spec ex (F_emax - F_prec)); [|lia]. destruct s; reflexivity.
Qed.

Lemma third_law : forall v1 v2 m1 m2, valid_binary F_prec F_emax m1 = true -> valid_binary F_prec F_emax m2 = true ->
  opposite3 (force Fops v1 v2 m1 m2) (force Fops v2 v1 m2 m1).
Proof.
  intros v1 v2 m1 m2 H1 H2. unfold force. set (d := vsub Fops v1 v2). set (e := vsub Fops v2 v1).
  assert (A : opposite3 d e) by (split; [|split]; apply sub_opp). destruct A as (A1 & A2 & A3).
  assert (B : vnorm Fops d = vnorm Fops e).
  { unfold vnorm. cbn [nadd nmul Fops].
    now rewrite (square_opposite F_prec F_emax _ _ A1), (square_opposite F_prec F_emax _ _ A2), (square_opposite F_prec F_emax _ _ A3). }
  assert (C : nmul Fops (nmul Fops (nopp Fops (gravity_const Fops)) m1) m2 = nmul Fops (nmul Fops (nopp Fops (gravity_const Fops)) m2) m1).
  { unfold gravity_const. cbn [nmul nopp nlit Fops]. rewrite !minus_one by assumption. rewrite !mul_opp_l. f_equal. apply mul_comm. }
  rewrite B, C. set (c := ndiv Fops _ _). split; [|split]; cbn [vscale vx vy vz nmul Fops]; now apply mul_opposite.
Qed.
