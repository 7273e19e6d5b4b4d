(** The errors shown by the player: C89. *)
From Coq Require Import ZArith Reals List Arith Lia Lra SpecFloat.
From Verif Require Import Num Arr ModelVertex ModelForce ModelSum ModelStat ModelOverlay SpecOverlay.
Import ListNotations.
Set Implicit Arguments.

(** ** C89 *)

(** The three errors are the changes since the first report in per cent of the first values, if those are not zero. *)
Theorem C89_per_cent : forall mind (st : @stat R),
  let init := st_init st in let last := st_last st in
  (norm3 (rep_P init) <> 0 -> per_cent (impulce_err (Rops mind) st) (norm3 (diff3 (rep_P last) (rep_P init))) (norm3 (rep_P init)))%R /\
  (norm3 (rep_L init) <> 0 -> per_cent (impulce_moment_err (Rops mind) st) (norm3 (diff3 (rep_L last) (rep_L init))) (norm3 (rep_L init)))%R /\
  (rep_K init + rep_U init <> 0 ->
     per_cent (energy_err (Rops mind) st) (Rabs (rep_K last + rep_U last - (rep_K init + rep_U init))) (Rabs (rep_K init + rep_U init)))%R.
Proof.
  intros mind st init last.
  assert (V : forall v, vlength (Rops mind) v = norm3 v) by (intros v; reflexivity).
  assert (D : forall v w, vsub (Rops mind) v w = diff3 v w) by (intros v w; reflexivity).
  assert (P : forall v, (0 <= norm3 v)%R) by (intros v; apply sqrt_pos).
  assert (Q : forall a b, (b <> 0 -> 0 <= a -> 0 <= b -> per_cent (Rabs (100 * a / b)) a b)%R).
  { intros a b Hb Ha Hb0. unfold per_cent. rewrite Rabs_right; [field; auto|]. apply Rle_ge. unfold Rdiv.
    apply Rmult_le_pos; [lra|]. left. apply Rinv_0_lt_compat. lra. }
  split; [|split]; intros H.
  - unfold impulce_err. rewrite !V, !D. cbn [Rops nabs ndiv nmul nlit]. now apply Q.
  - unfold impulce_moment_err. rewrite !V, !D. cbn [Rops nabs ndiv nmul nlit]. now apply Q.
  - unfold energy_err, energy, per_cent. cbn [Rops nabs ndiv nmul nlit nsub nadd]. fold init last. unfold Rdiv.
    rewrite !Rabs_mult, Rabs_inv, (Rabs_right 100) by lra. field. now apply Rabs_no_R0.
Qed.
Print Assumptions C89_per_cent.

(** In any arithmetic: the errors appear together or not at all, and the impulse error only if it is finite. *)
Theorem C89_together : forall (T : Type) (N : NumOps T) finite (st : @stat T),
  (overlay N finite st = [] /\ finite (impulce_err N st) = false) \/
  (overlay N finite st = [(LabelP, impulce_err N st); (LabelL, impulce_moment_err N st); (LabelE, energy_err N st)] /\
   finite (impulce_err N st) = true).
Proof. intros T N finite st. unfold overlay. destruct (finite (impulce_err N st)); [right|left]; auto. Qed.
Print Assumptions C89_together.

Lemma div_zero x : F_finite (SFabs (SFdiv F_prec F_emax x (S754_zero false))) = false.
Proof. destruct x as [s|s| |s m e]; reflexivity. Qed.

(** If the impulse is not among the checked quantities, nothing is ever shown: whatever the frames, and although the other errors
    may be perfectly good numbers. *)
Theorem C89_without_P : forall chk n (st : @stat spec_float), chk_P chk = false -> reported Fops chk n st -> overlay Fops F_finite st = [].
Proof.
  intros chk n st Hc H.
  assert (Z : rep_P (st_init st) = vzero Fops).
  { induction H as [|n st count vrt vel mass st' H IH E]; [reflexivity|].
    unfold print_statistics in E. destruct (totals Fops chk count vrt vel mass) as [r|] eqn:Er; [|discriminate]. cbn [obind] in E.
    injection E as <-. cbn [st_init]. destruct (st_done st); [exact IH|].
    unfold totals in Er. rewrite Hc in Er. cbn [obind] in Er.
    destruct (if chk_L chk then _ else _) as [l|]; [|discriminate]. cbn [obind] in Er.
    destruct (if chk_E chk then _ else _) as [e|]; [|discriminate]. cbn [obind] in Er.
    destruct (if chk_V chk then _ else _) as [v|]; [|discriminate]. cbn [obind] in Er.
    injection Er as <-. reflexivity. }
  destruct (C89_together Fops F_finite st) as [[A _]|[_ A]]; [exact A|]. exfalso.
  unfold impulce_err in A. rewrite Z in A. change (vlength Fops (vzero Fops)) with (S754_zero false) in A.
  cbn [Fops nabs ndiv] in A. rewrite div_zero in A. discriminate.
Qed.
Print Assumptions C89_without_P.

(** If the energy is not among them - it is not in the default list - every picture with errors has an energy error, and it is not a
    number. *)
Theorem C89_without_E : forall chk n (st : @stat spec_float), chk_E chk = false -> reported Fops chk n st ->
  overlay Fops F_finite st = [] \/ In (LabelE, S754_nan) (overlay Fops F_finite st).
Proof.
  intros chk n st Hc H.
  assert (Z : rep_K (st_init st) = S754_zero false /\ rep_U (st_init st) = S754_zero false /\
              rep_K (st_last st) = S754_zero false /\ rep_U (st_last st) = S754_zero false).
  { induction H as [|n st count vrt vel mass st' H IH E]; [repeat split|].
    unfold print_statistics in E. destruct (totals Fops chk count vrt vel mass) as [r|] eqn:Er; [|discriminate]. cbn [obind] in E.
    injection E as <-. cbn [st_init st_last rep_K rep_U]. rewrite Hc. destruct IH as (A & B & C & D).
    assert (R : rep_K r = S754_zero false /\ rep_U r = S754_zero false).
    { unfold totals in Er. rewrite Hc in Er.
      destruct (if chk_P chk then _ else _) as [p|]; [|discriminate]. cbn [obind] in Er.
      destruct (if chk_L chk then _ else _) as [l|]; [|discriminate]. cbn [obind] in Er.
      destruct (if chk_V chk then _ else _) as [v|]; [|discriminate]. cbn [obind] in Er.
      injection Er as <-. split; reflexivity. }
    destruct (st_done st); tauto. }
  destruct (C89_together Fops F_finite st) as [[A _]|[A _]]; [now left|]. right. rewrite A. right. right. left. f_equal.
  unfold energy_err, energy. destruct Z as (-> & -> & -> & ->). reflexivity.
Qed.
Print Assumptions C89_without_E.

(** With everything checked: two bodies that fly apart with opposite velocities.  The impulse is zero, its
    relative error is not a number, and for that the angular momentum and energy errors are withheld, which are exact zeros. *)
Definition all_checks : checks := Chk true true true true.
Definition f1 : spec_float := F_of_Z 1.
Definition f0 : spec_float := F_of_Z 0.
Definition f2 : spec_float := F_of_Z 2.
Definition fm : spec_float := F_of_Z (-2).
Theorem C89_shown_refuted : exists count vrt vel mass st,
  print_statistics Fops all_checks count vrt vel mass (stat_new Fops) = Some st /\
  F_finite (impulce_moment_err Fops st) = true /\ F_finite (energy_err Fops st) = true /\ overlay Fops F_finite st = [].
Proof.
  exists 2%nat, [V3 f0 f0 f0; V3 f1 f0 f0], [V3 f0 f2 f0; V3 f0 fm f0], [f1; f1]. eexists.
  split; [vm_compute; reflexivity|]. split; [vm_compute; reflexivity|]. split; vm_compute; reflexivity.
Qed.
Print Assumptions C89_shown_refuted.

(** One moving body, default check list: all three errors are shown, and the energy error is not a number. *)
Theorem C89_finite_refuted : exists count vrt vel mass st,
  print_statistics Fops (Chk true true false true) count vrt vel mass (stat_new Fops) = Some st /\
  overlay Fops F_finite st = [(LabelP, S754_zero false); (LabelL, S754_zero false); (LabelE, S754_nan)].
Proof.
  exists 1%nat, [V3 f0 f1 f0], [V3 f1 f0 f0], [f1]. eexists. split; [vm_compute; reflexivity|]. vm_compute. reflexivity.
Qed.
Print Assumptions C89_finite_refuted.
