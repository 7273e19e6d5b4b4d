(** Convergence of the solvers under an engine with private state whose answers are close to the
    right-hand side. *)
From Coq Require Import ZArith Reals List Arith Lia Lra.
From Verif Require Import Num Arr ArrLemmas SpecPhys SpecEngine RLemmas ModelSolverBase ModelButcher ModelExtrap
  ModelSolver LemOk LemBufR SpecSolver SpecImplicit SpecConv LemConv LemConvAll LemErase.
Import ListNotations.
Set Implicit Arguments.
Local Open Scope R_scope.

Record answers (ps : nat) (F0 : R -> list R -> list R) := mkAnswers {
  an_F : R -> list R -> list R; an_g : nat -> list R; an_eps : R;
  an_len : forall t y, V ps y -> V ps (an_F t y);
  an_garb : forall k, V ps (an_g k);
  an_pos : 0 <= an_eps;
  an_near : forall t y, V ps y -> near ps (an_F t y) (F0 t y) an_eps }.

Lemma stateful_run mind ps F0 L t0 T Y s :
  (0 < ps)%nat -> smooth_rhs ps F0 L -> 0 <= T -> exact_on ps F0 t0 T Y -> fresh s -> convergent s ->
  exists C h0, 0 <= C /\ 0 < h0 /\
    forall (E : Type) (ef : E -> nat -> R -> list R -> list R -> option (E * list R)) (Inv : E -> Prop) garbage F eps,
    (forall k, V ps (garbage k)) ->
    (forall q step t y f, Inv q -> V ps y -> V ps f -> exists q', ef q step t y f = Some (q', F t y) /\ Inv q') ->
    0 <= eps -> (forall t y, V ps y -> V ps (F t y) /\ near ps (F t y) (F0 t y) eps) ->
    forall (e : @eng R E) dts h d, Inv (e_priv e) -> e_time e = t0 -> V ps (e_y e) -> 0 <= d -> near ps (e_y e) (Y t0) d ->
      0 <= h <= h0 -> Forall (fun dt => 0 < dt <= h) dts -> total dts <= T ->
      exists r, advise_all (Rops mind) ps ef garbage dts s e = Some r /\
        near ps (e_y (snd r)) (Y (t0 + total dts)) (C * (d + h + defect s + eps)).
Proof.
  intros Hps HS HT HY Hf Hc.
  set (ef0 := fun (z : answers ps F0) (u : unit) (step : nat) (t : R) (y f : list R) =>
    if ((length y =? ps) && (length f =? ps))%nat%bool then Some (u, an_F z t y) else None).
  destruct (@perturbed_run unit mind ps (answers ps F0) ef0 (fun z => an_g z) (fun z => an_F z) (fun z => an_eps z) F0 L t0 T Y s)
    as (C & h0 & HC & Hh0 & H); auto.
  - intros z n. apply an_garb.
  - intros z t y. apply an_len.
  - intros z q step t y f Vy Vf. unfold ef0. unfold V in *. now rewrite Vy, Vf, Nat.eqb_refl.
  - intros z. apply an_pos.
  - intros z t u Vu. now apply an_near.
  - exists C, h0. split; auto. split; auto.
    intros E ef Inv garbage F eps Hg Hef He HF e dts h d Hi Ht Vy Hd Hn Hh Hds Htot.
    set (z := @mkAnswers ps F0 F garbage eps (fun t y X => proj1 (HF t y X)) Hg He (fun t y X => proj2 (HF t y X))).
    set (e0 := mkEng (e_y e) (e_time e) (e_step e) tt (e_nbuf e)).
    destruct (H z e0 dts h d Ht Vy Hd Hn Hh Hds Htot) as (r & Er & Hr).
    assert (S1 : sim (advise_all (Rops mind) ps (ef0 z) garbage dts s e0) (advise_all (Rops mind) ps ef garbage dts s e)
              (@Xe R unit E (fun _ q => Inv q) (@solver R))).
    { apply era_all.
      - intros p q step t y f Hq. unfold ef0.
        destruct (Nat.eqb_spec (length y) ps) as [L1|]; [|exact I]. destruct (Nat.eqb_spec (length f) ps) as [L2|]; [|exact I].
        destruct (Hef q step t y f Hq L1 L2) as (q' & -> & Hq'). cbn. auto.
      - unfold e0. destruct e. now constructor. }
    cbn [an_g z] in Er. change (an_g z) with garbage in Er. rewrite Er in S1.
    destruct (advise_all (Rops mind) ps ef garbage dts s e) as [r'|]; [|contradiction].
    exists r'. split; auto. destruct S1 as [_ S1]. rewrite <- (era_y S1). exact Hr.
Qed.
