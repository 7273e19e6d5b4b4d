(** The relation of [LemSym] for a linear map of the state vectors, over the reals. *)
From Coq Require Import Bool ZArith Reals List Arith Lia Lra Permutation.
From Verif Require Import Num Arr ArrLemmas ModelEngine ModelSolverBase ModelButcher ModelExtrap ModelSolver SpecPhys SpecEngine SpecSolver
  SpecSym RLemmas LemBuffers LemBufProp LemBufR LemErase LemSym LemSymRel.
Import ListNotations.
Set Implicit Arguments.
Local Open Scope R_scope.

Section Lin.
  Variables (mind : R) (ps : nat) (L : list R -> list R).
  Notation N := (Rops mind).
  Hypothesis Hps : (0 < ps)%nat.
  Hypothesis Llen : forall u, length u = ps -> length (L u) = ps.
  Hypothesis Llin : forall a u b v r, length u = ps -> length v = ps -> length r = ps ->
    (forall q, (q < ps)%nat -> nth q r 0 = a * nth q u 0 + b * nth q v 0) ->
    forall q, (q < ps)%nat -> nth q (L r) 0 = a * nth q (L u) 0 + b * nth q (L v) 0.
  Definition lW (u v : list R) : Prop := length u = ps /\ v = L u.

  Lemma ext (u v : list R) : length u = ps -> length v = ps -> (forall q, (q < ps)%nat -> nth q u 0 = nth q v 0) -> u = v.
  Proof. intros A B H. apply nth_ext with 0 0; [congruence|]. intros q Hq. apply H. lia. Qed.

  Lemma lW_comb a u u' b v v' r r' : lW u u' -> lW v v' -> length r = ps -> length r' = ps ->
    (forall q, (q < ps)%nat -> nth q r 0 = a * nth q u 0 + b * nth q v 0) ->
    (forall q, (q < ps)%nat -> nth q r' 0 = a * nth q u' 0 + b * nth q v' 0) -> lW r r'.
  Proof.
    intros [A ->] [B ->] C D H H'. split; auto. apply ext; auto. intros q Hq. rewrite H' by auto. symmetry. now apply Llin.
  Qed.
  Lemma lW_len u v : lW u v -> length u = ps /\ length v = ps.
  Proof. intros [A ->]. auto. Qed.

  (** a run of a solver commutes with the linear map if the forces do and time is shifted *)
  Theorem lin_all E1 E2 ef1 ef2 (P : E1 -> E2 -> Prop) (c : R) g1 g2 dts s e1 e2 r :
    (forall p q step t y f, P p q -> length y = ps -> length f = ps ->
      sim (ef1 p step t y f) (ef2 q step (t + c) (L y) (L f)) (fun a b => P (fst a) (fst b) /\ lW (snd a) (snd b))) ->
    (forall k, lW (g1 k) (g2 k)) -> (adaptive s -> iso (Rops mind) ps lW) -> fresh s ->
    lW (e_y e1) (e_y e2) -> e_time e2 = e_time e1 + c -> e_step e1 = e_step e2 -> P (e_priv e1) (e_priv e2) -> e_nbuf e1 = e_nbuf e2 ->
    advise_all N ps ef1 g1 dts s e1 = Some r ->
    exists r', advise_all N ps ef2 g2 dts s e2 = Some r' /\
      e_y (snd r') = L (e_y (snd r)) /\ e_time (snd r') = e_time (snd r) + c /\ e_step (snd r') = e_step (snd r) /\
      P (e_priv (snd r)) (e_priv (snd r')) /\ e_nbuf (snd r') = e_nbuf (snd r).
  Proof.
    intros Hef Hg Hi Hf Hy Ht Hs Hp Hn Er.
    destruct (@rel_all mind ps lW Hps lW_len) with (ef1 := ef1) (ef2 := ef2) (P := P) (c := c) (g1 := g1) (g2 := g2) (dts := dts) (s := s)
      (e1 := e1) (e2 := e2) (r := r) as (r' & A & [B1 B2] & C & D & F & G); auto.
    - assert (LR : length (repeat 0 ps) = ps) by apply repeat_length.
      split; [exact LR|]. apply ext; auto. intros q Hq. rewrite nth_repeat.
      rewrite (@Llin 0 (repeat 0 ps) 0 (repeat 0 ps) (repeat 0 ps)); auto; [ring|]. intros p Hp'. rewrite nth_repeat. ring.
    - exact lW_comb.
    - intros p q step t y y' f f' Hpq [A ->] [B ->]. auto.
    - exists r'. auto 10.
  Qed.
End Lin.
