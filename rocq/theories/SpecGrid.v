(** A grid of thread blocks that run at the same time. *)
From Coq Require Import List.
From Verif Require Import ModelParallel.
Import ListNotations.
Set Implicit Arguments.

Section G.
  Context {T : Type}.

  (** a block: the rounds it still has to run (a barrier ends each of them), its shared memory and the registers of its threads *)
  Definition block : Type := list (list (prog T)) * mem T.

  (** One action of one thread of one block; the block sees the global arrays [g] followed by its own.  Or one block whose
      threads have all reached the barrier passes it. *)
  Inductive grid_step : list block * mem T -> list block * mem T -> Prop :=
  | grid_act bs1 ps ps' rest s s' bs2 g g' : length g' = length g -> par_step (ps, g ++ s) (ps', g' ++ s') ->
      grid_step (bs1 ++ (ps :: rest, s) :: bs2, g) (bs1 ++ (ps' :: rest, s') :: bs2, g')
  | grid_barrier bs1 ps rest s bs2 g : Forall (eq PRet) ps ->
      grid_step (bs1 ++ (ps :: rest, s) :: bs2, g) (bs1 ++ (rest, s) :: bs2, g).
  Inductive grid_run : list block * mem T -> list block * mem T -> Prop :=
  | grid_refl c : grid_run c c
  | grid_trans c1 c2 c3 : grid_step c1 c2 -> grid_run c2 c3 -> grid_run c1 c3.

  Definition current (b : block) : list (prog T) := match fst b with ps :: _ => ps | [] => [] end.

  (** [good] holds of the global arrays left by every way of running the blocks: every run is finite; at each point of it no
      thread is about to access memory out of bounds, and no two threads, of one block or of two, are about to make conflicting
      accesses (arrays of different blocks are different); when nothing can run any more, all blocks are complete. *)
  Definition every_grid (bs0 : list block) (g0 : mem T) (good : mem T -> Prop) : Prop :=
    Acc (fun c' c => grid_step c c') (bs0, g0) /\
    forall bs g, grid_run (bs0, g0) (bs, g) ->
      Forall (fun b => Forall (fun p => ~ crashed p (g ++ snd b)) (current b)) bs /\
      (forall x y b c j k p q a i, nth_error bs x = Some b -> nth_error bs y = Some c ->
         nth_error (current b) j = Some p -> nth_error (current c) k = Some q -> writes p a i -> accesses q a i ->
         (x = y /\ j = k) \/ (x <> y /\ length g <= a)) /\
      ((forall c, ~ grid_step (bs, g) c) -> Forall (fun b => fst b = []) bs /\ good g).
End G.
Arguments block : clear implicits.
