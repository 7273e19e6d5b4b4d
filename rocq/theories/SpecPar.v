(** What "every schedule" means for a parallel loop. *)
From Coq Require Import List.
From Verif Require Import ModelParallel.
Set Implicit Arguments.

Section S.
  Context {T : Type}.

  (** no schedule runs forever *)
  Definition schedules_finite (c0 : list (prog T) * mem T) : Prop :=
    Acc (fun c' c => par_step c c') c0.

  (** [good] holds of the memory left by every schedule of the iterations [ps0] started in [m0]:
      every schedule is finite; at each point of it no iteration is about to access memory out of
      bounds and no two iterations are about to make conflicting accesses; when nothing can run
      any more all iterations are complete and the memory is [good]. *)
  Definition every_schedule (ps0 : list (prog T)) (m0 : mem T) (good : mem T -> Prop) : Prop :=
    schedules_finite (ps0, m0) /\
    forall ps m, par_run (ps0, m0) (ps, m) ->
      Forall (fun p => ~ crashed p m) ps /\
      (forall j k p q a i, j <> k -> nth_error ps j = Some p -> nth_error ps k = Some q ->
         writes p a i -> accesses q a i -> False) /\
      ((forall c, ~ par_step (ps, m) c) -> Forall (eq PRet) ps /\ good m).
End S.
