(** What it means for several rounds of device commands to leave a memory in a good state. *)
From Coq Require Import List.
From Verif Require Import ModelParallel SpecPar.
Import ListNotations.
Set Implicit Arguments.

Section S.
  Context {T : Type}.

  (** every schedule of the first round, then every schedule of the second one, and so on, runs
      without a race or an access out of bounds, comes to an end, and the last one leaves a
      memory that is [good] *)
  Fixpoint every_round (rounds : list (list (prog T))) (m : mem T) (good : mem T -> Prop) : Prop :=
    match rounds with
    | [] => good m
    | ps :: r => every_schedule ps m (fun m' => every_round r m' good)
    end.

  (** several devices, each with its own rounds and its own memory: nothing one device does is seen
      by another, so their order is irrelevant; [good] holds of the memories they leave *)
  Fixpoint every_device (devs : list (list (list (prog T)) * mem T)) (good : list (mem T) -> Prop) : Prop :=
    match devs with
    | [] => good []
    | (rounds, m) :: devs => every_round rounds m (fun m' => every_device devs (fun ms => good (m' :: ms)))
    end.

  (** [n] buffers of [size] cells each *)
  Definition buffers (m : mem T) (n size : nat) : Prop :=
    length m = n /\ Forall (fun b => length b = size) m.
End S.
