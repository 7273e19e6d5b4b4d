(** Vocabulary for the statements about the Barnes-Hut engines on several devices. *)
From Coq Require Import ZArith List Arith Permutation.
From Verif Require Import Num Arr ModelTree ModelHeap ModelBH SpecTree SpecHeap ModelParallel SpecGpu ModelGpuOps ModelGpuBH.
Import ListNotations.
Set Implicit Arguments.

Section S.
  Context {T : Type}.

  (** one evaluation of the right-hand side: the state vector [gc_y], the copies of the two
      buffers on the devices, the number of the step and the choices of [std::nth_element] *)
  Record gcall : Type := GCall {
    gc_step : nat; gc_split : nat -> nat -> list nat -> list nat; gc_y : list T; gc_ys : mem T; gc_fs : mem T }.

  (** every device has the right values in its own segment of [y]; nothing is known about the rest,
      nor about [f] *)
  Definition good_gcall (D n : nat) (c : gcall) : Prop :=
    permuting (gc_split c) /\ length (gc_y c) = 6 * n /\
    buffers (gc_ys c) D (6 * n) /\ buffers (gc_fs c) D (6 * n) /\
    forall i, i < 6 * n -> mrd (gc_ys c) (i / (6 * n / D)) i = nth_error (gc_y c) i.

  (** the same evaluation on the CPU *)
  Definition cpu_call (c : gcall) : bcall (T := T) :=
    BCall (gc_step c) (gc_split c) (gc_y c) (nth 0 (gc_fs c) []).

  (** an engine that has not computed anything: no tree yet, and device arrays of unknown contents *)
  Definition new_engine (D n : nat) (s : bh_state (T := T)) : Prop :=
    s_heap s = [] /\ length (s_trees s) = D /\ Forall (fun tree => buffers (skipn 5 tree) 6 (2 * n)) (s_trees s).

  (** whatever the schedules, the evaluations come to an end one after another without a race or an
      access out of bounds, each leaves [out] in all copies of [f] and the state vector in all
      copies of [y] *)
  Fixpoint gpu_bh_run (U : NumOps T) (e : bh_engine) (D n block : nat) (mass : list T) (ratio : T) (rate : nat)
    (calls : list gcall) (outs : list (list T)) (s : bh_state (T := T)) : Prop :=
    match calls, outs with
    | [], [] => True
    | c :: calls, out :: outs =>
        bh_fcompute U e D n block mass ratio (gc_split c) rate (gc_step c) s (gc_ys c) (gc_fs c)
          (fun s ys fs => ys = repeat (gc_y c) D /\ fs = repeat out D /\
                          gpu_bh_run U e D n block mass ratio rate calls outs s)
    | _, _ => False
    end.
End S.
