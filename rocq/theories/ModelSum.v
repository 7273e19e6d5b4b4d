(** Compensated summation and the summed quantities:
    nbody/summation.h, nbody/summation_proxy.h. *)
From Coq Require Import ZArith List Arith.
From Verif Require Import Num Arr ModelVertex ModelForce.
Set Implicit Arguments.

Section Kahan.
  (** summation.h is a template over [WORK_TYPE] (scalars or [vertex3]); [add], [sub] and [zero]
      are its operations. *)
  Context {W : Type} (add sub : W -> W -> W) (zero : W).

  (** summation.h:7-14, [summation_k(a, b, correction)]; returns the new sum and the new
      correction *)
  Definition summation_step (a b correction : W) : W * W :=
    let corrected := sub b correction in
    let new_sum := add a corrected in
    (new_sum, sub (sub new_sum a) corrected).

  (** summation.h:20-34: range summation.  [container] is any indexable object, an index it does
      not support gives [None].  (For [begin > end] the loop body never runs but
      [container[begin]] is still read, as in the code.) *)
  Definition summation_range (container : nat -> option W) (bgn nd : nat) (correction : W)
    : option (W * W) :=
    if Nat.eqb bgn nd then Some (zero, correction)
    else
      let* s0 := container bgn in
      for_ (nd - S bgn) (S bgn)
        (fun i st => let* c := container i in Some (summation_step (fst st) c (snd st)))
        (s0, correction).

  (** summation.h:40-45 *)
  Definition summation (container : nat -> option W) (size : nat) : option W :=
    let* r := summation_range container 0 size zero in Some (fst r).
End Kahan.

Section Proxies.
  Context {T : Type} (N : NumOps T).

  (** summation_proxy.h:6-19 *)
  Definition impulce_proxy (vel : list (vec3 T)) (m : list T) (n : nat) : option (vec3 T) :=
    let* v := rd vel n in let* mm := rd m n in Some (vscale N v mm).
  (** summation_proxy.h:21-34 *)
  Definition mass_center_proxy (pos : list (vec3 T)) (m : list T) (n : nat) : option (vec3 T) :=
    let* v := rd pos n in let* mm := rd m n in Some (vscale N v mm).
  (** summation_proxy.h:36-51 *)
  Definition impulce_moment_proxy (pos vel : list (vec3 T)) (m : list T) (n : nat)
    : option (vec3 T) :=
    let* p := rd pos n in let* v := rd vel n in let* mm := rd m n in
    Some (vcross N p (vscale N v mm)).
  (** summation_proxy.h:53-66 *)
  Definition kinetic_energy_proxy (vel : list (vec3 T)) (m : list T) (n : nat) : option T :=
    let* v := rd vel n in let* mm := rd m n in Some (nmul N (vnorm N v) mm).
  (** summation_proxy.h:68-87; [count] is [data->get_count()].  Division by a zero [count] is
      undefined in C++ and [None] here. *)
  Definition potential_energy_proxy (count : nat) (vertites : list (vec3 T)) (m : list T) (n : nat)
    : option T :=
    if Nat.eqb count 0 then None
    else
      let n1 := n / count in
      let n2 := n mod count in
      if Nat.eqb n1 n2 then Some (nlit N 0)
      else potential_energy N vertites m n1 n2.
End Proxies.
