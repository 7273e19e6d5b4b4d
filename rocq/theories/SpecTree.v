(** Vocabulary for the statements about space trees; independent of how they are built and walked. *)
From Coq Require Import Reals List Arith Permutation.
From Verif Require Import ModelVertex ModelTree SpecPhys.
Import ListNotations.
Set Implicit Arguments.

(** all that is assumed about [std::nth_element]: it permutes its range *)
Definition permuting (split : nat -> nat -> list nat -> list nat) : Prop :=
  forall idx dim l, Permutation (split idx dim l) l.

Section Shape.
  Context {T : Type}.

  (** bodies below a node, left to right *)
  Fixpoint bodies (t : tree (T := T)) : list nat :=
    match t with Leaf _ b => [b] | Node _ l r => bodies l ++ bodies r end.

  (** [s] is [t] or one of its descendants *)
  Inductive subtree (s : tree (T := T)) : tree (T := T) -> Prop :=
  | sub_refl : subtree s s
  | sub_left : forall p l r, subtree s l -> subtree s (Node p l r)
  | sub_right : forall p l r, subtree s r -> subtree s (Node p l r).

  Definition inner (t : tree (T := T)) : Prop := exists p l r, t = Node p l r.
End Shape.

Local Open Scope R_scope.

(** sum of [f] over a list of bodies *)
Definition lsum (l : list nat) (f : nat -> R) : R := fold_right (fun b s => f b + s) 0 l.

(** position of body [b] among [n] *)
Definition pos (y : list R) (n b : nat) : vec3 R := V3 (comp y n 0 b) (comp y n 1 b) (comp y n 2 b).

Definition sqd (a b : vec3 R) : R :=
  (vx a - vx b) * (vx a - vx b) + (vy a - vy b) * (vy a - vy b) + (vz a - vz b) * (vz a - vz b).

(** the node [s] of a tree over [n] bodies summarises its bodies at the state [y]: total mass,
    centre of mass, tight bounding box, and a critical radius which is [ratio] times a radius [r]
    that encloses all its bodies and does not exceed the box diagonal *)
Definition summary (ratio : R) (n : nat) (y mass : list R) (s : tree (T := R)) : Prop :=
  let m := fun b => nth b mass 0 in
  let p := pay s in
  p_mass p = lsum (bodies s) m /\
  p_mass p * vx (p_center p) = lsum (bodies s) (fun b => m b * comp y n 0 b) /\
  p_mass p * vy (p_center p) = lsum (bodies s) (fun b => m b * comp y n 1 b) /\
  p_mass p * vz (p_center p) = lsum (bodies s) (fun b => m b * comp y n 2 b) /\
  (forall b, In b (bodies s) ->
     vx (p_bmin p) <= comp y n 0 b <= vx (p_bmax p) /\
     vy (p_bmin p) <= comp y n 1 b <= vy (p_bmax p) /\
     vz (p_bmin p) <= comp y n 2 b <= vz (p_bmax p)) /\
  (exists a b, In a (bodies s) /\ In b (bodies s) /\
     vx (p_bmin p) = comp y n 0 a /\ vx (p_bmax p) = comp y n 0 b) /\
  (exists a b, In a (bodies s) /\ In b (bodies s) /\
     vy (p_bmin p) = comp y n 1 a /\ vy (p_bmax p) = comp y n 1 b) /\
  (exists a b, In a (bodies s) /\ In b (bodies s) /\
     vz (p_bmin p) = comp y n 2 a /\ vz (p_bmax p) = comp y n 2 b) /\
  (exists r, 0 <= r /\ p_rad p = r * r * (ratio * ratio) /\
     r * r <= sqd (p_bmax p) (p_bmin p) /\
     forall b, In b (bodies s) -> sqd (pos y n b) (p_center p) <= r * r).
