(** Over the reals the walks of the kernels give what the CPU engines compute from the same tree. *)
From Coq Require Import Reals List Arith Bool Lia Lra.
From Verif Require Import Num Arr ModelVertex ModelForce ModelTree ModelHeap ModelBH SpecTree LemTree LemBH ModelGpuBH
  LemGpuWalk LemGpuBHUpdate.
Import ListNotations.
Set Implicit Arguments.
Local Open Scope R_scope.

Section Real.
  Variable mind : R.
  Let U := Rops mind.

  Definition vplus (a b : vec3 R) : vec3 R := V3 (vx a + vx b) (vy a + vy b) (vz a + vz b).
  Lemma v3_eq (a b : vec3 R) : vx a = vx b -> vy a = vy b -> vz a = vz b -> a = b.
  Proof. destruct a, b; cbn; intros; subst; reflexivity. Qed.
  Lemma vplus_assoc a b c : vplus a (vplus b c) = vplus (vplus a b) c.
  Proof. apply v3_eq; cbn; ring. Qed.
  Lemma vplus_comm a b : vplus a b = vplus b a.
  Proof. apply v3_eq; cbn; ring. Qed.

  (** the acceleration by one node *)
  Definition pull (v : vec3 R) (p : payload (T := R)) : vec3 R :=
    let d := vsub U v (p_center p) in
    let r2 := vnorm U d in
    let r2 := if nltb U r2 mind then mind else r2 in
    let c := p_mass p / (sqrt r2 * r2) in
    V3 (- (vx d * c)) (- (vy d * c)) (- (vz d * c)).
  (** the acceleration by the accepted nodes *)
  Fixpoint pulls (v : vec3 R) (t : tree (T := R)) : vec3 R :=
    if bh_accept U v (pay t) then pull v (pay t)
    else match t with
         | Leaf _ _ => V3 0 0 0
         | Node _ l r => vplus (pulls v l) (pulls v r)
         end.

  Lemma gvisit_R v p res : gvisit U v p res =
    if bh_accept U v p then (vplus res (pull v p), true) else (res, false).
  Proof.
    unfold gvisit, bh_accept. destruct (nltb U (p_rad p) _); auto.
  Qed.
  Lemma vplus_0 a : vplus a (V3 0 0 0) = a.
  Proof. apply v3_eq; cbn; ring. Qed.

  Lemma walk_R v t : forall res, walk (gvisit U v) t res = vplus res (pulls v t).
  Proof.
    induction t as [p b|p l IHl r IHr]; intros res; cbn [walk pulls pay]; rewrite gvisit_R;
      destruct (bh_accept U v p); auto.
    - now rewrite vplus_0.
    - now rewrite IHr, IHl, vplus_assoc.
  Qed.
  Lemma rwalk_R v t : forall res, rwalk (gvisit U v) t res = vplus res (pulls v t).
  Proof.
    induction t as [p b|p l IHl r IHr]; intros res; cbn [rwalk pulls pay]; rewrite gvisit_R;
      destruct (bh_accept U v p); auto.
    - now rewrite vplus_0.
    - now rewrite IHr, IHl, <- vplus_assoc, (vplus_comm (pulls v r)).
  Qed.

  Definition vmul (m : R) (a : vec3 R) : vec3 R := V3 (m * vx a) (m * vy a) (m * vz a).
  Lemma force_R v p m1 : force U v (p_center p) m1 (p_mass p) = vmul m1 (pull v p).
  Proof.
    unfold force, pull, vmul, vscale. cbv zeta. change (nmind U) with mind.
    set (r2 := if nltb U (vnorm U (vsub U v (p_center p))) mind then mind else vnorm U (vsub U v (p_center p))).
    cbn [vx vy vz nmul ndiv nopp nsqrt nlit U Rops gravity_const]. change (gravity_const U) with 1. unfold Rdiv.
    rewrite (Rmult_comm (sqrt r2) r2).
    apply v3_eq; cbn [vx vy vz]; ring.
  Qed.
  Lemma cpu_walk_R v m1 t : forall res, walk (bh_visit U v m1) t res = vplus res (vmul m1 (pulls v t)).
  Proof.
    assert (Z : forall a, vplus a (vmul m1 (V3 0 0 0)) = a) by (intros; apply v3_eq; cbn; ring).
    assert (A : forall a b, vmul m1 (vplus a b) = vplus (vmul m1 a) (vmul m1 b)) by (intros; apply v3_eq; cbn; ring).
    induction t as [p b|p l IHl r IHr]; intros res; cbn [walk pulls pay]; unfold bh_visit at 1;
      destruct (bh_accept U v p); try (now rewrite force_R).
    - now rewrite Z.
    - now rewrite IHr, IHl, A, vplus_assoc.
  Qed.

  Lemma walk_result_R w v m1 t : m1 <> 0 -> walk_result U v w t = vdivs U (bh_force U t v m1) m1.
  Proof.
    intros Hm. assert (E : walk_result U v w t = pulls v t).
    { destruct w; cbn [walk_result]; rewrite ?walk_R, ?rwalk_R; apply v3_eq; cbn; ring. }
    rewrite E. unfold bh_force. rewrite cpu_walk_R.
    apply v3_eq; cbn; field; auto.
  Qed.

  (** the tree kernels *)
  Lemma gmerge_R rs l r : gmerge U rs l r = merge U rs l r.
  Proof.
    unfold gmerge, merge.
    assert (E1 : gpu_distance U (vmin U (p_bmin l) (p_bmin r)) (vmax U (p_bmax l) (p_bmax r)) =
      vlength U (vsub U (vmax U (p_bmax l) (p_bmax r)) (vmin U (p_bmin l) (p_bmin r)))).
    { set (a := vmin U _ _). set (b := vmax U _ _). unfold gpu_distance, vlength, vdot.
      cbn [nsqrt nadd nsub nmul U Rops vsub vx vy vz]. f_equal. ring. }
    cbv zeta. rewrite E1. clear E1. set (a := vmin U _ _). set (b := vmax U _ _).
    set (c := V3 _ _ _).
    assert (Ec : vdivs U (vadd U (vscale U (p_center l) (p_mass l)) (vscale U (p_center r) (p_mass r)))
      (nadd U (p_mass l) (p_mass r)) = c) by reflexivity.
    rewrite Ec. set (d := V3 (ndiv U (nadd U (vx a) (vx b)) (nlit U 2)) _ _).
    assert (Ed : vdivs U (vadd U b a) (nlit U 2) = d).
    { unfold d, vdivs, vadd. apply v3_eq; cbn [vx vy vz ndiv nadd U Rops]; f_equal; ring. }
    rewrite Ed.
    assert (E2 : gpu_distance U d c = vlength U (vsub U d c)) by reflexivity.
    rewrite E2. f_equal.
    cbn [nmul nadd ndiv nlit U Rops]. unfold Rdiv. rewrite Rmult_1_l. reflexivity.
  Qed.
End Real.
