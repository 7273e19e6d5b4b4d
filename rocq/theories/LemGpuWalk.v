(** The walks of the device kernels over a tree kept in device arrays. *)
From Coq Require Import ZArith NArith List Arith Bool Lia Permutation.
From Verif Require Import Num Arr ArrLemmas LemEngine ModelVertex ModelForce ModelEngine ModelTree ModelHeap SpecTree
  SpecHeap LemTree LemHeap ModelParallel SpecPar LemParallel SpecGpu LemGpu ModelGpuForce ModelGpuBH LemGpuTr.
Import ListNotations.
Set Implicit Arguments.

Section Walk.
  Context {T : Type} (U : NumOps T) (lay : layout).
  Notation tree := (tree (T := T)).
  Notation heap := (heap (T := T)).

  Definition mrd2 (m : mem T) (l : nat * nat) : option T := mrd m (fst l) (snd l).

  (** the cell of a node holds its centre, critical radius and mass *)
  Definition at5 (m : mem T) (idx : nat) (p : payload (T := T)) : Prop :=
    mrd2 m (at_x lay idx) = Some (vx (p_center p)) /\
    mrd2 m (at_y lay idx) = Some (vy (p_center p)) /\
    mrd2 m (at_z lay idx) = Some (vz (p_center p)) /\
    mrd2 m (at_r lay idx) = Some (p_rad p) /\
    mrd m tM idx = Some (p_mass p).

  Definition dheap (m : mem T) (h : heap) (size : nat) : Prop :=
    forall i, 1 <= i < size -> exists c, rd h i = Some c /\ at5 m i (c_pay c).

  (** what a thread does with one node *)
  Definition gvisit (v1 : vec3 T) (p : payload (T := T)) (res : vec3 T) : vec3 T * bool :=
    let d := vsub U v1 (p_center p) in
    let r2 := vnorm U d in
    if nltb U (p_rad p) r2 then
      let r2 := if nltb U r2 (nmind U) then nmind U else r2 in
      let coeff := ndiv U (p_mass p) (nmul U (nsqrt U r2) r2) in
      (vsub U res (vscale U d coeff), true)
    else (res, false).

  Lemma tr_node m idx p v1 res yes no : at5 m idx p ->
    tr m (bh_node U lay v1 idx res yes no) =
    let (res', acc) := gvisit v1 p res in if acc : bool then tr m (yes res') else tr m no.
  Proof.
    intros (X & Y & Z & R & M). unfold mrd2 in *. unfold bh_node, ld.
    rewrite (tr_rd _ _ _ _ X), (tr_rd _ _ _ _ Y), (tr_rd _ _ _ _ Z), (tr_rd _ _ _ _ R).
    unfold gvisit, vnorm, vsub. cbn [vx vy vz].
    match goal with |- context [nltb U ?a ?b] => destruct (nltb U a b) end; auto.
    rewrite (tr_rd _ _ _ _ M). reflexivity.
  Qed.

  (** right before left: what the stack gives *)
  Fixpoint rwalk {A} (visit : payload (T := T) -> A -> A * bool) (t : tree) (st : A) : A :=
    let (st, acc) := visit (pay t) st in
    if acc then st
    else match t with
         | Leaf _ _ => st
         | Node _ l r => rwalk visit l (rwalk visit r st)
         end.

  Variables (m : mem T) (h : heap) (size : nat) (v1 : vec3 T).
  Hypothesis HD : dheap m h size.

  Lemma repr_at5 idx t d : inheap size d idx -> repr h idx t -> at5 m idx (pay t).
  Proof.
    intros Hin Hr. destruct (HD (i := idx)) as (c & Ec & A); [split; [apply Hin|now apply inheap_lt in Hin]|].
    rewrite (repr_pay _ _ _ Hr) in Ec. injection Ec as <-. exact A.
  Qed.

  Lemma gvisit_false p res res' : gvisit v1 p res = (res', false) -> res' = res.
  Proof. unfold gvisit. destruct (nltb U _ _); congruence. Qed.

  Lemma walk_stack_ok t : forall d idx stack res,
    perfect d t -> repr h idx t -> inheap size d idx -> length stack + d <= 63 ->
    exists k, k < 2 * 2 ^ d /\
      forall fuel K, tr m (walk_stack U lay v1 size (k + fuel) (idx :: stack) res K) =
                     tr m (walk_stack U lay v1 size fuel stack (rwalk (gvisit v1) t res) K).
  Proof.
    induction t as [p b|p l IHl r IHr]; intros [|d] idx stack res Hp Hr Hin Hs; try contradiction.
    - exists 1. split; [cbn; lia|]. intros fuel K. cbn [walk_stack Nat.add].
      assert (A := repr_at5 _ Hin Hr).
      rewrite (tr_node v1 res _ _ A). cbn [rwalk pay] in *. destruct (gvisit v1 p res) as [res' [|]] eqn:E; auto.
      unfold push_if, left_idx, rght_idx. apply inheap_leaf in Hin.
      assert ((2 * idx <? size) = false) as -> by (apply Nat.ltb_ge; lia).
      assert ((2 * idx + 1 <? size) = false) as -> by (apply Nat.ltb_ge; lia).
      now rewrite (gvisit_false _ _ E).
    - destruct Hp as [P1 P2]. assert (A := repr_at5 _ Hin Hr). destruct Hr as (E0 & R1 & R2). cbn [pay] in A.
      destruct (gvisit v1 p res) as [res' [|]] eqn:E.
      + exists 1. split; [pose proof (pow2_ge1 (S d)); lia|]. intros fuel K. cbn [walk_stack Nat.add].
        rewrite (tr_node v1 res _ _ A). cbn [rwalk pay]. now rewrite E.
      + assert (res' = res) by now apply gvisit_false in E. subst res'.
        destruct (IHr d (2 * idx + 1) (2 * idx :: stack) res P2 R2 (inheap_right Hin)) as (k1 & H1 & E1); [cbn [length]; lia|].
        destruct (IHl d (2 * idx) stack (rwalk (gvisit v1) r res) P1 R1 (inheap_left Hin)) as (k2 & H2 & E2); [lia|].
        exists (1 + (k1 + k2)). split; [rewrite Nat.pow_succ_r'; lia|]. intros fuel K.
        replace (1 + (k1 + k2) + fuel) with (1 + (k1 + (k2 + fuel))) by lia. cbn [Nat.add walk_stack].
        rewrite (tr_node v1 res _ _ A). cbn [rwalk pay]. rewrite E.
        unfold push_if, left_idx, rght_idx, push, MAX_STACK_SIZE. apply inheap_inner in Hin.
        assert ((2 * idx <? size) = true) as -> by (apply Nat.ltb_lt; lia).
        assert ((2 * idx + 1 <? size) = true) as -> by (apply Nat.ltb_lt; lia).
        assert ((length stack <? 64) = true) as -> by (apply Nat.ltb_lt; lia).
        assert ((length (2 * idx :: stack) <? 64) = true) as -> by (apply Nat.ltb_lt; cbn [length]; lia).
        rewrite E1, E2. reflexivity.
  Qed.

  (** what the do-while loop does after computing the next index *)
  Definition after (nd : nat -> option nat) (fuel : nat) (next : option nat) (res : vec3 T)
    (K : vec3 T -> prog T) : prog T :=
    match next with
    | None => stuck
    | Some next => if Nat.eqb next ROOT then K res else walk_stackless U lay nd v1 size fuel next res K
    end.

  Lemma walk_stackless_ok nd : next_spec nd size -> forall t d idx res,
    perfect d t -> repr h idx t -> inheap size d idx ->
    exists k, k < 2 * 2 ^ d /\
      forall fuel K, tr m (walk_stackless U lay nd v1 size (k + fuel) idx res K) =
                     tr m (after nd fuel (nd idx) (walk (gvisit v1) t res) K).
  Proof.
    intros (N1 & N2 & N3).
    induction t as [p b|p l IHl r IHr]; intros [|d] idx res Hp Hr Hin; try contradiction.
    - exists 1. split; [cbn; lia|]. intros fuel K. cbn [walk_stackless Nat.add].
      assert (A := repr_at5 _ Hin Hr).
      rewrite (tr_node v1 res _ _ A). cbn [walk pay] in *. destruct (gvisit v1 p res) as [res' [|]] eqn:E; auto.
      unfold left_idx. apply inheap_leaf in Hin.
      assert ((2 * idx <? size) = false) as -> by (apply Nat.ltb_ge; lia).
      now rewrite (gvisit_false _ _ E).
    - destruct Hp as [P1 P2]. assert (A := repr_at5 _ Hin Hr). destruct Hr as (E0 & R1 & R2). cbn [pay] in A.
      destruct (gvisit v1 p res) as [res' [|]] eqn:E.
      + exists 1. split; [pose proof (pow2_ge1 (S d)); lia|]. intros fuel K. cbn [walk_stackless Nat.add].
        rewrite (tr_node v1 res _ _ A). cbn [walk pay]. now rewrite E.
      + assert (res' = res) by now apply gvisit_false in E. subst res'.
        destruct (IHl d (2 * idx) res P1 R1 (inheap_left Hin)) as (k1 & H1 & E1).
        destruct (IHr d (2 * idx + 1) (walk (gvisit v1) l res) P2 R2 (inheap_right Hin)) as (k2 & H2 & E2).
        exists (1 + (k1 + k2)). split; [rewrite Nat.pow_succ_r'; lia|]. intros fuel K.
        replace (1 + (k1 + k2) + fuel) with (1 + (k1 + (k2 + fuel))) by lia. cbn [Nat.add walk_stackless].
        rewrite (tr_node v1 res _ _ A). cbn [walk pay]. rewrite E.
        assert (1 <= idx) as Hi by apply Hin. apply inheap_inner in Hin. unfold left_idx.
        assert ((2 * idx <? size) = true) as -> by (apply Nat.ltb_lt; lia).
        unfold ROOT at 1. assert ((2 * idx =? 1) = false) as -> by (apply Nat.eqb_neq; lia).
        rewrite E1. unfold after at 1. rewrite N1 by lia.
        unfold ROOT at 1. assert ((2 * idx + 1 =? 1) = false) as -> by (apply Nat.eqb_neq; lia).
        rewrite E2, N2 by lia. reflexivity.
  Qed.

  (** the sum a thread ends up with, in the order of its walk *)
  Definition walk_result (w : walk_kind) (t : tree) : vec3 T :=
    match w with
    | WStack => rwalk (gvisit v1) t (vzero U)
    | WStackless _ => walk (gvisit v1) t (vzero U)
    end.
  Definition walk_fits (w : walk_kind) (k : nat) : Prop :=
    match w with WStack => k <= 63 | WStackless nd => next_spec nd (2 * 2 ^ k) end.

  Lemma bh_walk_ok w t k K : size = 2 * 2 ^ k -> walk_fits w k -> perfect k t -> repr h 1 t ->
    tr m (bh_walk U lay w v1 size K) = tr m (K (walk_result w t)).
  Proof.
    intros Es Hw Hp Hr. assert (Hin : inheap size k 1) by (rewrite Es; apply inheap_root).
    destruct w as [|nd]; cbn [bh_walk walk_result walk_fits] in *; unfold ROOT.
    - destruct (@walk_stack_ok t k 1 [] (vzero U) Hp Hr Hin) as (q & Hq & E); [cbn [length]; lia|].
      replace (walk_stack U lay v1 size size) with (walk_stack U lay v1 size (q + (size - q))) by (f_equal; lia).
      rewrite E. destruct (size - q); reflexivity.
    - rewrite <- Es in Hw. destruct (@walk_stackless_ok nd Hw t k 1 (vzero U) Hp Hr Hin) as (q & Hq & E).
      replace (walk_stackless U lay nd v1 size size) with (walk_stackless U lay nd v1 size (q + (size - q))) by (f_equal; lia).
      rewrite E. destruct Hw as (_ & _ & H1). rewrite H1 by (pose proof (pow2_ge1 k); lia). reflexivity.
  Qed.
End Walk.

(** ** Footprints *)
Section Fp.
  Context {T : Type} (U : NumOps T) (lay : layout) (R W : region).
  (** walks read anything but [f] *)
  Definition not_f : region := fun a _ => negb (a =? aF).
  Definition lay_not_f (lay : layout) : Prop := forall i,
    fst (at_x lay i) <> aF /\ fst (at_y lay i) <> aF /\ fst (at_z lay i) <> aF /\ fst (at_r lay i) <> aF.
  Lemma not_f_true a i : a <> aF -> not_f a i = true.
  Proof. intros H. unfold not_f. destruct (Nat.eqb_spec a aF); auto. Qed.
  Hypothesis HL : lay_not_f lay.

  Lemma fps_stuck : fps not_f W (stuck (T := T)).
  Proof. split; [reflexivity|]. intros v. exact I. Qed.
  Lemma fps_node v1 curr res (yes : vec3 T -> prog T) no :
    (forall r, fps not_f W (yes r)) -> fps not_f W no -> fps not_f W (bh_node U lay v1 curr res yes no).
  Proof.
    intros Hy Hn. destruct (HL curr) as (X & Y & Z & Rr). unfold bh_node, ld. cbn [fps].
    split; [now apply not_f_true|]. intros x. split; [now apply not_f_true|]. intros y. split; [now apply not_f_true|]. intros z.
    split; [now apply not_f_true|]. intros c. destruct (nltb U c _); auto. cbn [fps]. split; [reflexivity|]. auto.
  Qed.
  Lemma fps_walk_stack v1 size fuel : forall stack res K, (forall r, fps not_f W (K r)) ->
    fps not_f W (walk_stack U lay v1 size fuel stack res K).
  Proof.
    induction fuel as [|fuel IH]; intros [|c stack] res K HK; cbn [walk_stack]; auto using fps_stuck.
    apply fps_node; auto. destruct (push_if _ _ _) as [s1|]; [|apply fps_stuck].
    destruct (push_if _ _ _) as [s2|]; [auto|apply fps_stuck].
  Qed.
  Lemma fps_walk_stackless nd v1 size fuel : forall curr res K, (forall r, fps not_f W (K r)) ->
    fps not_f W (walk_stackless U lay nd v1 size fuel curr res K).
  Proof.
    induction fuel as [|fuel IH]; intros curr res K HK; cbn [walk_stackless]; [apply fps_stuck|].
    assert (G : forall next r, fps not_f W (match next with
          | None => stuck
          | Some next => if Nat.eqb next ROOT then K r else walk_stackless U lay nd v1 size fuel next r K
          end)).
    { intros [next|] r; [|apply fps_stuck]. destruct (next =? ROOT); auto. }
    apply fps_node; auto.
  Qed.
  Lemma fps_bh_walk w v1 size K : (forall r, fps not_f W (K r)) -> fps not_f W (bh_walk U lay w v1 size K).
  Proof. destruct w; cbn [bh_walk]; [apply fps_walk_stack|apply fps_walk_stackless]. Qed.
End Fp.

Lemma plain_not_f : lay_not_f plain.
Proof. intros i. cbn. repeat split; discriminate. Qed.
Lemma texture_not_f : lay_not_f texture.
Proof. intros i. cbn. repeat split; discriminate. Qed.
