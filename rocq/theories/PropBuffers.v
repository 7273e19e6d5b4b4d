(** C10-C16 and C53: engine buffers, maximum, clamp, allocation, compensated sums, report. *)
From Coq Require Import ZArith Reals List Arith Lia Lra SpecFloat Permutation.
From Verif Require Import Num Arr ArrLemmas SpecPhys SpecEngine SpecStat RLemmas ModelVertex
  ModelForce ModelSum ModelEngine ModelParallel ModelStat
  LemEngine LemBuffers LemMisc LemStat LemSpec LemBufProp.
Import ListNotations.
Local Open Scope R_scope.

(** ** C10: init then get_data, any arithmetic, whatever the buffers held before *)

Theorem C10_init_get_data :
  forall (T : Type) n (vrt vel : list (vec3 T)) (mass gm gy : list T) vrt0 vel0,
  length vrt = n -> length vel = n -> length mass = n -> length gm = n ->
  length gy = problem_size n -> length vrt0 = n -> length vel0 = n ->
  exists y, engine_init n vrt vel mass gm gy = Some (mass, y) /\
    length y = problem_size n /\
    (forall i r v, nth_error vrt i = Some r -> nth_error vel i = Some v ->
       stored n 0 i y r /\ stored n 3 i y v) /\
    engine_get_data n y vrt0 vel0 = Some (vrt, vel).
Proof. exact @init_get_data. Qed.
Print Assumptions C10_init_get_data.

Example C10_example :
  engine_init 2 [V3 1 2 3; V3 4 5 6]%Z [V3 7 8 9; V3 10 11 12]%Z [20; 30]%Z
    [0; 0]%Z (repeat 0%Z 12)
  = Some ([20; 30], [1; 4; 2; 5; 3; 6; 7; 10; 8; 11; 9; 12])%Z.
Proof. reflexivity. Qed.

(** ** C11: element-wise contracts *)

Theorem C11_copy : forall (T : Type) (N : NumOps T) n (a b : list T),
  (n <= length a)%nat -> (n <= length b)%nat ->
  exists a', copy_buffer n a b = Some a' /\ length a' = length a /\
    forall j, nth_error a' j = nth_error (if Nat.ltb j n then b else a) j.
Proof. exact @copy_elementwise. Qed.
Print Assumptions C11_copy.

Theorem C11_fill : forall (T : Type) (a : list T) v, fill_buffer a v = Some (repeat v (length a)).
Proof. exact @fill_elementwise. Qed.
Print Assumptions C11_fill.

Theorem C11_read_write : forall (T : Type) (N : NumOps T) (dst src : list T),
  length dst = length src -> read_buffer dst src = Some src /\ write_buffer dst src = Some src.
Proof. intros T N dst src H. split; [now apply (read_cells N)|now apply (write_cells N)]. Qed.
Print Assumptions C11_read_write.

Theorem C11_fmadd_inplace : forall (T : Type) (N : NumOps T) n (a b : list T) c d,
  (n <= length a)%nat -> (n <= length b)%nat ->
  exists a', fmadd_inplace N n a b c = Some a' /\
    elementwise n (fun j => nadd N (nth j a d) (nmul N (nth j b d) c)) a a'.
Proof. exact @fmadd_inplace_elementwise. Qed.
Print Assumptions C11_fmadd_inplace.

Theorem C11_fmadd : forall (T : Type) (N : NumOps T) n (a b c : list T) w d,
  (n <= length a)%nat -> (n <= length b)%nat -> (n <= length c)%nat ->
  exists a', fmadd N n a b c w = Some a' /\
    elementwise n (fun j => nadd N (nth j b d) (nmul N (nth j c d) w)) a a'.
Proof. exact @fmadd_elementwise. Qed.
Print Assumptions C11_fmadd.

Theorem C11_fmaddn_inplace : forall mind n a bs c m,
  (n <= length a)%nat -> (m <= length c)%nat -> (m <= length bs)%nat ->
  (forall k, (k < m)%nat -> (n <= length (nth k bs []))%nat) ->
  exists a', fmaddn_inplace (Rops mind) n a bs c m = Some a' /\
    elementwise n (fun j => nth j a 0 + weighted m c bs j) a a'.
Proof. exact fmaddn_inplace_R. Qed.
Print Assumptions C11_fmaddn_inplace.

(** a - corr is the value represented by the pair: the weighted sum is added to it exactly *)
Theorem C11_fmaddn_corr : forall mind n a corr bs c m,
  (n <= length a)%nat -> (n <= length corr)%nat -> (m <= length c)%nat -> (m <= length bs)%nat ->
  (forall k, (k < m)%nat -> (n <= length (nth k bs []))%nat) ->
  exists a' corr', fmaddn_corr (Rops mind) n a corr bs c m = Some (a', corr') /\
    length a' = length a /\ length corr' = length corr /\
    (forall j, (j < n)%nat ->
       nth j a' 0 - nth j corr' 0 = nth j a 0 - nth j corr 0 + weighted m c bs j /\
       (some_weight m c -> nth j corr' 0 = 0)) /\
    (~ some_weight m c -> a' = a /\ corr' = corr) /\
    (forall j, (n <= j)%nat -> nth_error a' j = nth_error a j /\ nth_error corr' j = nth_error corr j).
Proof. exact fmaddn_corr_R. Qed.
Print Assumptions C11_fmaddn_corr.

Example C11_example :
  fmaddn_inplace Zops 2 [1; 2; 9]%Z [[10; 20]; [5; 5]; [7; 8]]%Z [2; 0; 3]%Z 3
    = Some [42; 66; 9]%Z /\
  fmaddn_corr Zops 2 [1; 2; 9]%Z [1; 0; 4]%Z [[10; 20]; [5; 5]; [7; 8]]%Z [2; 0; 3]%Z 3
    = Some ([41; 66; 9], [0; 0; 4])%Z.
Proof. split; reflexivity. Qed.

(** ** C12: fmaddn *)

(** the documented result holds whenever some weight is not zero, or no base buffer is given *)
Theorem C12_fmaddn_with_base : forall mind n a b cs d m,
  (n <= length a)%nat -> (n <= length b)%nat -> (m <= length d)%nat -> (m <= length cs)%nat ->
  (forall k, (k < m)%nat -> (n <= length (nth k cs []))%nat) ->
  exists a', fmaddn (Rops mind) n a (Some b) cs d m = Some a' /\
    (some_weight m d -> elementwise n (fun j => nth j b 0 + weighted m d cs j) a a') /\
    (~ some_weight m d -> a' = a).
Proof. exact fmaddn_some_R. Qed.
Print Assumptions C12_fmaddn_with_base.

Theorem C12_fmaddn_without_base : forall mind n a cs d m,
  (n = length a)%nat -> (m <= length d)%nat -> (m <= length cs)%nat ->
  (forall k, (k < m)%nat -> (n <= length (nth k cs []))%nat) ->
  exists a', fmaddn (Rops mind) n a None cs d m = Some a' /\
    elementwise n (fun j => weighted m d cs j) a a'.
Proof. exact fmaddn_none_R. Qed.
Print Assumptions C12_fmaddn_without_base.

(** with a base buffer and only zero weights the result is not the base buffer *)
Theorem C12_fmaddn_zero_weights_refuted : exists mind n a b cs d m,
  (n <= length a)%nat /\ (n <= length b)%nat /\ (m <= length d)%nat /\ (m <= length cs)%nat /\
  (forall k, (k < m)%nat -> (n <= length (nth k cs []))%nat) /\
  forall a', fmaddn (Rops mind) n a (Some b) cs d m = Some a' ->
    ~ elementwise n (fun j => nth j b 0 + weighted m d cs j) a a'.
Proof.
  exists 1, 1%nat, [5], [7], [[3]], [0], 1%nat.
  assert (H : forall k, (k < 1)%nat -> (1 <= length (nth k [[3%R]] []))%nat).
  { intros [|k] Hk; [cbn; lia|lia]. }
  cbn [length]. do 4 (split; [lia|]). split; [exact H|].
  intros a' E [_ C].
  destruct (C12_fmaddn_with_base 1 1 [5] [7] [[3]] [0] 1) as (a2 & E2 & _ & A); cbn [length]; auto.
  rewrite E in E2. injection E2 as <-.
  rewrite A in C. 2:{ intros (k & Hk & Hn). destruct k; [cbn in Hn; lra|lia]. }
  specialize (C 0%nat). cbn in C. injection C. unfold weighted. cbn. lra.
Qed.
Print Assumptions C12_fmaddn_zero_weights_refuted.

Example C12_example : some_weight 2 [0; 3] /\
  fmaddn Zops 2 [0; 0]%Z (Some [1; 2]%Z) [[5; 5]; [10; 20]]%Z [0; 3]%Z 2 = Some [31; 62]%Z.
Proof. split; [exists 1%nat; split; [lia|cbn; lra]|reflexivity]. Qed.

(** ** C13: maximum absolute value *)

Theorem C13_fmaxabs : forall mind (a : list R), a <> [] ->
  exists m, fmaxabs (Rops mind) (length a) a = Some m /\
    (exists v, In v a /\ m = Rabs v) /\ forall v, In v a -> Rabs v <= m.
Proof. exact fmaxabs_R. Qed.
Print Assumptions C13_fmaxabs.

(** the parallel reduction: any division of the iterations into private parts, in any order *)
Theorem C13_reduction : forall mind (a : list R) lowest parts,
  a <> [] -> lowest <= 0 -> Permutation (concat parts) (seq 0 (length a)) ->
  omp_fmaxabs (Rops mind) a lowest parts = fmaxabs (Rops mind) (length a) a.
Proof. exact omp_fmaxabs_R. Qed.
Print Assumptions C13_reduction.

(** the same bit for bit in binary64, for buffers without NaN *)
Theorem C13_reduction_binary64 : forall (a : list spec_float) lowest parts,
  a <> [] -> Forall (fun v => v <> S754_nan) a ->
  (lowest = S754_infinity true \/ exists m e, lowest = S754_finite true m e) ->
  Permutation (concat parts) (seq 0 (length a)) ->
  omp_fmaxabs Fops a lowest parts = fmaxabs Fops (length a) a.
Proof. exact omp_fmaxabs_F. Qed.
Print Assumptions C13_reduction_binary64.

Example C13_example :
  Permutation (concat [[2; 0]; [1; 3]]%nat) (seq 0 4) /\
  omp_fmaxabs Zops [3; -9; 2; 5]%Z (-1)%Z [[2; 0]; [1; 3]]%nat = Some 9%Z.
Proof.
  split; [|reflexivity]. cbn.
  apply (perm_trans (l' := [0; 2; 1; 3]%nat)); [constructor|].
  do 2 constructor.
Qed.

(** ** C14: clamp *)

Theorem C14_clamp : forall mind n b y, 0 <= b -> length y = (6 * n)%nat ->
  exists y', engine_clamp (Rops mind) n b y = Some y' /\ length y' = length y /\
    (forall j, (j < 3 * n)%nat ->
       (exists k : Z, nth j y' 0 = nth j y 0 + IZR k * (2 * b)) /\
       (- b <= nth j y 0 <= b -> nth j y' 0 = nth j y 0) /\
       (- (3 * b) <= nth j y 0 <= 3 * b -> - b <= nth j y' 0 <= b)) /\
    (forall j, (3 * n <= j)%nat -> nth_error y' j = nth_error y j) /\
    ((forall j, (j < 3 * n)%nat -> - (3 * b) <= nth j y 0 <= 3 * b) ->
       engine_clamp (Rops mind) n b y' = Some y').
Proof. exact clamp_R. Qed.
Print Assumptions C14_clamp.

Example C14_example :
  engine_clamp Zops 1 10%Z [15; -12; 10; 100; -100; 7]%Z = Some [-5; 8; 10; 100; -100; 7]%Z.
Proof. reflexivity. Qed.

(** ** C15: allocation *)

Theorem C15_create_buffers : forall outcome base count live,
  (forall x, In x live -> (x < base)%nat) ->
  let r := create_buffers outcome base count live in
  ((forall j, (j < count)%nat -> outcome j = true) /\ length (fst r) = count /\ NoDup (fst r) /\
     (forall x, In x (fst r) -> ~ In x live) /\
     (forall x, In x (snd r) <-> In x live \/ In x (fst r)))
  \/ ((exists j, (j < count)%nat /\ outcome j = false) /\ fst r = [] /\
      forall x, In x (snd r) <-> In x live).
Proof. exact create_buffers_all_or_nothing. Qed.
Print Assumptions C15_create_buffers.

Example C15_example :
  create_buffers (fun n => Nat.ltb n 2) 10 3 [4; 5]%nat = ([], [4; 5]%nat) /\
  create_buffers (fun _ => true) 10 3 [4]%nat = ([10; 11; 12], [12; 11; 10; 4])%nat.
Proof. split; reflexivity. Qed.

(** ** C16: compensated summation *)

Theorem C16_summation_scalar : forall mind (g : nat -> option R) (c : nat -> R) n,
  (forall j, (j < n)%nat -> g j = Some (c j)) ->
  summation (nadd (Rops mind)) (nsub (Rops mind)) (nlit (Rops mind) 0) g n = Some (rsum n c).
Proof. exact summation_R. Qed.
Print Assumptions C16_summation_scalar.

Theorem C16_summation_vector : forall mind (g : nat -> option (vec3 R)) (c : nat -> vec3 R) n,
  (forall j, (j < n)%nat -> g j = Some (c j)) ->
  summation (vadd (Rops mind)) (vsub (Rops mind)) (vzero (Rops mind)) g n =
  Some (V3 (rsum n (fun i => vx (c i))) (rsum n (fun i => vy (c i))) (rsum n (fun i => vz (c i)))).
Proof. exact summation_V. Qed.
Print Assumptions C16_summation_vector.

(** any sub-range, any incoming correction *)
Theorem C16_summation_range : forall mind (c : nat -> R) b e corr, (b <= e)%nat ->
  exists s corr', summation_range (nadd (Rops mind)) (nsub (Rops mind)) (nlit (Rops mind) 0)
                    (fun i => Some (c i)) b e corr = Some (s, corr') /\
    ((b = e)%nat -> s = 0 /\ corr' = corr) /\
    ((b < e)%nat -> s - corr' = rsum (e - b) (fun k => c (b + k)%nat) - corr).
Proof. exact summation_range_R. Qed.
Print Assumptions C16_summation_range.

Example C16_example :
  summation Z.add Z.sub 0%Z (fun i => nth_error [3; -1; 7]%Z i) 3 = Some 9%Z.
Proof. reflexivity. Qed.

(** ** C53: the physics report *)

Theorem C53_totals : forall mind chk n vrt vel mass, 0 < mind ->
  length vrt = n -> length vel = n -> length mass = n ->
  exists r, totals (Rops mind) chk n vrt vel mass = Some r /\
    (chk_P chk = true ->
      rep_P r = V3 (tot_impulse n (cm mass) (cx vel)) (tot_impulse n (cm mass) (cy vel))
                   (tot_impulse n (cm mass) (cz vel))) /\
    (chk_L chk = true ->
      rep_L r = V3 (tot_ang n (cm mass) (cy vrt) (cz vrt) (cy vel) (cz vel))
                   (tot_ang n (cm mass) (cz vrt) (cx vrt) (cz vel) (cx vel))
                   (tot_ang n (cm mass) (cx vrt) (cy vrt) (cx vel) (cy vel))) /\
    (chk_V chk = true ->
      rep_V r = V3 (mass_centre n (cm mass) (cx vrt)) (mass_centre n (cm mass) (cy vrt))
                   (mass_centre n (cm mass) (cz vrt))) /\
    (chk_E chk = true ->
      rep_K r = tot_kinetic n (cm mass) (cx vel) (cy vel) (cz vel) /\
      rep_U r = tot_potential n (cm mass) (cx vrt) (cy vrt) (cz vrt) mind).
Proof. exact totals_spec. Qed.
Print Assumptions C53_totals.

(** any arithmetic: the first report fixes the reference, later ones never change it *)
Theorem C53_reference_fixed : forall (T : Type) (N : NumOps T) chk n vrt vel mass st st',
  print_statistics N chk n vrt vel mass st = Some st' ->
  st_done st' = true /\
  (st_done st = true -> st_init st' = st_init st) /\
  (st_done st = false -> totals N chk n vrt vel mass = Some (st_init st')).
Proof. exact @report_reference. Qed.
Print Assumptions C53_reference_fixed.

(** ... in particular the report of a new object is its reference, from then on *)
Theorem C53_first_report : forall (T : Type) (N : NumOps T) chk n vrt vel mass reports st,
  fold_left (fun o (x : nat * list (vec3 T) * list (vec3 T) * list T) =>
      let '(n, vrt, vel, mass) := x in obind o (print_statistics N chk n vrt vel mass)) ((n, vrt, vel, mass) :: reports) (Some (stat_new N)) = Some st ->
  totals N chk n vrt vel mass = Some (st_init st).
Proof.
  intros T N chk n vrt vel mass reports st H. cbn [fold_left obind] in H.
  assert (F : forall l, fold_left (fun o (x : nat * list (vec3 T) * list (vec3 T) * list T) =>
      let '(n, vrt, vel, mass) := x in obind o (print_statistics N chk n vrt vel mass)) l None = None)
    by (induction l as [|[[[? ?] ?] ?] l IH]; [reflexivity|exact IH]).
  destruct (print_statistics N chk n vrt vel mass (stat_new N)) as [st1|] eqn:E1; [|now rewrite F in H].
  apply C53_reference_fixed in E1. destruct E1 as (D & _ & E1). specialize (E1 eq_refl). rewrite E1. f_equal. clear E1.
  revert st1 D H. induction reports as [|[[[n' vrt'] vel'] mass'] reports IH]; intros st1 D H; cbn [fold_left obind] in H; [congruence|].
  destruct (print_statistics N chk n' vrt' vel' mass' st1) as [st2|] eqn:E2; [|now rewrite F in H].
  apply C53_reference_fixed in E2. destruct E2 as (D2 & E2 & _). rewrite <- (IH _ D2 H). symmetry. auto.
Qed.
Print Assumptions C53_first_report.

(** ... and the last values: those asked for are the totals of this report, the others stay what they were *)
Theorem C53_last_values : forall (T : Type) (N : NumOps T) chk n vrt vel mass st st',
  print_statistics N chk n vrt vel mass st = Some st' ->
  exists r, totals N chk n vrt vel mass = Some r /\
    (let quantity {A : Type} (asked : bool) (of_ : report -> A) := of_ (st_last st') = of_ (if asked then r else st_last st) in
     quantity (chk_P chk) (@rep_P T) /\ quantity (chk_L chk) (@rep_L T) /\ quantity (chk_V chk) (@rep_V T) /\
     quantity (chk_E chk) (@rep_K T) /\ quantity (chk_E chk) (@rep_U T)).
Proof.
  intros T N chk n vrt vel mass st st'. unfold print_statistics.
  destruct (totals N chk n vrt vel mass) as [r|]; [|discriminate]. cbn [obind]. intros H. injection H as <-.
  exists r. split; [reflexivity|]. cbn. destruct (chk_P chk), (chk_L chk), (chk_V chk), (chk_E chk); auto 10.
Qed.
Print Assumptions C53_last_values.

(** a quantity that is never asked for is zero in the first report of a new object and stays so, as its reference does *)
Theorem C53_unasked : forall (T : Type) (N : NumOps T) chk reports st,
  fold_left (fun o (x : nat * list (vec3 T) * list (vec3 T) * list T) =>
      let '(n, vrt, vel, mass) := x in obind o (print_statistics N chk n vrt vel mass)) reports (Some (stat_new N)) = Some st ->
  let zero {A : Type} (asked : bool) (of_ : report -> A) (z : A) := asked = false -> of_ (st_last st) = z /\ of_ (st_init st) = z in
  zero (chk_P chk) (@rep_P T) (vzero N) /\ zero (chk_L chk) (@rep_L T) (vzero N) /\ zero (chk_V chk) (@rep_V T) (vzero N) /\
  zero (chk_E chk) (@rep_K T) (nlit N 0) /\ zero (chk_E chk) (@rep_U T) (nlit N 0).
Proof.
  intros T N chk reports st0 H0 zero. unfold zero. clear zero. revert st0 H0.
  set (I := fun r : report => (chk_P chk = false -> rep_P r = vzero N) /\ (chk_L chk = false -> rep_L r = vzero N) /\
       (chk_V chk = false -> rep_V r = vzero N) /\ (chk_E chk = false -> rep_K r = nlit N 0 /\ rep_U r = nlit N 0)).
  assert (T0 : forall n vrt vel mass r, totals N chk n vrt vel mass = Some r -> I r).
  { intros n vrt vel mass r. unfold totals, I.
    destruct (chk_P chk), (chk_L chk), (chk_V chk), (chk_E chk); cbn [obind]; intros H;
      repeat match type of H with obind ?o _ = Some _ => destruct o; [cbn [obind] in H|discriminate H] end;
      repeat split; intros; try discriminate; injection H as <-; reflexivity. }
  assert (Z0 : I (report_zero N)) by (unfold I; auto).
  assert (G : forall st, I (st_init st) -> I (st_last st) -> forall st1,
    fold_left (fun o (x : nat * list (vec3 T) * list (vec3 T) * list T) =>
      let '(n, vrt, vel, mass) := x in obind o (print_statistics N chk n vrt vel mass)) reports (Some st) = Some st1 ->
    I (st_init st1) /\ I (st_last st1)).
  { induction reports as [|[[[n vrt] vel] mass] reports IH]; cbn [fold_left]; intros st Hi Hl st1 H; [injection H as <-; auto|].
    cbn [obind] in H. unfold print_statistics at 2 in H. destruct (totals N chk n vrt vel mass) as [r|] eqn:Er; cbn [obind] in H.
    - apply IH in H; auto; cbn [st_init st_last].
      + destruct (st_done st); eauto.
      + apply T0 in Er. unfold I in *. cbn [rep_P rep_L rep_V rep_K rep_U].
        destruct (chk_P chk), (chk_L chk), (chk_V chk), (chk_E chk); intuition discriminate.
    - exfalso. clear -H. induction reports as [|[[[? ?] ?] ?] l IH]; cbn [fold_left obind] in H; [discriminate|auto]. }
  intros st H. destruct (G (stat_new N) Z0 Z0 st H) as [(A1 & A2 & A3 & A4) (B1 & B2 & B3 & B4)]. intuition.
Qed.
Print Assumptions C53_unasked.

Example C53_example :
  totals Zops (Chk true true true true) 2 [V3 0 0 0; V3 0 4 0]%Z [V3 1 0 0; V3 0 0 2]%Z [6; 2]%Z
  = Some (Rep (V3 6 0 4) (V3 16 0 0) (V3 0 1 0) 7 (-3))%Z.
Proof. reflexivity. Qed.
