(** Properties of the extrapolators: C36, C37, C38. *)
From Coq Require Import ZArith Reals List Arith Lia Lra.
From Verif Require Import Num Arr SpecPhys SpecSolver SpecExtrap ModelExtrap ModelSolver LemExtrap.
Import ListNotations.
Local Open Scope R_scope.

(** ** C36: Neville extrapolation is exact for polynomials in h^order (order 2 in the code) *)
Theorem C36_exact_for_polynomials : forall mind ps order counts sz n ys coef ext_y,
  (0 < order)%nat -> good_counts counts ->
  ys <> [] -> (length ys <= sz)%nat -> (length ys <= length counts)%nat ->
  neville_bufs ps sz n -> Forall (fun y => length y = ps) ys -> length ext_y = ps ->
  (forall c, (c < ps)%nat -> (length (coef c) <= length ys)%nat) ->
  (forall c i, (c < ps)%nat -> (i < length ys)%nat ->
     nth c (nth i ys []) 0 = peval (coef c) ((/ INR (nth i counts O)) ^ order)) ->
  exists n' r, neville_feed (Rops mind) ps (ext_counts order counts) n 0 ys = Some n' /\
    neville_extrapolate ps n' (length ys - 1) ext_y = Some r /\ length r = ps /\
    forall c, (c < ps)%nat -> nth c r 0 = peval (coef c) 0.
Proof. exact neville_poly. Qed.
Print Assumptions C36_exact_for_polynomials.

(** the error estimate is the largest change made by the last column *)
Theorem C36_error_estimate : forall mind ps sz n k,
  neville_bufs ps sz n -> (S k < sz)%nat -> (0 < ps)%nat ->
  exists m n', neville_error (Rops mind) ps n (S k) = Some (Some m, n') /\
    ne_table n' = ne_table n /\ ne_prev n' = ne_prev n /\
    (exists c, (c < ps)%nat /\
       m = Rabs (nth c (nth (S k) (ne_table n) []) 0 - nth c (nth k (ne_table n) []) 0)) /\
    (forall c, (c < ps)%nat ->
       Rabs (nth c (nth (S k) (ne_table n) []) 0 - nth c (nth k (ne_table n) []) 0) <= m).
Proof. exact neville_error_prop. Qed.
Print Assumptions C36_error_estimate.

(** 5 + 3 h^2 sampled at h = 1/2 and 1/4 *)
Example C36_example :
  let counts := [2; 4]%nat in
  let coef := fun _ : nat => [5; 3] in
  let ys := [[5 + 3 / 4]; [5 + 3 / 16]] in
  good_counts counts /\ neville_bufs 1 2 (mkNeville [[7]; [7]] [[8]; [8]] [9]) /\
  Forall (fun y => length y = 1%nat) ys /\
  (forall c i, (c < 1)%nat -> (i < 2)%nat ->
     nth c (nth i ys []) 0 = peval (coef c) ((/ INR (nth i counts O)) ^ 2)).
Proof.
  cbv zeta. split.
  { split; [repeat constructor; cbn; lia|]. intros n [<-|[<-|[]]]; lia. }
  split. { repeat split; repeat constructor. }
  split; [repeat constructor|].
  intros c i Hc Hi. assert (c = 0%nat) by lia. subst c.
  destruct i as [|[|i]]; [| |lia]; cbn; field.
Qed.

(** ** C37: Berrut extrapolation is an affine combination *)
Theorem C37_affine : forall mind ps counts s level y,
  (forall i d, (S i < length counts)%nat -> (nth i counts d < nth (S i) counts d)%nat) ->
  (forall i, (i < length counts)%nat -> 0 < nth i counts O)%nat ->
  (0 < level <= length counts)%nat -> (level <= length (be_table s))%nat ->
  Forall (fun b => length b = ps) (be_table s) -> length y = ps ->
  exists wt r, berrut_weights (Rops mind) counts level = Some wt /\
    berrut_extrapolate (Rops mind) ps counts s level y = Some r /\
    length wt = level /\ length r = ps /\
    rsum level (fun i => nth i wt 0) = 1 /\
    (forall c, (c < ps)%nat ->
       nth c r 0 = rsum level (fun i => nth i wt 0 * nth c (nth i (be_table s) []) 0)) /\
    (forall (u : nat -> R) P,
       (forall i, (i < level)%nat -> rsum ps (fun c => u c * nth c (nth i (be_table s) []) 0) = P) ->
       rsum ps (fun c => u c * nth c r 0) = P).
Proof. exact berrut_affine. Qed.
Print Assumptions C37_affine.

(** the error estimate of a level is the largest difference of two successive extrapolations *)
Theorem C37_error_estimate : forall mind ps counts s level y,
  (S level <= length counts)%nat -> (0 < ps)%nat ->
  (S level <= length (be_table s))%nat -> Forall (fun b => length b = ps) (be_table s) ->
  length (be_diff s) = ps -> length y = ps ->
  exists a b m s', berrut_extrapolate (Rops mind) ps counts s (S level) y = Some a /\
    berrut_extrapolate (Rops mind) ps counts s level y = Some b /\
    berrut_error (Rops mind) ps counts s (S level) = Some (Some m, s') /\ be_table s' = be_table s /\
    (exists c, (c < ps)%nat /\ m = Rabs (nth c a 0 - nth c b 0)) /\
    (forall c, (c < ps)%nat -> Rabs (nth c a 0 - nth c b 0) <= m).
Proof. exact berrut_error_prop. Qed.
Print Assumptions C37_error_estimate.

(** the approximation stored by [update_table(level, ...)] has no influence on
    [extrapolate(level)] *)
Theorem C37_newest_unused : forall (T : Type) (N : NumOps T) ps counts tb tb' d d' level y,
  (level < length tb)%nat -> length tb' = length tb ->
  (forall i, i <> level -> nth_error tb' i = nth_error tb i) ->
  berrut_extrapolate N ps counts (mkBerrut tb' d') level y =
  berrut_extrapolate N ps counts (mkBerrut tb d) level y.
Proof. exact berrut_newest_unused. Qed.
Print Assumptions C37_newest_unused.

Example C37_example : berrut_weights Zops [2; 3; 5]%nat 2 = Some [-2; 3]%Z /\
  berrut_extrapolate Zops 2 [2; 3; 5]%nat (mkBerrut [[10; 20]; [20; 20]; [1; 1]] [0; 0])%Z 2 [7; 7]%Z
  = Some [40; 20]%Z.
Proof. split; reflexivity. Qed.

(** ** C38: the substep counts *)
Theorem C38_sequence : forall n, exists counts, init_steps n = Some counts /\ length counts = n /\
  forall j c, nth_error counts j = Some c ->
    (0 < c)%nat /\ Nat.Even c /\
    forall i d, (i < j)%nat -> nth_error counts i = Some d -> (d < c)%nat.
Proof. exact bs_counts_prop. Qed.
Print Assumptions C38_sequence.

Theorem C38_bulirsch_stoer : forall n, init_steps n = Some (map bs_seq (seq 0 n)).
Proof. exact init_steps_ok. Qed.
Print Assumptions C38_bulirsch_stoer.

Theorem C38_good_counts : forall n,
  good_counts (map bs_seq (seq 0 n)) /\ good_counts (init_steps_other n).
Proof. intros n. split; [apply bs_counts_good|apply init_steps_other_good]. Qed.
Print Assumptions C38_good_counts.

Example C38_example : init_steps 8 = Some [2; 4; 6; 8; 12; 16; 24; 32]%nat.
Proof. reflexivity. Qed.
