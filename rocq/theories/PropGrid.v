(** C87: the dense force kernels do not depend on how the blocks of a grid are scheduled. *)
From Coq Require Import ZArith List Arith Lia Bool.
From Verif Require Import Num Arr ArrLemmas ModelVertex LemEngine ModelParallel SpecPar LemParallel LemOmp ModelGpu SpecGpu LemGpu LemGpuSum
  ModelGpuForce LemGpuForce LemGpuHost SpecGrid LemGrid ModelGpuGrid LemGpuGrid.
Import ListNotations.

Lemma nth_map_seq {A} (F : nat -> A) k j x : nth_error (map F (seq 0 k)) j = Some x -> j < k /\ x = F j.
Proof.
  intros H. assert (L : j < k) by (rewrite <- (seq_length k 0), <- (map_length F); apply nth_error_Some; congruence). split; auto.
  rewrite nth_error_map, (nth_error_nth' _ 0), seq_nth in H by (rewrite ?seq_length; auto). cbn in H. congruence.
Qed.

(** One device of the CUDA engine.  The blocks of its two kernels run at the same time, in any order, their threads' accesses
    interleaved in any way, each block from any contents of its shared memory and registers.  Every such run is finite and
    free of races, within a block and between blocks, and of accesses out of bounds, and leaves the same memory, in any
    arithmetic; it is the memory left when the blocks run one after another, which is what C68 is about. *)
Theorem C87_cuda : forall (T : Type) (U : NumOps T) (B q D dev : nat) (y f mass : list T) (scratch : mem T),
  let n := q * B in
  0 < B -> 0 < D -> dev < D -> (n / D) mod B = 0 ->
  length y = 6 * n -> length f = 6 * n -> length mass = n -> buffers scratch 13 B ->
  exists f', length f' = 6 * n /\
  every_round (cuda_device U n B D dev) (device_memory y f mass scratch) (fun m => firstn 3 m = [y; f'; mass]) /\
  forall bs, map fst bs = cuda_grid U n B D dev -> Forall (fun b => buffers (snd b) 13 B) bs ->
    every_grid bs [y; f; mass] (eq [y; f'; mass]).
Proof.
  intros T U B q D dev y f mass scratch n HB HD Hdev Hmod Ly Lf Lm Bs.
  set (gy := fun i => nth i y (nlit U 0)). set (gm := fun i => nth i mass (nlit U 0)).
  assert (Gy : forall i, i < 6 * n -> nth_error y i = Some (gy i)) by (intros i Hi; apply nth_error_nth'; lia).
  assert (Gm : forall i, i < n -> nth_error mass i = Some (gm i)) by (intros i Hi; apply nth_error_nth'; lia).
  assert (Hn : n = q * B) by reflexivity. clearbody n gy gm.
  assert (WbF : forall first ks a i, a < 3 -> Wb n B first ks a i = true -> a = aF /\ exists c n1, In c ks /\ first <= n1 < first + B /\ i = c * n + n1).
  { intros first ks a i Ha. apply (@Wb_f T n B q y f mass); auto. }
  set (cnt := n / D) in *. assert (HDc : D * cnt <= n) by (apply Nat.mul_div_le; lia).
  assert (Hoff : cnt * dev + cnt <= n) by nia.
  exists (ftgt U n B q gy gm f (cnt * dev) cnt). split; [apply ftgt_len|]. split.
  - eapply round_weaken; [|apply (@cuda_device_ok T U n B gy gm ([y; f; mass] ++ scratch) HB) with (q := q);
      [exact (@HF0 T n B q y f mass HB Hn Ly Lf Lm scratch)|exact (@HS0 T n B q y f mass HB Hn Ly Lf Lm scratch Bs)|exact (@base0 T n gy gm y f mass Gy Gm scratch)|exact Hn|exact HD|exact Hdev|exact Hmod]].
    intros m Hm. eapply done_left; eauto.
  - intros bs Eb Hbs.
    set (spK := fun b => bspec U n B q gy gm [3; 4; 5] (fun c _ v => vcomp c v) (B * b + cnt * dev)).
    set (spX := fun b => bspec U n B q gy gm [0; 1; 2] (fun c n1 _ => gy ((c + 3) * n + n1)) (cnt * dev + B * b)).
    set (G := cnt / B). assert (HG : G * B = cnt).
    { unfold G. rewrite (Nat.div_mod cnt B) at 2 by lia. lia. }
    eapply grid_left with (sp := map spK (seq 0 G) ++ map spX (seq 0 G)) (grid := cuda_grid U n B D dev) (q := q) (B := B); auto.
    + apply apart_key with (key := fun _ i => if i / n <? 3 then G + (i mod n - cnt * dev) / B else (i mod n - cnt * dev) / B).
      intros j s a i Ej Ha HW. cbn [length] in Ha. split.
      2:{ intros s' Hs'. assert (RR : sp_R s' = Rb).
          { apply in_app_or in Hs'. destruct Hs' as [Hs'|Hs']; apply in_map_iff in Hs'; destruct Hs' as (b & <- & _); reflexivity. }
          rewrite RR. assert (Ea : a = aF).
          { destruct (le_lt_dec (length (map spK (seq 0 G))) j) as [L|L].
            - rewrite nth_error_app2 in Ej by auto. apply nth_map_seq in Ej. destruct Ej as [_ ->]. cbn [sp_W spK spX bspec] in HW; apply WbF in HW; [apply HW|auto].
            - rewrite nth_error_app1 in Ej by auto. apply nth_map_seq in Ej. destruct Ej as [_ ->]. cbn [sp_W spK spX bspec] in HW; apply WbF in HW; [apply HW|auto]. }
          subst a. reflexivity. }
      assert (Div : forall b x, x < B -> (B * b + x) / B = b).
      { intros b x Hx. rewrite (Nat.mul_comm B b), Nat.add_comm, Nat.div_add by lia. rewrite Nat.div_small by auto. reflexivity. }
      assert (Cell : forall c n1, n1 < n -> (c * n + n1) / n = c /\ (c * n + n1) mod n = n1).
      { intros c n1 H1. rewrite (Nat.add_comm (c * n)), Nat.div_add, Nat.mod_add by lia. rewrite Nat.div_small, Nat.mod_small by auto. auto. }
      destruct (le_lt_dec G j) as [L|L].
      * rewrite nth_error_app2 in Ej by (rewrite map_length, seq_length; auto). rewrite map_length, seq_length in Ej.
        apply nth_map_seq in Ej. destruct Ej as [Lj ->]. cbn [sp_W spK spX bspec] in HW; apply WbF in HW; [|auto]. destruct HW as (_ & c & n1 & Hc & H1 & ->).
        destruct (Cell c n1) as [E1 E2]; [nia|]. rewrite E1, E2. assert (c < 3) by (cbn in Hc; lia).
        destruct (Nat.ltb_spec c 3); [|lia]. replace (n1 - cnt * dev) with (B * (j - G) + (n1 - cnt * dev - B * (j - G))) by nia.
        rewrite Div by lia. lia.
      * rewrite nth_error_app1 in Ej by (rewrite map_length, seq_length; auto).
        apply nth_map_seq in Ej. destruct Ej as [Lj ->]. cbn [sp_W spK spX bspec] in HW; apply WbF in HW; [|auto]. destruct HW as (_ & c & n1 & Hc & H1 & ->).
        destruct (Cell c n1) as [E1 E2]; [nia|]. rewrite E1, E2. assert (3 <= c) by (cbn in Hc; lia).
        destruct (Nat.ltb_spec c 3); [lia|]. replace (n1 - cnt * dev) with (B * j + (n1 - cnt * dev - B * j)) by nia.
        rewrite Div by lia. lia.
    + unfold cuda_grid, cuda_block_grid, cuda_xyz_grid. fold cnt. fold G. apply Forall2_app; apply Forall2_seq_map; intros j Hj; cbn [sp_good sp_R sp_W spK spX bspec].
      * split; [intros scr Hscr; apply (@block_good T U n B q gy gm y f mass HB Hn Ly Lf Lm Gy Gm scr Hscr); [apply store_v_ok; first [exact HB|exact (@HF0 T n B q y f mass HB Hn Ly Lf Lm scr)|exact (@HS0 T n B q y f mass HB Hn Ly Lf Lm scr Hscr)]|nia]|].
        apply (@block_fp T U n B q y f mass); auto. intros n1 t W HW Hf. apply (fp_store_v n HB); auto; [|exact I]. intros c Hc. apply Hf. simpl. lia.
      * assert (E : map (fun tid => k_store_r n (cnt * dev + (B * j + tid)) (@PRet T)) (seq 0 B) = map (fun tid => k_store_r n (cnt * dev + B * j + tid) PRet) (seq 0 B)).
        { apply map_ext. intros t. now rewrite Nat.add_assoc. }
        rewrite E. split; [intros scr Hscr; apply (@xyz_good T U n B q gy gm y f mass HB Hn Ly Lf Lm Gy Gm scr); nia|]. apply (@xyz_fp T n B q y f mass); auto.
    + intros s Hs. apply in_app_or in Hs. destruct Hs as [Hs|Hs]; apply in_map_iff in Hs; destruct Hs as (b & <- & Hb); apply in_seq in Hb;
        eexists _, _, _; (split; [reflexivity|]); (split; [cbn; lia|]); nia.
    + intros n1 c H1 Hc. set (b := (n1 - cnt * dev) / B).
      assert (Hb : B * b <= n1 - cnt * dev < B * b + B).
      { unfold b. pose proof (Nat.div_mod (n1 - cnt * dev) B ltac:(lia)). pose proof (Nat.mod_upper_bound (n1 - cnt * dev) B ltac:(lia)). lia. }
      assert (HbG : b < G) by nia. clearbody b. destruct (Nat.ltb_spec c 3) as [L|L].
      * eexists _, _, _. split; [apply in_or_app; right; apply in_map_iff; exists b; split; [reflexivity|apply in_seq; lia]|].
        split; [cbn; lia|]. split; [lia|]. intros v. reflexivity.
      * eexists _, _, _. split; [apply in_or_app; left; apply in_map_iff; exists b; split; [reflexivity|apply in_seq; lia]|].
        split; [cbn; lia|]. split; [lia|]. intros v. reflexivity.
Qed.
Print Assumptions C87_cuda.

(** The same for OpenCL: the launch is accepted and all its work groups may run at the same time. *)
Theorem C87_opencl : forall (T : Type) (U : NumOps T) (B q D dev : nat) (y f mass : list T) (scratch : mem T),
  let n := q * B in
  0 < B -> 0 < D -> dev < D -> (n / D) mod B = 0 ->
  length y = 6 * n -> length f = 6 * n -> length mass = n -> buffers scratch 13 B ->
  exists f' launched grid, length f' = 6 * n /\
  opencl_device U n B D dev = Some launched /\ opencl_grid U n B D dev = Some grid /\
  every_round launched (device_memory y f mass scratch) (fun m => firstn 3 m = [y; f'; mass]) /\
  forall bs, map fst bs = grid -> Forall (fun b => buffers (snd b) 13 B) bs ->
    every_grid bs [y; f; mass] (eq [y; f'; mass]).
Proof.
  intros T U B q D dev y f mass scratch n HB HD Hdev Hmod Ly Lf Lm Bs.
  set (gy := fun i => nth i y (nlit U 0)). set (gm := fun i => nth i mass (nlit U 0)).
  assert (Gy : forall i, i < 6 * n -> nth_error y i = Some (gy i)) by (intros i Hi; apply nth_error_nth'; lia).
  assert (Gm : forall i, i < n -> nth_error mass i = Some (gm i)) by (intros i Hi; apply nth_error_nth'; lia).
  assert (Hn : n = q * B) by reflexivity. clearbody n gy gm.
  assert (WbF : forall first ks a i, a < 3 -> Wb n B first ks a i = true -> a = aF /\ exists c n1, In c ks /\ first <= n1 < first + B /\ i = c * n + n1).
  { intros first ks a i Ha. apply (@Wb_f T n B q y f mass); auto. }
  destruct (@opencl_device_ok T U n B gy gm ([y; f; mass] ++ scratch) HB) with (D := D) (dev := dev) (q := q) (mb := [y; f; mass] ++ scratch)
    as (launched & El & Hl); [exact (@HF0 T n B q y f mass HB Hn Ly Lf Lm scratch)|exact (@HS0 T n B q y f mass HB Hn Ly Lf Lm scratch Bs)|exact (@base0 T n gy gm y f mass Gy Gm scratch)|exact Hn|exact HD|exact Hdev|exact Hmod|].
  unfold opencl_grid. rewrite Hmod. cbn [Nat.eqb].
  set (cnt := n / D) in *. assert (HDc : D * cnt <= n) by (apply Nat.mul_div_le; lia).
  assert (Hoff : cnt * dev + cnt <= n) by nia.
  exists (ftgt U n B q gy gm f (cnt * dev) cnt), launched. eexists. split; [apply ftgt_len|]. split; [exact El|]. split; [reflexivity|]. split.
  - eapply round_weaken; [|exact Hl]. intros m Hm. eapply done_left; eauto.
  - intros bs Eb Hbs. rewrite (Nat.mul_comm dev cnt) in Eb.
    set (spK := fun b => bspec U n B q gy gm [0; 1; 2; 3; 4; 5] (fun c n1 v => if c <? 3 then gy ((c + 3) * n + n1) else vcomp c v) (B * b + cnt * dev)).
    set (G := cnt / B) in *. assert (HG : G * B = cnt).
    { unfold G. rewrite (Nat.div_mod cnt B) at 2 by lia. lia. }
    eapply grid_left with (sp := map spK (seq 0 G)) (grid := map (fun b => k_block U n B (fun n1 tid => k_store_r n n1 (k_store_v n n1 tid PRet)) n (B * b + cnt * dev)) (seq 0 G))
      (q := q) (B := B); auto.
    + apply apart_key with (key := fun _ i => (i mod n - cnt * dev) / B).
      intros j s a i Ej Ha HW. cbn [length] in Ha. apply nth_map_seq in Ej. destruct Ej as [Lj ->].
      cbn [sp_W spK bspec] in HW; apply WbF in HW; [|auto]. destruct HW as (-> & c & n1 & Hc & H1 & ->). split.
      2:{ intros s' Hs'. apply in_map_iff in Hs'. destruct Hs' as (b & <- & _). reflexivity. }
      rewrite (Nat.add_comm (c * n)), Nat.mod_add, Nat.mod_small by nia.
      replace (n1 - cnt * dev) with (n1 - cnt * dev - B * j + j * B) by nia. rewrite Nat.div_add, Nat.div_small by lia. reflexivity.
    + apply Forall2_seq_map; intros j Hj; cbn [sp_good sp_R sp_W spK bspec].
      split; [intros scr Hscr; apply (@block_good T U n B q gy gm y f mass HB Hn Ly Lf Lm Gy Gm scr Hscr); [apply store_rv_ok; first [exact HB|exact (@HF0 T n B q y f mass HB Hn Ly Lf Lm scr)|exact (@HS0 T n B q y f mass HB Hn Ly Lf Lm scr Hscr)]|nia]|].
      apply (@block_fp T U n B q y f mass); auto. intros n1 t W HW Hf. apply (fp_store_r n HB); [reflexivity|intros c Hc; apply Hf; simpl; lia|].
      apply (fp_store_v n HB); auto; [|exact I]. intros c Hc. apply Hf. simpl. lia.
    + intros s Hs. apply in_map_iff in Hs; destruct Hs as (b & <- & Hb); apply in_seq in Hb.
      eexists _, _, _. split; [reflexivity|]. split; [cbn; lia|]. nia.
    + intros n1 c H1 Hc. set (b := (n1 - cnt * dev) / B).
      assert (Hb : B * b <= n1 - cnt * dev < B * b + B).
      { unfold b. pose proof (Nat.div_mod (n1 - cnt * dev) B ltac:(lia)). pose proof (Nat.mod_upper_bound (n1 - cnt * dev) B ltac:(lia)). lia. }
      assert (HbG : b < G) by nia. clearbody b.
      eexists _, _, _. split; [apply in_map_iff; exists b; split; [reflexivity|apply in_seq; lia]|].
      split; [cbn; lia|]. split; [lia|]. intros v. reflexivity.
Qed.
Print Assumptions C87_opencl.

(** Two bodies in blocks of one thread, integer arithmetic: two blocks of each kernel, whatever their scratch memory holds. *)
Example C87_ex :
  let mass := [128; 64]%Z in
  let y := [0; 4;  0; 0;  0; 0;  1; 2;  3; 4;  5; 6]%Z in
  let f := repeat (-7)%Z 12 in
  let grid := cuda_grid Zops 2 1 1 0 in
  let bs := map (fun j => (nth j grid [], repeat [Z.of_nat j] 13)) (seq 0 4) in
  map fst bs = grid /\ Forall (fun b => buffers (snd b) 13 1) bs /\
  map (@length _) grid = [5; 5; 1; 1] /\
  every_grid bs [y; f; mass] (eq [y; [1; 2;  3; 4;  5; 6;  4; -8;  0; 0;  0; 0]%Z; mass]).
Proof.
  intros mass y f grid bs.
  assert (E1 : map fst bs = grid) by reflexivity.
  assert (E2 : Forall (fun b => buffers (snd b) 13 1) bs).
  { unfold bs. cbn [seq map]. repeat constructor. }
  split; [exact E1|]. split; [exact E2|]. split; [reflexivity|].
  destruct (@C87_cuda Z Zops 1 2 1 0 y f mass (repeat [0%Z] 13)) as (f' & Lf & Hr & Hg); try reflexivity; try lia.
  { split; [reflexivity|repeat constructor]. }
  apply every_round_runs in Hr. destruct Hr as (m & Em & Hm). vm_compute in Em. injection Em as <-. cbn in Hm. injection Hm as <-.
  exact (Hg bs E1 E2).
Qed.

(** The notion is not empty: two blocks of which one writes the global cell that the other one reads do not pass, and
    neither do two blocks that write one cell; the same accesses to memory of their own do. *)
Example C87_race :
  let wr a := [[PWr a 0 5%Z PRet]] in
  let rd := [[PRd 0 0 (fun v => PWr 1 0 v (@PRet Z))]] in
  ~ every_grid [(wr 0, [[0%Z]]); (rd, [[0%Z]])] [[0%Z]] (fun _ => True) /\
  ~ every_grid [(wr 0, [[0%Z]]); (wr 0, [[0%Z]])] [[0%Z]] (fun _ => True) /\
  every_grid [(wr 1, [[0%Z]]); (rd, [[0%Z]])] [[0%Z]] (eq [[0%Z]]).
Proof.
  intros wr rd. split; [|split].
  - intros [_ H]. destruct (H _ _ (grid_refl _)) as (_ & R & _).
    destruct (R 0 1 _ _ 0 0 _ _ 0 0 eq_refl eq_refl eq_refl eq_refl) as [[X _]|[_ X]]; cbn in *; auto; lia.
  - intros [_ H]. destruct (H _ _ (grid_refl _)) as (_ & R & _).
    destruct (R 0 1 _ _ 0 0 _ _ 0 0 eq_refl eq_refl eq_refl eq_refl) as [[X _]|[_ X]]; cbn in *; auto; lia.
  - eapply every_grid_weaken; [|apply grid_all with (sp := [Spec (fun _ _ => false) (fun a i => a =? 1) (fun _ => True);
      Spec (fun a i => a =? 0) (fun a i => a =? 1) (fun _ => True)])].
    + cbv beta. intros g (S0 & _ & HO). symmetry. apply mem_ext; [exact S0|]. intros [|a] i; [apply HO|].
      { intros s [<-|[<-|[]]]; reflexivity. }
      destruct g as [|l [|l2 g]]; try discriminate. destruct a; reflexivity.
    + intros j k s s' a i N Ej Ek La HW. exfalso. cbn in La. assert (a = 0) by lia. subst a.
      destruct j as [|[|j]]; cbn in Ej; [injection Ej as <-; discriminate|injection Ej as <-; discriminate|destruct j; discriminate].
    + assert (One : forall p (m m' : mem Z), exec p m = Some m' -> every_schedule [p] m (fun _ => True)).
      { intros p m m' E. eapply schedule_weaken; [|apply (@phase Z 1 (fun _ => p) (fun _ _ => false) (fun _ _ _ => true) m (fun _ _ => True))]; auto.
        - intros t _. clear. induction p; cbn; auto.
        - intros t t' a i Ht Ht' _. split; auto. intros _. lia.
        - intros t _. eauto. }
      constructor; [|constructor; [|constructor]]; (split; [cbn [fst snd every_round wr rd sp_good]; eapply One; reflexivity|]).
      * repeat constructor.
      * constructor; [|constructor]. constructor; [|constructor]. cbn. auto.
Qed.
