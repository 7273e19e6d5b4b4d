(** The simulation program as a whole: C80. *)
From Coq Require Import Ascii String ZArith List NArith Arith Lia Bool.
From Verif Require Import Num Arr ArrLemmas ModelVertex ModelText ModelData ModelStream ModelEngine ModelSolverBase ModelSolver
  ModelRun ModelArgs ModelBH ModelObject ModelMain SpecStream SpecArgs SpecSolver SpecRun SpecResume SpecData SpecMain
  LemStreamRead LemStreamRun LemStreamProp LemData LemArgs LemResume LemObject LemMain LemText PropData PropArgs.
Import ListNotations.
Set Implicit Arguments.
Local Open Scope nat_scope.

Section P.
  Context {T C : Type} (U : NumOps T) (X : TextOps T) (K : Colors C) (B : Codec T C)
          (to_size : T -> option N) (pow3 : T -> T) (uniform : T -> nat -> T)
          (split : nat -> T -> list T -> nat -> nat -> list nat -> list nat)
          (garbage : nat -> nat -> list T).
  Hypothesis Hg : forall n i, length (garbage n i) = 6 * n.
  Notation begin_with := (begin_with U X K B to_size pow3 uniform).
  Notation main := (main U X K B to_size pow3 uniform split garbage).

  Lemma read_count (cs : nat) fs (b : @bdata T) r r' b' g : reader_read cs fs b r = Some (r', b', g) -> d_count b' = d_count b.
  Proof.
    unfold reader_read. destruct (negb _); [intros H; now injection H as _ <- _|].
    destruct (reader_seek fs (r_current r) r) as [r1 g1]. destruct (negb g1); [intros H; now injection H as _ <- _|].
    destruct (r_current r1) as [cur|]; [|discriminate]. destruct (rd (r_frames r1) cur) as [fr|]; [|discriminate]. cbn [obind].
    destruct (r_file r1) as [[name pos]|]; [|intros H; now injection H as _ <- _].
    destruct (read_bytes _ _ _ _ _) as [[vert p1] g2]. destruct (negb g2); [intros H; now injection H as _ <- _|].
    destruct (read_bytes _ _ _ _ _) as [[velo p2] g3]. destruct (negb g3); [intros H; now injection H as _ <- _|].
    destruct (if Nat.ltb _ _ then _ else _) as [r2 g4]. destruct (if r_colors _ then _ else _) as [col g5].
    destruct (if r_masses _ then _ else _) as [mass g6]. intros H. now injection H as _ <- _.
  Qed.

  Lemma begin_rect fuel m fs b : begin_with fuel m fs = Some (Begins b) -> rectangular (bg_data b).
  Proof.
    intros E. destruct (is_nil (value m "resume" [])) eqn:EV.
    - destruct (value m "resume" []) eqn:V; [|discriminate].
      apply (begin_fresh _ _ _ _ _ _ _ _ _ _ V E).
    - unfold ModelMain.begin_with in E. rewrite EV in E. cbn [negb] in E. unfold resume_from in E.
      destruct (reader_load _ _ _ _ _) as [r1 g1]. destruct (negb g1); [discriminate|].
      destruct (reader_seek _ _ _) as [r2 g2]. destruct (negb g2); [discriminate|].
      match type of E with obind ?x _ = _ => destruct x as [[[r3 b3] g3]|] eqn:ER; [|discriminate] end. cbn [obind] in E.
      destruct (negb g3); [discriminate|]. injection E as <-. cbn [bg_data].
      apply read_count in ER.
      pose proof (@rect_resize T C U K (N.to_nat (r_body r2)) (data_new U)) as RR.
      destruct RR as (_ & _ & _ & _ & RR).
      unfold rectangular, data_of. cbn [b_vert b_velo b_mass b_color b_radius b_count]. rewrite !map_length, !seq_length.
      repeat split; auto. rewrite RR, ER. reflexivity.
  Qed.

  Lemma main_code fuel args k code k' : k_io k = [] -> main fuel args k = Some (Exit code k') ->
    code = 0%Z \/ (code = (-1)%Z /\ k' = k).
  Proof.
    intros HI. unfold ModelMain.main. set (m := parse_arguments args).
    destruct (begin_with fuel m (k_fs k)) as [s|] eqn:EB; [|discriminate]. cbn [obind].
    destruct s as [b| |]; [|intros H; injection H as <- <-; auto|discriminate].
    destruct (create_engine U X m) as [o|]; [|intros H; injection H as <- <-; auto].
    destruct (create_solver U X fuel m) as [[c|]|]; [|intros H; injection H as <- <-; auto|discriminate].
    intros H. left. apply (@simulate_code T C U X B split garbage Hg fuel m b o c k code k' (begin_rect _ _ _ EB) HI H).
  Qed.

  Lemma main_refuses fuel args k code k' :
    create_engine U X (parse_arguments args) = None \/ create_solver U X fuel (parse_arguments args) = Some None ->
    main fuel args k = Some (Exit code k') -> code = (-1)%Z /\ k' = k.
  Proof.
    intros HN. unfold ModelMain.main. set (m := parse_arguments args) in *.
    destruct (begin_with fuel m (k_fs k)) as [s|] eqn:EB; [|discriminate]. cbn [obind].
    destruct s as [b| |]; [|intros H; injection H as <- <-; auto|discriminate].
    destruct (create_engine U X m) as [o|]; [|intros H; injection H as <- <-; auto].
    destruct HN as [HN|HN]; [discriminate|]. rewrite HN. intros H; injection H as <- <-; auto.
  Qed.

  Lemma main_inv fuel args fs k' : let m := parse_arguments args in value m "resume" [] = [] ->
    main fuel args (fresh_disk fs) = Some (Exit 0 k') ->
    exists d o c st w', begins_at U X K to_size pow3 uniform fuel m fs d /\ rectangular d /\
      create_engine U X m = Some o /\ create_solver U X fuel m = Some (Some c) /\
      simulation U X split garbage fuel m d o c = Some (Returned 0 st) /\
      record_on X (n_size B) new_writer (arg_output m) (arg_max_part m) None (map (shot U B d) (rs_dumps st)) fs = (w', k', true).
  Proof.
    intros m HV. unfold ModelMain.main. fold m. cbn [fresh_disk k_fs].
    destruct (begin_with fuel m fs) as [s|] eqn:EB; [|discriminate]. cbn [obind].
    destruct s as [b| |]; [|discriminate|discriminate].
    destruct (create_engine U X m) as [o|]; [|discriminate].
    destruct (create_solver U X fuel m) as [[c|]|]; [|discriminate|discriminate].
    intros H. destruct (begin_fresh _ _ _ _ _ _ _ _ _ _ HV EB) as (B1 & B2 & B3 & B4).
    destruct (@simulate_inv T C U X B split garbage Hg fuel m b o c fs k' B4 H) as (st & w' & S1 & _ & S3).
    rewrite B2, B3 in S3. exists (bg_data b), o, c, st, w'. auto 10.
  Qed.
End P.

(** ** C80 *)

(** When no disk operation fails, the program ends with 0, or with -1 and the disk as it found it. *)
Theorem C80_all_or_nothing : forall (T C : Type) (U : NumOps T) (X : TextOps T) (K : Colors C) (B : Codec T C)
    to_size pow3 uniform split garbage fuel args k code k',
  (forall n i, length (garbage n i) = 6 * n) -> k_io k = [] ->
  main U X K B to_size pow3 uniform split garbage fuel args k = Some (Exit code k') ->
  code = 0%Z \/ (code = (-1)%Z /\ k' = k).
Proof. intros. eapply main_code; eauto. Qed.
Print Assumptions C80_all_or_nothing.

(** Without an engine of C67 and a solver of C55 it ends with -1 and leaves the disk alone, failing or not. *)
Theorem C80_refuses : forall (T C : Type) (U : NumOps T) (X : TextOps T) (K : Colors C) (B : Codec T C)
    to_size pow3 uniform split garbage fuel args type k code k',
  (~ exists e, wants_engine U X args e) \/
  (says_or args "solver" [] type /\ type <> chars "adams" /\ ~ known type /\ 2 <= fuel) ->
  main U X K B to_size pow3 uniform split garbage fuel args k = Some (Exit code k') ->
  code = (-1)%Z /\ k' = k.
Proof.
  intros T C U X K B to_size pow3 uniform split garbage fuel args type k code k' H E.
  eapply main_refuses; [|exact E]. destruct H as [H|(H1 & H2 & H3 & H4)].
  - left. apply C67_engine. exact H.
  - right. destruct (C54_total args "starter_solver") as [Q|(v & Q)].
    + assert (Z : says_or args "starter_solver" (chars "euler") (chars "euler")) by (right; auto).
      destruct (C55_answers T U X args type (chars "euler") fuel H1 Z H4) as (_ & _ & A & _). now apply A.
    + assert (Z : says_or args "starter_solver" (chars "euler") v) by (left; exact Q).
      destruct (C55_answers T U X args type v fuel H1 Z H4) as (_ & _ & A & _). now apply A.
Qed.
Print Assumptions C80_refuses.

(** If it ends with 0 and was not told to resume, it has made the universe or loaded the initial state asked
    for, simulated it with the engine and the solver asked for until the time asked for, and the output can be
    loaded and replays exactly the frames of this simulation, the first frame giving masses, colours and box. *)
Theorem C80_records : forall (T C : Type) (U : NumOps T) (X : TextOps T) (K : Colors C) (B : Codec T C)
    to_size pow3 uniform split garbage fuel args fs k' out,
  (forall n i, length (garbage n i) = 6 * n) -> sized B -> (N.of_nat (n_size B) < 2 ^ 64)%N ->
  silent args "resume" -> says_or args "output" (chars "/tmp/nbody/main-stream") out ->
  main U X K B to_size pow3 uniform split garbage fuel args (fresh_disk fs) = Some (Exit 0 k') ->
  exists d o c st,
    begins_at U X K to_size pow3 uniform fuel (parse_arguments args) fs d /\
    wants_engine U X args o /\ create_solver U X fuel (parse_arguments args) = Some (Some c) /\
    wants_parameters U X args c /\
    simulation U X split garbage fuel (parse_arguments args) d o c = Some (Returned 0 st) /\
    forall f l, rs_dumps st = f :: l -> Forall (fun f => printable X (fr_time f)) (f :: l) ->
      (0 < N.of_nat (b_count d) < 2 ^ 64)%N -> (0 < b_box d < 2 ^ 64)%N ->
      (N.of_nat (length (f :: l) * (6 * n_size B * b_count d)) < 2 ^ 63)%N ->
      replays X (n_size B) (k_fs k') out (b_count d) (shot U B d f) (map (shot U B d) (f :: l)).
Proof.
  intros T C U X K B to_size pow3 uniform split garbage fuel args fs k' out Hg HB Hcs HS HO E.
  assert (HV : value (parse_arguments args) "resume" [] = []) by (apply (proj2 (C54_default args "resume" [])); exact HS).
  assert (HOut : arg_output (parse_arguments args) = out) by (apply value_says; exact HO).
  destruct (@main_inv T C U X K B to_size pow3 uniform split garbage Hg fuel args fs k' HV E)
    as (d & o & c & st & w' & H1 & H2 & H3 & H4 & H5 & H6).
  exists d, o, c, st. split; [exact H1|]. split; [now apply C67_engine|]. split; [exact H4|].
  split; [now apply C55_parameters with fuel|]. split; [exact H5|].
  intros f l Hl HP Hn Hbox Hb. rewrite HOut in H6. rewrite Hl in H6.
  assert (SQ : sequence_ok X (n_size B) (b_count d) (shot U B d f :: map (shot U B d) l)).
  { split; [apply (@shots_ok T C U X B HB d (f :: l) H2 HP)|]. destruct HB as (Q & _). split; [exact Hn|]. split; [lia|]. exact Hbox. }
  destruct (@round_trip T X (n_size B) out (arg_max_part (parse_arguments args)) (b_count d) (shot U B d f)
    (map (shot U B d) l) new_writer fs (conj eq_refl eq_refl) eq_refl SQ) as (w0 & k0 & E0 & RP).
  { unfold bytes_of. cbn [length] in Hb |- *. rewrite map_length. exact Hb. }
  cbn [map] in H6. rewrite E0 in H6. injection H6 as _ <-. exact RP.
Qed.
Print Assumptions C80_records.

Lemma part_wanted : forall args, wants_part args (arg_max_part (parse_arguments args)).
Proof.
  intros args. unfold arg_max_part, wants_part. split; [|split; [|split]].
  - intros H. now rewrite (look_silent _ _ H).
  - intros w Hw H. rewrite (look_says _ _ _ H). unfold to_ull. rewrite to_ulonglong_show by lia.
    destruct (Z.ltb_spec (Z.of_N w) (2 ^ 63)); lia.
  - intros w Hw H. rewrite (look_says _ _ _ H). unfold to_ull. rewrite to_ulonglong_show by lia.
    destruct (Z.ltb_spec (Z.of_N w) (2 ^ 63)); lia.
  - intros v H E. rewrite (look_says _ _ _ H). unfold to_ull. now rewrite E.
Qed.

(** ... and the files of the output are split as asked for: a part is left only when it has reached the size given, a frame is never
    split, and a size that is 0, no number or too large for the file size type means one file. *)
Theorem C80_parts : forall (T C : Type) (U : NumOps T) (X : TextOps T) (K : Colors C) (B : Codec T C)
    to_size pow3 uniform split garbage fuel args fs k' out,
  (forall n i, length (garbage n i) = 6 * n) -> sized B -> (N.of_nat (n_size B) < 2 ^ 64)%N ->
  silent args "resume" -> says_or args "output" (chars "/tmp/nbody/main-stream") out ->
  main U X K B to_size pow3 uniform split garbage fuel args (fresh_disk fs) = Some (Exit 0 k') ->
  exists d o c st max, wants_part args max /\
    begins_at U X K to_size pow3 uniform fuel (parse_arguments args) fs d /\
    simulation U X split garbage fuel (parse_arguments args) d o c = Some (Returned 0 st) /\
    forall f l, rs_dumps st = f :: l -> Forall (fun f => printable X (fr_time f)) (f :: l) ->
      (0 < N.of_nat (b_count d) < 2 ^ 64)%N -> (0 < b_box d < 2 ^ 64)%N ->
      (N.of_nat (length (f :: l) * (6 * n_size B * b_count d)) < 2 ^ 63)%N ->
      exists recs last, map (fun c => c_frame c) recs = map (shot U B d) (f :: l) /\
        k_fs k' (make_idx_name out) = Some (index_text X (n_size B) (shot U B d f) recs) /\
        Forall (stored (k_fs k') out) recs /\ parts_ok max (6 * n_size B * b_count d) out (k_fs k') recs last.
Proof.
  intros T C U X K B to_size pow3 uniform split garbage fuel args fs k' out Hg HB Hcs HS HO E.
  assert (HV : value (parse_arguments args) "resume" [] = []) by (apply (proj2 (C54_default args "resume" [])); exact HS).
  assert (HOut : arg_output (parse_arguments args) = out) by (apply value_says; exact HO).
  destruct (@main_inv T C U X K B to_size pow3 uniform split garbage Hg fuel args fs k' HV E)
    as (d & o & c & st & w' & H1 & H2 & H3 & H4 & H5 & H6).
  exists d, o, c, st, (arg_max_part (parse_arguments args)). split; [apply part_wanted|]. split; [exact H1|]. split; [exact H5|].
  intros f l Hl HP Hn Hbox Hb. rewrite HOut in H6. rewrite Hl in H6.
  assert (SQ : sequence_ok X (n_size B) (b_count d) (shot U B d f :: map (shot U B d) l)).
  { split; [apply (@shots_ok T C U X B HB d (f :: l) H2 HP)|]. destruct HB as (Q & _). split; [exact Hn|]. split; [lia|]. exact Hbox. }
  destruct (@session_ok T X (n_size B) out (arg_max_part (parse_arguments args)) (b_count d) (shot U B d f)
    (map (shot U B d) l) new_writer fs (conj eq_refl eq_refl) eq_refl SQ) as (recs & w0 & evs & E0 & M & O & _ & _ & _ & _ & (last & Ty) & _).
  { unfold bytes_of. cbn [length] in Hb |- *. rewrite map_length. exact Hb. }
  cbn [map] in H6. rewrite E0 in H6. injection H6 as _ <-. exists recs, last. split; [exact M|]. cbn [k_fs].
  split; [exact (od_idx O)|]. split; [exact (od_stored O)|]. apply tidy_parts; [exact Ty|].
  destruct SQ as (F & _). apply frames_size in F. rewrite <- M in F. rewrite Forall_forall in *.
  intros z I. apply F. apply (in_map (fun c => c_frame c)), I.
Qed.
Print Assumptions C80_parts.

(** Stopping at time [a] and resuming to [b] leaves on the disk the stream that running to [b] at once leaves:
    both replay the same frames.  Wanted: an engine and a solver without memory (see C79), no clamping, a last
    frame after time 0 whose numbers come back from the files. *)
Theorem C80_resume : forall (T C : Type) (U : NumOps T) (X : TextOps T) (K : Colors C) (B : Codec T C)
    to_size pow3 uniform split garbage fuel args a b fs d o c st1 st D f out t1 t2,
  (forall n i, length (garbage n i) = 6 * n) -> sized B -> (N.of_nat (n_size B) < 2 ^ 64)%N ->
  ~ In "="%char a -> ~ In "="%char b -> ~ In "="%char out -> out <> [] ->
  silent args "resume" -> says_or args "output" (chars "/tmp/nbody/main-stream") out ->
  t_read X a = Some t1 -> t_read X b = Some t2 -> (forall t, nltb U t t1 = true -> nltb U t t2 = true) ->
  let m := parse_arguments args in
  begins_at U X K to_size pow3 uniform fuel m fs d -> create_engine U X m = Some o ->
  create_solver U X fuel m = Some (Some c) ->
  stateless (6 * b_count d) (object_ef U (b_count d) (b_mass d) split o) -> cr_clamp c = false ->
  memoryless U (cr_max_step c) (cr_solver c) ->
  simulation U X split garbage fuel (parse_arguments (args ++ [option_text "max_time" a])) d o c = Some (Returned 0 st1) ->
  simulation U X split garbage fuel (parse_arguments (args ++ [option_text "max_time" b])) d o c = Some (Returned 0 st) ->
  rs_dumps st1 = D ++ [f] -> nleb U (fr_time f) (nlit U 0) = false ->
  t_read X (t_show X (fr_time f)) = Some (fr_time f) -> (N.of_nat (fr_step f) < 2 ^ 64)%N ->
  Forall (recovers B) (b_mass d) -> Forall (recovers B) (fr_y f) ->
  Forall (fun f => printable X (fr_time f)) (rs_dumps st) ->
  (0 < N.of_nat (b_count d) < 2 ^ 64)%N -> (0 < b_box d < 2 ^ 64)%N ->
  (N.of_nat (length (rs_dumps st) * (6 * n_size B * b_count d)) < 2 ^ 63)%N ->
  let program := main U X K B to_size pow3 uniform split garbage fuel in
  exists first k1 k2 k0,
    program (args ++ [option_text "max_time" a]) (fresh_disk fs) = Some (Exit 0 k1) /\
    program (args ++ [option_text "max_time" b; option_text "resume" out]) (fresh_disk (k_fs k1)) = Some (Exit 0 k2) /\
    program (args ++ [option_text "max_time" b]) (fresh_disk fs) = Some (Exit 0 k0) /\
    replays X (n_size B) (k_fs k0) out (b_count d) first (map (shot U B d) (rs_dumps st)) /\
    replays X (n_size B) (k_fs k2) out (b_count d) first (map (shot U B d) (rs_dumps st)).
Proof.
  intros T C U X K B to_size pow3 uniform split garbage fuel args a b fs d o c st1 st D f out t1 t2 Hg HB Hcs Na Nb No Ho HS HO
    R1 R2 HT m H1 H2 H3 H4 H5 H6 S1 S0 HD HPos HRd HStep VM VY HPr Hn Hbox Hb program.
  assert (HV : value m "resume" [] = []) by (apply (proj2 (C54_default args "resume" [])); exact HS).
  assert (HOut : arg_output m = out) by (apply value_says; exact HO).
  assert (K1 : ~ In "="%char (chars "max_time")) by (cbn; intuition discriminate).
  assert (MT : forall v t, ~ In "="%char v -> t_read X v = Some t ->
    arg_max_time U X (parse_arguments (args ++ [option_text "max_time" v])) = t).
  { intros v t Nv Rv. rewrite (@parse_option args "max_time" v K1 Nv). unfold arg_max_time, number. rewrite lookup_assign.
    rewrite text_eqb_refl, Rv. reflexivity. }
  rewrite <- HOut.
  apply (@resume_program T C U X K B to_size pow3 uniform split garbage HB Hg fuel args a b fs d o c st1 st D f); auto;
    try (fold m; rewrite HOut; assumption).
  intros t. rewrite (MT _ _ Na R1), (MT _ _ Nb R2). apply HT.
Qed.
Print Assumptions C80_resume.

(** ** Cases: integers of one byte, Euler steps of length 1 *)
Definition signed_byte (x : Z) : text := [ascii_of_N (Z.to_N (x mod 256))].
Definition byte_value (b : text) : Z :=
  match b with [c] => let v := Z.of_N (N_of_ascii c) in if Z.ltb v 128 then v else (v - 256)%Z | _ => 0%Z end.
Definition Zcodec : Codec Z nat :=
  mkCodec 1 signed_byte byte_value (fun c => repeat (ascii_of_nat c) 16)
    (fun b => match b with c :: _ => nat_of_ascii c | [] => 0 end).
Definition Zgarbage (n i : nat) : list Z := repeat 77%Z (6 * n).
Definition Zsplit (_ : nat) (_ : Z) (_ : list Z) (_ _ : nat) (l : list nat) : list nat := l.
Definition Zprogram : list text -> disk -> option ModelMain.ended :=
  main Zops Ztext Zcolors Zcodec Zsize (fun x => x * x * x)%Z (fun _ _ => 0%Z) Zsplit Zgarbage 20.
Definition file_s (content : text) : files := fun n => if text_eqb n (chars "s") then Some content else None.
Definition case_args : list text :=
  map chars ["--initial_state=s"; "--initial_type=G1"; "--engine=simple"; "--solver=euler"; "--max_step=1"; "--dump_step=1";
             "--check_step=5"; "--output=o"]%string.
(** a body that moves along x *)
Definition alone : files := file_s (chars "1 2 3 1 0 0 7").
(** two bodies that attract each other *)
Definition pair : files := file_s (chars "100 9 9 0 0 0 5" ++ [newline] ++ chars "101 9 9 0 0 0 3").
Definition until (t : string) : text := option_text "max_time" (chars t).
Definition resuming : text := option_text "resume" (chars "o").

Lemma Zcodec_sized : sized Zcodec.
Proof.
  split; [cbn; lia|]. split; [reflexivity|]. intros c. cbn [k_bytes Zcodec]. apply repeat_length.
Qed.
Lemma Zgarbage_length n i : length (Zgarbage n i) = 6 * n.
Proof. apply repeat_length. Qed.

Example C80_all_or_nothing_case :
  (exists k', Zprogram (case_args ++ [until "3"]) (fresh_disk alone) = Some (Exit 0 k') /\
     k_fs k' (chars "o.mass") = Some ["007"%char]) /\
  Zprogram (case_args ++ [until "3"; chars "--solver=newton"]) (fresh_disk alone) = Some (Exit (-1) (fresh_disk alone)) /\
  Zprogram (case_args ++ [until "3"; resuming]) (fresh_disk alone) = Some (Exit (-1) (fresh_disk alone)).
Proof.
  split; [|split]; [|vm_compute; reflexivity|vm_compute; reflexivity].
  eexists. split; [vm_compute; reflexivity|vm_compute; reflexivity].
Qed.

Example C80_refuses_case : let args := [chars "--engine=openmp"] in
  says_or args "solver" [] [] /\ ~ known ([] : text) /\ silent args "solver".
Proof.
  assert (S : silent [chars "--engine=openmp"] "solver").
  { intros arg v [<-|[]] (E & _). vm_compute in E. discriminate. }
  split; [right; auto|]. split; [|exact S].
  intros (name & Hn & E). cbn in Hn. repeat (destruct Hn as [<-|Hn]; [discriminate|]). destruct Hn.
Qed.

Lemma case_start : begins_at Zops Ztext Zcolors Zsize (fun x => x * x * x)%Z (fun _ _ => 0%Z) 20 (parse_arguments case_args) alone
  (mkData 1 0%Z 0 3 [V3 1 2 3]%Z [V3 1 0 0]%Z [7%Z] [1] [0%Z]).
Proof. vm_compute. reflexivity. Qed.

(** stopped after 3 steps, resumed for 2 more *)
Example C80_resume_case : exists first k1 k2 k0 frames,
  Zprogram (case_args ++ [until "3"]) (fresh_disk alone) = Some (Exit 0 k1) /\
  Zprogram (case_args ++ [until "5"; resuming]) (fresh_disk (k_fs k1)) = Some (Exit 0 k2) /\
  Zprogram (case_args ++ [until "5"]) (fresh_disk alone) = Some (Exit 0 k0) /\
  replays Ztext 1 (k_fs k0) (chars "o") 1 first frames /\ replays Ztext 1 (k_fs k2) (chars "o") 1 first frames /\
  map (fun b => (d_time b, d_step b, byte_value (firstn 1 (d_vert b)))) frames =
    [(0, 0%N, 1); (1, 1%N, 2); (2, 2%N, 3); (3, 3%N, 4); (4, 4%N, 5); (5, 5%N, 6)]%Z.
Proof.
  set (d := mkData 1 0%Z 0 3 [V3 1 2 3]%Z [V3 1 0 0]%Z [7%Z] [1] [0%Z]).
  assert (EC : exists c, create_solver Zops Ztext 20 (parse_arguments case_args) = Some (Some c) /\ cr_clamp c = false /\
    cr_solver c = SEuler None) by (eexists; split; [vm_compute; reflexivity|split; reflexivity]).
  destruct EC as (c & EC & EC1 & EC2).
  assert (ES : forall t, t = "3"%string \/ t = "5"%string -> exists st, simulation Zops Ztext Zsplit Zgarbage 20
    (parse_arguments (case_args ++ [until t])) d ESimple c = Some (Returned 0 st)).
  { intros t Ht. injection EC as <-. destruct Ht as [-> | ->]; eexists; vm_compute; reflexivity. }
  destruct (ES "3"%string (or_introl eq_refl)) as (st1 & S1). destruct (ES "5"%string (or_intror eq_refl)) as (st & S0).
  assert (D1 : exists D f, rs_dumps st1 = D ++ [f] /\ fr_time f = 3%Z /\ fr_step f = 3 /\ fr_y f = [4; 2; 3; 1; 0; 0]%Z).
  { injection EC as <-. vm_compute in S1. injection S1 as <-. eexists [_; _; _], _. vm_compute. auto. }
  assert (D0 : map (fun f => (fr_time f, fr_step f, firstn 1 (fr_y f))) (rs_dumps st) =
    [(0, 0%nat, [1]); (1, 1%nat, [2]); (2, 2%nat, [3]); (3, 3%nat, [4]); (4, 4%nat, [5]); (5, 5%nat, [6])]%Z).
  { injection EC as <-. vm_compute in S0. injection S0 as <-. vm_compute. reflexivity. }
  destruct D1 as (D & f & HD & F1 & F2 & F3).
  assert (PR : Forall (fun f : frame Z => printable Ztext (fr_time f)) (rs_dumps st)).
  { apply Forall_forall. intros g Hg. apply (in_map (fun f => (fr_time f, fr_step f, firstn 1 (fr_y f)))) in Hg. rewrite D0 in Hg.
    assert (Q : In (fr_time g) [0; 1; 2; 3; 4; 5]%Z) by (cbn in Hg |- *; intuition congruence). clear Hg.
    cbn in Q. repeat (destruct Q as [<-|Q]; [repeat split; try discriminate; cbn; try (intuition discriminate); repeat constructor; eexists; vm_compute; reflexivity|]).
    destruct Q. }
  destruct (@C80_resume Z nat Zops Ztext Zcolors Zcodec Zsize (fun x => x * x * x)%Z (fun _ _ => 0%Z) Zsplit Zgarbage 20 case_args
    (chars "3") (chars "5") alone d ESimple c st1 st D f (chars "o") 3%Z 5%Z)
    as (first & k1 & k2 & k0 & P1 & P2 & P3 & P4 & P5); auto.
  - exact Zgarbage_length.
  - exact Zcodec_sized.
  - reflexivity.
  - cbn. intuition discriminate.
  - cbn. intuition discriminate.
  - cbn. intuition discriminate.
  - discriminate.
  - refine (proj1 (lookup_none_iff _ _) _). reflexivity.
  - left. refine (proj1 (lookup_iff _ _ _) _). reflexivity.
  - intros t H. cbn in H |- *. apply Z.ltb_lt in H. apply Z.ltb_lt. lia.
  - exact case_start.
  - apply object_stateless; auto.
  - rewrite EC2. exact I.
  - rewrite F1. reflexivity.
  - rewrite F1. reflexivity.
  - rewrite F2. reflexivity.
  - repeat constructor.
  - rewrite F3. repeat constructor.
  - split; reflexivity.
  - split; reflexivity.
  - rewrite <- (map_length (fun f => (fr_time f, fr_step f, firstn 1 (fr_y f)))), D0. reflexivity.
  - exists first, k1, k2, k0, (map (shot Zops Zcodec d) (rs_dumps st)).
    split; [exact P1|]. split; [exact P2|]. split; [exact P3|]. split; [exact P4|]. split; [exact P5|].
    rewrite map_map. transitivity (map (fun q : Z * nat * list Z =>
      (fst (fst q), (N.of_nat (snd (fst q)) mod 2 ^ 64)%N, byte_value (signed_byte (nth 0 (snd q) 0%Z))))
      (map (fun f => (fr_time f, fr_step f, firstn 1 (fr_y f))) (rs_dumps st))).
    + rewrite map_map. apply map_ext. intros g. unfold shot. cbn. destruct (fr_y g); reflexivity.
    + rewrite D0. vm_compute. reflexivity.
Qed.

(** With clamping, a resumed simulation leaves the box: its size is not read back. *)
Theorem C80_clamp_refuted : exists k1 k2 k0, let args := case_args ++ [option_text "clamp" (chars "1")] in
  Zprogram (args ++ [until "1"]) (fresh_disk alone) = Some (Exit 0 k1) /\
  Zprogram (args ++ [until "6"; resuming]) (fresh_disk (k_fs k1)) = Some (Exit 0 k2) /\
  Zprogram (args ++ [until "6"]) (fresh_disk alone) = Some (Exit 0 k0) /\
  option_map (fun t => map (fun i => byte_value (firstn 1 (skipn (6 * i) t))) (seq 0 7)) (k_fs k0 (chars "o0.dat")) =
    Some [1; 2; 3; 4; -1; 0; 1]%Z /\
  option_map (fun t => map (fun i => byte_value (firstn 1 (skipn (6 * i) t))) (seq 0 7)) (k_fs k2 (chars "o0.dat")) =
    Some [1; 2; 3; 4; 5; 6; 7]%Z.
Proof.
  cbv zeta.
  assert (E : forall r : option ModelMain.ended, match r with Some (Exit 0 _) => True | _ => False end -> exists k, r = Some (Exit 0 k) /\
    k = match r with Some (Exit _ k) => k | _ => fresh_disk (fun _ => None) end).
  { intros [[[| |] k|]|]; try contradiction. intros _. exists k. auto. }
  destruct (E (Zprogram ((case_args ++ [option_text "clamp" (chars "1")]) ++ [until "1"]) (fresh_disk alone))) as (k1 & E1 & Q1).
  { vm_compute. exact I. }
  destruct (E (Zprogram ((case_args ++ [option_text "clamp" (chars "1")]) ++ [until "6"; resuming]) (fresh_disk (k_fs k1)))) as (k2 & E2 & Q2).
  { rewrite Q1. vm_compute. exact I. }
  destruct (E (Zprogram ((case_args ++ [option_text "clamp" (chars "1")]) ++ [until "6"]) (fresh_disk alone))) as (k0 & E0 & Q0).
  { vm_compute. exact I. }
  exists k1, k2, k0. split; [exact E1|]. split; [exact E2|]. split; [exact E0|].
  split; [rewrite Q0; vm_compute; reflexivity|]. rewrite Q2, Q1. vm_compute. reflexivity.
Qed.
Print Assumptions C80_clamp_refuted.

(** Without the file of the masses a simulation resumes as well, of bodies without mass: they no longer attract
    each other. *)
Theorem C80_masses_refuted : exists k1 k2 k3,
  Zprogram (case_args ++ [until "1"]) (fresh_disk pair) = Some (Exit 0 k1) /\
  Zprogram (case_args ++ [until "3"; resuming]) (fresh_disk (k_fs k1)) = Some (Exit 0 k2) /\
  Zprogram (case_args ++ [until "3"; resuming])
    (fresh_disk (fun n => if text_eqb n (chars "o.mass") then None else k_fs k1 n)) = Some (Exit 0 k3) /\
  option_map (fun t => map (fun i => byte_value (firstn 1 (skipn (12 * i + 6) t))) (seq 0 4)) (k_fs k2 (chars "o0.dat")) =
    Some [0; 3; 6; 4]%Z /\
  option_map (fun t => map (fun i => byte_value (firstn 1 (skipn (12 * i + 6) t))) (seq 0 4)) (k_fs k3 (chars "o0.dat")) =
    Some [0; 3; 3; 3]%Z.
Proof.
  assert (E : forall r : option ModelMain.ended, match r with Some (Exit 0 _) => True | _ => False end -> exists k, r = Some (Exit 0 k) /\
    k = match r with Some (Exit _ k) => k | _ => fresh_disk (fun _ => None) end).
  { intros [[[| |] k|]|]; try contradiction. intros _. exists k. auto. }
  destruct (E (Zprogram (case_args ++ [until "1"]) (fresh_disk pair))) as (k1 & E1 & Q1).
  { vm_compute. exact I. }
  destruct (E (Zprogram (case_args ++ [until "3"; resuming]) (fresh_disk (k_fs k1)))) as (k2 & E2 & Q2).
  { rewrite Q1. vm_compute. exact I. }
  destruct (E (Zprogram (case_args ++ [until "3"; resuming])
    (fresh_disk (fun n => if text_eqb n (chars "o.mass") then None else k_fs k1 n)))) as (k3 & E3 & Q3).
  { rewrite Q1. vm_compute. exact I. }
  exists k1, k2, k3. split; [exact E1|]. split; [exact E2|]. split; [exact E3|].
  split; [rewrite Q2, Q1; vm_compute; reflexivity|]. rewrite Q3, Q1. vm_compute. reflexivity.
Qed.
Print Assumptions C80_masses_refuted.
