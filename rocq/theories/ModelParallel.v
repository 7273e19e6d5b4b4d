(** OpenMP loops: nbody/nbody_engine_openmp.cpp.

    The body of each [#pragma omp parallel for] loop is written as a program over shared memory
    whose actions (one read or one write of one array element) are atomic.  A parallel execution
    is any interleaving of the actions of all iterations: this includes every assignment of
    iterations to threads (a thread running its iterations one after another is one of the
    interleavings), static or dynamic.  Weak-memory effects are not modelled; they are excluded by
    the absence of data races (theorem [C05]). *)
From Coq Require Import ZArith List Arith.
From Verif Require Import Num Arr ModelVertex ModelForce ModelSum ModelEngine.
Import ListNotations.
Set Implicit Arguments.

Section Par.
  Context {T : Type}.

  (** shared memory: array number -> array *)
  Definition mem := list (list T).
  Definition mrd (m : mem) (a i : nat) : option T := let* l := rd m a in rd l i.
  Definition mwr (m : mem) (a i : nat) (v : T) : option mem :=
    let* l := rd m a in let* l := wr l i v in wr m a l.

  (** one loop iteration: local computation between shared accesses is in the continuations *)
  Inductive prog : Type :=
  | PRet : prog
  | PRd (a i : nat) (k : T -> prog) : prog
  | PWr (a i : nat) (v : T) (k : prog) : prog.

  (** one iteration alone *)
  Fixpoint exec (p : prog) (m : mem) : option mem :=
    match p with
    | PRet => Some m
    | PRd a i k => match mrd m a i with Some v => exec (k v) m | None => None end
    | PWr a i v k => match mwr m a i v with Some m' => exec k m' | None => None end
    end.

  (** the iterations in order: the sequential loop *)
  Fixpoint exec_seq (ps : list prog) (m : mem) : option mem :=
    match ps with
    | [] => Some m
    | p :: r => match exec p m with Some m' => exec_seq r m' | None => None end
    end.

  (** one atomic action of one iteration *)
  Inductive act : prog -> mem -> prog -> mem -> Prop :=
  | act_rd a i k m v : mrd m a i = Some v -> act (PRd a i k) m (k v) m
  | act_wr a i v k m m' : mwr m a i v = Some m' -> act (PWr a i v k) m k m'.

  (** one atomic action of some iteration *)
  Inductive par_step : list prog * mem -> list prog * mem -> Prop :=
  | par_one ps1 p ps2 m p' m' :
      act p m p' m' -> par_step (ps1 ++ p :: ps2, m) (ps1 ++ p' :: ps2, m').

  Inductive par_run : list prog * mem -> list prog * mem -> Prop :=
  | par_refl c : par_run c c
  | par_trans c1 c2 c3 : par_step c1 c2 -> par_run c2 c3 -> par_run c1 c3.

  (** the iteration's next action is out of bounds *)
  Definition crashed (p : prog) (m : mem) : Prop :=
    match p with
    | PRet => False
    | PRd a i _ => mrd m a i = None
    | PWr a i v _ => mwr m a i v = None
    end.

  (** two iterations are about to access the same cell, at least one of them writing *)
  Definition accesses (p : prog) (a i : nat) : Prop :=
    match p with PRet => False | PRd a' i' _ => a = a' /\ i = i' | PWr a' i' _ _ => a = a' /\ i = i' end.
  Definition writes (p : prog) (a i : nat) : Prop :=
    match p with PWr a' i' _ _ => a = a' /\ i = i' | _ => False end.
End Par.
Arguments prog : clear implicits.
Arguments mem : clear implicits.

Section OpenMP.
  Context {T : Type} (N : NumOps T).
  (** array numbers of the operands *)
  Variables (A B C : nat).

  (** nbody_engine_openmp.cpp:128-131, [copy_buffer] *)
  Definition omp_copy (i : nat) : prog T := PRd B i (fun v => PWr A i v PRet).
  (** nbody_engine_openmp.cpp:148-151, [fill_buffer] *)
  Definition omp_fill (value : T) (i : nat) : prog T := PWr A i value PRet.
  (** nbody_engine_openmp.cpp:174-177, [fmadd_inplace] *)
  Definition omp_fmadd_inplace (c : T) (i : nat) : prog T :=
    PRd A i (fun ai => PRd B i (fun bi => PWr A i (nadd N ai (nmul N bi c)) PRet)).
  (** nbody_engine_openmp.cpp:208-211, [fmadd] *)
  Definition omp_fmadd (d : T) (i : nat) : prog T :=
    PRd B i (fun bi => PRd C i (fun ci => PWr A i (nadd N bi (nmul N ci d)) PRet)).

  (** nbody_engine_openmp.cpp:97-98: one coordinate; each read and write of [rx[body_n]] is a
      separate action *)
  Definition omp_clamp_coord (b : T) (idx : nat) (k : prog T) : prog T :=
    let diam := nmul N (nlit N 2) b in
    let second :=
      PRd A idx (fun x =>
        if nltb N x (nopp N b)
        then PRd A idx (fun x => PWr A idx (nadd N x diam) k) else k) in
    PRd A idx (fun x =>
      if nltb N b x then PRd A idx (fun x => PWr A idx (nsub N x diam) second) else second).
  (** nbody_engine_openmp.cpp:95-103, [clamp] *)
  Definition omp_clamp (count : nat) (b : T) (body_n : nat) : prog T :=
    omp_clamp_coord b body_n
      (omp_clamp_coord b (count + body_n) (omp_clamp_coord b (2 * count + body_n) PRet)).

  (** read the three components of a vector *)
  Definition prd3 (a count off i : nat) (k : vec3 T -> prog T) : prog T :=
    PRd a (off * count + i) (fun x => PRd a ((off + 1) * count + i) (fun y =>
      PRd a ((off + 2) * count + i) (fun z => k (V3 x y z)))).

  (** nbody_engine_openmp.cpp:60-69: inner loop over [body2], [n] iterations left.
      Arrays: A = f, B = y, C = mass. *)
  Fixpoint omp_pairs (count body1 : nat) (v1 : vec3 T) (n body2 : nat) (tf : vec3 T)
    (k : vec3 T -> prog T) : prog T :=
    match n with
    | O => k tf
    | S n' =>
        if Nat.eqb body1 body2 then omp_pairs count body1 v1 n' (S body2) tf k
        else
          prd3 B count 0 body2 (fun v2 =>
            PRd C body1 (fun m1 => PRd C body2 (fun m2 =>
              omp_pairs count body1 v1 n' (S body2) (vadd N tf (force N v1 v2 m1 m2)) k)))
    end.
  (** nbody_engine_openmp.cpp:56-76, [fcompute] *)
  Definition omp_fcompute (count body1 : nat) : prog T :=
    prd3 B count 0 body1 (fun v1 =>
      omp_pairs count body1 v1 count 0 (vzero N) (fun tf =>
        PRd B (3 * count + body1) (fun p => PWr A body1 p (
        PRd B (4 * count + body1) (fun q => PWr A (count + body1) q (
        PRd B (5 * count + body1) (fun r => PWr A (2 * count + body1) r (
        PRd C body1 (fun m => PWr A (3 * count + body1) (ndiv N (vx tf) m) (
        PRd C body1 (fun m => PWr A (4 * count + body1) (ndiv N (vy tf) m) (
        PRd C body1 (fun m => PWr A (5 * count + body1) (ndiv N (vz tf) m) PRet))))))))))))).

  (** nbody_engine_openmp.cpp:257-268, [fmaddn_corr]: A = a, B = corr; [cb] pairs each of the
      [csize] coefficients with the number of its array (the checks of lines 217-249 are
      as in [ModelEngine.fmaddn_corr]; [c] is read-only during the loop). *)
  Fixpoint omp_fmaddn_corr (cb : list (T * nat)) (i : nat) : prog T :=
    match cb with
    | [] => PRet
    | (ck, bk) :: r =>
        if neqb N ck (nlit N 0) then omp_fmaddn_corr r i
        else
          PRd bk i (fun bki => PRd A i (fun ai => PRd B i (fun ci =>
            let s := summation_step (nadd N) (nsub N) ai (nmul N bki ck) ci in
            PWr B i (snd s) (PWr A i (fst s) (omp_fmaddn_corr r i)))))
    end.

  (** nbody_engine_openmp.cpp:284-296, [fmaxabs]: [reduction(max : result)].  Each thread folds
      its iterations ([part]) into a private copy that starts from the identity [lowest] of the
      reduction; the private copies are then combined with the original in some order. *)
  Definition omp_max (r v : T) : T := if nltb N r v then v else r.
  Definition omp_max_part (a : list T) (lowest : T) (part : list nat) : option T :=
    fold_left (fun r n => let* r := r in let* an := rd a n in Some (omp_max r (nabs N an)))
      part (Some lowest).
  Definition omp_fmaxabs (a : list T) (lowest : T) (parts : list (list nat)) : option T :=
    let* a0 := rd a 0 in
    fold_left (fun r part => let* r := r in let* p := omp_max_part a lowest part in
                             Some (omp_max r p)) parts (Some (nabs N a0)).
End OpenMP.
