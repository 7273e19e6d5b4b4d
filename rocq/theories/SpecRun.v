(** Specifications for the simulation loop. *)
From Coq Require Import ZArith Reals List Arith.
From Verif Require Import Num Arr ModelEngine ModelSolverBase ModelSolver ModelRun.
Import ListNotations.
Set Implicit Arguments.

Section Run.
  Context {T E : Type} (N : NumOps T) (ps : nat)
          (ef : E -> nat -> T -> list T -> list T -> option (E * list T))
          (garbage : nat -> list T) (count : nat) (clamp : bool) (box dt : T).

  (** one step of the simulation without any output: fold the positions into the box if asked to,
      then let the solver advance by [dt] *)
  Definition plain_step (s : @solver T) (e : @eng T E) : option (@solver T * @eng T E) :=
    let* y := if clamp then engine_clamp N count box (e_y e) else Some (e_y e) in
    advise N ps ef garbage dt s (mkEng y (e_time e) (e_step e) (e_priv e) (e_nbuf e)).

  (** [frames] are the states after each of the steps that take [(s, e)] to [(s', e')] *)
  Inductive simulates : @solver T -> @eng T E -> list (frame T) -> @solver T -> @eng T E -> Prop :=
  | sim_nil s e : simulates s e [] s e
  | sim_cons s e s1 e1 frames s' e' :
      plain_step s e = Some (s1, e1) -> simulates s1 e1 frames s' e' ->
      simulates s e (mkFrame (e_time e1) (e_step e1) (e_y e1) :: frames) s' e'.
End Run.

(** Of the items [l], in order, with times [time x], the [picked] ones are those that come when
    [due last t] says so, where [last] is the time of the item picked before ([last0] at first). *)
Fixpoint cadence {A T : Type} (time : A -> T) (due : T -> T -> Prop) (last : T) (l picked : list A)
  : Prop :=
  match picked with
  | [] => Forall (fun x => ~ due last (time x)) l
  | d :: picked =>
      exists before after, l = before ++ d :: after /\
        Forall (fun x => ~ due last (time x)) before /\ due last (time d) /\
        cadence time due (time d) after picked
  end.

(** feeding a stream *)
Fixpoint write_all {T W : Type} (write : W -> frame T -> W * bool) (w : W) (l : list (frame T))
  : W * list bool :=
  match l with
  | [] => (w, [])
  | f :: l => let (w, b) := write w f in
              let (w, bs) := write_all write w l in (w, b :: bs)
  end.

(** the state a run stops in, and whether no error was reported *)
Definition final {T E W : Type} (r : @run_result T E W) : run_state :=
  match r with Returned _ st => st | Unfinished st => st end.
Definition succeeded {T E W : Type} (r : @run_result T E W) : bool :=
  match r with Returned code _ => Z.eqb code 0 | Unfinished _ => true end.

(** The frames [l] were written to the stream [w], in this order, which is now [w']: successfully if
    [good], else all but the last one successfully.  Nothing is written to no stream. *)
Definition fed {T W : Type} (write : W -> frame T -> W * bool) (w : option W) (l : list (frame T))
  (w' : option W) (good : bool) : Prop :=
  match w with
  | None => l = [] /\ w' = None /\ good = true
  | Some w => w' = Some (fst (write_all write w l)) /\
      if good then Forall (fun b => b = true) (snd (write_all write w l))
      else exists bs, snd (write_all write w l) = bs ++ [false] /\ Forall (fun b => b = true) bs
  end.

(** the time of the next item is at most a tenth of a step before [last + interval] *)
Definition tenth_due (dt interval last t : R) : Prop := (last + interval - dt / 10 <= t)%R.
(** items 1, 2, 3, ... of a list of states: every [k]-th one *)
Definition every {A : Type} (k : nat) (l : list A) : list A :=
  map snd (filter (fun x => Nat.eqb (fst x mod k) 0) (combine (seq 1 (length l)) l)).
(** consecutive items lie between [lo] and [hi] apart, the first one from [last] *)
Fixpoint spaced {A : Type} (time : A -> R) (lo hi last : R) (l : list A) : Prop :=
  match l with
  | [] => True
  | d :: l => (last + lo <= time d < last + hi)%R /\ spaced time lo hi (time d) l
  end.
