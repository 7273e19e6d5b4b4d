(** Arithmetic used by the model.

    The C++ code computes in [nbcoord_t] (nbody/nbtype.h:15-26, [double] by default).
    Every numerical definition of the model is generic in a record of operations, so that a
    theorem proved for all [NumOps] holds bit for bit for IEEE doubles, floats and quads,
    while algebraic theorems are stated at the instance [Rops]. *)
From Coq Require Import ZArith Reals SpecFloat.
Set Implicit Arguments.

Record NumOps (T : Type) : Type := mkNumOps {
  nadd : T -> T -> T;      (* a + b *)
  nsub : T -> T -> T;      (* a - b *)
  nmul : T -> T -> T;      (* a * b *)
  ndiv : T -> T -> T;      (* a / b *)
  nopp : T -> T;           (* -a *)
  nabs : T -> T;           (* fabs(a) *)
  nsqrt : T -> T;          (* sqrt(a) *)
  nltb : T -> T -> bool;   (* a < b   (a > b is nltb b a) *)
  nleb : T -> T -> bool;   (* a <= b  (a >= b is nleb b a) *)
  neqb : T -> T -> bool;   (* a == b *)
  nlit : Z -> T;           (* integer literals, static_cast<nbcoord_t>(z) *)
  nmind : T                (* nbody::MinDistance, nbody/nbtype.h:79 *)
}.

(** Exact real arithmetic.  The softening constant is a parameter: theorems are stated for every
    positive one, so they cover 1e-8 as well as the double nearest to it. *)
Definition Rops (mind : R) : NumOps R := {|
  nadd := Rplus; nsub := Rminus; nmul := Rmult; ndiv := Rdiv; nopp := Ropp;
  nabs := Rabs; nsqrt := sqrt;
  nltb := fun a b => if Rlt_dec a b then true else false;
  nleb := fun a b => if Rle_dec a b then true else false;
  neqb := fun a b => if Req_EM_T a b then true else false;
  nlit := IZR; nmind := mind |}.

(** IEEE-754 binary64, from the standard library's executable specification (used for
    floating-point witnesses). *)
Definition F_prec : Z := 53.
Definition F_emax : Z := 1024.
Definition F_of_Z (z : Z) : spec_float :=
  match z with
  | Z0 => S754_zero false
  | Zpos p => binary_normalize F_prec F_emax (Zpos p) 0 false
  | Zneg p => binary_normalize F_prec F_emax (Zneg p) 0 true
  end.
(** 1e-8 rounded to the nearest double: 1/10^8 is correctly rounded because both operands are
    exact. *)
Definition F_mind : spec_float :=
  SFdiv F_prec F_emax (F_of_Z 1) (F_of_Z 100000000).
Definition Fops : NumOps spec_float := {|
  nadd := SFadd F_prec F_emax; nsub := SFsub F_prec F_emax;
  nmul := SFmul F_prec F_emax; ndiv := SFdiv F_prec F_emax;
  nopp := SFopp; nabs := SFabs; nsqrt := SFsqrt F_prec F_emax;
  nltb := SFltb; nleb := SFleb; neqb := SFeqb;
  nlit := F_of_Z; nmind := F_mind |}.

(** Integers: a cheap executable arithmetic for concrete examples of the theorems that hold for
    every arithmetic. *)
Definition Zops : NumOps Z := {|
  nadd := Z.add; nsub := Z.sub; nmul := Z.mul; ndiv := Z.div; nopp := Z.opp;
  nabs := Z.abs; nsqrt := Z.sqrt;
  nltb := Z.ltb; nleb := Z.leb; neqb := Z.eqb;
  nlit := fun z => z; nmind := 1%Z |}.
