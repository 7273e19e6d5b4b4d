(** Butcher tableaux: nbody/nbody_butcher_table.h, nbody/nbody_butcher_table.cpp and
    nbody/nbody_solver_{rkf,rkck,rkdp,rkdverk,rkgl,rklc}.cpp.

    [q n d] is the C++ expression [n_f / d_f]; a negative numerator [-n_f / d_f] is written
    [q (-n) d] (negating a non-zero literal is exact).  The coefficients of rk4 are quotients of
    [double]s, which is [nbcoord_t] in the default build.  A row of [get_a] is a C array of its own
    length: reading beyond it is [None] for the model of the solver. *)
From Coq Require Import ZArith List.
From Verif Require Import Num.
Import ListNotations.
Local Open Scope Z_scope.
Set Implicit Arguments.

(** nbody_butcher_table.h:7-20, [nbody_butcher_table] *)
Record table (T : Type) : Type := mkTable {
  bt_steps : nat;           (* get_steps *)
  bt_a : list (list T);     (* get_a *)
  bt_b1 : list T;           (* get_b1 *)
  bt_b2 : list T;           (* get_b2 *)
  bt_c : list T;            (* get_c *)
  bt_implicit : bool;       (* is_implicit *)
  bt_embedded : bool        (* is_embedded *)
}.

Section Tables.
  Context {T : Type} (N : NumOps T).
  Definition q (n d : Z) : T := ndiv N (nlit N n) (nlit N d).

  (** nbody_butcher_table.cpp:15-58 *)
  Definition tab_rk4 : table T :=
    {| bt_steps := 4;
       bt_a := [ [nlit N 0; nlit N 0];
                 [q 1 2; nlit N 0];
                 [nlit N 0; q 1 2; nlit N 0];
                 [nlit N 0; nlit N 0; nlit N 1; nlit N 0] ];
       bt_b1 := [q 1 6; q 1 3; q 1 3; q 1 6];
       bt_b2 := [q 1 6; q 1 3; q 1 3; q 1 6];
       bt_c := [nlit N 0; q 1 2; q 1 2; nlit N 1];
       bt_implicit := false; bt_embedded := false |}.

  (** nbody_solver_rkf.cpp:25-81 *)
  Definition tab_rkf : table T :=
    {| bt_steps := 13;
       bt_a := [ [nlit N 0];
                 [q 2 27];
                 [q 1 36; q 1 12];
                 [q 1 24; nlit N 0; q 1 8];
                 [q 5 12; nlit N 0; q (-25) 16; q 25 16];
                 [q 1 20; nlit N 0; nlit N 0; q 1 4; q 1 5];
                 [q (-25) 108; nlit N 0; nlit N 0; q 125 108; q (-65) 27; q 125 54];
                 [q 31 300; nlit N 0; nlit N 0; nlit N 0; q 61 225; q (-2) 9; q 13 900];
                 [nlit N 2; nlit N 0; nlit N 0; q (-53) 6; q 704 45; q (-107) 9; q 67 90; nlit N 3];
                 [q (-91) 108; nlit N 0; nlit N 0; q 23 108; q (-976) 135; q 311 54; q (-19) 60; q 17 6; q (-1) 12];
                 [q 2383 4100; nlit N 0; nlit N 0; q (-341) 164; q 4496 1025; q (-301) 82; q 2133 4100; q 45 82; q 45 164; q 18 41];
                 [q 3 205; nlit N 0; nlit N 0; nlit N 0; nlit N 0; q (-6) 41; q (-3) 205; q (-3) 41; q 3 41; q 6 41; nlit N 0];
                 [q (-1777) 4100; nlit N 0; nlit N 0; q (-341) 164; q 4496 1025; q (-289) 82; q 2193 4100; q 51 82; q 33 164; q 12 41; nlit N 0; nlit N 1] ];
       bt_b1 := [q 41 840; nlit N 0; nlit N 0; nlit N 0; nlit N 0; q 34 105; q 9 35; q 9 35; q 9 280; q 9 280; q 41 840; nlit N 0; nlit N 0];
       bt_b2 := [nlit N 0; nlit N 0; nlit N 0; nlit N 0; nlit N 0; q 34 105; q 9 35; q 9 35; q 9 280; q 9 280; nlit N 0; q 41 840; q 41 840];
       bt_c := [nlit N 0; q 2 27; q 1 9; q 1 6; q 5 12; q 1 2; q 5 6; q 1 6; q 2 3; q 1 3; nlit N 1; nlit N 0; nlit N 1];
       bt_implicit := false; bt_embedded := true |}.

  (** nbody_solver_rkck.cpp:25-72 *)
  Definition tab_rkck : table T :=
    {| bt_steps := 6;
       bt_a := [ [nlit N 0];
                 [q 1 5];
                 [q 3 40; q 9 40];
                 [q 3 10; q (-9) 10; q 6 5];
                 [q (-11) 54; q 5 2; q (-70) 27; q 35 27];
                 [q 1631 55296; q 175 512; q 575 13824; q 44275 110592; q 253 4096] ];
       bt_b1 := [q 37 378; nlit N 0; q 250 621; q 125 594; nlit N 0; q 512 1771];
       bt_b2 := [q 2825 27648; nlit N 0; q 18575 48384; q 13525 55296; q 277 14336; q 1 4];
       bt_c := [nlit N 0; q 1 5; q 3 10; q 3 5; nlit N 1; q 7 8];
       bt_implicit := false; bt_embedded := true |}.

  (** nbody_solver_rkdp.cpp:25-73 *)
  Definition tab_rkdp : table T :=
    {| bt_steps := 7;
       bt_a := [ [nlit N 0];
                 [q 1 5];
                 [q 3 40; q 9 40];
                 [q 44 45; q (-56) 15; q 32 9];
                 [q 19372 6561; q (-25360) 2187; q 64448 6561; q (-212) 729];
                 [q 9017 3168; q (-355) 33; q 46732 5247; q 49 176; q (-5103) 18656];
                 [q 35 384; nlit N 0; q 500 1113; q 125 192; q (-2187) 6784; q 11 84; nlit N 0] ];
       bt_b1 := [q 35 384; nlit N 0; q 500 1113; q 125 192; q (-2187) 6784; q 11 84; nlit N 0];
       bt_b2 := [q 5179 57600; nlit N 0; q 7571 16695; q 393 640; q (-92097) 339200; q 187 2100; q 1 40];
       bt_c := [nlit N 0; q 1 5; q 3 10; q 4 5; q 8 9; nlit N 1; nlit N 1];
       bt_implicit := false; bt_embedded := true |}.

  (** nbody_solver_rkdverk.cpp:25-74 *)
  Definition tab_rkdverk : table T :=
    {| bt_steps := 8;
       bt_a := [ [nlit N 0];
                 [q 1 6];
                 [q 4 75; q 16 75];
                 [q 5 6; q (-8) 3; q 5 2];
                 [q (-165) 64; q 55 6; q (-425) 64; q 85 96];
                 [q 12 5; nlit N (-8); q 4015 612; q (-11) 36; q 88 255];
                 [q (-8263) 15000; q 124 75; q (-643) 680; q (-81) 250; q 2484 10625; nlit N 0];
                 [q 3501 1720; q (-300) 43; q 297275 52632; q (-319) 2322; q 24068 84065; nlit N 0; q 3850 26703] ];
       bt_b1 := [q 3 40; nlit N 0; q 875 2244; q 23 72; q 264 1955; nlit N 0; q 125 11592; q 43 616];
       bt_b2 := [q 13 160; nlit N 0; q 2375 5984; q 5 16; q 12 85; q 3 44; nlit N 0; nlit N 0];
       bt_c := [nlit N 0; q 1 6; q 4 15; q 2 3; q 5 6; nlit N 1; q 1 15; nlit N 1];
       bt_implicit := false; bt_embedded := true |}.

  (** nbody_solver_rkgl.cpp:25-69 *)
  Definition tab_rkgl : table T :=
    let s15 := nsqrt N (nlit N 15) in   (* nbody_solver_rkgl.cpp:3 *)
    {| bt_steps := 3;
       bt_a := [ [q 5 36; nsub N (q 2 9) (ndiv N s15 (nlit N 15)); nsub N (q 5 36) (ndiv N s15 (nlit N 30))];
                 [nadd N (q 5 36) (ndiv N s15 (nlit N 24)); q 2 9; nsub N (q 5 36) (ndiv N s15 (nlit N 24))];
                 [nadd N (q 5 36) (ndiv N s15 (nlit N 30)); nadd N (q 2 9) (ndiv N s15 (nlit N 15)); q 5 36] ];
       bt_b1 := [q 5 18; q 4 9; q 5 18];
       bt_b2 := [q (-5) 6; q 8 3; q (-5) 6];
       bt_c := [nsub N (q 1 2) (ndiv N s15 (nlit N 10)); q 1 2; nadd N (q 1 2) (ndiv N s15 (nlit N 10))];
       bt_implicit := true; bt_embedded := false |}.

  (** nbody_solver_rklc.cpp:24-68 *)
  Definition tab_rklc : table T :=
    {| bt_steps := 3;
       bt_a := [ [q 1 6; q (-1) 3; q 1 6];
                 [q 1 6; q 5 12; q (-1) 12];
                 [q 1 6; q 2 3; q 1 6] ];
       bt_b1 := [q 1 6; q 2 3; q 1 6];
       bt_b2 := [q (-1) 2; nlit N 2; q (-1) 2];
       bt_c := [nlit N 0; q 1 2; nlit N 1];
       bt_implicit := true; bt_embedded := true |}.
End Tables.
