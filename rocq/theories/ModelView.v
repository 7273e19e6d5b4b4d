(** The drawing: player/wgt_nbody_view.cpp, the parts that compute.

    Colours are [vertex4<GLfloat>]; the model computes them in the arithmetic of the coordinates (the code
    rounds each weight and product to [float]).  [nb3d_t] has the same components as [nbvertex_t]. *)
From Coq Require Import ZArith List Arith QArith.
From Verif Require Import Num Arr ModelVertex ModelTree.
Import ListNotations.
Set Implicit Arguments.

(** vertex.h:165-171, 213-216, 244-247 *)
Record vec4 (T : Type) : Type := V4 { cx : T; cy : T; cz : T; cw : T }.

Section View.
  Context {T : Type} (N : NumOps T).

  Definition c_add (a b : vec4 T) : vec4 T :=
    V4 (nadd N (cx a) (cx b)) (nadd N (cy a) (cy b)) (nadd N (cz a) (cz b)) (nadd N (cw a) (cw b)).
  Definition c_scale (a : vec4 T) (c : T) : vec4 T :=
    V4 (nmul N (cx a) c) (nmul N (cy a) c) (nmul N (cz a) c) (nmul N (cw a) c).

  (** wgt_nbody_view.cpp:129-135 *)
  Definition color_lut : list (vec4 T) :=
    let k n := nlit N n in
    let low := ndiv N (k 3%Z) (k 10%Z) in
    [V4 low low (k 1%Z) (k 1%Z); V4 (k 0%Z) (k 1%Z) (k 0%Z) (k 1%Z);
     V4 (k 1%Z) (k 1%Z) (k 0%Z) (k 1%Z); V4 (k 1%Z) (k 0%Z) (k 0%Z) (k 1%Z)].

  (** [static_cast<size_t>(ceil(x))] for [x] above 0 and at most 4, the values it is called with; the
      conversion of a NaN is undefined *)
  Definition ceil_index (x : T) : option nat :=
    find (fun i => nleb N x (nlit N (Z.of_nat i))) [1; 2; 3; 4]%nat.

  (** wgt_nbody_view.cpp:127-150, [get_color] *)
  Definition get_color (x : T) : option (vec4 T) :=
    let len := length color_lut in
    if nleb N x (nlit N 0) then rd color_lut 0 else
    if nleb N (nlit N 1) x then rd color_lut (len - 1) else
    let x := nmul N x (nlit N (Z.of_nat len)) in
    let* i := ceil_index x in
    let w := nsub N (nlit N (Z.of_nat i)) x in
    let* a := rd color_lut (i - 1) in
    let* b := rd color_lut i in
    Some (c_add (c_scale a w) (c_scale b (nsub N (nlit N 1) w))).

  (** wgt_nbody_view.cpp:152-158, [compute_color_from_velosity] *)
  Fixpoint color_from_velosity (max_velosity : T) (vel : list (vec3 T)) : option (list (vec4 T)) :=
    match vel with
    | [] => Some []
    | v :: vel =>
        let* c := get_color (ndiv N (vlength N v) max_velosity) in
        let* l := color_from_velosity max_velosity vel in
        Some (c :: l)
    end.

  (** wgt_nbody_view.cpp:234-251, [get_box]; 1e30 *)
  Definition big : T := nlit N (10 ^ 30).
  Definition get_box (vrt : list (vec3 T)) : vec3 T * vec3 T :=
    (fold_left (vmin N) vrt (V3 big big big),
     fold_left (vmax N) vrt (V3 (nopp N big) (nopp N big) (nopp N big))).

  (** wgt_nbody_view.h:13-16 *)
  Record view := mkView { v_bmin : vec3 T; v_bmax : vec3 T; v_vmin : vec3 T; v_vmax : vec3 T }.
  Definition new_view : view := mkView (vzero N) (vzero N) (vzero N) (vzero N).

  (** wgt_nbody_view.cpp:253-267, [setup_view_box], on the current positions and velocities *)
  Definition setup_view_box (pos vel : list (vec3 T)) (v : view) : view :=
    if (negb (veqb N (v_bmin v) (v_bmax v)) || Nat.eqb (length pos) 0)%bool then v else
    let (bmin, bmax) := get_box pos in
    let (vmn, vmx) := get_box vel in
    let margin := vscale N (vsub N bmax bmin) (ndiv N (nlit N 1) (nlit N 2)) in
    mkView (vsub N bmin margin) (vadd N bmax margin) vmn vmx.

  (** wgt_nbody_view.cpp:312-330 and 187-196: drawing one frame with colours from velocities; the
      colours are what is passed to [glColorPointer] *)
  Definition draw (pos vel : list (vec3 T)) (v : view) : option (list (vec4 T) * view) :=
    let v := setup_view_box pos vel v in
    let* c := color_from_velosity (vlength N (vsub N (v_vmax v) (v_vmin v))) vel in
    Some (c, v).
End View.

(** ** Layout of the window *)

(** a viewport: left, bottom, width, height in pixels counted from the bottom left *)
Record port := mkPort { q_x : Z; q_y : Z; q_w : Z; q_h : Z }.

(** wgt_nbody_view.cpp:323-329: [static_cast<GLint>(width * m_split_point.x())] truncates; the products
    are exact here (split coordinates are fractions) *)
Definition split_at (size : Z) (s : Q) : Z := Z.quot (size * Qnum s) (Zpos (Qden s)).
Definition ports (width height : Z) (s : Q * Q) : list port :=
  let x := split_at width (fst s) in
  let y := split_at height (snd s) in
  [mkPort x y (width - x) (height - y); mkPort 0 0 x y; mkPort x 0 (width - x) y; mkPort 0 y x (height - y)].

(** wgt_nbody_view.cpp:362-399, [mouseDoubleClickEvent] at [(px, py)], [py] counted from the top; the
    result is the end of the animation *)
Definition double_click (width height px py : Z) (s : Q * Q) : Q * Q :=
  let sx := Z.quot width 2 in
  let sy := Z.quot height 2 in
  if (Qeq_bool (fst s) (1 # 2) && Qeq_bool (snd s) (1 # 2))%bool then
    if (Z.ltb sx px && Z.ltb sy py)%bool then (0, 1)%Q
    else if (Z.ltb sx px && Z.ltb py sy)%bool then (0, 0)%Q
    else if (Z.ltb px sx && Z.ltb sy py)%bool then (1, 1)%Q
    else if (Z.ltb px sx && Z.ltb py sy)%bool then (1, 0)%Q
    else s
  else (1 # 2, 1 # 2)%Q.
