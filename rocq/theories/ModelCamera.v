(** The cameras of the drawing: player/wgt_nbody_view.cpp:47-110, 160-232, 269-285, 312-333 and
    player/wgt_nbody_player_control.cpp:150-153.

    What is modelled is what the code passes to OpenGL and GLU: the viewport, the perspective, the position and direction of the
    camera, and the lines of the box.  Single precision roundings ([GLfloat]) are left out. *)
From Coq Require Import ZArith List Arith QArith.
From Verif Require Import Num ModelVertex ModelView.
Import ListNotations.
Set Implicit Arguments.

Section Camera.
  Context {T : Type} (U : NumOps T).

  (** the arguments of glViewport, gluPerspective and gluLookAt when the bodies are drawn *)
  Record picture := mkPicture { pic_port : port; pic_fovy : T; pic_aspect : T; pic_near : T; pic_far : T;
                                pic_eye : vec3 T; pic_center : vec3 T; pic_up : vec3 T }.

  (** 269-285 *)
  Definition setup_projection (p : port) (center eye up : vec3 T) : picture :=
    let aspect := ndiv U (nlit U (q_h p)) (nlit U (q_w p)) in
    mkPicture p (nlit U 60) (ndiv U (nlit U 1) aspect) (nlit U 1) (nlit U 1000) eye center up.

  (** 173 and 320 *)
  Definition view_center (v : view) : vec3 T := vscale U (vadd U (v_bmax v) (v_bmin v)) (ndiv U (nlit U 1) (nlit U 2)).

  (** 206-218: half the vector between the two eyes *)
  Definition eye_base (stereo : Z) (center camera up : vec3 T) : vec3 T :=
    let ray := vsub U center camera in
    let base := vcross U ray up in
    let base := vscale U base (ndiv U (vlength U ray) (vlength U base)) in
    vscale U base (ndiv U (nlit U stereo) (nlit U 1000)).
  (** 160-232: the bodies are drawn once, or once for each eye *)
  Definition paint_port (stereo : Z) (v : view) (p : port) (camera up : vec3 T) : list picture :=
    let center := view_center v in
    if Z.eqb stereo 0 then [setup_projection p center camera up]
    else let base := eye_base stereo center camera up in
         [setup_projection p center (vadd U camera base) up; setup_projection p center (vsub U camera base) up].

  (** wgt_nbody_player_control.cpp:150-153; [value] is the number in the box, in per cent *)
  Definition scale_of (value : T) : T := ndiv U (nlit U 100) value.

  (** 320-329 *)
  Definition paint (width height : Z) (split : Q * Q) (stereo : Z) (scale : T) (v : view) : list picture :=
    let center := view_center v in
    let dist := nmul U (vlength U (vsub U (v_bmax v) (v_bmin v))) scale in
    let o := nlit U 0 in
    let x := split_at width (fst split) in
    let y := split_at height (snd split) in
    paint_port stereo v (mkPort x y (width - x) (height - y)) (vsub U center (V3 o dist dist)) (V3 o o (nlit U 1)) ++
    paint_port stereo v (mkPort 0 0 x y) (vsub U center (V3 o o dist)) (V3 o (nlit U 1) o) ++
    paint_port stereo v (mkPort x 0 (width - x) y) (vadd U center (V3 dist o o)) (V3 o (nlit U 1) o) ++
    paint_port stereo v (mkPort 0 y x (height - y)) (vsub U center (V3 o dist o)) (V3 o o (nopp U (nlit U 1))).

  (** ** The box, 47-110 *)
  Definition cube_vrt (v : view) : list (vec3 T) :=
    let a := v_bmin v in let b := v_bmax v in
    [a; V3 (vx b) (vy a) (vz a); V3 (vx b) (vy b) (vz a); V3 (vx a) (vy b) (vz a);
     V3 (vx a) (vy a) (vz b); V3 (vx b) (vy a) (vz b); V3 (vx b) (vy b) (vz b); V3 (vx a) (vy b) (vz b)].
  Definition cube_col : list (vec3 T) :=
    let o := nlit U 0 in let i := nlit U 1 in
    [V3 o o o; V3 i o o; V3 i i o; V3 o i o; V3 o o i; V3 i o i; V3 i i i; V3 o i i].
  Definition cube_idx : list (nat * nat) :=
    [(0, 1); (1, 2); (2, 3); (3, 0); (4, 5); (5, 6); (6, 7); (7, 4); (0, 4); (1, 5); (2, 6); (3, 7)]%nat.
  (** the lines: colour and place of either end *)
  Definition box_lines (v : view) : list ((vec3 T * vec3 T) * (vec3 T * vec3 T)) :=
    let at_ i := (nth i cube_col (vzero U), nth i (cube_vrt v) (vzero U)) in
    map (fun e => (at_ (fst e), at_ (snd e))) cube_idx.
End Camera.
