(** Body tables and their files in plain terms: vocabulary for PropData.v *)
From Coq Require Import Ascii String List NArith ZArith Arith Reals.
From Verif Require Import Num Arr ModelVertex ModelText ModelData.
Import ListNotations.
Set Implicit Arguments.

(** ** The text of a data line *)

Definition slashes : text := chars "//".
Definition has_comment (s : text) : Prop := exists a b, s = a ++ slashes ++ b.
(** [c] is what comes before the first "//" of [l] *)
Definition before_comment (l c : text) : Prop :=
  (l = c /\ ~ has_comment l) \/
  (exists post, l = c ++ slashes ++ post /\ ~ has_comment (c ++ ["/"%char])).
Definition blank_text (s : text) : Prop := Forall (fun a => is_space a = true) s.
(** [m] is [s] without the white space around it *)
Definition trimmed (s m : text) : Prop :=
  exists a b, s = a ++ m ++ b /\ blank_text a /\ blank_text b /\
    (forall x r, m = x :: r -> is_space x = false) /\ (forall x r, m = r ++ [x] -> is_space x = false).
(** the words [ws] in this order, with at least one space between two of them *)
Inductive spread : list text -> text -> Prop :=
| spread_nil : spread [] []
| spread_space : forall ws s, spread ws s -> spread ws (space :: s)
| spread_word : forall w ws s, w <> [] -> ~ In space w -> spread ws s ->
    (s = [] \/ exists r, s = space :: r) -> spread (w :: ws) (w ++ s).
Definition columns_of (l : text) (ws : list text) : Prop :=
  exists c m, before_comment l c /\ trimmed c m /\ spread ws m.

Section S.
  Context {T C : Type} (U : NumOps T) (X : TextOps T) (K : Colors C).
  Notation data := (@data T C).

  (** a body without its colour *)
  Record body := mkBody { y_r : vec3 T; y_v : vec3 T; y_m : T; y_radius : T }.

  (** the line says nothing; it describes body [y]; it is wrong *)
  Definition blank_line (l : text) : Prop := columns_of l [].
  Definition body_line (l : text) (y : body) : Prop :=
    exists ws x1 x2 x3 v1 v2 v3 m rest,
      columns_of l (ws ++ rest) /\
      map (t_read X) ws = map Some [x1; x2; x3; v1; v2; v3; m] /\
      y_r y = V3 x1 x2 x3 /\ y_v y = V3 v1 v2 v3 /\ y_m y = m /\
      match rest with
      | [] => y_radius y = nlit U 0
      | c :: _ => t_read X c = Some (y_radius y)
      end.
  Definition bad_line (l : text) : Prop := ~ blank_line l /\ forall y, ~ body_line l y.

  (** the bodies of a sequence of good lines *)
  Inductive lines_say : list text -> list body -> Prop :=
  | say_nil : lines_say [] []
  | say_blank : forall l ls ys, blank_line l -> lines_say ls ys -> lines_say (l :: ls) ys
  | say_body : forall l ls y ys, body_line l y -> lines_say ls ys -> lines_say (l :: ls) (y :: ys).

  (** ** Body tables *)
  Definition rectangular (d : data) : Prop :=
    length (b_vert d) = b_count d /\ length (b_velo d) = b_count d /\
    length (b_mass d) = b_count d /\ length (b_color d) = b_count d /\
    length (b_radius d) = b_count d.

  (** [d] holds the bodies [ys], their masses multiplied by [factor], in white *)
  Definition holds (factor : T) (ys : list body) (d : data) : Prop :=
    b_count d = length ys /\ b_vert d = map y_r ys /\ b_velo d = map y_v ys /\
    b_mass d = map (fun y => nmul U (y_m y) factor) ys /\ b_radius d = map y_radius ys /\
    b_color d = map (fun _ => c_white K) ys.
  (** time, step counter and box size agree *)
  Definition same_clock (a b : data) : Prop :=
    b_time a = b_time b /\ b_step a = b_step b /\ b_box a = b_box b.

  (** ** Printed numbers *)
  Definition reread (x y : T) : Prop := t_read X (t_show_full X x) = Some y.
  Definition reread3 (a b : vec3 T) : Prop :=
    reread (vx a) (vx b) /\ reread (vy a) (vy b) /\ reread (vz a) (vz b).
  (** the number is printed as one word, without slashes, that is a number again *)
  Definition printable_full (x : T) : Prop :=
    t_show_full X x <> [] /\ ~ In "/"%char (t_show_full X x) /\
    Forall (fun a => is_space a = false) (t_show_full X x) /\ exists y, reread x y.
  Definition printable3 (a : vec3 T) : Prop :=
    printable_full (vx a) /\ printable_full (vy a) /\ printable_full (vz a).
  Definition printable_data (d : data) : Prop :=
    Forall printable3 (b_vert d) /\ Forall printable3 (b_velo d) /\
    Forall printable_full (b_mass d) /\ Forall printable_full (b_radius d).

  (** ** Using the table *)
  Context (to_size : T -> option N) (pow3 : T -> T).
  Inductive data_op :=
  | OAdd (r v : vec3 T) (m : T) (c : C) (radius : T)
  | OResize (n : nat)
  | OClear
  | OTime (dt : T)
  | OSetTime (t : T)
  | OSetStep (s : N)
  | OVert (i : nat) (v : vec3 T)
  | OVelo (i : nat) (v : vec3 T)
  | OMass (i : nat) (m : T)
  | OLoad (file : option text) (u : units)
  | OZeno (file : option text)
  | OInitial (file : option text) (type : text)
  | OGalaxy (fuel : nat) (uniform : T -> nat -> T) (center velosity : vec3 T) (radius mass : T)
      (count : N) (color : C)
  | OUniverse (fuel : nat) (uniform : T -> nat -> T) (count : N) (sx sy sz : T).
  Definition ended {A : Type} (o : outcome A) : A := match o with Done a => a | Exhausted a => a end.
  (** whatever the operation returns, and however far a generator gets, this is the table then;
      [None]: undefined behaviour *)
  Definition data_do (o : data_op) (d : data) : option data :=
    match o with
    | OAdd r v m c radius => Some (add_body r v m c radius d)
    | OResize n => Some (data_resize U K n d)
    | OClear => Some (data_clear d)
    | OTime dt => Some (data_advise_time U dt d)
    | OSetTime t => Some (data_set_time t d)
    | OSetStep s => Some (data_set_step s d)
    | OVert i v => store_vert i v d
    | OVelo i v => store_velo i v d
    | OMass i m => store_mass i m d
    | OLoad file u => Some (fst (load U X K file u d))
    | OZeno file => let* r := load_zeno_ascii U X K file d in Some (fst r)
    | OInitial file type => let* r := load_initial U X K to_size file type d in Some (fst r)
    | OGalaxy fuel uniform center velosity radius mass count color =>
        Some (ended (add_galaxy U K pow3 fuel uniform center velosity radius mass count color d))
    | OUniverse fuel uniform count sx sy sz =>
        let* o := make_universe U K to_size pow3 fuel uniform count sx sy sz d in Some (ended o)
    end.
  Fixpoint data_history (os : list data_op) (d : data) : option data :=
    match os with
    | [] => Some d
    | o :: os => let* d := data_do o d in data_history os d
    end.

  (** the clock after an operation: the time and the number of steps; only advancing and setting change it *)
  Definition ticked (clock : T * N) (o : data_op) : T * N :=
    match o with
    | OTime dt => (nadd U (fst clock) dt, (snd clock + 1) mod 2 ^ 64)%N
    | OSetTime t => (t, snd clock)
    | OSetStep s => (fst clock, s)
    | _ => clock
    end.

  (** ** Sampling *)
  Definition sample (uniform : nat -> T) (k : nat) : vec3 T :=
    V3 (uniform (3 * k)) (uniform (3 * k + 1)) (uniform (3 * k + 2)).
  (** how many of the first [n] samples are in the ball *)
  Fixpoint accepted (uniform : nat -> T) (radius : T) (n : nat) : nat :=
    match n with
    | O => 0
    | S n => accepted uniform radius n +
             if nltb U radius (vlength U (sample uniform n)) then 0 else 1
    end.
End S.

(** ** Conversions to size_t *)
Definition R_to_size (x : R) : option N :=
  let z := (up x - 1)%Z in
  if Rlt_dec (-1) x then if Z.ltb z (2 ^ 64) then Some (Z.to_N z) else None else None.

(** ** Tables that agree up to a relation between numbers *)
Definition rel3 {T : Type} (P : T -> T -> Prop) (a b : vec3 T) : Prop :=
  P (vx a) (vx b) /\ P (vy a) (vy b) /\ P (vz a) (vz b).
Definition agree {T C : Type} (P : T -> T -> Prop) (a b : @data T C) : Prop :=
  b_count a = b_count b /\
  Forall2 (rel3 P) (b_vert a) (b_vert b) /\ Forall2 (rel3 P) (b_velo a) (b_velo b) /\
  Forall2 P (b_mass a) (b_mass b) /\ Forall2 P (b_radius a) (b_radius b).

(** ** All coordinates of some points *)
Definition coordinates {T : Type} (l : list (vec3 T)) : list T := flat_map (fun p => [vx p; vy p; vz p]) l.

(** ** Zeno files *)
Section Z.
  Context {T C : Type} (U : NumOps T) (X : TextOps T) (K : Colors C).
  (** a number, or zero when it is none *)
  Definition number_or_zero (s : text) (x : T) : Prop :=
    t_read X s = Some x \/ (t_read X s = None /\ x = nlit U 0).
  Definition vector_line (l : text) (v : vec3 T) : Prop :=
    exists a b c, spread [a; b; c] l /\
      number_or_zero a (vx v) /\ number_or_zero b (vy v) /\ number_or_zero c (vz v).
  Definition zeno_file (ls : list text) (ms : list T) (rs vs : list (vec3 T)) : Prop :=
    exists l1 l2 l3 lm lr lv rest,
      ls = l1 :: l2 :: l3 :: lm ++ lr ++ lv ++ rest /\
      to_ulonglong l1 = Some (N.of_nat (length ms)) /\ to_ulonglong l2 = Some 3%N /\ l3 <> [] /\
      Forall2 number_or_zero lm ms /\ Forall2 vector_line lr rs /\ Forall2 vector_line lv vs /\
      length rs = length ms /\ length vs = length ms.
End Z.

(** ** Generated galaxies (real numbers) *)
Section R.
  Local Open Scope R_scope.
  Definition total (l : list R) : R := fold_right Rplus 0 l.
  Definition norm2 (a : vec3 R) : R := vx a * vx a + vy a * vy a + vz a * vz a.
  Definition dot (a b : vec3 R) : R := vx a * vx b + vy a * vy b + vz a * vz b.
  Definition minus (a b : vec3 R) : vec3 R := V3 (vx a - vx b) (vy a - vy b) (vz a - vz b).
  (** A star at [p] with velocity [v] in a galaxy around [center] moving with [velosity]: it is in the
      flattened ball; its own motion is at right angles to its offset, with the speed of a circular
      orbit around the mass [all (q / radius)^3 + hole], where [q] is its distance before flattening.
      (No direction can be chosen for a star exactly on the x axis within 1e-7 of the centre.) *)
  Definition orbiting (mind : R) (center velosity : vec3 R) (radius all hole : R) (p v : vec3 R) : Prop :=
    let o := minus p center in
    let w := minus v velosity in
    exists q, 0 <= q <= radius /\ norm2 o <= q * q /\ Rabs (vz o) <= 3 / 10 * q /\
      (~ (vy o = 0 /\ vz o = 0 /\ Rabs (vx o) < 1 / 10000000) ->
       dot w o = 0 /\
       (mind <= norm2 o -> norm2 w * sqrt (norm2 o) = all * (q / radius) ^ 3 + hole)).
End R.
