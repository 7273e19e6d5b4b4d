(** The body table and its text files: nbody/nbody_data.cpp:18-33, 155-181, 258-324, 383-674.

    Colours are four floats and only ever copied: they are an arbitrary type here, with the constants
    the code mentions.  Diagnostics are left out.  Allocation never fails: [resize] and [push_back]
    throw no exception. *)
From Coq Require Import Ascii String List NArith ZArith Arith.
From Verif Require Import Num Arr ModelVertex ModelForce ModelText.
Import ListNotations.
Set Implicit Arguments.

(** nbtype.h:89-95 *)
Inductive units := G1 | SI | AuDayKg.

(** nbcolor_t(), nbcolor_t(1,1,1,1), nbcolor_t(0,1,0,1) and the two galaxy colours of lines 315-317 *)
Record Colors (C : Type) := mkColors { c_zero : C; c_white : C; c_hole : C; c_one : C; c_two : C }.

Section Data.
  Context {T C : Type} (U : NumOps T) (X : TextOps T) (K : Colors C).
  (** static_cast<size_t>(x): undefined behaviour ([None]) outside the range of size_t *)
  Context (to_size : T -> option N).
  (** pow(x, 3.0) *)
  Context (pow3 : T -> T).

  (** nbody_data.h:12-20 *)
  Record data := mkData {
    b_count : nat; b_time : T; b_step : N; b_box : N;
    b_vert : list (vec3 T); b_velo : list (vec3 T); b_mass : list T; b_color : list C;
    b_radius : list T }.

  (** 18-33 *)
  Definition data_new : data := mkData 0 (nlit U 0) 0 0 [] [] [] [] [].

  (** std::vector::resize *)
  Definition vector_resize {A : Type} (zero : A) (n : nat) (l : list A) : list A :=
    firstn n l ++ repeat zero (n - length l).
  (** 155-164 *)
  Definition data_resize (s : nat) (d : data) : data :=
    mkData s (b_time d) (b_step d) (b_box d)
      (vector_resize (vzero U) s (b_vert d)) (vector_resize (vzero U) s (b_velo d))
      (vector_resize (nlit U 0) s (b_mass d)) (vector_resize (c_zero K) s (b_color d))
      (vector_resize (nlit U 0) s (b_radius d)).
  (** 166-175 *)
  Definition add_body (r v : vec3 T) (m : T) (color : C) (radius : T) (d : data) : data :=
    mkData (b_count d + 1) (b_time d) (b_step d) (b_box d)
      (b_vert d ++ [r]) (b_velo d ++ [v]) (b_mass d ++ [m]) (b_color d ++ [color])
      (b_radius d ++ [radius]).
  (** 177-181; the counter is a size_t *)
  Definition data_advise_time (dt : T) (d : data) : data :=
    mkData (b_count d) (nadd U (b_time d) dt) ((b_step d + 1) mod 2 ^ 64) (b_box d)
      (b_vert d) (b_velo d) (b_mass d) (b_color d) (b_radius d).
  (** 188-191, 198-201 *)
  Definition data_set_time (t : T) (d : data) : data :=
    mkData (b_count d) t (b_step d) (b_box d)
      (b_vert d) (b_velo d) (b_mass d) (b_color d) (b_radius d).
  Definition data_set_step (s : N) (d : data) : data :=
    mkData (b_count d) (b_time d) s (b_box d)
      (b_vert d) (b_velo d) (b_mass d) (b_color d) (b_radius d).
  Definition set_box (box : N) (d : data) : data :=
    mkData (b_count d) (b_time d) (b_step d) box
      (b_vert d) (b_velo d) (b_mass d) (b_color d) (b_radius d).
  (** 407-415 *)
  Definition data_clear (d : data) : data :=
    mkData 0 (b_time d) (b_step d) (b_box d) [] [] [] [] [].

  (** stores through the pointers that 203-241 hand out *)
  Definition store_vert (i : nat) (v : vec3 T) (d : data) : option data :=
    let* l := wr (b_vert d) i v in
    Some (mkData (b_count d) (b_time d) (b_step d) (b_box d)
            l (b_velo d) (b_mass d) (b_color d) (b_radius d)).
  Definition store_velo (i : nat) (v : vec3 T) (d : data) : option data :=
    let* l := wr (b_velo d) i v in
    Some (mkData (b_count d) (b_time d) (b_step d) (b_box d)
            (b_vert d) l (b_mass d) (b_color d) (b_radius d)).
  Definition store_mass (i : nat) (m : T) (d : data) : option data :=
    let* l := wr (b_mass d) i m in
    Some (mkData (b_count d) (b_time d) (b_step d) (b_box d)
            (b_vert d) (b_velo d) l (b_color d) (b_radius d)).
  Definition fill_color (c : C) (d : data) : data :=
    mkData (b_count d) (b_time d) (b_step d) (b_box d)
      (b_vert d) (b_velo d) (b_mass d) (repeat c (length (b_color d))) (b_radius d).

  (** ** Generated universes *)

  (** size_t arithmetic *)
  Definition wrap (n : N) : N := (n mod 2 ^ 64)%N.
  Definition wsub (a b : N) : N := wrap (a + 2 ^ 64 - b).
  (** 258-261 *)
  Definition round_up (n factor : N) : N := wrap (factor * wrap (1 + wsub n 1 / factor)).
  (** nbtype.h:77 *)
  Definition data_block : N := 64.

  Definition half (x : T) : T := nmul U x (ndiv U (nlit U 1) (nlit U 2)).

  (** 289-300: the star made of an accepted sample *)
  Definition star_place (center : vec3 T) (r : vec3 T) : vec3 T :=
    vadd U (V3 (vx r) (vy r) (nmul U (vz r) (ndiv U (nlit U 3) (nlit U 10)))) center.
  Definition star_direction (center r : vec3 T) : vec3 T :=
    let o := vsub U r center in
    let v := vcross U o (V3 (nlit U 0) (nlit U 0) (nlit U 1)) in
    let v := if nltb U (vlength U v) (ndiv U (nlit U 1) (nlit U 10000000))
             then vcross U o (V3 (nlit U 1) (nlit U 0) (nlit U 0)) else v in
    vnormalize U v.
  Definition star_velocity (center : vec3 T) (radius star_mass all_stars hole rlen : T) (r : vec3 T)
    : vec3 T :=
    let effective := nadd U (nmul U (pow3 (ndiv U rlen radius)) all_stars) hole in
    vscale U (star_direction center r)
      (nsqrt U (ndiv U (nmul U (vlength U (force U r center star_mass effective))
                               (vlength U (vsub U r center))) star_mass)).

  (** what is left to do when the given number of samples did not suffice *)
  Inductive outcome (A : Type) := Done (a : A) | Exhausted (a : A).

  (** 279-302: the loop over [n]; sample [k] takes the values [3k, 3k+1, 3k+2] of the generator.
      A sample outside the ball is dropped and [n] stays ([--n; continue; ++n]). *)
  Fixpoint star_loop (fuel : nat) (uniform : nat -> T) (k : nat) (n count : N)
    (center velosity : vec3 T) (radius star_mass all_stars hole : T) (color : C) (d : data)
    : outcome data :=
    if N.eqb n count then Done d else
    match fuel with
    | O => Exhausted d
    | S fuel =>
        let r := V3 (uniform (3 * k)) (uniform (3 * k + 1)) (uniform (3 * k + 2)) in
        let rlen := vlength U r in
        if nltb U radius rlen then
          star_loop fuel uniform (k + 1) n count center velosity radius star_mass all_stars hole color d
        else
          let p := star_place center r in
          let v := star_velocity center radius star_mass all_stars hole rlen p in
          star_loop fuel uniform (k + 1) (n + 1) count center velosity radius star_mass all_stars hole
            color (add_body p (vadd U v velosity) star_mass color (nlit U 0) d)
    end.

  (** static_cast<nbcoord_t>(count) *)
  Definition of_size (n : N) : T := nlit U (Z.of_N n).

  (** 263-303; [uniform radius] are the values of [std::uniform_real_distribution(-radius, radius)]
      over a fresh [std::mt19937_64] *)
  Definition add_galaxy (fuel : nat) (uniform : T -> nat -> T) (center velosity : vec3 T)
    (radius total_mass : T) (count : N) (color : C) (d : data) : outcome data :=
    let count := wsub (round_up count data_block) 1 in
    let hole := nmul U total_mass (ndiv U (nlit U 999) (nlit U 1000)) in
    let star_mass := ndiv U (nsub U total_mass hole) (of_size count) in
    let all_stars := nmul U (of_size count) star_mass in
    let d := add_body center velosity hole (c_hole K) (nlit U 0) d in
    star_loop fuel (uniform radius) 0 0 count center velosity radius star_mass all_stars hole color d.

  (** std::max(a, b) *)
  Definition nmax (a b : T) : T := if nltb U a b then b else a.

  (** 305-324; the result is [None] when the conversion of the box size is undefined *)
  Definition make_universe (fuel : nat) (uniform : T -> nat -> T) (star_count : N) (sx sy sz : T)
    (d : data) : option (outcome data) :=
    let d := data_clear d in
    let radius := half sx in
    let mass := nlit U 1000 in
    let center := V3 (half sx) (half sy) (half sz) in
    let base := V3 radius (nlit U 0) (nlit U 0) in
    let velosity :=
      V3 (nlit U 0)
         (nsqrt U (ndiv U (nmul U (vlength U (force U (vzero U) base mass mass)) (vlength U base))
                          (nmul U (nlit U 2) mass)))
         (nlit U 0) in
    match add_galaxy fuel uniform (vsub U center base) (vdivs U velosity (nlit U 3)) radius mass
            star_count (c_one K) d with
    | Exhausted d => Some (Exhausted d)
    | Done d =>
        match add_galaxy fuel uniform (vadd U center base) (vdivs U (vopp U velosity) (nlit U 3)) radius
                mass star_count (c_two K) d with
        | Exhausted d => Some (Exhausted d)
        | Done d =>
            let* box := to_size (nmax (nmax (nlit U 1) sx) (nmax sy sz)) in
            Some (Done (set_box box d))
        end
    end.

  (** ** Comparison *)

  (** 392-399: [a] or [b] differ by more than [eps] *)
  Definition differ (eps a b : T) : bool := nltb U eps (nabs U (nsub U a b)).
  Definition body_differs (a b : data) (eps : T) (n : nat) : option bool :=
    let* ma := rd (b_mass a) n in let* mb := rd (b_mass b) n in
    if differ eps ma mb then Some true else
    let* ra := rd (b_radius a) n in let* rb := rd (b_radius b) n in
    if differ eps ra rb then Some true else
    let* pa := rd (b_vert a) n in let* pb := rd (b_vert b) n in
    if orb (differ eps (vx pa) (vx pb)) (orb (differ eps (vy pa) (vy pb)) (differ eps (vz pa) (vz pb)))
    then Some true else
    let* va := rd (b_velo a) n in let* vb := rd (b_velo b) n in
    Some (orb (differ eps (vx va) (vx vb))
            (orb (differ eps (vy va) (vy vb)) (differ eps (vz va) (vz vb)))).
  Fixpoint bodies_equal (todo n : nat) (a b : data) (eps : T) : option bool :=
    match todo with
    | O => Some true
    | S todo =>
        let* bad := body_differs a b eps n in
        if bad then Some false else bodies_equal todo (S n) a b eps
    end.
  (** 383-405 *)
  Definition is_equal (a b : data) (eps : T) : option bool :=
    if Nat.eqb (b_count a) (b_count b) then bodies_equal (b_count a) 0 a b eps else Some false.

  (** ** Text files *)

  (** 432-437 *)
  Definition body_text (r v : vec3 T) (m radius : T) : text :=
    t_show_full X (vx r) ++ [space] ++ t_show_full X (vy r) ++ [space] ++ t_show_full X (vz r) ++ [space] ++
    t_show_full X (vx v) ++ [space] ++ t_show_full X (vy v) ++ [space] ++ t_show_full X (vz v) ++ [space] ++
    t_show_full X m ++ [space] ++ t_show_full X radius ++ [newline].
  Fixpoint save_bodies (todo n : nat) (d : data) : option text :=
    match todo with
    | O => Some []
    | S todo =>
        let* r := rd (b_vert d) n in let* v := rd (b_velo d) n in
        let* m := rd (b_mass d) n in let* radius := rd (b_radius d) n in
        let* rest := save_bodies todo (S n) d in
        Some (body_text r v m radius ++ rest)
    end.
  (** 417-440: the new contents of the file; opening it and writing succeed *)
  Definition save (d : data) : option text := save_bodies (b_count d) 0 d.

  (** QString::indexOf("//") and mid(0, index): the text before the first comment sign *)
  Fixpoint cut_comment (l : text) : text :=
    match l with
    | [] => []
    | a :: r =>
        match r with
        | b :: _ => if andb (Ascii.eqb a "/"%char) (Ascii.eqb b "/"%char) then [] else a :: cut_comment r
        | [] => [a]
        end
    end.

  (** 481-493: all the columns must be numbers *)
  Fixpoint read_all (ws : list text) : option (list T) :=
    match ws with
    | [] => Some []
    | w :: ws => let* x := t_read X w in let* xs := read_all ws in Some (x :: xs)
    end.
  Inductive parsed := Skip | Bad | Body (r v : vec3 T) (m radius : T).
  (** 457-508: one line *)
  Definition parse_line (line : text) : parsed :=
    let line := trim (cut_comment line) in
    if is_nil line then Skip else
    let columns := split_skip space line in
    if Nat.ltb (length columns) 7 then Bad else
    match read_all (firstn 7 columns) with
    | Some [x; y; z; u; v; w; m] =>
        match nth_error columns 7 with
        | None => Body (V3 x y z) (V3 u v w) m (nlit U 0)
        | Some c => match t_read X c with
                    | Some radius => Body (V3 x y z) (V3 u v w) m radius
                    | None => Bad
                    end
        end
    | _ => Bad
    end.
  Fixpoint load_bodies (factor : T) (lines : list text) (d : data) : data * bool :=
    match lines with
    | [] => (d, true)
    | line :: lines =>
        match parse_line line with
        | Skip => load_bodies factor lines d
        | Bad => (d, false)
        | Body r v m radius =>
            load_bodies factor lines (add_body r v (nmul U m factor) (c_white K) radius d)
        end
    end.
  (** nbtype.h:80-85 *)
  Definition gravity_si : T := ndiv U (nlit U 667259) (nlit U 10000000000000000).
  Definition au : T := nlit U 149597870700.
  Definition day : T := nlit U 86400.
  Definition gravity_adk : T :=
    ndiv U (nmul U (nmul U gravity_si day) day) (nmul U (nmul U au au) au).
  (** 661-674 *)
  Definition mass_factor (u : units) : T :=
    match u with G1 => nlit U 1 | SI => gravity_si | AuDayKg => gravity_adk end.
  (** 442-512; the file is [None] when it cannot be opened *)
  Definition load (file : option text) (u : units) (d : data) : data * bool :=
    match file with
    | None => (d, false)
    | Some f => load_bodies (mass_factor u) (read_lines f) (data_clear d)
    end.

  (** 514-616.  A line is the head of the remaining ones; [readLine] at the end gives an empty text. *)
  Definition next_line (lines : list text) : text * list text :=
    match lines with [] => ([], []) | l :: ls => (l, ls) end.
  Definition read_or_zero (s : text) : T := match t_read X s with Some x => x | None => nlit U 0 end.
  (** 563-572 *)
  Fixpoint zeno_masses (todo i : nat) (lines : list text) (d : data) : option (data * list text * bool) :=
    match todo with
    | O => Some (d, lines, true)
    | S todo =>
        match lines with
        | [] => Some (d, [], false)
        | l :: lines =>
            let* d := store_mass i (read_or_zero l) d in zeno_masses todo (S i) lines d
        end
    end.
  (** 573-591, 593-610 *)
  Fixpoint zeno_vectors (store : nat -> vec3 T -> data -> option data) (todo i : nat)
    (lines : list text) (d : data) : option (data * list text * bool) :=
    match todo with
    | O => Some (d, lines, true)
    | S todo =>
        match lines with
        | [] => Some (d, [], false)
        | l :: lines =>
            match split_skip space l with
            | [x; y; z] =>
                let* d := store i (V3 (read_or_zero x) (read_or_zero y) (read_or_zero z)) d in
                zeno_vectors store todo (S i) lines d
            | _ => Some (d, lines, false)
            end
        end
    end.
  Definition load_zeno_ascii (file : option text) (d : data) : option (data * bool) :=
    match file with
    | None => Some (d, false)
    | Some f =>
        let d := data_clear d in
        let (line_count, lines) := next_line (read_lines f) in
        match to_ulonglong line_count with
        | None => Some (d, false)
        | Some count =>
            let (line_dim, lines) := next_line lines in
            match to_ulonglong line_dim with
            | None => Some (d, false)
            | Some dim =>
                if negb (N.eqb dim 3) then Some (d, false) else
                let (line_skip, lines) := next_line lines in
                if is_nil line_skip then Some (d, false) else
                let n := N.to_nat count in
                let d := data_resize n d in
                let* (d, lines, good) := zeno_masses n 0 lines d in
                if negb good then Some (d, false) else
                let* (d, lines, good) := zeno_vectors store_vert n 0 lines d in
                if negb good then Some (d, false) else
                let* (d, lines, good) := zeno_vectors store_velo n 0 lines d in
                if negb good then Some (d, false) else
                Some (set_box 1 (fill_color (c_white K) d), true)
            end
        end
    end.

  (** QString::compare(.., Qt::CaseInsensitive) == 0 *)
  Definition lower (a : ascii) : ascii :=
    let n := nat_of_ascii a in
    if andb (Nat.leb 65 n) (Nat.leb n 90) then ascii_of_nat (n + 32) else a.
  Fixpoint text_eqb (a b : text) : bool :=
    match a, b with
    | [], [] => true
    | x :: a, y :: b => andb (Ascii.eqb x y) (text_eqb a b)
    | _, _ => false
    end.
  Definition same_name (a b : text) : bool := text_eqb (map lower a) (map lower b).

  (** 645-654: the largest coordinate, at least 1 *)
  Definition widen (r v : vec3 T) : vec3 T :=
    V3 (nmax (vx v) (vx r)) (nmax (vy v) (vy r)) (nmax (vz v) (vz r)).
  Definition extent (l : list (vec3 T)) : T :=
    let r := fold_left widen l (V3 (nlit U 1) (nlit U 1) (nlit U 1)) in
    nmax (vx r) (nmax (vy r) (vz r)).
  (** 618-659 *)
  Definition load_initial (file : option text) (type : text) (d : data) : option (data * bool) :=
    let* (d, ret) :=
      if same_name type (chars "Zeno") then load_zeno_ascii file d
      else if same_name type (chars "G1") then Some (load file G1 d)
      else if same_name type (chars "SI") then Some (load file SI d)
      else if same_name type (chars "ADK") then Some (load file AuDayKg d)
      else Some (d, false) in
    if negb ret then Some (d, false) else
    let* box := to_size (extent (b_vert d)) in
    Some (set_box box d, true).
End Data.
Arguments Done {A} a.
Arguments Exhausted {A} a.
