(** Reading Radiance files: /repo/rendering/src/from_radiance.rs:34-629.

    Bytes are [ascii] (8 bits).  The UTF-8 check and the parsing of decimal numbers are parameters; numbers are real, so files that
    spell infinities or NaN are not covered.  The texts of errors and panics are dropped, and with them the number of the line.
    Loops take fuel; [None] means that the fuel ran out. *)
From Coq Require Import String Ascii Reals List Bool Arith Lia.
From Verif.Common Require Import Base Flt Text.
From Verif.Geometry Require Import Vec TriangleModel LoopModel MeshModel.
From Verif.Geometry Require ShapesModel.
From Verif.Rendering Require Import BvhModel DaylightModel MaterialModel SceneModel RayTracerModel.
Import ListNotations.
Open Scope R_scope.

(** A computation that takes fuel *)
Definition out (A : Type) : Type := option (res A).
Definition obind {A B} (x : out A) (f : A -> out B) : out B :=
  match x with None => None | Some (Ok a) => f a | Some Err => Some Err | Some Panic => Some Panic end.
Notation "'run' x <- e ; f" := (obind e (fun x => f)) (at level 200, x pattern, e at level 100, f at level 200).
Definition done {A} (x : res A) : out A := Some x.

(** ** Characters and tokens *)

(** from_radiance.rs:34-40; the modifiers are kept apart and the line is only for messages *)
Record scan := mkScan { pos : nat; is_done : bool }.
(** from_radiance.rs:621 *)
Definition scan_start : scan := mkScan 0 false.

Section Source.
Context (utf8 : text -> bool) (source : text).

(** from_radiance.rs:64-67, 83-86 and 100-103: nothing to consume in an empty source *)
Definition check_empty (s : scan) : scan := match source with [] => mkScan (pos s) true | _ => s end.
(** from_radiance.rs:99-117 *)
Definition consume_char (s : scan) : res (bool * scan) :=
  let s := check_empty s in
  if is_done s then Ok (false, s)
  else match nth_error source (pos s) with
       | None => Panic
       | Some _ => Ok (true, mkScan (S (pos s)) (if (S (pos s) =? length source)%nat then true else is_done s))
       end.
(** from_radiance.rs:63-78 *)
Definition consume_whitespace (s : scan) : res (bool * scan) :=
  let s := check_empty s in
  if is_done s then Ok (false, s)
  else match nth_error source (pos s) with
       | None => Panic
       | Some c => if is_ws c then consume_char s else Ok (false, s)
       end.
(** from_radiance.rs:82-95 *)
Definition consume_non_white (s : scan) : res (bool * scan) :=
  let s := check_empty s in
  if is_done s then Ok (false, s)
  else match nth_error source (pos s) with
       | None => Panic
       | Some c => if is_ws c then Ok (false, s) else consume_char s
       end.
(** from_radiance.rs:121-125 and 133-137 *)
Fixpoint repeat_until_false (fuel : nat) (f : scan -> res (bool * scan)) (s : scan) : out scan :=
  match fuel with
  | O => None
  | S fuel => run (b, s) <- Some (f s); if (b : bool) then repeat_until_false fuel f s else done (Ok s)
  end.
(** from_radiance.rs:120-126 *)
Definition reach_next_token (fuel : nat) (s : scan) : out scan := repeat_until_false fuel consume_whitespace s.
(** from_radiance.rs:129-147 *)
Definition consume_token (fuel : nat) (s : scan) : out (text * scan) :=
  run s <- reach_next_token fuel s;
  let start := pos s in
  run s <- repeat_until_false fuel consume_non_white s;
  if (start =? pos s)%nat then done (Ok ([], s))
  else let token := firstn (pos s - start) (skipn start source) in
       if utf8 token then done (Ok (token, s)) else done Err.
End Source.

(** ** Objects *)

(** from_radiance.rs:33 *)
Definition MIN_SPECULARITY : R := 1 / 10 ^ 5.

(** The names of the materials that were read, and the scene *)
Definition reading : Type := list text * RScene.

(** from_radiance.rs:49-59: panics when there is none *)
Fixpoint modifier_index (modifiers : list text) (name : text) (i : nat) : res nat :=
  match modifiers with
  | [] => Panic
  | m :: modifiers => if text_eqb name m then Ok i else modifier_index modifiers name (S i)
  end.

(** [next] takes a token: [consume_token] *)
Section Tokens.
Context (parse_float : text -> option R).
Context {St : Type} (next : St -> out (text * St)).

(** [assert_eq!(t, ..)], for example from_radiance.rs:195-196 *)
Definition expect (w : string) (s : St) : out St :=
  run (t, s) <- next s; if text_eqb t (txt w) then done (Ok s) else done Panic.
(** for example from_radiance.rs:201-204 *)
Definition number (s : St) : out (R * St) :=
  run (t, s) <- next s; match parse_float t with Some x => done (Ok (x, s)) | None => done Err end.

(** for example from_radiance.rs:222 and 234 *)
Definition add_material (r : reading) (name : text) (m : Material) (s : St) : out (reading * St) :=
  let '(modifiers, scene) := r in
  done (Ok ((modifiers ++ [name], snd (push_material scene m)), s)).

(** from_radiance.rs:188-237 *)
Definition consume_metal (r : reading) (modifier name : text) (s : St) : out (reading * St) :=
  run s <- expect "0" s;
  run s <- expect "0" s;
  run s <- expect "5" s;
  run (red, s) <- number s;
  run (green, s) <- number s;
  run (blue, s) <- number s;
  run (specularity, s) <- number s;
  run (roughness, s) <- number s;
  let colour := mkS red green blue in
  add_material r name (if Rltb specularity MIN_SPECULARITY then Diffuse colour else Metal colour specularity roughness) s.
(** from_radiance.rs:240-290 *)
Definition consume_plastic (r : reading) (modifier name : text) (s : St) : out (reading * St) :=
  run s <- expect "0" s;
  run s <- expect "0" s;
  run s <- expect "5" s;
  run (red, s) <- number s;
  run (green, s) <- number s;
  run (blue, s) <- number s;
  run (specularity, s) <- number s;
  run (roughness, s) <- number s;
  let colour := mkS red green blue in
  add_material r name (if Rltb specularity MIN_SPECULARITY then Diffuse colour else Plastic colour specularity roughness) s.
(** from_radiance.rs:293-325 *)
Definition consume_light (r : reading) (modifier name : text) (s : St) : out (reading * St) :=
  run s <- expect "0" s;
  run s <- expect "0" s;
  run s <- expect "3" s;
  run (red, s) <- number s;
  run (green, s) <- number s;
  run (blue, s) <- number s;
  add_material r name (Light (mkS red green blue)) s.
(** from_radiance.rs:328-360 *)
Definition consume_mirror (r : reading) (modifier name : text) (s : St) : out (reading * St) :=
  run s <- expect "0" s;
  run s <- expect "0" s;
  run s <- expect "3" s;
  run (red, s) <- number s;
  run (green, s) <- number s;
  run (blue, s) <- number s;
  add_material r name (Mirror (mkS red green blue)) s.
(** from_radiance.rs:363-406 *)
Definition consume_dielectric (r : reading) (modifier name : text) (s : St) : out (reading * St) :=
  run s <- expect "0" s;
  run s <- expect "0" s;
  run s <- expect "5" s;
  run (red, s) <- number s;
  run (green, s) <- number s;
  run (blue, s) <- number s;
  run (refraction_index, s) <- number s;
  run (hartmans, s) <- number s;
  add_material r name (Dielectric (mkS red green blue) refraction_index) s.
(** from_radiance.rs:409-477 *)
Definition consume_glass (r : reading) (modifier name : text) (s : St) : out (reading * St) :=
  run s <- expect "0" s;
  run s <- expect "0" s;
  run (t, s) <- next s;
  if text_eqb t (txt "4") then
    run (red, s) <- number s;
    run (green, s) <- number s;
    run (blue, s) <- number s;
    run (refraction_index, s) <- number s;
    add_material r name (Glass (mkS red green blue) refraction_index) s
  else if text_eqb t (txt "3") then
    run (red, s) <- number s;
    run (green, s) <- number s;
    run (blue, s) <- number s;
    add_material r name (Glass (mkS red green blue) (152 / 100)) s
  else done Panic.

(** from_radiance.rs:512-513, 551-552, 594 and 601-603 *)
Definition add_object (r : reading) (modifier : text) (p : Primitive) : res reading :=
  let '(modifiers, scene) := r in
  do i <- modifier_index modifiers modifier 0;
  do scene <- push_object scene i i p;
  Ok (modifiers, scene).
(** from_radiance.rs:480-516 *)
Definition consume_sphere (r : reading) (modifier name : text) (s : St) : out (reading * St) :=
  run s <- expect "0" s;
  run s <- expect "0" s;
  run s <- expect "4" s;
  run (center_x, s) <- number s;
  run (center_y, s) <- number s;
  run (center_z, s) <- number s;
  run (radius, s) <- number s;
  run sphere <- done (ShapesModel.sphere_new radius (mkV center_x center_y center_z));
  run r <- done (add_object r modifier (PSphere sphere));
  done (Ok (r, s)).
(** from_radiance.rs:519-554; normalizing the direction can fail (distant_source3d.rs:63-75) *)
Definition consume_source (r : reading) (modifier name : text) (s : St) : out (reading * St) :=
  run s <- expect "0" s;
  run s <- expect "0" s;
  run s <- expect "4" s;
  run (dir_x, s) <- number s;
  run (dir_y, s) <- number s;
  run (dir_z, s) <- number s;
  run (degrees, s) <- number s;
  let angle := degrees * (PI / 180) in
  run _ <- done (source_new (mkV dir_x dir_y dir_z) angle);
  run r <- done (add_object r modifier (PSource (mkV dir_x dir_y dir_z) angle));
  done (Ok (r, s)).

(** from_radiance.rs:576-593; [n] is a multiple of three *)
Fixpoint vertices (fuel n : nat) (l : Loop) (s : St) : out (Loop * St) :=
  match n with
  | O => done (Ok (l, s))
  | _ =>
    match fuel with
    | O => None
    | S fuel =>
      run (x, s) <- number s;
      run (y, s) <- number s;
      run (z, s) <- number s;
      run l <- done (push l (mkV x y z));
      vertices fuel (n - 3) l s
    end
  end.
(** from_radiance.rs:557-606 *)
Definition consume_polygon (fuel : nat) (r : reading) (modifier name : text) (s : St) : out (reading * St) :=
  run s <- expect "0" s;
  run s <- expect "0" s;
  run (t, s) <- next s;
  match parse_usize t with
  | None => done Err
  | Some n =>
    if negb (n mod 3 =? 0)%nat then done Panic
    else
      run (l, s) <- vertices fuel n loop_new s;
      let '(modifiers, scene) := r in
      run i <- done (modifier_index modifiers modifier 0);
      run l <- done (closed_loop l);
      run polygon <- done (poly_new l);
      run mesh <- done (triangulate polygon);
      run scene <- done (push_triangles scene i i (get_trilist mesh));
      done (Ok ((modifiers, scene), s))
  end.

(** from_radiance.rs:168-184 *)
Definition consume_kind (fuel : nat) (r : reading) (modifier object_type name : text) (s : St) : out (reading * St) :=
  if text_eqb object_type (txt "plastic") then consume_plastic r modifier name s
  else if text_eqb object_type (txt "metal") then consume_metal r modifier name s
  else if text_eqb object_type (txt "light") then consume_light r modifier name s
  else if text_eqb object_type (txt "mirror") then consume_mirror r modifier name s
  else if text_eqb object_type (txt "dielectric") then consume_dielectric r modifier name s
  else if text_eqb object_type (txt "glass") then consume_glass r modifier name s
  else if text_eqb object_type (txt "sphere") then consume_sphere r modifier name s
  else if text_eqb object_type (txt "source") then consume_source r modifier name s
  else if text_eqb object_type (txt "polygon") then consume_polygon fuel r modifier name s
  else done Panic.
End Tokens.

(** ** Files *)
Section File.
Context (utf8 : text -> bool) (parse_float : text -> option R) (source : text).

(** from_radiance.rs:150-185 *)
Definition consume_object (fuel : nat) (r : reading) (s : scan) : out (reading * scan) :=
  run s <- reach_next_token source fuel s;
  if is_done s then done (Ok (r, s))
  else
    run (modifier, s) <- consume_token utf8 source fuel s;
    if is_done s then done Panic
    else
      run (object_type, s) <- consume_token utf8 source fuel s;
      if is_done s then done Panic
      else
        run (name, s) <- consume_token utf8 source fuel s;
        if is_done s then done Panic
        else consume_kind parse_float (consume_token utf8 source fuel) fuel r modifier object_type name s.

(** from_radiance.rs:623-625; [turns] bounds the number of objects *)
Fixpoint consume_objects (turns fuel : nat) (r : reading) (s : scan) : out reading :=
  if is_done s then done (Ok r)
  else match turns with
       | O => None
       | S turns => run (r, s) <- consume_object fuel r s; consume_objects turns fuel r s
       end.
(** from_radiance.rs:618-628 *)
Definition from_radiance_source (fuel : nat) : out RScene :=
  run r <- consume_objects fuel fuel ([], empty_scene) scan_start;
  done (Ok (snd r)).
End File.
