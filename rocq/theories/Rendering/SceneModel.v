(** The scene of a building: /repo/rendering/src/from_simple_model.rs, with [push_material] and [push_object] of
    /repo/rendering/src/scene.rs, and rays cast in it (scene.rs:243-270).  Arithmetic is exact.  The texts of the errors
    are left out. *)
From Coq Require Import String Reals List Bool Arith Lia.
From Verif.Common Require Import Base Flt.
From Verif.Geometry Require Import Vec BBoxModel TriangleModel LoopModel MeshModel.
From Verif.Geometry Require ShapesModel.
From Verif.Rendering Require Import BvhModel SamplersModel DaylightModel MaterialModel.
From Verif.Rendering Require SphereMeshModel.
Import ListNotations.
Open Scope R_scope.

(** ** The building, as far as the scene reads it *)

(** model/src/substance/normal.rs:46-135, the optical properties; nothing reads [back_solar_absorbtance] *)
Record optical := mkOpt { front_solar_absorbtance : option R; back_solar_absorbtance : option R; solar_transmittance : option R;
                          front_visible_reflectance : option R; visible_transmissivity : option R }.
(** model/src/substance/mod.rs *)
Inductive substance := Normal (s : optical) | Gas.
(** A wall or a floor; a window, a door or an opening *)
Record ssurf := mkSurf { s_polygon : Polygon; s_construction : string }.
Record sfen := mkFen { f_polygon : Polygon; f_construction : string; f_opening : bool }.
(** model/src/model.rs:  substances, materials with the name of their substance, constructions with the names of their materials *)
Record building := mkBuilding {
  substances : list (string * substance); materials : list (string * string); constructions : list (string * list string);
  surfaces : list ssurf; fenestrations : list sfen }.

(** model.rs:589-597, 640-648, 692-700: the first with that name *)
Definition named {A} (l : list (string * A)) (name : string) : res A :=
  match find (fun x => String.eqb (fst x) name) l with Some (_, a) => Ok a | None => Err end.
(** model.rs:1298-1305 *)
Definition get_material_substance (b : building) (name : string) : res (string * substance) :=
  do substance_name <- named (materials b) name;
  do s <- named (substances b) substance_name;
  Ok (substance_name, s).

(** ** Materials *)

(** scene.rs:82-85 *)
Inductive Wavelengths := Solar | Visible.
(** from_simple_model.rs:36-38 *)
Definition transmittance_to_transmissivity (tau : R) : R :=
  (sqrt (8402528435 / 10 ^ 10 + 72522239 / 10 ^ 10 * tau ^ 2) - 9166530661 / 10 ^ 10) / (36261119 / 10 ^ 10) / tau.
(** from_simple_model.rs:193-246 *)
Definition substance_to_material (s : substance) (w : Wavelengths) : option Material :=
  match s with
  | Normal s =>
    let alpha := match w with
                 | Solar => match front_solar_absorbtance s with Some v => v | None => 7 / 10 end
                 | Visible => match front_visible_reflectance s with Some v => v | None => 7 / 10 end
                 end in
    let rho := 1 - alpha in
    let tau := match w with
               | Solar => match solar_transmittance s with Some v => transmittance_to_transmissivity v | None => 0 end
               | Visible => match visible_transmissivity s with Some v => v | None => 0 end
               end in
    Some (if Rltb 0 tau then Glass (gray tau) (152 / 100) else Plastic (gray rho) 0 0)
  | Gas => None
  end.

(** ** Scenes *)

(** primitive.rs:32-38 *)
Inductive Primitive := PTriangle (a b c : pt) | PSource (direction : pt) (angle : R) | PSphere (s : ShapesModel.Sphere) | PCylinder (c : ShapesModel.Cylinder).
(** scene.rs:37-43 *)
Record Object := mkObject { o_primitive : Primitive; o_front : nat; o_back : nat }.
(** scene.rs:45-80, without the sky *)
Record RScene := mkRScene { geom : Scene; mats : list Material; lights : list Object; distant_lights : list Object }.
Definition empty_scene : RScene := mkRScene (mkScene [] [] [] []) [] [] [].

(** scene.rs:288-292 *)
Definition push_material (s : RScene) (m : Material) : nat * RScene :=
  (length (mats s), mkRScene (geom s) (mats s ++ [m]) (lights s) (distant_lights s)).
(** scene.rs:299-357 *)
Definition push_object (s : RScene) (front back : nat) (p : Primitive) : res RScene :=
  match nth_error (mats s) front, nth_error (mats s) back with
  | Some mf, Some mb =>
    let is_light := emits_light mf || emits_light mb in
    let o := mkObject p front back in
    let s := if is_light
             then match p with
                  | PSource _ _ => mkRScene (geom s) (mats s) (lights s) (distant_lights s ++ [o])
                  | _ => mkRScene (geom s) (mats s) (lights s ++ [o]) (distant_lights s)
                  end
             else s in
    do (ts, ns) <- match p with
                   | PTriangle a b c => mesh_triangle a b c
                   | PSphere sphere => SphereMeshModel.mesh_sphere sphere
                   | _ => if is_light then Ok ([], []) else Panic
                   end;
    let g := geom s in
    Ok (mkRScene (mkScene (triangles g ++ ts) (normals g ++ ns)
                   (front_material_indexes g ++ repeat front (length ts)) (back_material_indexes g ++ repeat back (length ts)))
          (mats s) (lights s) (distant_lights s))
  | _, _ => Panic
  end.

(** from_simple_model.rs:183-190 *)
Fixpoint get_modifier_index (modifiers : list string) (item : string) (i : nat) : option nat :=
  match modifiers with [] => None | v :: modifiers => if String.eqb v item then Some i else get_modifier_index modifiers item (S i) end.
(** from_simple_model.rs:166-181; nothing is ever added to the modifiers *)
Definition push_substance (modifiers : list string) (s : RScene) (name : string) (sub : substance) (w : Wavelengths) : option (nat * RScene) :=
  match get_modifier_index modifiers name 0 with
  | Some i => Some (i, s)
  | None => match substance_to_material sub w with None => None | Some m => Some (push_material s m) end
  end.
(** from_simple_model.rs:30-34: the reader of [Scene::from_simple_model] (scene.rs:91-95) is a new one *)
Definition no_modifiers : list string := [].

(** from_simple_model.rs:40-48 *)
Inductive SceneElement := ESurface | EFenestration.
(** triangulation3d.rs:303-305 *)
Definition get_trilist (m : Mesh) : list Triangle3D := map tri (pieces m).

(** from_simple_model.rs:105-109 and 152-156 *)
Fixpoint push_triangles (s : RScene) (front back : nat) (ts : list Triangle3D) : res RScene :=
  match ts with
  | [] => Ok s
  | t :: ts => do s <- push_object s front back (PTriangle (t_a t) (t_b t) (t_c t)); push_triangles s front back ts
  end.
(** from_simple_model.rs:71-109 and 119-156 *)
Definition push_element (b : building) (w : Wavelengths) (e : SceneElement) (i : nat) (polygon : Polygon) (construction : string)
    (st : RScene * list (SceneElement * nat)) : res (RScene * list (SceneElement * nat)) :=
  let '(s, map) := st in
  do layers <- named (constructions b) construction;
  match layers with
  | [] => Panic
  | front_name :: _ =>
    do (front_substance, fs) <- get_material_substance b front_name;
    match push_substance no_modifiers s front_substance fs w with
    | None => Err
    | Some (front, s) =>
      do (back_substance, bs) <- get_material_substance b (last layers front_name);
      match push_substance no_modifiers s back_substance bs w with
      | None => Err
      | Some (back, s) =>
        do t <- triangulate polygon;
        do s <- push_triangles s front back (get_trilist t);
        Ok (s, map ++ repeat (e, i) (length (get_trilist t)))
      end
    end
  end.
(** from_simple_model.rs:66-110 *)
Fixpoint push_surfaces (b : building) (w : Wavelengths) (i : nat) (l : list ssurf) (st : RScene * list (SceneElement * nat))
    : res (RScene * list (SceneElement * nat)) :=
  match l with
  | [] => Ok st
  | x :: l =>
    do st <- (if Rltb (p_area (s_polygon x)) (1 / 10 ^ 5) then Ok st else push_element b w ESurface i (s_polygon x) (s_construction x) st);
    push_surfaces b w (S i) l st
  end.
(** from_simple_model.rs:113-157 *)
Fixpoint push_fenestrations (b : building) (w : Wavelengths) (i : nat) (l : list sfen) (st : RScene * list (SceneElement * nat))
    : res (RScene * list (SceneElement * nat)) :=
  match l with
  | [] => Ok st
  | x :: l =>
    do st <- (if f_opening x then Ok st else push_element b w EFenestration i (f_polygon x) (f_construction x) st);
    push_fenestrations b w (S i) l st
  end.
(** from_simple_model.rs:53-160 *)
Definition build_scene (b : building) (w : Wavelengths) : res (RScene * list (SceneElement * nat)) :=
  match w with
  | Visible => Panic
  | Solar =>
    do st <- push_surfaces b w 0 (surfaces b) (empty_scene, []);
    push_fenestrations b w 0 (fenestrations b) st
  end.

(** ** Rays *)

(** scene.rs:243-270 *)
Definition scene_cast_ray (N : nat) (st : Scene * option (list FlatNode)) (fuel : nat) (ray : Ray) : res (option (nat * Interaction)) :=
  do r <- cast_ray N st ray fuel;
  match r with
  | None => Ok None
  | Some (i, (point, _, _)) =>
    match nth_error (triangles (fst st)) i with
    | None => Panic
    | Some t => do info <- new_info t point (direction ray); Ok (Some (i, mkInter point (vscale (direction ray) (-1)) info))
    end
  end.
(** daylight_coefficients.rs:178-190 and ray_tracer.rs:115-124: the material of the side that is hit *)
Definition hit_material (s : Scene) (ms : list Material) (x : nat * Interaction) : res (option Material) :=
  let '(i, inter) := x in
  let by_index l := match nth_error l i with None => Panic | Some k => match nth_error ms k with None => Panic | Some m => Ok (Some m) end end in
  match i_side (it_info inter) with
  | Front => by_index (front_material_indexes s)
  | Back => by_index (back_material_indexes s)
  | NonApplicable => Ok None
  end.
