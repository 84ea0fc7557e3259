(** The ray tracer: /repo/rendering/src/ray_tracer.rs, with the lights of /repo/rendering/src/primitive.rs and primitive_samplers.rs,
    /repo/geometry/src/distant_source3d.rs and the choice of a light in /repo/rendering/src/scene.rs:105-119, and the cameras of
    /repo/rendering/src/camera/.  Arithmetic is exact; the random numbers are a parameter.  The
    progress bar, the debug assertions and the derivatives at the points of a light are left out, and textures are off, which is the
    default. *)
From Coq Require Import Reals List Bool Arith Lia.
From Verif.Common Require Import Base Flt.
From Verif.Geometry Require Import Vec BBoxModel TriangleModel.
From Verif.Geometry Require ShapesModel.
From Verif.Rendering Require Import BvhModel SamplersModel DaylightModel MaterialModel SceneModel.
Import ListNotations.
Open Scope R_scope.

(** ** Lights *)

(** primitive_samplers.rs:32-35 *)
Definition uniform_cone_pdf (cos_theta : R) : R := 1 / (2 * PI * (1 - cos_theta)).

(** primitive_samplers.rs:73-79 *)
Definition sphere_solid_angle_pdf (s : ShapesModel.Sphere) (ray : Ray) : R :=
  let d2 := vlen2 (vsub (ShapesModel.sphere_centre s) (origin ray)) in
  let sin_theta_2 := ShapesModel.s_radius s * ShapesModel.s_radius s / d2 in
  let cos_theta := sqrt (fclamp (1 - sin_theta_2) 0 1) in
  uniform_cone_pdf cos_theta.
(** primitive_samplers.rs:81-85 *)
Definition sphere_direction (s : ShapesModel.Sphere) (point : pt) : R * pt :=
  let direction := vsub (ShapesModel.sphere_centre s) point in
  let t := vlen direction in
  (t - ShapesModel.s_radius s, vscale direction (1 / t)).
(** primitive_samplers.rs:87-106; [u] are the numbers that are drawn.  [TINY] is that of the default precision. *)
Definition sample_sphere_surface (s : ShapesModel.Sphere) (u : R * R) : pt :=
  let p := uniform_sample_sphere u in
  let TINY := 1 / 10 ^ 5 in
  let r := ShapesModel.s_radius s in
  let c := ShapesModel.sphere_centre s in
  mkV (vx p * (r * (1 - TINY)) + vx c) (vy p * (r * (1 - TINY)) + vy c) (vz p * (r * (1 - TINY)) + vz c).

(** distant_source3d.rs:63-75, the fields that the ray tracer reads: direction, angle, cosine and tangent of half the angle *)
Record Source := mkSource { src_direction : pt; src_angle : R; cos_half_alpha : R; tan_half_alpha : R }.
Definition source_new (d : pt) (angle : R) : res Source :=
  do n <- vnormalize d; Ok (mkSource n angle (cos (angle / 2)) (tan (angle / 2))).

(** distant_source3d.rs:79-86 and 120-151 with disk3d.rs:65-130 and 172-214: the side of a disc in that direction, at distance 10 *)
Definition source_intersect (s : Source) (ray : Ray) : res (option IntersectionInfo) :=
  do d <- vnormalize (direction ray);
  if Rleb (cos_half_alpha s) (vdot d (src_direction s)) then
    match get_perpendicular (src_direction s) with
    | Ok _ =>
      do n <- vnormalize (src_direction s);
      if Rleb (10 * tan_half_alpha s) 0 then Panic
      else let '(normal, side) := get_side n (direction ray) in
           Ok (Some (TriangleModel.mkInfo (project ray fmax) normal side (mkV 0 0 0) (mkV 0 0 0)))
    | _ => Panic
    end
  else Ok None.
(** triangle3d.rs:498-582 *)
Definition triangle_intersect (a b c : pt) (ray : Ray) : res (option IntersectionInfo) :=
  match intersect_triangle ray a b c with
  | None => Ok None
  | Some (phit, _, _) =>
    let dpdu := vsub b a in
    let dpdv := vsub c a in
    do n <- vnormalize (vcross dpdu dpdv);
    let '(normal, side) := get_side n (direction ray) in
    Ok (Some (TriangleModel.mkInfo phit normal side dpdu dpdv))
  end.
(** primitive.rs:71-78.  If the crossings of a sphere are not numbers, neither is the vector that is normalized, which panics. *)
Definition of_hit (h : ShapesModel.hit IntersectionInfo) : res (option IntersectionInfo) :=
  match h with ShapesModel.Miss => Ok None | ShapesModel.Hit info => Ok (Some info) | ShapesModel.NotANumber => Panic end.
Definition primitive_intersect (p : Primitive) (ray : Ray) : res (option IntersectionInfo) :=
  match p with
  | PTriangle a b c => triangle_intersect a b c ray
  | PSource d angle => do s <- source_new d angle; source_intersect s ray
  | PSphere s => do h <- ShapesModel.sphere_intersect s ray; of_hit h
  | PCylinder c => do h <- ShapesModel.cylinder_intersect c ray; of_hit h
  end.
(** primitive.rs:93-100, primitive_samplers.rs:53-69 and 114-121 *)
Definition solid_angle_pdf (p : Primitive) (info : IntersectionInfo) (ray : Ray) : res R :=
  match p with
  | PTriangle a b c => Ok (triangle_solid_angle_pdf (mkTri a b c) (i_p info) (i_normal info) ray)
  | PSource d angle => do s <- source_new d angle; Ok (uniform_cone_pdf (cos_half_alpha s))
  | PSphere s => Ok (sphere_solid_angle_pdf s ray)
  | PCylinder _ => Panic
  end.
(** primitive.rs:102-109, primitive_samplers.rs:44-51 and 124-126, without the distance *)
Definition light_direction (p : Primitive) (point : pt) : res pt :=
  match p with
  | PTriangle a b c =>
    let centroid := vscale (vadd (vadd a b) c) (1 / 3) in
    let direction := vsub centroid point in
    Ok (vscale direction (1 / vlen direction))
  | PSource d angle => do s <- source_new d angle; Ok (src_direction s)
  | PSphere s => Ok (snd (sphere_direction s point))
  | PCylinder _ => Panic
  end.

(** scene.rs:105-119; [i] is the integer that is drawn *)
Definition sample_light_uniform (s : RScene) (i : nat) : option (Object * R) :=
  let nlights := (length (lights s) + length (distant_lights s))%nat in
  match nlights with
  | O => None
  | _ =>
    let i := (i mod nlights)%nat in
    let pdf := 1 / INR nlights in
    match (if i <? length (lights s) then nth_error (lights s) i else nth_error (distant_lights s) (i - length (lights s)))%nat with
    | Some o => Some (o, pdf)
    | None => None
    end
  end.

(** ray_tracer.rs:54-60 *)
Definition power_heuristic (na : nat) (pdfa : R) (nb : nat) (pdfb : R) : R :=
  let a := INR na * pdfa in let b := INR nb * pdfb in a * a / (a * a + b * b).
(** ray_tracer.rs:63-69 *)
Definition balance_heuristic (na : nat) (pdfa : R) (nb : nat) (pdfb : R) : R :=
  let a := INR na * pdfa in let b := INR nb * pdfb in a / (a + b).

(** scene.rs:45-80: the scene, its acceleration structure and its sky *)
Record World := mkWorld { w_scene : RScene; w_nodes : option (list FlatNode); w_sky : option (pt -> R); w_sky_colour : option spectrum }.
Definition w_state (w : World) : Scene * option (list FlatNode) := (geom (w_scene w), w_nodes w).

Section Tracer.
Context {G : Type}.
(** [rng.gen()], for numbers and for indexes *)
Context (gen : G -> R * G) (gen_index : G -> nat * G).
(** [N] is the size of the stack that [cast_ray] needs.  The steps of the walk over the tree, of the loop in Ward's model and of the loop
    over the shadow rays are bounded by [walk_fuel], [ward_fuel] and [light_fuel]; the result is [None] if the last two do not suffice. *)
Context (N walk_fuel ward_fuel light_fuel : nat).
Context (w : World) (max_depth n_shadow_samples n_ambient_samples : nat).

(** primitive.rs:111-128, primitive_samplers.rs:39-42 *)
Definition light_sample_direction (p : Primitive) (g : G) (point : pt) : res (pt * G) :=
  let '(u, g) := gen2 gen g in
  do (surface_point, g) <- match p with
    | PTriangle a b c => let '(u, g) := gen2 gen g in Ok (uniform_sample_triangle u a b c, g)
    | PSource d angle =>
      do s <- source_new d angle;
      do normal <- vnormalize (src_direction s);
      do q <- uniform_sample_tilted_disc u (tan (src_angle s / 2)) (vadd point normal) normal;
      Ok (q, g)
    | PSphere s => let '(u, g) := gen2 gen g in Ok (sample_sphere_surface s u, g)
    | PCylinder _ => Panic
    end;
  do d <- vnormalize (vsub surface_point point);
  Ok (d, g).

(** ray_tracer.rs:327-366 *)
Definition intersect_light (light : Object) (shadow_ray : Ray) : res (option (spectrum * R)) :=
  do info <- primitive_intersect (o_primitive light) shadow_ray;
  match info with
  | None => Ok None
  | Some info =>
    let light_distance_squared := vlen2 (vsub (origin shadow_ray) (i_p info)) in
    do free <- scene_unobstructed_distance N (w_state w) shadow_ray light_distance_squared walk_fuel;
    if negb free then Ok (Some (BLACK, 0)) else
    let by_index k := match nth_error (mats (w_scene w)) k with
      | None => Panic
      | Some m => do pdf <- solid_angle_pdf (o_primitive light) info shadow_ray; Ok (Some (colour_of m, pdf))
      end in
    match i_side info with
    | Front => by_index (o_front light)
    | Back => by_index (o_back light)
    | NonApplicable => Ok (Some (BLACK, 0))
    end
  end.

(** ray_tracer.rs:237-269: [left] is [n - i] *)
Fixpoint shadow_loop (fuel : nat) (light : Object) (p_light : R) (material : Material) (interaction : Interaction) (point : pt)
    (n left : nat) (local_illum : spectrum) (rng : G) : res (option (spectrum * G)) :=
  match left with
  | O => Ok (Some (local_illum, rng))
  | S left' =>
    match fuel with
    | O => Ok None
    | S fuel =>
      do (wi, rng) <- (if (1 <? n)%nat then light_sample_direction (o_primitive light) rng point
                       else do d <- light_direction (o_primitive light) point; Ok (d, rng));
      do r <- intersect_light light (mkRay point wi);
      match r with
      | None => shadow_loop fuel light p_light material interaction point n left local_illum rng
      | Some (light_colour, light_pdf) =>
        if Rltb light_pdf (1 / 10 ^ 18) then shadow_loop fuel light p_light material interaction point n left' local_illum rng
        else
          let info := it_info interaction in
          let normal := i_normal info in
          let cos_theta := Rabs (vdot normal wi) in
          let wo := it_wo interaction in
          do bsdf <- eval_bsdf material normal (i_dpdu info) (i_dpdv info) wo wi;
          let fx := smul (sscale light_colour cos_theta) bsdf in
          do bsdf_pdf <- material_pdf material normal (i_dpdu info) (i_dpdv info) wi wo;
          let weight := power_heuristic n (light_pdf * p_light) 1 bsdf_pdf in
          shadow_loop fuel light p_light material interaction point n left'
            (sadd local_illum (sdiv (sscale fx weight) (light_pdf * p_light))) rng
      end
    end
  end.
(** ray_tracer.rs:218-273; without samples the program divides zero by zero *)
Definition get_local_illumination (material : Material) (interaction : Interaction) (rng : G) (n : nat) : res (option (spectrum * G)) :=
  let point := vadd (it_point interaction) (vscale (i_normal (it_info interaction)) (1 / 1000)) in
  match length (lights (w_scene w) ++ distant_lights (w_scene w)) with
  | O => Ok (Some (sdiv BLACK (INR n), rng))
  | _ =>
    let '(i, rng) := gen_index rng in
    match sample_light_uniform (w_scene w) i with
    | None => Ok (Some (sdiv BLACK (INR n), rng))
    | Some (light, p_light) =>
      do r <- shadow_loop light_fuel light p_light material interaction point n n BLACK rng;
      Ok (match r with None => None | Some (l, rng) => Some (sdiv l (INR n), rng) end)
    end
  end.

(** ray_tracer.rs:90-102 *)
Fixpoint distant_loop (ls : list Object) (ray : Ray) (full : bool) (ray_prob : R) (beta acc : spectrum) : res spectrum :=
  match ls with
  | [] => Ok acc
  | light :: ls =>
    do r <- intersect_light light ray;
    distant_loop ls ray full ray_prob beta
      (match r with
       | None => acc
       | Some (light_colour, light_pdf) =>
         if Rltb (1 / 10 ^ 18) light_pdf
         then sadd acc (smul (sscale beta (if full then 1 else power_heuristic 1 ray_prob 1 light_pdf)) light_colour)
         else acc
       end)
  end.
(** ray_tracer.rs:105-109 *)
Definition add_sky (ray : Ray) (beta acc : spectrum) : spectrum :=
  match w_sky w with
  | None => acc
  | Some sky =>
    let colour := match w_sky_colour w with Some c => c | None => gray 1 end in
    sadd acc (sscale (smul beta colour) (sky (direction ray)))
  end.
(** ray_tracer.rs:86-186.  [budget] is [max_depth - depth]. *)
Fixpoint trace_loop (budget depth : nat) (ray : Ray) (ray_prob : R) (beta : spectrum) (coefficient : R) (specular_bounce : bool)
    (acc : spectrum) (rng : G) : res (option (spectrum * G)) :=
  do intersect <- scene_cast_ray N (w_state w) walk_fuel ray;
  match intersect with
  | None =>
    do acc <- distant_loop (distant_lights (w_scene w)) ray ((depth =? 0)%nat || specular_bounce) ray_prob beta acc;
    Ok (Some (add_sky ray beta acc, rng))
  | Some (triangle_index, interaction) =>
    do m <- hit_material (geom (w_scene w)) (mats (w_scene w)) (triangle_index, interaction);
    match m with
    | None => Ok (Some (acc, rng))
    | Some material =>
      if emits_light material then
        Ok (Some (if specular_bounce then sadd acc (smul beta (colour_of material)) else acc, rng))
      else
        do r <- (if specular_only material then Ok (Some (acc, rng))
                 else do l <- get_local_illumination material interaction rng (if (depth =? 0)%nat then n_shadow_samples else 1);
                      Ok (match l with None => None | Some (local, rng) => Some (sadd acc (smul beta local), rng) end));
        match r with
        | None => Ok None
        | Some (acc, rng) =>
          match budget with
          | O => Ok (Some (acc, rng))
          | S budget =>
            do r <- sample_bsdf gen ward_fuel material (direction ray) interaction coefficient rng;
            match r with
            | None => Ok None
            | Some (None, _, _, rng) => Ok (Some (acc, rng))
            | Some (Some s, interaction, coefficient, rng) =>
              let cos_theta := Rabs (vdot (i_normal (it_info interaction)) (b_wi s)) in
              let beta := smul beta (sdiv (sscale (b_spectrum s) cos_theta) (b_pdf s)) in
              let q := Rmax (1 - radiance beta) 0 in
              let '(aux, rng) := gen rng in
              if Rltb aux q then Ok (Some (acc, rng))
              else trace_loop budget (S depth) (mkRay (it_point interaction) (b_wi s)) (b_pdf s) (sdiv beta (1 - q)) coefficient (is_specular s) acc rng
            end
          end
        end
    end
  end.
(** ray_tracer.rs:73-85 *)
Definition trace_ray (rng : G) (ray : Ray) : res (option (spectrum * G)) := trace_loop max_depth 0 ray 1 ONE 1 true BLACK rng.

(** ray_tracer.rs:207-209 *)
Fixpoint sum_rays (n : nat) (ray : Ray) (acc : spectrum) (rng : G) : res (option (spectrum * G)) :=
  match n with
  | O => Ok (Some (acc, rng))
  | S n => do r <- trace_ray rng ray; match r with None => Ok None | Some (s, rng) => sum_rays n ray (sadd acc s) rng end
  end.
(** ray_tracer.rs:190-212 *)
Definition trace_all_rays (rng : G) (ray : Ray) : res (option (spectrum * G)) :=
  let n := if (max_depth =? 0)%nat then 1%nat else n_ambient_samples in
  do r <- sum_rays n ray BLACK rng;
  Ok (match r with None => None | Some (s, rng) => Some (sdiv s (INR n), rng) end).
End Tracer.

(** ** Cameras *)

(** camera/view.rs:24-35 *)
Record View := mkView { view_point : pt; view_direction : pt; view_up : pt; field_of_view : R }.
(** camera/pinhole.rs:26-32, camera/film.rs:23-27 *)
Record Pinhole := mkPinhole { view : View; resolution : nat * nat; film_distance : R; view_right : pt }.
(** camera/view.rs:51-61 *)
Definition view_right_of (v : View) : res (pt * View) :=
  let right := vcross (view_direction v) (view_up v) in
  let up := vcross right (view_direction v) in
  do d <- vnormalize (view_direction v);
  do up <- vnormalize up;
  do r <- vnormalize right;
  Ok (r, mkView (view_point v) d up (field_of_view v)).
(** camera/pinhole.rs:35-44 *)
Definition pinhole_new (v : View) (res_ : nat * nat) : res Pinhole :=
  do (r, v) <- view_right_of v;
  Ok (mkPinhole v res_ (1 / tan (field_of_view v * (PI / 180) / 2)) r).
(** camera/pinhole.rs:112-135 *)
Definition gen_ray (c : Pinhole) (p_film : nat * nat) : res Ray :=
  let '(width, height) := resolution c in
  let aspect_ratio := INR height / INR width in
  let xlim := 2 in
  let ylim := aspect_ratio * xlim in
  let dx := xlim / INR width in
  let dy := ylim / INR height in
  let x := dx / 2 + INR (fst p_film) * dx - xlim / 2 in
  let y := dy / 2 + INR (snd p_film) * dy - ylim / 2 in
  let direction := vsub (vadd (vscale (view_direction (view c)) (film_distance c)) (vscale (view_right c) x)) (vscale (view_up (view c)) y) in
  do d <- vnormalize direction;
  Ok (mkRay (view_point (view c)) d).
(** [x.floor() as usize]: negative numbers become 0 *)
Definition floor_usize (x : R) : nat := Z.to_nat (Int_part x).
(** camera/pinhole.rs:57-108 *)
Definition pixel_from_ray (c : Pinhole) (ray : Ray) : res ((nat * nat) * R) :=
  if Rltb (1 / 10 ^ 24) (vlen2 (vsub (origin ray) (view_point (view c)))) then Panic else
  let normal := view_direction (view c) in
  let cos := vdot normal (direction ray) in
  if Rltb (Rabs cos) (1 / 10 ^ 12) then Ok ((0, 0)%nat, 0) else
  let s := vadd (view_point (view c)) (vscale normal (film_distance c)) in
  let ray_length := vdot (vsub s (origin ray)) normal / cos in
  let intersection_pt := vscale (direction ray) ray_length in
  let x := vdot intersection_pt (view_right c) in
  let z := vdot intersection_pt (view_up (view c)) in
  if Rltb 1 (Rabs z) || Rltb 1 (Rabs x) then Ok ((0, 0)%nat, 0) else
  let '(width, height) := resolution c in
  let xlim := 2 in
  let aspect_ratio := INR height / INR width in
  let ylim := aspect_ratio * xlim in
  let dx := xlim / INR width in
  let dy := ylim / INR height in
  Ok ((floor_usize ((x + 1) / dx), floor_usize ((1 - z) / dy)), 1).
(** camera/camera_trait.rs:42-46 *)
Definition pixel_index (c : Pinhole) (pxl : nat * nat) : nat := (fst (resolution c) * snd pxl + fst pxl)%nat.

(** ** Images *)
Section Render.
Context {G : Type}.
(** [self.trace_all_rays] and the rays of the camera; each block of pixels has its own random numbers *)
Context (trace : G -> Ray -> res (option (spectrum * G))) (camera : nat * nat -> res Ray) (rngs : nat -> G).

(** ray_tracer.rs:309-317: [n] pixels from [pindex] on *)
Fixpoint render_chunk (n pindex width : nat) (rng : G) : res (option (list spectrum)) :=
  match n with
  | O => Ok (Some [])
  | S n =>
    let y := (pindex / width)%nat in
    let x := (pindex - y * width)%nat in
    do ray <- camera (x, y);
    do r <- trace rng ray;
    match r with
    | None => Ok None
    | Some (pixel, rng) =>
      do rest <- render_chunk n (S pindex) width rng;
      Ok (match rest with None => None | Some rest => Some (pixel :: rest) end)
    end
  end.
(** ray_tracer.rs:292-318: blocks of 128 pixels, in order; [total] pixels are left *)
Fixpoint render_chunks (fuel first_p total width : nat) : res (option (list spectrum)) :=
  match fuel with
  | O => Ok (Some [])
  | S fuel =>
    do chunk <- render_chunk (Nat.min 128 total) (first_p * 128) width (rngs first_p);
    match chunk with
    | None => Ok None
    | Some chunk =>
      do rest <- render_chunks fuel (S first_p) (total - 128) width;
      Ok (match rest with None => None | Some rest => Some (chunk ++ rest) end)
    end
  end.
(** ray_tracer.rs:275-321 *)
Definition render (width height : nat) : res (option (list spectrum)) :=
  render_chunks ((width * height + 127) / 128) 0 (width * height) width.
End Render.
