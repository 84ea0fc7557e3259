(** Spheres, cylinders and discs: /repo/geometry/src/sphere3d.rs, cylinder3d.rs, disk3d.rs, plane3d.rs and [IntersectionInfo::new] of
    intersection.rs.
    Arithmetic is exact: the intervals of [ApproxFloat] are points and the estimates of the errors of a transformed ray are zero (what they do
    is the subject of RoundErrorModel.v).  Results that are not numbers are [NotANumber]; a build with debug assertions panics there.
    Textures are off. *)
From Coq Require Import Reals List Bool.
From Verif.Weather Require SkyModel.
From Verif.Common Require Import Base Flt.
From Verif.Geometry Require Import Vec BBoxModel TransformModel TriangleModel.
Import ListNotations.
Open Scope R_scope.

Notation atan2 := SkyModel.atan2.

(** What a ray finds *)
Inductive hit (A : Type) := Miss | Hit (a : A) | NotANumber.
Arguments Miss {A}. Arguments Hit {A} a. Arguments NotANumber {A}.

(** round_error.rs:135-164 with exact numbers: the smaller root first *)
Definition solve_quadratic (a b c : R) : hit (R * R) :=
  let disc := b * b - a * c * 4 in
  if Rltb disc 0 then Miss else
  let discr_sqrt := sqrt disc in
  let q := if Rltb b 0 then - (b - discr_sqrt) * (1 / 2) else - (b + discr_sqrt) * (1 / 2) in
  if Req_EM_T a 0 then NotANumber else
  if Req_EM_T q 0 then NotANumber else
  let x1 := q / a in
  let x2 := c / q in
  Hit (if Rltb x2 x1 then (x2, x1) else (x1, x2)).

(** [f64::clamp] *)
Definition clamp (v low high : R) : res R := if Rltb high low then Panic else Ok (if Rltb v low then low else if Rltb high v then high else v).

(** The longitude of a point: sphere3d.rs:223-227, cylinder3d.rs:165-169, disk3d.rs:155-158 *)
Definition longitude (y x : R) : R := let phi := atan2 y x in if Rltb phi 0 then phi + 2 * PI else phi.

(** intersection.rs:124-170.  What happens at a curved surface. *)
Definition info_new (ray : Ray) (p dpdu dpdv : pt) : res IntersectionInfo :=
  do normal <- vnormalize (vcross dpdv dpdu);
  let '(normal, side) := get_side normal (direction ray) in
  Ok (mkInfo p normal side dpdu dpdv).
(** intersection.rs:173-190 *)
Definition info_transform (t : Transform) (i : IntersectionInfo) : IntersectionInfo :=
  mkInfo (transform_pt t (i_p i)) (transform_normal t (i_normal i)) (i_side i) (transform_vec t (i_dpdu i)) (transform_vec t (i_dpdv i)).
(** transform.rs:484-498 *)
Definition inv_transform_ray (t : Transform) (ray : Ray) : Ray := mkRay (inv_transform_pt t (origin ray)) (inv_transform_vec t (direction ray)).

(** The first of two crossings that is in front of the origin and on the part of the surface that exists: sphere3d.rs:194-266 and
    cylinder3d.rs:143-204.  [at_hit] gives the point and its longitude, [outside] tells if it is on a part that has been cut off. *)
Definition first_on_part (t0 t1 : R) (at_hit : R -> pt * R) (outside : pt -> R -> bool) : hit (pt * R) :=
  if Rleb t1 0 then Miss else
  let '(thit, hit_is_t1) := if Rltb 0 t0 then (t0, false) else (t1, true) in
  let '(phit, phi) := at_hit thit in
  if outside phit phi then
    if (hit_is_t1 : bool) then Miss else
    let '(new_phit, new_phi) := at_hit t1 in
    if outside new_phit new_phi then Miss else Hit (new_phit, new_phi)
  else Hit (phit, phi).

(** ** Spheres *)

(** sphere3d.rs:38-62 *)
Record Sphere := mkSphere { s_radius : R; s_zmin : R; s_zmax : R; s_phi_max : R; delta_theta : R; theta_min : R; s_transform : option Transform }.

(** sphere3d.rs:121-166 *)
Definition sphere_new_partial_transformed (radius zmin zmax phi_max : R) (transform : option Transform) : res Sphere :=
  if Rltb zmax zmin then Panic else
  do zmin <- clamp zmin (- radius) radius;
  do zmax <- clamp zmax (- radius) radius;
  do c1 <- clamp (zmin / radius) (-1) 1;
  do c2 <- clamp (zmax / radius) (-1) 1;
  let theta_min := acos c1 in
  let theta_max := acos c2 in
  let '(theta_min, theta_max) := if Rltb theta_max theta_min then (theta_max, theta_min) else (theta_min, theta_max) in
  if negb (Rleb (- eps64) phi_max && Rleb phi_max (360 + eps64)) then Panic else
  do phi_max <- clamp phi_max 0 360;
  Ok (mkSphere radius zmin zmax (to_radians phi_max) (theta_max - theta_min) theta_min transform).
(** sphere3d.rs:98-114 *)
Definition sphere_new_partial (radius : R) (centre : pt) (zmin zmax phi_max : R) : res Sphere :=
  let transform := if negb (vis_zero centre) then Some (translate (vx centre) (vy centre) (vz centre)) else None in
  sphere_new_partial_transformed radius zmin zmax phi_max transform.
(** sphere3d.rs:72-74 *)
Definition sphere_new (radius : R) (centre : pt) : res Sphere := sphere_new_partial radius centre (-2 * radius) (2 * radius) 360.
(** sphere3d.rs:78-84 *)
Definition sphere_centre (s : Sphere) : pt := match s_transform s with None => mkV 0 0 0 | Some t => transform_pt t (mkV 0 0 0) end.

(** sphere3d.rs:209-229 *)
Definition sphere_at (s : Sphere) (ray : Ray) (t : R) : pt * R :=
  let phit := project ray t in
  let phit := vscale phit (s_radius s / vlen phit) in
  let limit := 1 / 10 ^ 5 * s_radius s in
  let phit := if Rltb (Rabs (vx phit)) limit && Rltb (Rabs (vy phit)) limit then mkV limit (vy phit) (vz phit) else phit in
  (phit, longitude (vy phit) (vx phit)).
(** sphere3d.rs:235-238 *)
Definition sphere_outside (s : Sphere) (p : pt) (phi : R) : bool :=
  Rltb (- s_radius s) (s_zmin s) && Rltb (vz p) (s_zmin s) || Rltb (s_zmax s) (s_radius s) && Rltb (s_zmax s) (vz p) || Rltb (s_phi_max s) phi.
(** sphere3d.rs:168-267 *)
Definition sphere_basic_intersection (s : Sphere) (ray : Ray) : hit (pt * R) :=
  let d := direction ray in let o := origin ray in
  let a := vx d * vx d + vy d * vy d + vz d * vz d in
  let b := (vx o * vx d + vy o * vy d + vz o * vz d) * 2 in
  let c := vx o * vx o + vy o * vy o + vz o * vz o - s_radius s * s_radius s in
  match solve_quadratic a b c with
  | Miss => Miss
  | NotANumber => NotANumber
  | Hit (t0, t1) => first_on_part t0 t1 (sphere_at s ray) (sphere_outside s)
  end.
(** sphere3d.rs:271-314; the second derivatives are only used for textures.  At a pole [cos_phi] is infinite and [sin_phi], zero times infinity,
    is not a number, so the assertion in [normalize] (vector3d.rs:218) fails. *)
Definition sphere_info (s : Sphere) (ray : Ray) (phit : pt) (phi : R) : res IntersectionInfo :=
  do cos_theta <- clamp (vz phit / s_radius s) (-1) 1;
  let theta := acos cos_theta in
  let sin_theta := sin theta in
  if Req_EM_T sin_theta 0 then Panic else
  let one_over_r_sin_theta := 1 / s_radius s / sin_theta in
  let cos_phi := vx phit * one_over_r_sin_theta in
  let sin_phi := vy phit * one_over_r_sin_theta in
  let dpdu := mkV (- s_phi_max s * vy phit) (s_phi_max s * vx phit) 0 in
  let dpdv := vscale (mkV (vz phit * cos_phi) (vz phit * sin_phi) (- s_radius s * sin_theta)) (delta_theta s) in
  info_new ray phit dpdu dpdv.
(** [x?] inside of a function that returns the information on a hit *)
Definition on_hit {A} (h : hit (pt * R)) (f : pt -> R -> res A) : res (hit A) :=
  match h with Miss => Ok Miss | NotANumber => Ok NotANumber | Hit (p, phi) => do i <- f p phi; Ok (Hit i) end.
(** sphere3d.rs:354-362 *)
Definition sphere_intersect_local_ray (s : Sphere) (ray : Ray) : res (hit IntersectionInfo) :=
  on_hit (sphere_basic_intersection s ray) (sphere_info s ray).
(** sphere3d.rs:323-327 *)
Definition sphere_bounds (s : Sphere) : BBox R := mkB (mkV (- s_radius s) (- s_radius s) (s_zmin s)) (mkV (s_radius s) (s_radius s) (s_zmax s)).
(** sphere3d.rs:330-332 *)
Definition sphere_area (s : Sphere) : R := s_phi_max s * s_radius s * (s_zmax s - s_zmin s).

(** In the coordinates of the world: sphere3d.rs:380-401, cylinder3d.rs:299-319, disk3d.rs:262-282 *)
Definition world_ray (t : option Transform) (ray : Ray) : Ray := match t with Some t => inv_transform_ray t ray | None => ray end.
Definition map_hit {A B} (f : A -> B) (h : hit A) : hit B := match h with Miss => Miss | NotANumber => NotANumber | Hit a => Hit (f a) end.
Definition world_intersect (t : option Transform) (local : Ray -> res (hit IntersectionInfo)) (ray : Ray) : res (hit IntersectionInfo) :=
  do h <- local (world_ray t ray);
  Ok (map_hit (fun info => match t with Some t => info_transform t info | None => info end) h).
(** sphere3d.rs:405-426, cylinder3d.rs:323-344, disk3d.rs:286-307 *)
Definition world_simple_intersect (t : option Transform) (basic : Ray -> hit (pt * R)) (ray : Ray) : hit pt :=
  map_hit (fun h : pt * R => match t with Some t => transform_pt t (fst h) | None => fst h end) (basic (world_ray t ray)).
Definition sphere_intersect (s : Sphere) : Ray -> res (hit IntersectionInfo) := world_intersect (s_transform s) (sphere_intersect_local_ray s).
Definition sphere_simple_intersect (s : Sphere) : Ray -> hit pt := world_simple_intersect (s_transform s) (sphere_basic_intersection s).
(** sphere3d.rs:429-436, cylinder3d.rs:347-353 *)
Definition world_bounds_of (t : option Transform) (local_b : BBox R) : BBox R := match t with Some t => transform_bbox t local_b | None => local_b end.

(** ** Cylinders *)

(** cylinder3d.rs:37-55 *)
Record Cylinder := mkCylinder { c_radius : R; c_zmin : R; c_zmax : R; c_phi_max : R; c_transform : option Transform }.
(** cylinder3d.rs:89-120 *)
Definition cylinder_new_transformed (radius zmin zmax phi_max : R) (transform : option Transform) : res Cylinder :=
  if Rltb zmax zmin then Panic else
  if negb (Rleb (- eps64) phi_max && Rleb phi_max (360 + eps64)) then Panic else
  do phi_max <- clamp phi_max 0 360;
  Ok (mkCylinder radius zmin zmax (to_radians phi_max) transform).
(** [f64::to_degrees] *)
Definition to_degrees (rad : R) : R := rad * (180 / PI).
(** cylinder3d.rs:65-86 *)
Definition cylinder_new_partial (p0 p1 : pt) (radius phi_max : R) : res Cylinder :=
  let l := vsub p1 p0 in
  let '(mkV x y z) := l in
  let transform := translate (vx p0) (vy p0) (vz p0) in
  let rot_y_degrees := to_degrees (atan2 (sqrt (x * x + y * y)) z) in
  let rot_z_degrees := to_degrees (atan2 y x) in
  let transform := mul_assign transform (rotate_y rot_y_degrees) in
  let transform := mul_assign transform (rotate_z rot_z_degrees) in
  cylinder_new_transformed radius 0 (vlen l) phi_max (Some transform).
(** cylinder3d.rs:59-61 *)
Definition cylinder_new (p0 p1 : pt) (radius : R) : res Cylinder := cylinder_new_partial p0 p1 radius 360.

(** cylinder3d.rs:156-170 *)
Definition cylinder_at (c : Cylinder) (ray : Ray) (t : R) : pt * R :=
  let phit := project ray t in
  let hit_rad := sqrt (vx phit * vx phit + vy phit * vy phit) in
  let phit := mkV (vx phit * (c_radius c / hit_rad)) (vy phit * (c_radius c / hit_rad)) (vz phit) in
  (phit, longitude (vy phit) (vx phit)).
(** cylinder3d.rs:177-179 *)
Definition cylinder_outside (c : Cylinder) (p : pt) (phi : R) : bool := Rltb (vz p) (c_zmin c) || Rltb (c_zmax c) (vz p) || Rltb (c_phi_max c) phi.
(** cylinder3d.rs:124-205 *)
Definition cylinder_basic_intersection (c : Cylinder) (ray : Ray) : hit (pt * R) :=
  let d := direction ray in let o := origin ray in
  let qa := vx d * vx d + vy d * vy d in
  let qb := (vx d * vx o + vy d * vy o) * 2 in
  let qc := vx o * vx o + vy o * vy o - c_radius c * c_radius c in
  match solve_quadratic qa qb qc with
  | Miss => Miss
  | NotANumber => NotANumber
  | Hit (t0, t1) => first_on_part t0 t1 (cylinder_at c ray) (cylinder_outside c)
  end.
(** cylinder3d.rs:208-232 *)
Definition cylinder_info (c : Cylinder) (ray : Ray) (phit : pt) (phi : R) : res IntersectionInfo :=
  info_new ray phit (mkV (- c_phi_max c * vy phit) (c_phi_max c * vx phit) 0) (mkV 0 0 (c_zmax c - c_zmin c)).
(** cylinder3d.rs:284-292 *)
Definition cylinder_intersect_local_ray (c : Cylinder) (ray : Ray) : res (hit IntersectionInfo) :=
  on_hit (cylinder_basic_intersection c ray) (cylinder_info c ray).
Definition cylinder_intersect (c : Cylinder) : Ray -> res (hit IntersectionInfo) := world_intersect (c_transform c) (cylinder_intersect_local_ray c).
Definition cylinder_simple_intersect (c : Cylinder) : Ray -> hit pt := world_simple_intersect (c_transform c) (cylinder_basic_intersection c).
(** cylinder3d.rs:235-239 *)
Definition cylinder_bounds (c : Cylinder) : BBox R := mkB (mkV (- c_radius c) (- c_radius c) (c_zmin c)) (mkV (c_radius c) (c_radius c) (c_zmax c)).
(** cylinder3d.rs:247-250 *)
Definition cylinder_area (c : Cylinder) : R := (c_zmax c - c_zmin c) * c_radius c * c_phi_max c.

(** ** Discs *)

(** plane3d.rs:48-57 and 67-80 *)
Definition plane_intersect (point normal : pt) (ray : Ray) : res (option R) :=
  do normal <- vnormalize normal;
  let d := vdot normal point in
  let den := vdot normal (direction ray) in
  Ok (if Rltb (Rabs den) eps64 then None else
      let t := (d - vdot normal (origin ray)) / den in
      if Rltb t 0 then None else Some t).

(** disk3d.rs:35-60 *)
Record Disk := mkDisk { d_centre : pt; d_normal : pt; d_radius : R; d_inner : R; d_phi_zero : pt; d_phi_max : R; d_transform : option Transform }.
(** disk3d.rs:77-127 *)
Definition disk_new_detailed (centre normal : pt) (radius inner_radius : R) (phi_zero : pt) (phi_max : R) (transform : option Transform) : res Disk :=
  do normal <- vnormalize normal;
  if vis_parallel normal phi_zero then Panic else
  do phi_zero <- vnormalize (vsub phi_zero (vscale normal (vdot normal phi_zero)));
  if Rleb radius inner_radius then Panic else
  if Rltb radius 0 then Panic else
  if Rltb inner_radius 0 then Panic else
  do phi_max <- clamp phi_max 0 360;
  Ok (mkDisk centre normal radius inner_radius phi_zero (to_radians phi_max) transform).
(** disk3d.rs:64-74 *)
Definition disk_new (centre normal : pt) (radius : R) : res Disk :=
  do phi_zero <- match get_perpendicular normal with Ok v => Ok v | _ => Panic end;
  disk_new_detailed centre normal radius 0 phi_zero 360 None.

(** disk3d.rs:132-166 *)
Definition disk_basic_intersection (k : Disk) (ray : Ray) : res (hit (pt * R)) :=
  do t <- plane_intersect (d_centre k) (d_normal k) ray;
  Ok (match t with
      | None => Miss
      | Some t =>
        let phit := project ray t in
        let r := vsub phit (d_centre k) in
        let r_squared := vlen2 r in
        if Rltb (d_radius k * d_radius k) r_squared || Rltb r_squared (d_inner k * d_inner k) then Miss else
        let zxn := vcross (d_phi_zero k) (d_normal k) in
        let phi := longitude (vdot (vneg r) zxn) (vdot r (d_phi_zero k)) in
        if Rltb (d_phi_max k) phi then Miss else Hit (phit, phi)
      end).
(** disk3d.rs:169-211; at the centre the derivatives are not numbers *)
Definition disk_info (k : Disk) (ray : Ray) (phit : pt) (phi : R) : hit IntersectionInfo :=
  let r := vsub phit (d_centre k) in
  let rhit := vlen r in
  let zxn := vcross (d_phi_zero k) (d_normal k) in
  let rhit_sin_phi := vdot (vneg r) zxn in
  let rhit_cos_phi := vdot r (d_phi_zero k) in
  if Req_EM_T rhit 0 then NotANumber else
  let dpdu := vadd (vscale (d_phi_zero k) (- rhit_sin_phi)) (vscale zxn (rhit_cos_phi / rhit * (d_inner k - d_radius k))) in
  let dpdv := vadd (vscale (d_phi_zero k) (- rhit_cos_phi)) (vscale zxn (rhit_sin_phi / rhit * (d_radius k - d_inner k))) in
  let '(normal, side) := get_side (d_normal k) (direction ray) in
  Hit (mkInfo phit normal side dpdu dpdv).
(** disk3d.rs:249-258 *)
Definition disk_intersect_local_ray (k : Disk) (ray : Ray) : res (hit IntersectionInfo) :=
  do h <- disk_basic_intersection k ray;
  Ok (match h with Miss => Miss | NotANumber => NotANumber | Hit (p, phi) => disk_info k ray p phi end).
Definition disk_intersect (k : Disk) : Ray -> res (hit IntersectionInfo) := world_intersect (d_transform k) (disk_intersect_local_ray k).
(** disk3d.rs:224-226 *)
Definition disk_area (k : Disk) : R := d_phi_max k * (1 / 2) * (d_radius k * d_radius k - d_inner k * d_inner k).
(** disk3d.rs:213-216: not implemented *)
Definition disk_bounds (k : Disk) : res (BBox R) := Panic.
