(** Model of /repo/geometry/src/triangle3d.rs, ray3d.rs, segment3d.rs, plane3d.rs, intersection.rs and
    /repo/rendering/src/triangle/ (mod.rs, fallback.rs), in exact arithmetic.

    Simplifications: the renderer's [Triangle = [Float; 9]] is the record of its three corners; the [textures] and
    [quick_inv_sqrt] features, error estimates of transformed rays and [IntersectionInfo::new] (Weingarten) are not modelled. *)
From Coq Require Import Reals List Bool.
From Verif.Common Require Import Base Flt.
From Verif.Geometry Require Import Vec BBoxModel.
Import ListNotations.
Open Scope R_scope.

(** ray3d.rs:32-37 *)
Record Ray := mkRay { origin : pt; direction : pt }.
(** ray3d.rs:42-44 *)
Definition project (r : Ray) (t : R) : pt := vadd (origin r) (vscale (direction r) t).

(** triangle3d.rs:37-68 *)
Definition intersect_triangle (ray : Ray) (v0 v1 v2 : pt) : option (pt * R * R) :=
  let edge1 := vsub v1 v0 in
  let edge2 := vsub v2 v0 in
  let h := vcross (direction ray) edge2 in
  let a := vdot edge1 h in
  let tiny := 100 * eps64 in
  if Rltb (- tiny) a && Rltb a tiny then None else
  let f := 1 / a in
  let s := vsub (origin ray) v0 in
  let u := f * vdot s h in
  if negb (Rleb 0 u && Rleb u 1) then None else
  let q := vcross s edge1 in
  let v := f * vdot (direction ray) q in
  if negb (Rleb 0 v && Rleb v 1) then None else
  let t := f * vdot edge2 q in
  if Rltb tiny t then Some (project ray t, u, v) else None.

(** rendering/src/triangle/mod.rs:13: the corners of a [Triangle] *)
Record Tri := mkTri { ta : pt; tb : pt; tc : pt }.

(** fallback.rs:11-51 *)
Definition baricentric_coordinates (ray : Ray) (t : Tri) : option (pt * R * R) :=
  let edge1 := vsub (tb t) (ta t) in
  let edge2 := vsub (tc t) (ta t) in
  let tiny := 1 / 10 ^ 5 in
  let h := vcross (direction ray) edge2 in
  let a := vdot edge1 h in
  if Rltb a tiny && Rltb (- tiny) a then None else
  let f := 1 / a in
  let s := vsub (origin ray) (ta t) in
  let u := f * vdot s h in
  if negb (Rleb (- eps64) u && Rleb u (1 + eps64)) then None else
  let q := vcross s edge1 in
  let v := f * vdot (direction ray) q in
  if Rltb (1 + eps64) (u + v) || Rltb v (- eps64) then None else
  let t' := f * vdot edge2 q in
  if Rltb tiny t' then Some (project ray t', u, v) else None.

(** mod.rs:104-113, triangle3d.rs:492-496 *)
Definition world_bounds (t : Tri) : BBox R :=
  from_union_point RF (from_union_point RF (from_point (ta t)) (tb t)) (tc t).

(** Heron's formula as written in mod.rs:78-83 and triangle3d.rs:183-188 *)
Definition heron (ab bc ca : R) : R :=
  sqrt ((ca + bc + ab) * ((ca + bc + ab) / 2 - ab) * ((ca + bc + ab) / 2 - bc) * ((ca + bc + ab) / 2 - ca) / 2).

(** mod.rs:70-84 *)
Definition triangle_area (t : Tri) : R := heron (distance (tb t) (ta t)) (distance (tc t) (tb t)) (distance (ta t) (tc t)).

(** mod.rs:86-101 *)
Definition triangle_solid_angle_pdf (t : Tri) (point normal : pt) (ray : Ray) : R :=
  let d2 := vlen2 (vsub point (origin ray)) in
  let cos_theta := vdot (origin ray) normal in
  if Rltb cos_theta (1 / 10 ^ 7) then 0 else d2 / Rabs cos_theta / triangle_area t.

(** intersection.rs:29-37 *)
Inductive SurfaceSide := Front | Back | NonApplicable.
(** intersection.rs:43-55 *)
Definition get_side (normal ray_dir : pt) : pt * SurfaceSide :=
  let dot := vdot normal ray_dir in
  if Rltb dot 0 then (normal, Front) else if Rltb 0 dot then (vscale normal (-1), Back) else (mkV 0 0 0, NonApplicable).

(** intersection.rs:67-101 *)
Record IntersectionInfo := mkInfo { i_p : pt; i_normal : pt; i_side : SurfaceSide; i_dpdu : pt; i_dpdv : pt }.

(** mod.rs:147-184 *)
Definition new_info (t : Tri) (point ray_dir : pt) : res IntersectionInfo :=
  let dpdu := vsub (tb t) (ta t) in
  let dpdv := vsub (tc t) (ta t) in
  do normal <- vnormalize (vcross dpdu dpdv);
  let '(normal, side) := get_side normal ray_dir in
  do e1 <- vnormalize dpdu;
  do e2 <- vnormalize (vcross normal e1);
  Ok (match side with Back => mkInfo point normal side e2 e1 | _ => mkInfo point normal side e1 e2 end).

(** segment3d.rs:31-38; [length] is recomputed from the ends *)
Record Segment := mkS { s_start : pt; s_end : pt }.
(** segment3d.rs:42-49, 74-76 *)
Definition s_length (s : Segment) : R := distance (s_start s) (s_end s).
(** segment3d.rs:81-85 *)
Definition s_compare (a b : Segment) : bool :=
  (compare (s_start a) (s_start b) && compare (s_end a) (s_end b)) || (compare (s_end a) (s_start b) && compare (s_start a) (s_end b)).
(** segment3d.rs:88-105 *)
Definition contains_point (s : Segment) (p : pt) : res bool :=
  if Rltb (s_length s) (1 / 100) then Ok false else
  do c <- is_collinear p (s_start s) (s_end s);
  if negb c then Ok false else
  let v := vsub (s_end s) (s_start s) in
  let dot00 := vdot v v in
  let dot01 := vdot v (vsub p (s_start s)) in
  Ok (Rleb (- (1 / 10 ^ 9)) dot01 && Rleb dot01 dot00).
(** segment3d.rs:140-178 *)
Definition get_intersection_pt (a b : Segment) : option (R * R) :=
  let dir1 := vsub (s_end a) (s_start a) in
  let dir2 := vsub (s_end b) (s_start b) in
  if vis_parallel dir1 dir2 then None else
  let normal := vcross dir1 dir2 in
  let delta := vsub (s_start a) (s_start b) in
  if Rltb (1 / 10 ^ 5) (Rabs (vdot delta normal)) then None else
  let tiny := 1 / 10 ^ 5 in
  if Rltb tiny (Rabs (vz normal)) then
    let det := vy dir1 * vx dir2 - vx dir1 * vy dir2 in
    Some ((vy dir2 * vx delta - vx dir2 * vy delta) / det, (vy dir1 * vx delta - vx dir1 * vy delta) / det)
  else if Rltb tiny (Rabs (vx normal)) then
    let det := vy dir1 * vz dir2 - vz dir1 * vy dir2 in
    Some ((vy dir2 * vz delta - vz dir2 * vy delta) / det, (vy dir1 * vz delta - vz dir1 * vy delta) / det)
  else if Rltb tiny (Rabs (vy normal)) then
    let det := vx dir1 * vz dir2 - vz dir1 * vx dir2 in
    Some ((vx dir2 * vz delta - vz dir2 * vx delta) / det, (vx dir1 * vz delta - vz dir1 * vx delta) / det)
  else None.
(** segment3d.rs:182-198: [None] when it returns false, otherwise the point written to [output] *)
Definition s_intersect (a b : Segment) : option pt :=
  match get_intersection_pt a b with
  | Some (t_a, t_b) =>
      if (Rleb (- (1 / 10 ^ 12)) t_a && Rltb t_a (1 + 1 / 10 ^ 7)) && (Rleb (1 / 10 ^ 8) t_b && Rltb t_b (1 - 1 / 10 ^ 8))
      then Some (vadd (s_start a) (vscale (vsub (s_end a) (s_start a)) t_a)) else None
  | None => None
  end.
(** segment3d.rs:202-216 *)
Definition s_touches (a b : Segment) : option pt :=
  match get_intersection_pt a b with
  | Some (t_a, t_b) =>
      if (Rleb 0 t_a && Rleb t_a 1) && (Rleb 0 t_b && Rleb t_b 1)
      then Some (vadd (s_start a) (vscale (vsub (s_end a) (s_start a)) t_a)) else None
  | None => None
  end.
(** segment3d.rs:219-221 *)
Definition midpoint (s : Segment) : pt := vscale (vadd (s_start s) (s_end s)) (1 / 2).

(** plane3d.rs:38-46 *)
Record Plane := mkPlane { p_normal : pt; p_d : R }.
(** plane3d.rs:50-58 *)
Definition plane_new (point normal : pt) : res Plane := do n <- vnormalize normal; Ok (mkPlane n (vdot n point)).
(** plane3d.rs:61-63 *)
Definition plane_test_point (p : Plane) (q : pt) : bool := Rltb (Rabs (vdot (p_normal p) q - p_d p)) eps64.
(** plane3d.rs:67-80 *)
Definition plane_intersect (p : Plane) (r : Ray) : option R :=
  let den := vdot (p_normal p) (direction r) in
  if Rltb (Rabs den) eps64 then None else
  let t := (p_d p - vdot (p_normal p) (origin r)) / den in
  if Rltb t 0 then None else Some t.

(** triangle3d.rs:72-83 *)
Record Triangle3D := mkT3 { t_a : pt; t_b : pt; t_c : pt; t_normal : pt; t_area : R }.

(** triangle3d.rs:163-168 *)
Definition tri_normal (a b c : pt) : res pt := vnormalize (vcross (vsub b a) (vsub c b)).
(** triangle3d.rs:178-189 *)
Definition tri_area (a b c : pt) : R := heron (distance a b) (distance b c) (distance c a).
(** triangle3d.rs:131-158 *)
Definition triangle_new (a b c : pt) : res Triangle3D :=
  if compare a b || compare a c || compare b c then Err else
  do col <- is_collinear a b c;
  if (col : bool) then Err else
  let area := tri_area a b c in
  do n <- tri_normal a b c;
  Ok (mkT3 a b c n area).
(** triangle3d.rs:199-210 *)
Definition circumradius (t : Triangle3D) : R :=
  let a := distance (t_a t) (t_b t) in
  let b := distance (t_b t) (t_c t) in
  let c := distance (t_c t) (t_a t) in
  let s := (a + b + c) * (b + c - a) * (c + a - b) * (a + b - c) in
  a * b * c / sqrt s.
(** triangle3d.rs:214-224 *)
Definition aspect_ratio (t : Triangle3D) : R :=
  let m := fold_left (fun m l => if Rltb l m then l else m)
             [distance (t_a t) (t_b t); distance (t_b t) (t_c t); distance (t_c t) (t_a t)] (10 ^ 19) in
  circumradius t / m.
(** triangle3d.rs:227-242 *)
Definition circumcenter (t : Triangle3D) : pt :=
  let ab := vsub (t_b t) (t_a t) in
  let ac := vsub (t_c t) (t_a t) in
  let n := vcross ab ac in
  let ac2 := vlen ac * vlen ac in
  let ab2 := vlen ab * vlen ab in
  let n2 := vlen n * vlen n in
  vadd (t_a t) (vdiv (vadd (vscale (vcross n ab) ac2) (vscale (vcross ac n) ab2)) (2 * n2)).
(** triangle3d.rs:247-253 *)
Definition centroid (t : Triangle3D) : pt :=
  mkV ((vx (t_a t) + vx (t_b t) + vx (t_c t)) / 3) ((vy (t_a t) + vy (t_b t) + vy (t_c t)) / 3) ((vz (t_a t) + vz (t_b t) + vz (t_c t)) / 3).

(** triangle3d.rs:88-105 *)
Inductive PointInTriangle := VertexA | VertexB | VertexC | EdgeAB | EdgeBC | EdgeAC | Inside | Outside.

(** triangle3d.rs:376-426 *)
Definition test_point (t : Triangle3D) (p : pt) : PointInTriangle :=
  let e1 := vsub (t_b t) (t_a t) in
  let e2 := vsub (t_c t) (t_a t) in
  let pa := vsub p (t_a t) in
  let e2e2 := vdot e2 e2 in let e1e2 := vdot e2 e1 in let e1e1 := vdot e1 e1 in
  let left1 := vdot e1 pa in let left2 := vdot e2 pa in
  let det := e1e1 * e2e2 - e1e2 * e1e2 in
  let alpha := (e2e2 * left1 - e1e2 * left2) / det in
  let beta := (- e1e2 * left1 + e1e1 * left2) / det in
  let w := 1 - alpha - beta in
  let tiny := 100 * eps64 in
  if Rleb (- tiny) alpha && Rleb (- tiny) beta && Rleb (- tiny) w then
    if Rleb alpha tiny && Rleb beta tiny then VertexA
    else if Rleb alpha tiny && Rleb w tiny then VertexC
    else if Rleb beta tiny && Rleb w tiny then VertexB
    else if Rleb alpha tiny then EdgeAC
    else if Rleb w tiny then EdgeBC
    else if Rleb beta tiny then EdgeAB
    else Inside
  else Outside.

(** triangle3d.rs:430-446 *)
Definition get_edge_index_from_points (t : Triangle3D) (a b : pt) : option nat :=
  let s := mkS a b in
  if s_compare s (mkS (t_a t) (t_b t)) then Some 0%nat
  else if s_compare s (mkS (t_b t) (t_c t)) then Some 1%nat
  else if s_compare s (mkS (t_c t) (t_a t)) then Some 2%nat
  else None.
(** triangle3d.rs:450-452 *)
Definition has_vertex (t : Triangle3D) (p : pt) : bool := compare (t_a t) p || compare (t_b t) p || compare (t_c t) p.
(** triangle3d.rs:460-472 *)
Definition t_compare (s t : Triangle3D) : bool := has_vertex t (t_a s) && has_vertex t (t_b s) && has_vertex t (t_c s).
