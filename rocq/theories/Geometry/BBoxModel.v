(** Model of /repo/geometry/src/bbox3d.rs.  The arithmetic is a parameter ([Flt]), see Common/Flt.v.
    [gamma!(3.)] (lib.rs:119-126) is the parameter [g3] of [intersect]; over the reals its value is [gamma 3] below. *)
From Coq Require Import Reals Bool.
From Verif.Common Require Import Flt.
From Verif.Geometry Require Import Vec.

(** lib.rs:119-126 *)
Definition gamma (n : R) : R := (eps64 / 2 * n / (1 - eps64 / 2 * n))%R.

Section BBox.
Context {T : Type} (F : Flt T).

(** bbox3d.rs:48-54 *)
Record BBox := mkB { bmin : V3 T; bmax : V3 T }.
(** bbox3d.rs:34-43 *)
Inductive BBoxAxis := AxisX | AxisY | AxisZ.

(** bbox3d.rs:57-78, one dimension: swap when the first is greater *)
Definition order (a b : T) : T * T := if fltb F b a then (b, a) else (a, b).
(** bbox3d.rs:57-78 *)
Definition get_mins_maxs (a b : V3 T) : V3 T * V3 T :=
  (mkV (fst (order (vx a) (vx b))) (fst (order (vy a) (vy b))) (fst (order (vz a) (vz b))),
   mkV (snd (order (vx a) (vx b))) (snd (order (vy a) (vy b))) (snd (order (vz a) (vz b)))).

(** bbox3d.rs:84-91 *)
Definition bbox_new (a b : V3 T) : BBox := let '(mn, mx) := get_mins_maxs a b in mkB mn mx.
(** bbox3d.rs:95-97 *)
Definition from_point (p : V3 T) : BBox := mkB p p.
(** bbox3d.rs:101-110 *)
Definition from_union_point (b : BBox) (p : V3 T) : BBox :=
  mkB (fst (get_mins_maxs (bmin b) p)) (snd (get_mins_maxs (bmax b) p)).
(** bbox3d.rs:113-134 *)
Definition from_union (b1 b2 : BBox) : BBox :=
  mkB (fst (get_mins_maxs (bmin b1) (bmin b2))) (snd (get_mins_maxs (bmax b1) (bmax b2))).
(** bbox3d.rs:137-158 *)
Definition from_intersection (b1 b2 : BBox) : BBox :=
  mkB (snd (get_mins_maxs (bmin b1) (bmin b2))) (fst (get_mins_maxs (bmax b1) (bmax b2))).
(** bbox3d.rs:161-166 *)
Definition overlaps (a b : BBox) : bool :=
  (fleb F (vx (bmin b)) (vx (bmax a)) && fleb F (vx (bmin a)) (vx (bmax b))) &&
  (fleb F (vy (bmin b)) (vy (bmax a)) && fleb F (vy (bmin a)) (vy (bmax b))) &&
  (fleb F (vz (bmin b)) (vz (bmax a)) && fleb F (vz (bmin a)) (vz (bmax b))).
(** bbox3d.rs:169-176 *)
Definition point_inside (b : BBox) (p : V3 T) : bool :=
  fleb F (vx (bmin b)) (vx p) && fleb F (vx p) (vx (bmax b)) &&
  fleb F (vy (bmin b)) (vy p) && fleb F (vy p) (vy (bmax b)) &&
  fleb F (vz (bmin b)) (vz p) && fleb F (vz p) (vz (bmax b)).
(** bbox3d.rs:181-188 *)
Definition point_inside_exclusive (b : BBox) (p : V3 T) : bool :=
  fleb F (vx (bmin b)) (vx p) && fltb F (vx p) (vx (bmax b)) &&
  fleb F (vy (bmin b)) (vy p) && fltb F (vy p) (vy (bmax b)) &&
  fleb F (vz (bmin b)) (vz p) && fltb F (vz p) (vz (bmax b)).
(** bbox3d.rs:191-200 *)
Definition max_extent (b : BBox) : BBoxAxis :=
  let d := vsubF F (bmax b) (bmin b) in
  if fltb F (vy d) (vx d) && fltb F (vz d) (vx d) then AxisX
  else if fltb F (vz d) (vy d) then AxisY else AxisZ.
(** bbox3d.rs:203-206 *)
Definition surface_area (b : BBox) : T :=
  let d := vsubF F (bmax b) (bmin b) in
  fmul F (fadd F (f1 F) (f1 F)) (fadd F (fadd F (fmul F (vx d) (vy d)) (fmul F (vx d) (vz d))) (fmul F (vy d) (vz d))).

(** bbox3d.rs:243-314 *)
Definition intersect (g3 : T) (b : BBox) (origin inv_dir : V3 T) : bool :=
  let lo := vscale_components F (vsubF F (bmin b) origin) (vx inv_dir) (vy inv_dir) (vz inv_dir) in
  let hi := vscale_components F (vsubF F (bmax b) origin) (vx inv_dir) (vy inv_dir) (vz inv_dir) in
  let widen := fadd F (f1 F) (fmul F (fadd F (f1 F) (f1 F)) g3) in
  let '(tx_min, tx_max) := order (vx lo) (vx hi) in
  if fltb F tx_max (f0 F) then false else
  let '(ty_min, ty_max) := order (vy lo) (vy hi) in
  if fltb F ty_max (f0 F) then false else
  let tx_max := fmul F tx_max widen in
  let ty_max := fmul F ty_max widen in
  if fltb F ty_max tx_min || fltb F tx_max ty_min then false else
  let tx_min := if fltb F tx_min ty_min then ty_min else tx_min in
  let tx_max := if fltb F ty_max tx_max then ty_max else tx_max in
  let '(tz_min, tz_max) := order (vz lo) (vz hi) in
  if fltb F tz_max (f0 F) then false else
  let tz_max := fmul F tz_max widen in
  if fltb F tz_max tx_min || fltb F tx_max tz_min then false else
  let tx_min := if fltb F tx_min tz_min then tz_min else tx_min in
  let tx_max := if fltb F tz_max tx_max then tz_max else tx_max in
  fltb F tx_min tx_max && fltb F (f0 F) tx_max.
End BBox.
Arguments BBox : clear implicits. Arguments mkB {T}. Arguments bmin {T}. Arguments bmax {T}.
