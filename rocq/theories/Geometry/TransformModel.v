(** Model of /repo/geometry/src/transform.rs, in exact arithmetic.
    Not modelled: the debug-only assertion at line 71 and the error estimates ([..._with_error], [..._propagate_error]). *)
From Coq Require Import Reals List Bool.
From Verif.Common Require Import Base Flt.
From Verif.Geometry Require Import Vec BBoxModel.
Import ListNotations.
Open Scope R_scope.

(** transform.rs:29-37 *)
Definition elem (r c : nat) : nat := (4 * r + c)%nat.
(** a matrix is a list of 16 numbers, [matrix[elem!(r, c)]] *)
Definition at_ (m : list R) (r c : nat) : R := nth (elem r c) m 0.

(** transform.rs:41-44 *)
Record Transform := mkT { elements : list R; inv_elements : list R }.

(** transform.rs:52-74 *)
Definition mul4x4point (m : list R) (p : pt) : pt :=
  let row r := at_ m r 0 * vx p + at_ m r 1 * vy p + at_ m r 2 * vz p + at_ m r 3 in
  vdiv (mkV (row 0%nat) (row 1%nat) (row 2%nat)) (row 3%nat).
(** transform.rs:76-83 *)
Definition mul4x4vec (m : list R) (v : pt) : pt :=
  let row r := at_ m r 0 * vx v + at_ m r 1 * vy v + at_ m r 2 * vz v in
  mkV (row 0%nat) (row 1%nat) (row 2%nat).
(** transform.rs:104-166 *)
Definition mul4x4 (m1 m2 : list R) : list R :=
  let calc_elem r c := at_ m1 r 0 * at_ m2 0 c + at_ m1 r 1 * at_ m2 1 c + at_ m1 r 2 * at_ m2 2 c + at_ m1 r 3 * at_ m2 3 c in
  flat_map (fun r => map (calc_elem r) [0; 1; 2; 3]%nat) [0; 1; 2; 3]%nat.

(** transform.rs:168-173: [self *= other] *)
Definition mul_assign (self other : Transform) : Transform :=
  mkT (mul4x4 (elements self) (elements other)) (mul4x4 (inv_elements self) (inv_elements other)).

(** [m[elem!(r, c)] = v] *)
Definition set_ (m : list R) (r c : nat) (v : R) : list R := upd m (elem r c) v.

(** transform.rs:178-189 *)
Definition identity : list R := fold_left (fun m i => set_ m i i 1) [0; 1; 2; 3]%nat (repeat 0 16).
Definition t_new : Transform := mkT identity identity.
(** transform.rs:192-207 *)
Definition translate (x y z : R) : Transform :=
  mkT (set_ (set_ (set_ identity 0 3 x) 1 3 y) 2 3 z)
      (set_ (set_ (set_ identity 0 3 (- x)) 1 3 (- y)) 2 3 (- z)).
(** transform.rs:210-227 *)
Definition scale (x y z : R) : Transform :=
  mkT (set_ (set_ (set_ (set_ (repeat 0 16) 0 0 x) 1 1 y) 2 2 z) 3 3 1)
      (set_ (set_ (set_ (set_ (repeat 0 16) 0 0 (1 / x)) 1 1 (1 / y)) 2 2 (1 / z)) 3 3 1).
(** [f64::to_radians] *)
Definition to_radians (degrees : R) : R := degrees * (PI / 180).
(** transform.rs:231-248 *)
Definition rotate_x (degrees : R) : Transform :=
  let rad := to_radians degrees in
  mkT (set_ (set_ (set_ (set_ identity 1 1 (cos rad)) 1 2 (- sin rad)) 2 1 (sin rad)) 2 2 (cos rad))
      (set_ (set_ (set_ (set_ identity 1 1 (cos rad)) 2 1 (- sin rad)) 1 2 (sin rad)) 2 2 (cos rad)).
(** transform.rs:252-269 *)
Definition rotate_y (degrees : R) : Transform :=
  let rad := to_radians degrees in
  mkT (set_ (set_ (set_ (set_ identity 0 0 (cos rad)) 0 2 (sin rad)) 2 0 (- sin rad)) 2 2 (cos rad))
      (set_ (set_ (set_ (set_ identity 0 0 (cos rad)) 2 0 (sin rad)) 0 2 (- sin rad)) 2 2 (cos rad)).
(** transform.rs:273-290 *)
Definition rotate_z (degrees : R) : Transform :=
  let rad := to_radians degrees in
  mkT (set_ (set_ (set_ (set_ identity 0 0 (cos rad)) 0 1 (- sin rad)) 1 0 (sin rad)) 1 1 (cos rad))
      (set_ (set_ (set_ (set_ identity 0 0 (cos rad)) 1 0 (- sin rad)) 0 1 (sin rad)) 1 1 (cos rad)).
(** transform.rs:293-302 *)
Definition changes_hands (t : Transform) : bool :=
  let m := at_ (elements t) in
  let determinant := m 0%nat 0%nat * (m 1%nat 1%nat * m 2%nat 2%nat - m 1%nat 2%nat * m 2%nat 1%nat)
    - m 0%nat 1%nat * (m 1%nat 0%nat * m 2%nat 2%nat - m 1%nat 2%nat * m 2%nat 0%nat)
    + m 0%nat 2%nat * (m 1%nat 0%nat * m 2%nat 1%nat - m 1%nat 1%nat * m 2%nat 0%nat) in
  Rltb determinant 0.
(** transform.rs:307-314 *)
Definition transform_pt (t : Transform) (p : pt) : pt := mul4x4point (elements t) p.
Definition inv_transform_pt (t : Transform) (p : pt) : pt := mul4x4point (inv_elements t) p.
(** transform.rs:365-372 *)
Definition transform_vec (t : Transform) (v : pt) : pt := mul4x4vec (elements t) v.
Definition inv_transform_vec (t : Transform) (v : pt) : pt := mul4x4vec (inv_elements t) v.
(** transform.rs:433-446: the transpose of the inverse *)
Definition transform_normal (t : Transform) (v : pt) : pt :=
  let m := at_ (inv_elements t) in
  mkV (m 0%nat 0%nat * vx v + m 1%nat 0%nat * vy v + m 2%nat 0%nat * vz v)
      (m 0%nat 1%nat * vx v + m 1%nat 1%nat * vy v + m 2%nat 1%nat * vz v)
      (m 0%nat 2%nat * vx v + m 1%nat 2%nat * vy v + m 2%nat 2%nat * vz v).
(** transform.rs:449-462 *)
Definition inv_transform_normal (t : Transform) (v : pt) : pt :=
  let m := at_ (elements t) in
  mkV (m 0%nat 0%nat * vx v + m 1%nat 0%nat * vy v + m 2%nat 0%nat * vz v)
      (m 0%nat 1%nat * vx v + m 1%nat 1%nat * vy v + m 2%nat 1%nat * vz v)
      (m 0%nat 2%nat * vx v + m 1%nat 2%nat * vy v + m 2%nat 2%nat * vz v).
(** transform.rs:544-576 *)
Definition transform_bbox (t : Transform) (b : BBox R) : BBox R :=
  let f x y z := transform_pt t (mkV x y z) in
  let '(mkB (mkV x0 y0 z0) (mkV x1 y1 z1)) := b in
  fold_left (from_union_point RF)
    [f x1 y0 z0; f x0 y1 z0; f x0 y0 z1; f x0 y1 z1; f x1 y1 z0; f x1 y0 z1; f x1 y1 z1]
    (from_point (f x0 y0 z0)).
(** transform.rs:579-611 *)
Definition inv_transform_bbox (t : Transform) (b : BBox R) : BBox R :=
  let f x y z := inv_transform_pt t (mkV x y z) in
  let '(mkB (mkV x0 y0 z0) (mkV x1 y1 z1)) := b in
  fold_left (from_union_point RF)
    [f x1 y0 z0; f x0 y1 z0; f x0 y0 z1; f x0 y1 z1; f x1 y1 z0; f x1 y0 z1; f x1 y1 z1]
    (from_point (f x0 y0 z0)).
