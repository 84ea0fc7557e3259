(** The error estimates of /repo/geometry/src/transform.rs, in the arithmetic of the machine (IEEE 754 binary64, the feature [float] is off).
    Points and vectors are [vec]s.  The debug-only assertion at line 71 is not modelled. *)
From Coq Require Import ZArith Bool List.
From Flocq Require Import IEEE754.BinarySingleNaN IEEE754.Binary IEEE754.Bits.
From Verif.Geometry Require Import RoundErrorModel QuickInvSqrtModel MachineModel.
Import ListNotations.
Open Scope Z_scope.

Definition fabs (a : f64) : f64 := b64_abs a.
Definition f_one : f64 := b64_of_bits 0x3ff0000000000000.
Definition f_three : f64 := b64_of_bits 0x4008000000000000.
(** [Float::EPSILON / 2.0] *)
Definition half_epsilon : f64 := b64_of_bits 0x3ca0000000000000.
(** geometry/src/lib.rs:119-126, [gamma!(3)] *)
Definition gamma3 : f64 := let nm := fmul half_epsilon f_three in fdiv nm (fsub f_one nm).

(** transform.rs:41-44 and 29-37: the matrices, as lists of 16 numbers *)
Record ftransform := mkFT { f_elements : list f64; f_inv : list f64 }.
Definition f_at (m : list f64) (r c : nat) : f64 := nth (4 * r + c) m f_zero.

(** [a * x + b * y + c * z + d] *)
Definition row4 (a b c d x y z : f64) : f64 := fadd (fadd (fadd (fmul a x) (fmul b y)) (fmul c z)) d.
Definition row3 (a b c x y z : f64) : f64 := fadd (fadd (fmul a x) (fmul b y)) (fmul c z).
Definition abs4 (a b c d x y z : f64) : f64 := fadd (fadd (fadd (fabs (fmul a x)) (fabs (fmul b y))) (fabs (fmul c z))) (fabs d).

(** transform.rs:52-74, with the division of point3d.rs:336-346 *)
Definition f_mul4x4point (m : list f64) (p : vec) : vec :=
  let row r := row4 (f_at m r 0) (f_at m r 1) (f_at m r 2) (f_at m r 3) (vec_x p) (vec_y p) (vec_z p) in
  let w := row 3%nat in
  mkVec (fdiv (row 0%nat) w) (fdiv (row 1%nat) w) (fdiv (row 2%nat) w).
(** transform.rs:76-83 *)
Definition f_mul4x4vec (m : list f64) (v : vec) : vec :=
  let row r := row3 (f_at m r 0) (f_at m r 1) (f_at m r 2) (vec_x v) (vec_y v) (vec_z v) in
  mkVec (row 0%nat) (row 1%nat) (row 2%nat).
(** transform.rs:85-101 *)
Definition f_mul4x4_abs (m : list f64) (p : vec) : vec :=
  let row r := abs4 (f_at m r 0) (f_at m r 1) (f_at m r 2) (f_at m r 3) (vec_x p) (vec_y p) (vec_z p) in
  mkVec (row 0%nat) (row 1%nat) (row 2%nat).
(** point3d.rs:316-326 and 244-254 *)
Definition p_scale (p : vec) (k : f64) : vec := mkVec (fmul (vec_x p) k) (fmul (vec_y p) k) (fmul (vec_z p) k).
Definition p_add (p q : vec) : vec := mkVec (fadd (vec_x p) (vec_x q)) (fadd (vec_y p) (vec_y q)) (fadd (vec_z p) (vec_z q)).

(** the estimates for a matrix, shared by the functions below *)
Definition pt_with_error (m : list f64) (p : vec) : vec * vec := (f_mul4x4point m p, p_scale (f_mul4x4_abs m p) gamma3).
Definition pt_propagate_error (m : list f64) (p error : vec) : vec * vec :=
  let '(ret, err2) := pt_with_error m p in
  let err1 := p_scale (f_mul4x4_abs m error) (fadd f_one gamma3) in
  (ret, p_add err1 err2).
Definition vec_with_error (m : list f64) (v : vec) : vec * vec := (f_mul4x4vec m v, p_scale (f_mul4x4_abs m v) gamma3).
Definition vec_propagate_error (m : list f64) (v error : vec) : vec * vec :=
  let '(ret, err2) := vec_with_error m v in
  let err1 := p_scale (f_mul4x4_abs m error) (fadd f_one gamma3) in
  (ret, p_add err1 err2).

(** transform.rs:318-332 *)
Definition transform_pt_with_error (t : ftransform) (p : vec) : vec * vec := pt_with_error (f_elements t) p.
Definition inv_transform_pt_with_error (t : ftransform) (p : vec) : vec * vec := pt_with_error (f_inv t) p.
(** transform.rs:336-360 *)
Definition transform_pt_propagate_error (t : ftransform) (p error : vec) : vec * vec := pt_propagate_error (f_elements t) p error.
Definition inv_transform_pt_propagate_error (t : ftransform) (p error : vec) : vec * vec := pt_propagate_error (f_inv t) p error.
(** transform.rs:376-396 *)
Definition transform_vec_with_error (t : ftransform) (v : vec) : vec * vec := vec_with_error (f_elements t) v.
Definition inv_transform_vec_with_error (t : ftransform) (v : vec) : vec * vec := vec_with_error (f_inv t) v.
(** transform.rs:400-428 *)
Definition transform_vec_propagate_error (t : ftransform) (v error : vec) : vec * vec := vec_propagate_error (f_elements t) v error.
Definition inv_transform_vec_propagate_error (t : ftransform) (v error : vec) : vec * vec := vec_propagate_error (f_inv t) v error.

(** transform.rs:468-541: the transformed ray, from the transformed origin and direction and the error of the origin; the origin is moved along the
    direction to account for its error (vector3d.rs:90-96 and 289-305, point3d.rs:264-270) *)
Definition vec_abs (v : vec) : vec := mkVec (fabs (vec_x v)) (fabs (vec_y v)) (fabs (vec_z v)).
Definition vec_dot (u v : vec) : f64 := fadd (fadd (fmul (vec_x u) (vec_x v)) (fmul (vec_y u) (vec_y v))) (fmul (vec_z u) (vec_z v)).
Definition move_origin (origin direction o_error : vec) : vec :=
  let l2 := length_squared direction in
  if flt f_zero l2 then p_add origin (p_scale direction (fdiv (vec_dot (vec_abs direction) o_error) l2)) else origin.
Definition transform_ray (t : ftransform) (origin direction : vec) : (vec * vec) * vec * vec :=
  let '(o, o_error) := transform_pt_with_error t origin in
  let '(d, d_error) := transform_vec_with_error t direction in
  (move_origin o d o_error, d, o_error, d_error).
Definition inv_transform_ray (t : ftransform) (origin direction : vec) : (vec * vec) * vec * vec :=
  let '(o, o_error) := inv_transform_pt_with_error t origin in
  let '(d, d_error) := inv_transform_vec_with_error t direction in
  (move_origin o d o_error, d, o_error, d_error).
