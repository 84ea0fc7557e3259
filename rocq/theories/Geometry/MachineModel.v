(** Triangles in the arithmetic of the machine (IEEE 754 binary64): /repo/geometry/src/point3d.rs, segment3d.rs, vector3d.rs and triangle3d.rs, with
    the features [float] and [quick_inv_sqrt] off unless said otherwise.  Points are [vec]s. *)
From Coq Require Import ZArith Bool.
From Flocq Require Import IEEE754.BinarySingleNaN IEEE754.Binary IEEE754.Bits.
From Verif.Common Require Import Base.
From Verif.Geometry Require Import RoundErrorModel QuickInvSqrtModel.
Open Scope Z_scope.

Definition fle (a b : f64) : bool := match b64_compare a b with Some Lt | Some Eq => true | _ => false end.
(** point3d.rs:280-286 *)
Definition vec_sub (a b : vec) : vec := mkVec (fsub (vec_x a) (vec_x b)) (fsub (vec_y a) (vec_y b)) (fsub (vec_z a) (vec_z b)).
(** vector3d.rs:192-198 *)
Definition vec_cross (u v : vec) : vec :=
  mkVec (fsub (fmul (vec_y u) (vec_z v)) (fmul (vec_z u) (vec_y v)))
        (fsub (fmul (vec_z u) (vec_x v)) (fmul (vec_x u) (vec_z v)))
        (fsub (fmul (vec_x u) (vec_y v)) (fmul (vec_y u) (vec_x v))).
(** vector3d.rs:201-203 *)
Definition vec_length (v : vec) : f64 := fsqrt (length_squared v).
(** [1e-3] and [1e-5] *)
Definition f_1e_3 : f64 := b64_of_bits 0x3f50624dd2f1a9fc.
Definition f_1e_5 : f64 := b64_of_bits 0x3ee4f8b588e368f1.
(** point3d.rs:118-120 and 132-134 *)
Definition same_point (a b : vec) : bool := fle (length_squared (vec_sub a b)) (fmul f_1e_3 f_1e_3).
(** point3d.rs:139-156 *)
Definition in_line (a b c : vec) : res bool :=
  if same_point a b && same_point a c then Err else
  if same_point a b || same_point a c || same_point b c then Ok true else
  let ab := vec_sub b a in
  let bc := vec_sub c b in
  let cross := vec_length (vec_cross ab bc) in
  Ok (flt cross f_1e_5).
(** point3d.rs:87-92 and 102-105, segment3d.rs:42-49 *)
Definition squared_distance (a b : vec) : f64 :=
  let dx := fmul (fsub (vec_x a) (vec_x b)) (fsub (vec_x a) (vec_x b)) in
  let dy := fmul (fsub (vec_y a) (vec_y b)) (fsub (vec_y a) (vec_y b)) in
  let dz := fmul (fsub (vec_z a) (vec_z b)) (fsub (vec_z a) (vec_z b)) in
  fadd (fadd dx dy) dz.
Definition distance (a b : vec) : f64 := fsqrt (squared_distance a b).
(** triangle3d.rs:177-190, [ab], [bc] and [ca] being the lengths of the sides *)
Definition heron (ab bc ca : f64) : f64 :=
  let p := fadd (fadd ca bc) ab in
  let h := fdiv p f_two in
  fsqrt (fdiv (fmul (fmul (fmul p (fsub h ab)) (fsub h bc)) (fsub h ca)) f_two).
Record triangle := mkTriangle { t_a : vec; t_b : vec; t_c : vec; t_area : f64; t_normal : vec }.
(** triangle3d.rs:131-160 and 164-169 *)
Definition triangle_new (a b c : vec) : res triangle :=
  if same_point a b || same_point a c || same_point b c then Err else
  do line <- in_line a b c ;
  if line then Err else
  let area := heron (distance a b) (distance b c) (distance c a) in
  do normal <- normalize_plain (vec_cross (vec_sub b a) (vec_sub c b)) ;
  Ok (mkTriangle a b c area normal).
(** triangle3d.rs:199-210 *)
Definition circumradius (t : triangle) : f64 :=
  let a := distance (t_a t) (t_b t) in
  let b := distance (t_b t) (t_c t) in
  let c := distance (t_c t) (t_a t) in
  let s := fmul (fmul (fmul (fadd (fadd a b) c) (fsub (fadd b c) a)) (fsub (fadd c a) b)) (fsub (fadd a b) c) in
  fdiv (fmul (fmul a b) c) (fsqrt s).
