(** The quick inverse square root and the functions that call it when the feature [quick_inv_sqrt] is on:
    /repo/geometry/src/quick_inverse_sqrt.rs, vector3d.rs and triangle3d.rs, in the arithmetic of the machine (IEEE 754 binary32 and binary64,
    round to nearest, ties to even; the feature [float] is off).  The payload of a NaN is not that of the hardware. *)
From Coq Require Import ZArith Bool.
From Flocq Require Import IEEE754.BinarySingleNaN IEEE754.Binary IEEE754.Bits.
From Verif.Common Require Import Base.
From Verif.Geometry Require Import RoundErrorModel.
Open Scope Z_scope.

Definition f32 := binary32.
Definition mul32 (a b : f32) : f32 := b32_mult mode_NE a b.
Definition sub32 (a b : f32) : f32 := b32_minus mode_NE a b.
(** The cast [as f32] of an [f64]: rounds to nearest, and to infinity what is too large. *)
Definition to_f32 (x : f64) : f32 :=
  match x with
  | B754_zero _ _ s => B754_zero 24 128 s
  | B754_infinity _ _ s => B754_infinity 24 128 s
  | B754_nan _ _ _ _ _ => b32_of_bits 0x7fc00000
  | B754_finite _ _ s m e _ => binary_normalize 24 128 eq_refl eq_refl mode_NE (SpecFloat.cond_Zopp s (Z.pos m)) e s
  end.
(** The cast [as f64] of an [f32] *)
Definition to_f64 (x : f32) : f64 :=
  match x with
  | B754_zero _ _ s => B754_zero 53 1024 s
  | B754_infinity _ _ s => B754_infinity 53 1024 s
  | B754_nan _ _ _ _ _ => b64_of_bits 0x7ff8000000000000
  | B754_finite _ _ s m e _ => binary_normalize 53 1024 eq_refl eq_refl mode_NE (SpecFloat.cond_Zopp s (Z.pos m)) e s
  end.
(** The transmutations between [f32] and [i32] *)
Definition as_i32 (x : f32) : Z := let b := bits_of_b32 x in if b <? 2 ^ 31 then b else b - 2 ^ 32.
Definition of_i32 (i : Z) : f32 := b32_of_bits (i mod 2 ^ 32).
Definition three_halfs : f32 := b32_of_bits 0x3fc00000.
Definition half32 : f32 := b32_of_bits 0x3f000000.

(** quick_inverse_sqrt.rs:43-44: one iteration *)
Definition newton_step (x2 y : f32) : f32 := mul32 y (sub32 three_halfs (mul32 (mul32 x2 y) y)).
(** quick_inverse_sqrt.rs:28-48.  [checked] says whether the program was built with overflow checks (as debug builds are); without them the
    subtraction wraps around. *)
Definition quick_inv_sqrt (checked : bool) (number : f64) : res f64 :=
  let number := to_f32 number in
  let x2 := mul32 number half32 in
  let y := number in
  let i := as_i32 y in
  let i := 0x5f3759df - Z.shiftr i 1 in
  if checked && (2 ^ 31 <=? i) then Panic else
  let y := of_i32 i in
  let y := newton_step x2 y in
  let y := newton_step x2 y in
  Ok (to_f64 y).

(** vector3d.rs:211-213 *)
Record vec := mkVec { vec_x : f64; vec_y : f64; vec_z : f64 }.
Definition length_squared (v : vec) : f64 :=
  fadd (fadd (fmul (vec_x v) (vec_x v)) (fmul (vec_y v) (vec_y v))) (fmul (vec_z v) (vec_z v)).
(** [1e-20] and [100. * Float::EPSILON] *)
Definition f_1e_20 : f64 := b64_of_bits 0x3bc79ca10c924223.
Definition f_tiny : f64 := b64_of_bits 0x3d19000000000000.
(** vector3d.rs:216-228, with the feature *)
Definition normalize_quick (checked : bool) (v : vec) : res vec :=
  let l2 := length_squared v in
  if negb (flt f_1e_20 l2) then Panic else
  do l <- quick_inv_sqrt checked l2 ;
  Ok (mkVec (fmul (vec_x v) l) (fmul (vec_y v) l) (fmul (vec_z v) l)).
(** vector3d.rs:216-228, without the feature *)
Definition f_one : f64 := b64_of_bits 0x3ff0000000000000.
Definition normalize_plain (v : vec) : res vec :=
  let l2 := length_squared v in
  if negb (flt f_1e_20 l2) then Panic else
  let l := fdiv f_one (fsqrt l2) in
  Ok (mkVec (fmul (vec_x v) l) (fmul (vec_y v) l) (fmul (vec_z v) l)).
(** vector3d.rs:148-183, with the feature *)
Definition get_perpendicular_quick (checked : bool) (v : vec) : res vec :=
  let '(mkVec x y z) := v in
  if flt f_tiny (b64_abs x) then
    let vx2 := fmul x x in
    let vy2 := fmul y y in
    do q <- quick_inv_sqrt checked (fadd vx2 vy2) ;
    let ay := fmul x q in
    let az := f_zero in
    let ax := fdiv (fmul (fneg y) ay) x in
    Ok (mkVec ax ay az)
  else if flt f_tiny (b64_abs y) then
    let vx2 := fmul x x in
    let vy2 := fmul y y in
    do q <- quick_inv_sqrt checked (fadd vx2 vy2) ;
    let ax := fmul y q in
    let az := f_zero in
    let ay := fdiv (fmul (fneg x) ax) y in
    Ok (mkVec ax ay az)
  else if flt f_tiny (b64_abs z) then
    let vx2 := fmul x x in
    let vz2 := fmul z z in
    do q <- quick_inv_sqrt checked (fadd vz2 vx2) ;
    let ax := fmul z q in
    let ay := f_zero in
    let az := fdiv (fmul (fneg x) ax) z in
    Ok (mkVec ax ay az)
  else Err.
(** triangle3d.rs:199-210: [a], [b] and [c] are the lengths of the sides; with the feature *)
Definition circumradius_quick (checked : bool) (a b c : f64) : res f64 :=
  let s := fmul (fmul (fmul (fadd (fadd a b) c) (fsub (fadd b c) a)) (fsub (fadd c a) b)) (fsub (fadd a b) c) in
  do q <- quick_inv_sqrt checked s ;
  Ok (fmul (fmul (fmul a b) c) q).
