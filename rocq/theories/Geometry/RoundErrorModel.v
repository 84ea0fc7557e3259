(** Numbers with an error interval: /repo/geometry/src/round_error.rs, in the arithmetic of the machine (IEEE 754 binary64, round to nearest,
    ties to even; the feature [float] is off).  The payload of a NaN is not that of the hardware. *)
From Coq Require Import ZArith Bool List.
From Flocq Require Import IEEE754.BinarySingleNaN IEEE754.Binary IEEE754.Bits.
Import ListNotations.
Open Scope Z_scope.

Definition f64 := binary64.
Definition fadd (a b : f64) : f64 := b64_plus mode_NE a b.
Definition fsub (a b : f64) : f64 := b64_minus mode_NE a b.
Definition fmul (a b : f64) : f64 := b64_mult mode_NE a b.
Definition fdiv (a b : f64) : f64 := b64_div mode_NE a b.
Definition fsqrt (a : f64) : f64 := b64_sqrt mode_NE a.
Definition fneg (a : f64) : f64 := b64_opp a.
Definition flt (a b : f64) : bool := match b64_compare a b with Some Lt => true | _ => false end.
Definition fge (a b : f64) : bool := match b64_compare a b with Some Gt | Some Eq => true | _ => false end.
Definition f_zero : f64 := b64_of_bits 0.
(** 2, 4 and 1/2 *)
Definition f_two : f64 := b64_of_bits 0x4000000000000000.
Definition f_four : f64 := b64_of_bits 0x4010000000000000.
Definition f_half : f64 := b64_of_bits 0x3fe0000000000000.
Definition is_infinite (a : f64) : bool := match a with B754_infinity _ _ _ => true | _ => false end.

(** round_error.rs:27-35 *)
Definition ZERO : Z := 0.
Definition MINUS_ZERO : Z := 9223372036854775808.

(** round_error.rs:37-54 *)
Definition next_float_up (v : f64) : f64 :=
  if is_infinite v && flt f_zero v then v else
  let ui := bits_of_b64 v in
  if ui =? MINUS_ZERO then f_zero else
  let ui := if fge v f_zero then ui + 1 else ui - 1 in
  b64_of_bits ui.
(** round_error.rs:56-70 *)
Definition next_float_down (v : f64) : f64 :=
  if is_infinite v && flt v f_zero then v else
  let ui := bits_of_b64 v in
  if ui =? ZERO then f_zero else
  let ui := if flt f_zero v then ui - 1 else ui + 1 in
  b64_of_bits ui.

(** round_error.rs:74-81 *)
Record ApproxFloat := mkA { low : f64; high : f64 }.
(** round_error.rs:91-96 *)
Definition from_value_and_error (value abs_error : f64) : ApproxFloat := mkA (fsub value abs_error) (fadd value abs_error).
(** round_error.rs:83-87 *)
Definition from_float (value : f64) : ApproxFloat := from_value_and_error value f_zero.
(** round_error.rs:105-112 *)
Definition midpoint (a : ApproxFloat) : f64 := fdiv (fadd (low a) (high a)) f_two.
Definition as_float (a : ApproxFloat) : f64 := midpoint a.
(** round_error.rs:115-123 *)
Definition a_sqrt (a : ApproxFloat) : ApproxFloat := mkA (next_float_down (fsqrt (low a))) (next_float_up (fsqrt (high a))).
(** round_error.rs:126-128 *)
Definition absolute_error (a : ApproxFloat) : f64 := fdiv (fsub (high a) (low a)) f_two.

(** round_error.rs:167-176 *)
Definition a_neg (a : ApproxFloat) : ApproxFloat := mkA (fneg (low a)) (fneg (high a)).
(** round_error.rs:178-187 and 315-320 *)
Definition a_add (a b : ApproxFloat) : ApproxFloat :=
  mkA (next_float_down (fadd (low a) (low b))) (next_float_up (fadd (high a) (high b))).
(** round_error.rs:189-195 and 322-326 *)
Definition a_add_f (a : ApproxFloat) (b : f64) : ApproxFloat := a_add a (from_float b).
(** round_error.rs:197-206 and 328-333 *)
Definition a_sub (a b : ApproxFloat) : ApproxFloat :=
  mkA (next_float_down (fsub (low a) (low b))) (next_float_up (fsub (high a) (high b))).
(** round_error.rs:208-214 and 335-339 *)
Definition a_sub_f (a : ApproxFloat) (b : f64) : ApproxFloat := a_sub a (from_float b).
(** round_error.rs:217-231, the maximum and the minimum *)
Definition max_min (first : f64) (others : list f64) : f64 * f64 :=
  fold_left (fun '(mx, mn) v => (if flt mx v then v else mx, if flt v mn then v else mn)) others (first, first).
(** the four products or quotients, rounded in one direction: the first and the others *)
Definition four (next : f64 -> f64) (op : f64 -> f64 -> f64) (a b : ApproxFloat) : f64 * list f64 :=
  (next (op (low a) (low b)), [next (op (high a) (low b)); next (op (low a) (high b)); next (op (high a) (high b))]).
Definition a_op (op : f64 -> f64 -> f64) (a b : ApproxFloat) : ApproxFloat :=
  let '(l, lp) := four next_float_down op a b in
  let '(h, hp) := four next_float_up op a b in
  let '(_, mn) := max_min l lp in
  let '(mx, _) := max_min h hp in
  mkA (next_float_down mn) (next_float_up mx).
(** round_error.rs:233-257 *)
Definition a_mul (a b : ApproxFloat) : ApproxFloat := a_op fmul a b.
(** round_error.rs:281-305 *)
Definition a_div (a b : ApproxFloat) : ApproxFloat := a_op fdiv a b.
(** round_error.rs:259-279 *)
Definition a_mul_f (a : ApproxFloat) (other : f64) : ApproxFloat :=
  let mn := next_float_down (fmul (low a) other) in
  let mx := next_float_up (fmul (high a) other) in
  let '(mn, mx) := if flt mx mn then (mx, mn) else (mn, mx) in
  mkA (next_float_down mn) (next_float_up mx).
(** round_error.rs:307-313 *)
Definition a_div_f (a : ApproxFloat) (other : f64) : ApproxFloat := a_div a (from_float other).
(** round_error.rs:341-353 and 361-373: [*=] and [/=] *)
Definition a_op_assign (op : f64 -> f64 -> f64) (a b : ApproxFloat) : ApproxFloat :=
  let '(f, aux) := four (fun v => v) op a b in
  let '(mx, mn) := max_min f aux in
  mkA (next_float_down mn) (next_float_up mx).
Definition a_mul_assign (a b : ApproxFloat) : ApproxFloat := a_op_assign fmul a b.
Definition a_div_assign (a b : ApproxFloat) : ApproxFloat := a_op_assign fdiv a b.

(** round_error.rs:135-164 *)
Definition solve_quadratic (a b c : ApproxFloat) : option (ApproxFloat * ApproxFloat) :=
  let disc := a_sub (a_mul b b) (a_mul_f (a_mul a c) f_four) in
  if flt (low disc) f_zero then None else
  let discr_sqrt := a_sqrt disc in
  let q := if flt (as_float b) f_zero then a_mul_f (a_neg (a_sub b discr_sqrt)) f_half
           else a_mul_f (a_neg (a_add b discr_sqrt)) f_half in
  let x1 := a_div q a in
  let x2 := a_div c q in
  if flt (low x2) (low x1) then Some (x2, x1) else Some (x1, x2).
