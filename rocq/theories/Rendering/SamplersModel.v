(** Random sampling: /repo/rendering/src/samplers.rs. The two random numbers are given; arithmetic is exact. *)
From Coq Require Import Reals Bool Lra.
From Verif.Common Require Import Base Flt.
From Verif.Geometry Require Import Vec.
Open Scope R_scope.

(** [f64::clamp] *)
Definition fclamp (x lo hi : R) : R := if Rltb x lo then lo else if Rltb hi x then hi else x.

(** samplers.rs:24-37 *)
Definition uniform_sample_triangle (u : R * R) (a b c : pt) : pt :=
  let '(rand1, rand2) := u in
  let TINY := 1 / 10 ^ 8 in
  let rand1 := fclamp rand1 TINY (1 - TINY) in
  let rand2 := fclamp rand2 TINY (1 - TINY) in
  let aux := sqrt rand1 in
  let u := 1 - aux in
  let v := rand2 * aux in
  let v1 := vsub b a in
  let v2 := vsub c a in
  vadd (vadd a (vscale v1 u)) (vscale v2 v).

(** samplers.rs:39-49 *)
Definition uniform_sample_horizontal_disc (u : R * R) (radius : R) : R * R :=
  let '(r, theta) := u in
  let r := radius * sqrt r in
  let theta := 2 * PI * theta in
  (r * sin theta, r * cos theta).

(** samplers.rs:53-72 (the debug assertions on the length of the axes are not modelled) *)
Definition local_to_world (e1 e2 normal centre : pt) (x y z : R) : pt :=
  mkV (vx centre + x * vx e1 + y * vx e2 + z * vx normal)
      (vy centre + x * vy e1 + y * vy e2 + z * vy normal)
      (vz centre + x * vz e1 + y * vz e2 + z * vz normal).

(** samplers.rs:76-81 *)
Definition sample_cosine_weighted_horizontal_hemisphere (u : R * R) : pt :=
  let '(x, y) := uniform_sample_horizontal_disc u 1 in
  let aux := fclamp (x * x + y * y) 0 1 in
  mkV x y (sqrt (1 - aux)).

(** samplers.rs:84-95 *)
Definition sample_uniform_hemisphere (u : R * R) : pt :=
  let '(rand1, rand2) := u in
  let z := rand1 in
  let r := sqrt (1 - rand1 * rand1) in
  let pie2 := 2 * PI * rand2 in
  mkV (cos pie2 * r) (sin pie2 * r) z.

(** samplers.rs:98-115 *)
Definition uniform_sample_tilted_hemisphere (u : R * R) (e1 e2 normal : pt) : pt :=
  let v := sample_uniform_hemisphere u in
  local_to_world e1 e2 normal (mkV 0 0 0) (vx v) (vy v) (vz v).

(** samplers.rs:117-131 *)
Definition uniform_sample_sphere (u : R * R) : pt :=
  let TWO_PI := 2 * PI in
  let TINY := 1 / 10 ^ 7 in
  let '(rand1, rand2) := u in
  let rand1 := fclamp rand1 TINY (1 - TINY) in
  let rand2 := fclamp rand2 TINY (1 - TINY) in
  let z := 1 - 2 * rand1 in
  let aux := sqrt (1 - z * z) in
  mkV (cos (TWO_PI * rand2) * aux) (sin (TWO_PI * rand2) * aux) z.

(** samplers.rs:133-154 *)
Definition uniform_sample_tilted_disc (u : R * R) (radius : R) (centre normal : pt) : res pt :=
  let '(x, y) := uniform_sample_horizontal_disc u radius in
  match get_perpendicular normal with
  | Ok e2 => let e1 := vcross e2 normal in Ok (local_to_world e1 e2 normal centre x y 0)
  | _ => Panic
  end.
