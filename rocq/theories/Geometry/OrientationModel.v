(** Where a surface looks: /repo/model/src/surface_trait.rs lines 5-184. The normal of the surface is an input; arithmetic is
    exact ([R]). *)
From Coq Require Import Reals Bool.
From Verif.Common Require Import Base Flt.
From Verif.Geometry Require Import Vec.
From Verif.Weather Require Import SunModel.
From Verif.Heat Require Import MarchModel.
Open Scope R_scope.

(** surface_trait.rs:6-27 *)
Inductive orientation := Horizontal | North | NorthEast | East | SouthEast | South | SouthWest | West | NorthWest.

(** surface_trait.rs:65 *)
Definition COS_22_5 : R := 923879532511287 / 10 ^ 15.

(** surface_trait.rs:54-100. [Panic] is the panic of [get_normalized] or [unreachable!]. *)
Definition get_orientation (normal : pt) : res orientation :=
  let up : pt := mkV 0 0 1 in
  let is_up := Rleb (cos (to_radians 45)) (Rabs (vdot normal up)) in
  if is_up then Ok Horizontal
  else
    do normal <- vnormalize (mkV (vx normal) (vy normal) 0);
    let faces_north := Rltb 0 (vy normal) in
    let faces_east := Rltb 0 (vx normal) in
    let is_north := Rltb COS_22_5 (vy normal) in
    let is_south := Rltb (vy normal) (- COS_22_5) in
    let is_east := Rltb COS_22_5 (vx normal) in
    let is_west := Rltb (vx normal) (- COS_22_5) in
    let is_north_east := faces_north && faces_east && negb is_north && negb is_east in
    let is_north_west := faces_north && negb faces_east && negb is_north && negb is_west in
    let is_south_east := negb faces_north && faces_east && negb is_south && negb is_east in
    let is_south_west := negb faces_north && negb faces_east && negb is_south && negb is_west in
    if is_north then Ok North
    else if is_north_east then Ok NorthEast
    else if is_north_west then Ok NorthWest
    else if is_south then Ok South
    else if is_south_east then Ok SouthEast
    else if is_south_west then Ok SouthWest
    else if is_west then Ok West
    else if is_east then Ok East
    else Panic.

(** surface_trait.rs:146-162: [None] when not exactly one side looks outdoors and the other into a space *)
Definition outside_orientation (front_b back_b : boundary) (normal : pt) : res (option orientation) :=
  match front_b, back_b with
  | Outdoor, Space _ => do o <- get_orientation normal; Ok (Some o)
  | Space _, Outdoor => do o <- get_orientation (vscale normal (-1)); Ok (Some o)
  | _, _ => Ok None
  end.

(** surface_trait.rs:167-183 *)
Definition inside_orientation (front_b back_b : boundary) (normal : pt) : res (option orientation) :=
  match front_b, back_b with
  | Outdoor, Space _ => do o <- get_orientation (vscale normal (-1)); Ok (Some o)
  | Space _, Outdoor => do o <- get_orientation normal; Ok (Some o)
  | _, _ => Ok None
  end.
