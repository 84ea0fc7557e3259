(** Convection coefficients: /repo/heat/src/convection.rs lines 22-170, and which side of a wall faces the wind
    (/repo/heat/src/surface.rs lines 34-45). Numbers are exact reals. *)
From Coq Require Import List Arith Reals Bool.
From Verif.Common Require Import Base Flt.
From Verif.Heat Require Import GasModel.
Import ListNotations.
Open Scope R_scope.

(** convection.rs:22 *)
Definition MIN_H : R := 1 / 10.

(** convection.rs:27-52 *)
Record conv := mkConv { air_temperature : R; air_speed : R; rad_temperature : R; surface_temperature : R;
                        roughness_index : nat; cos_surface_tilt : R }.

(** convection.rs:87-111; the last branch is [unreachable!()] *)
Definition natural_convection (c : conv) : res R :=
  let delta_t := air_temperature c - surface_temperature c in
  let abs_delta_t := Rabs delta_t in
  let tilt := cos_surface_tilt c in
  do h <-
    (if Rltb (Rabs delta_t) (1 / 1000) || Rltb (Rabs tilt) (1 / 1000) then Ok (131 / 100 * powf abs_delta_t (1 / 3))
     else if (Rltb delta_t 0 && Rltb tilt 0) || (Rltb 0 delta_t && Rltb 0 tilt) then
       Ok (9482 / 1000 * powf abs_delta_t (1 / 3) / (7238 / 1000 - Rabs tilt))
     else if (Rltb 0 delta_t && Rltb tilt 0) || (Rltb delta_t 0 && Rltb 0 tilt) then
       Ok (181 / 100 * powf abs_delta_t (1 / 3) / (1382 / 1000 + Rabs tilt))
     else Panic);
  Ok (if Rltb h MIN_H then MIN_H else h).

(** convection.rs:158 *)
Definition COEFFICIENTS : list R := [217 / 100; 167 / 100; 152 / 100; 113 / 100; 111 / 100; 1].

(** convection.rs:152-169; an index outside the table panics. The square root of a negative number (NaN in Rust) is 0 here. *)
Definition tarp_convection (c : conv) (area perimeter : R) (windward : bool) : res R :=
  match nth_error COEFFICIENTS (roughness_index c) with
  | None => Panic
  | Some rf =>
      let wf := if windward then 1 else 5 / 10 in
      let forced := 2537 / 1000 * wf * rf * sqrt (perimeter * air_speed c / area) in
      do natural <- natural_convection c;
      Ok (forced + natural)
  end.

(** surface.rs:36-45; [normal] is given by its two horizontal components *)
Definition is_windward (wind_direction cos_tilt nx ny : R) : bool :=
  if Rltb (Rabs cos_tilt) (98 / 100) then Rltb 0 (nx * sin wind_direction + ny * cos wind_direction) else true.
