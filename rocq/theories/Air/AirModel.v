(** Infiltration: /repo/air/src/eplus.rs, /repo/air/src/resolvers.rs, /repo/air/src/air_model.rs, the wind profile of
    /repo/model/src/site_details.rs and the infiltration objects of /repo/model/src/infiltration.rs. Numbers are exact reals. The temperatures of
    the spaces, read from the simulation state, are given as data. *)
From Coq Require Import List Arith Reals Bool.
From Verif.Common Require Import Base Flt.
From Verif.Heat Require Import GasModel.
Import ListNotations.
Open Scope R_scope.

(** site_details.rs:27-48 *)
Inductive terrain := Country | Suburbs | City | Ocean | UrbanTerrain.
Definition default_terrain : terrain := Suburbs.
(** site_details.rs:82-98 *)
Definition terrain_modifier (t : terrain) (height : R) : R :=
  if Rltb height (1 / 10 ^ 5) then 0
  else
    let '(alpha, delta) := match t with
      | Country => (14 / 100, 270) | Suburbs => (22 / 100, 370) | City => (33 / 100, 460) | Ocean => (10 / 100, 210) | UrbanTerrain => (22 / 100, 370)
      end in
    powf (270 / 10) (14 / 100) * powf (height / delta) alpha.
(** site_details.rs:183-190 *)
Definition wind_speed_modifier (t : option terrain) (height : R) : R :=
  match t with Some t => terrain_modifier t height | None => terrain_modifier default_terrain height end.

(** weather/src/current_weather.rs, the fields that are used *)
Record weather := mkWeather { w_dry_bulb : R; w_wind_speed : R }.

(** eplus.rs:33-50 *)
Definition design_flow_rate (w : weather) (t_space design a b c d modifier : R) : R :=
  let wind_speed := w_wind_speed w * modifier in
  design * (a + b * Rabs (t_space - w_dry_bulb w) + c * wind_speed + d * wind_speed * wind_speed).
(** eplus.rs:53-71 *)
Definition blast (w : weather) (t_space design modifier : R) : R :=
  design_flow_rate w t_space design (606 / 1000) (3636 / 100000) (1177 / 10000) 0 modifier.
(** eplus.rs:74-92 *)
Definition doe2 (w : weather) (t_space design modifier : R) : R := design_flow_rate w t_space design 0 0 (224 / 1000) 0 modifier.
(** eplus.rs:95-113 *)
Definition effective_leakage_area (w : weather) (t_space area cw cs : R) : R :=
  let delta_t := Rabs (w_dry_bulb w - t_space) in
  let aux := cs * delta_t + cw * w_wind_speed w * w_wind_speed w in
  area * 10 * sqrt aux.

(** model/src/building.rs:39-55 and the fields of [Building] that are used *)
Inductive shelter := NoObstructions | IsolatedRural | Urban | LargeLotUrban | SmallLotUrban.
Record building := mkBuilding { b_storeys : option nat; b_shelter : option shelter; b_stack : option R; b_wind : option R }.

(** resolvers.rs:114-141 *)
Definition stack_coefficient (b : building) : res R :=
  match b_stack b with
  | Some v => Ok v
  | None =>
      match b_storeys b with
      | Some n => if (n =? 0)%nat then Err else if (n =? 1)%nat then Ok (145 / 10 ^ 6) else if (n =? 2)%nat then Ok (290 / 10 ^ 6)
                  else if (n =? 3)%nat then Ok (435 / 10 ^ 6) else Ok (435 / 10 ^ 6)
      | None => Err
      end
  end.

Definition by_storeys (n : nat) (one two more : R) : R := if (n =? 1)%nat then one else if (n =? 2)%nat then two else more.
(** resolvers.rs:143-206 *)
Definition wind_coefficient (b : building) : res R :=
  match b_wind b with
  | Some v => Ok v
  | None =>
      match b_storeys b with
      | None => Err
      | Some n =>
          match b_shelter b with
          | None => Err
          | Some NoObstructions => Ok (by_storeys n (319 / 10 ^ 6) (420 / 10 ^ 6) (494 / 10 ^ 6))
          | Some IsolatedRural => Ok (by_storeys n (246 / 10 ^ 6) (325 / 10 ^ 6) (382 / 10 ^ 6))
          | Some Urban => Ok (by_storeys n (172 / 10 ^ 6) (231 / 10 ^ 6) (271 / 10 ^ 6))
          | Some LargeLotUrban => Ok (by_storeys n (104 / 10 ^ 6) (137 / 10 ^ 6) (161 / 10 ^ 6))
          | Some SmallLotUrban => Ok (by_storeys n (32 / 10 ^ 6) (42 / 10 ^ 6) (49 / 10 ^ 6))
          end
      end
  end.

(** infiltration.rs:52-160 *)
Inductive infiltration :=
| Constant (flow : R) | Blast (flow : R) | Doe2 (flow : R) | DesignFlowRate (a b c d phi : R) | EffectiveAirLeakageArea (area : R).
Record space := mkSpace { sp_infiltration : option infiltration; sp_building : option building }.

(** resolvers.rs: what a resolver writes, as a function of the weather and of the temperature of the space: infiltration temperature and flow *)
Definition resolver := weather -> R -> R * R.
Definition resolve (site : option terrain) (s : space) : res (option resolver) :=
  let m := wind_speed_modifier site 1 in
  match sp_infiltration s with
  | None => Ok None
  | Some (Constant v) => Ok (Some (fun w _ => (w_dry_bulb w, v)))
  | Some (Blast v) => Ok (Some (fun w t => (w_dry_bulb w, blast w t v m)))
  | Some (Doe2 v) => Ok (Some (fun w t => (w_dry_bulb w, doe2 w t v m)))
  | Some (DesignFlowRate a b c d v) => Ok (Some (fun w t => (w_dry_bulb w, design_flow_rate w t v a b c d m)))
  | Some (EffectiveAirLeakageArea al) =>
      match sp_building s with
      | None => Err
      | Some b =>
          do cs <- stack_coefficient b;
          do cw <- wind_coefficient b;
          Ok (Some (fun w t => (w_dry_bulb w, effective_leakage_area w t al cw cs)))
      end
  end.

(** air_model.rs:46-104: one resolver per space; the states start at zero *)
Fixpoint new_air_model (site : option terrain) (spaces : list space) : res (list (option resolver)) :=
  match spaces with
  | [] => Ok []
  | s :: spaces => do r <- resolve site s; do rs <- new_air_model site spaces; Ok (r :: rs)
  end.
Definition initial_state (spaces : list space) : list (R * R) := map (fun _ => (0, 0)) spaces.
(** air_model.rs:109-124; [temps] are the temperatures of the spaces *)
Fixpoint march (rs : list (option resolver)) (w : weather) (temps : list R) (state : list (R * R)) : list (R * R) :=
  match rs, temps, state with
  | r :: rs, t :: temps, s :: state => match r with Some f => f w t | None => s end :: march rs w temps state
  | _, _, _ => state
  end.
