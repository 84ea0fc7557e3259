(** A whole time step of the thermal model: every wall and window is marched, then the air of every zone, in each sub-step
    (/repo/heat/src/heat_model.rs lines 104-214 and 405-465). The walls are those of [MarchModel], the zones those of [ZoneModel]; the powers of
    heaters, coolers and luminaires and the air streams of the zones do not change during the step, and are given as data ([DevicesModel] says
    which they are). Logging and the check for NaN (lines 456-459) are not modelled. *)
From Coq Require Import List Arith ZArith QArith Qreals Reals Bool.
From Verif.Calendar Require Import DateModel.
From Verif.Weather Require Import WeatherModel.
From Verif.Common Require Import Base Flt.
From Verif.Matrix Require Import MatrixModel.
From Verif.Heat Require Import WallModel MarchModel ZoneModel WindModel.
Import ListNotations.
Open Scope R_scope.

(** a wall or a window, its part of the state and its memory *)
Record element := mkEl { el_surface : tsurface; el_state : sstate; el_memory : smemory }.

(** [let results: Vec<Result<..>> = iter.map(f).collect(); for r in results { r?; }]: all are run, so a panic comes before any error *)
Fixpoint gather {A B} (f : A -> res B) (l : list A) : res (list B) :=
  match l with
  | [] => Ok []
  | x :: l =>
      match f x, gather f l with
      | Panic, _ | _, Panic => Panic
      | Err, _ | _, Err => Err
      | Ok y, Ok r => Ok (y :: r)
      end
  end.

(** heat_model.rs:104-214: the temperatures of the boundaries of all (lines 122-138), the marches of all (141-165), and the writing of all
    (168-211); the memories are as many as the surfaces *)
Definition iterate_surfaces (es : list element) (wind_direction wind_speed t_out dt : R) (zones : list R) : res (list element) :=
  do ts <- gather (fun e => do t <- boundary_temps (el_surface e) (el_state e) t_out zones; Ok (e, t)) es;
  do ms <- gather (fun x : element * (R * R) =>
              do mem <- march (el_surface (fst x)) (el_state (fst x)) (fst (snd x)) (snd (snd x)) wind_direction wind_speed dt (el_memory (fst x));
              Ok (mkEl (el_surface (fst x)) (el_state (fst x)) mem, snd x)) ts;
  gather (fun x : element * (R * R) =>
            do st <- write_surface (el_surface (fst x)) (el_state (fst x)) (fst (snd x)) (snd (snd x)) wind_direction wind_speed (el_memory (fst x));
            Ok (mkEl (el_surface (fst x)) st (el_memory (fst x)))) ms.

(** heat_model.rs:602-632: what the zones read of a surface; the temperature of a face is read only if it leads to a space *)
Definition face_side (b : boundary) (h : R) (t : res R) : res side :=
  match b with Space i => do t <- t; Ok (mkSide (Some i) h t) | _ => Ok (mkSide None h 0) end.
Definition as_surf (e : element) : res surf :=
  do f <- face_side (ts_front_boundary (el_surface e)) (s_front_hs (el_state e)) (front_temperature (el_state e));
  do b <- face_side (ts_back_boundary (el_surface e)) (s_back_hs (el_state e)) (back_temperature (el_state e));
  Ok (mkSurf (ts_area (el_surface e)) f b).

(** the thermal model and its state: zones, surfaces, fenestrations, and the power given to each zone *)
Record building := mkBuilding { bd_zones : list zone; bd_surfaces : list element; bd_fenestrations : list element; bd_gains : list (nat * R) }.

(** heat_model.rs:455-462 *)
Definition set_temp (z : zone) (t : R) : zone := mkZone (z_volume z) t (z_infiltration z) (z_ventilation z).
Fixpoint set_temps (zs : list zone) (ts : list R) : list zone :=
  match zs, ts with z :: zs, t :: ts => set_temp z t :: set_temps zs ts | _, _ => [] end.

(** heat_model.rs:418-462: one sub-step with the given weather *)
Definition substep (dt : R) (w : CurrentWeather) (b : building) : res building :=
  let wind_direction := heat_wind_direction w in
  let wind_speed := Q2R (wind_speed w) in
  let t_out := Q2R (dry_bulb_temperature w) in
  let t_current := map z_temp (bd_zones b) in
  do ss <- iterate_surfaces (bd_surfaces b) wind_direction wind_speed t_out dt t_current;
  do fs <- iterate_surfaces (bd_fenestrations b) wind_direction wind_speed t_out dt t_current;
  do sf <- gather as_surf (ss ++ fs);
  do future <- march_zones (bd_zones b) (bd_gains b) sf dt;
  Ok (mkBuilding (set_temps (bd_zones b) future) ss fs (bd_gains b)).

(** heat_model.rs:405-465: [n] sub-steps of [dt] seconds from [date]; the weather is read after the date has been advanced *)
Fixpoint march_building (n : nat) (date : Date) (weather : Date -> CurrentWeather) (dt : Q) (b : building) : res building :=
  match n with
  | O => Ok b
  | S n =>
      match add_seconds date dt with
      | None => Panic
      | Some date => do b <- substep (Q2R dt) (weather date) b; march_building n date weather dt b
      end
  end.
