(** The direction of the wind on its way from the weather to the walls: /repo/heat/src/heat_model.rs lines 416-420, and weather made of schedules:
    /repo/weather/src/synthetic_weather.rs lines 31-115, /repo/schedule/src/constant.rs and /repo/schedule/src/empty_schedule.rs.
    The weather is rational as in [WeatherModel]; the walls are real as in [ConvectionModel]. *)
From Coq Require Import ZArith QArith Qreals Reals List Bool.
From Verif.Calendar Require Import DateModel.
From Verif.Weather Require Import WeatherModel.
From Verif.Heat Require Import ConvectionModel.
Import ListNotations.

(** schedule_trait.rs:23-25: a value for each date, or none; constant.rs:26-39 and empty_schedule.rs:24-33 *)
Definition Schedule := Date -> option Q.
Definition schedule_constant (v : Q) : Schedule := fun _ => Some v.
Definition empty_schedule : Schedule := fun _ => None.

(** synthetic_weather.rs:31-74 *)
Record SyntheticWeather := mkSynthetic {
  s_dry_bulb_temperature : Schedule; s_dew_point_temperature : Schedule; s_global_horizontal_radiation : Schedule;
  s_direct_normal_radiation : Schedule; s_diffuse_horizontal_radiation : Schedule; s_wind_speed : Schedule; s_wind_direction : Schedule;
  s_horizontal_infrared_radiation_intensity : Schedule; s_opaque_sky_cover : Schedule; s_relative_humidity : Schedule; s_pressure : Schedule }.
(** synthetic_weather.rs:76-91 *)
Definition default_synthetic : SyntheticWeather :=
  mkSynthetic empty_schedule empty_schedule empty_schedule empty_schedule empty_schedule empty_schedule empty_schedule empty_schedule
    empty_schedule empty_schedule empty_schedule.

Definition unwrap_or (o : option Q) (d : Q) : Q := match o with Some v => v | None => d end.
(** synthetic_weather.rs:93-115 *)
Definition synthetic_data (s : SyntheticWeather) (d : Date) : CurrentWeather :=
  mkCW d (unwrap_or (s_dry_bulb_temperature s d) 0) (unwrap_or (s_dew_point_temperature s d) 0)
    (unwrap_or (s_global_horizontal_radiation s d) 0) (unwrap_or (s_direct_normal_radiation s d) 0)
    (unwrap_or (s_diffuse_horizontal_radiation s d) 0) (unwrap_or (s_wind_speed s d) 0) (unwrap_or (s_wind_direction s d) 0)
    (s_horizontal_infrared_radiation_intensity s d) (unwrap_or (s_opaque_sky_cover s d) 0) (unwrap_or (s_relative_humidity s d) (1 # 2))
    (unwrap_or (s_pressure s d) 101300).

Open Scope R_scope.
(** heat_model.rs:418-419: [current_weather.wind_direction.to_radians()] *)
Definition heat_wind_direction (w : CurrentWeather) : R := Q2R (wind_direction w) * (PI / 180).
(** the wind that heat_model.rs:425-447 gives to surface.rs:581 *)
Definition faces_wind (w : CurrentWeather) (cos_tilt nx ny : R) : bool := is_windward (heat_wind_direction w) cos_tilt nx ny.
