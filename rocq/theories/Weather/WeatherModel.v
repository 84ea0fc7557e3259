(** Model of the look-up of weather data: weather/src/lib.rs:90-136 and weather/src/current_weather.rs:28-180.
    [Float] is [Q] (exact).  A Rust panic is [None]. *)
From Coq Require Import ZArith QArith Qround List Bool.
From Verif.Calendar Require Import DateModel.
Import ListNotations.
Local Open Scope Q_scope.

(** CurrentWeather, weather/src/current_weather.rs:28-64 *)
Record CurrentWeather := mkCW {
  date : Date;
  dry_bulb_temperature : Q;
  dew_point_temperature : Q;
  global_horizontal_radiation : Q;
  direct_normal_radiation : Q;
  diffuse_horizontal_radiation : Q;
  wind_speed : Q;
  wind_direction : Q;
  horizontal_infrared_radiation_intensity : option Q;
  opaque_sky_cover : Q;
  relative_humidity : Q;
  pressure : Q
}.

(** interpolate, weather/src/current_weather.rs:140-179 *)
Definition interp (x a b : Q) : Q := a + x * (b - a).
Definition interp_opt (x : Q) (a b : option Q) : option Q :=
  match a, b with Some a, Some b => Some (interp x a b) | _, _ => None end.

Definition cw_interpolate (a b : CurrentWeather) (x : Q) : option CurrentWeather :=
  match interpolate (date a) (date b) x with
  | None => None
  | Some d => Some (mkCW d
      (interp x (dry_bulb_temperature a) (dry_bulb_temperature b))
      (interp x (dew_point_temperature a) (dew_point_temperature b))
      (interp x (global_horizontal_radiation a) (global_horizontal_radiation b))
      (interp x (direct_normal_radiation a) (direct_normal_radiation b))
      (interp x (diffuse_horizontal_radiation a) (diffuse_horizontal_radiation b))
      (interp x (wind_speed a) (wind_speed b))
      (interp x (wind_direction a) (wind_direction b))
      (interp_opt x (horizontal_infrared_radiation_intensity a) (horizontal_infrared_radiation_intensity b))
      (interp x (opaque_sky_cover a) (opaque_sky_cover b))
      (interp x (relative_humidity a) (relative_humidity b))
      (interp x (pressure a) (pressure b)))
  end.

(** The result of [slice::binary_search_by].  Its documented contract: [Ok i] is any index whose element
    compares equal; otherwise [Err i] is the index where the element could be inserted keeping the order. *)
Inductive search := Found (i : nat) | Insert (i : nat).

Definition search_contract (data : list CurrentWeather) (d : Date) (r : search) : Prop :=
  match r with
  | Found i => exists w, nth_error data i = Some w /\ date_cmp (date w) d = Eq
  | Insert i => (i <= length data)%nat /\
      (forall j w, nth_error data j = Some w -> (j < i)%nat -> date_cmp (date w) d = Lt) /\
      (forall j w, nth_error data j = Some w -> (i <= j)%nat -> date_cmp (date w) d = Gt)
  end.

(** find_weather_line, weather/src/lib.rs:104-136, given the result of the binary search.
    Division by zero (same day of the year twice) gives 0 in [Q] and NaN in the code; it does not happen with
    strictly sorted data. *)
Definition find_weather_line (data : list CurrentWeather) (d : Date) (r : search) : option CurrentWeather :=
  match r with
  | Found i => nth_error data i
  | Insert i =>
      let n := length data in
      if (Nat.eqb i 0 || Nat.eqb i n)%bool then
        match nth_error data (n - 1), nth_error data 0 with
        | Some last, Some first =>
            match day_of_year (date last), day_of_year (date first), day_of_year d with
            | Some last_n, Some f, Some dn =>
                let first_n := f + 365 in
                let date_n := dn + 365 in
                cw_interpolate last first ((date_n - last_n) / (first_n - last_n))
            | _, _, _ => None
            end
        | _, _ => None
        end
      else
        match nth_error data (i - 1), nth_error data i with
        | Some before, Some after =>
            match day_of_year (date before), day_of_year (date after), day_of_year d with
            | Some before_n, Some after_n, Some date_n =>
                cw_interpolate before after ((date_n - before_n) / (after_n - before_n))
            | _, _, _ => None
            end
        | _, _ => None
        end
  end.
