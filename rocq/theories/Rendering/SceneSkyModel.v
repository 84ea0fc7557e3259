(** The sky of a scene: [Scene::add_perez_sky] (/repo/rendering/src/scene.rs lines 121-206). Arithmetic is exact ([R]); a date is
    the number that [Date::day_of_year] gives for it. *)
From Coq Require Import List Reals Bool.
From Verif.Common Require Import Base Flt.
From Verif.Geometry Require Import Vec.
From Verif.Weather Require Import SunModel PerezModel.
From Verif.Rendering Require Import DaylightModel MaterialModel SceneModel.
Import ListNotations.
Open Scope R_scope.

(** colour.rs:29 *)
Definition WHITE_EFFICACY : R := 179.

(** scene.rs:159-174. The threshold 0.9986295347545738 is the double of the cosine of three degrees, and taken as that cosine.
    Next to the zenith the code takes the inverse cosine of three degrees in radians. *)
Definition scene_zenith (cos_zenit : R) : R :=
  if Rleb cos_zenit 0 then PI / 2
  else if Rleb (cos (to_radians 3)) cos_zenit then acos (3 * PI / 180)
  else acos cos_zenit.

(** scene.rs:129-136, the weather's sun for angles in degrees *)
Definition scene_solar (latitude longitude standard_meridian : R) : solar :=
  mkSolar (to_radians latitude) (to_radians longitude) (to_radians standard_meridian).

(** scene.rs:121-206; the scene and its sky *)
Definition add_perez_sky (scene : RScene) (date latitude longitude standard_meridian diffuse_horizontal_irrad direct_normal_irrad : R)
    : res (RScene * (pt -> R)) :=
  let dew_point := 11 in
  let solar := scene_solar latitude longitude standard_meridian in
  do sky <- get_sky_func_standard_time UnitsVisible solar date dew_point diffuse_horizontal_irrad direct_normal_irrad;
  let n := Standard date in
  match sun_position solar n with
  | None => Ok (scene, sky)
  | Some sun_position =>
      let angle := to_radians (533 / 1000) in
      let tan_half_alpha := tan (angle / 2) in
      let omega := tan_half_alpha * tan_half_alpha * PI in
      let zenith := scene_zenith (vz sun_position) in
      let apwc := precipitable_water_content dew_point in
      let air_mass := air_mass zenith in
      let day := unwrap_solar_time solar n in
      let extraterrestrial_irradiance := normal_extraterrestrial_radiation day in
      let sky_brightness := clamp (1 / 100) (9 * 10 ^ 9) (sky_brightness diffuse_horizontal_irrad air_mass extraterrestrial_irradiance) in
      let sky_clearness := clamped_clearness diffuse_horizontal_irrad direct_normal_irrad zenith in
      let index := clearness_category sky_clearness in
      do ratio <- direct_illuminance_ratio apwc zenith sky_brightness index;
      let dir_illum := direct_normal_irrad * ratio in
      let sun_brightness := dir_illum / omega / WHITE_EFFICACY in
      let (sun_mat, scene) := push_material scene (Light (gray sun_brightness)) in
      do direction <- vnormalize sun_position;
      do scene <- push_object scene sun_mat sun_mat (PSource direction angle);
      Ok (scene, sky)
  end.
