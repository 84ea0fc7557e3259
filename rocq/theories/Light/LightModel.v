(** Sun and infrared radiation on the surfaces of a building: /repo/light/src/solar_surface.rs, optical_info.rs and solar_model.rs.
    Arithmetic is exact.  Random numbers are given.  What a ray hits is a parameter ([Scene::cast_ray], see Rendering/BvhModel.v), and so
    are the triangles of a polygon with their areas (see Geometry/MeshModel.v).  Not modelled: reading and writing the optical data as a
    file, the warnings, the messages of the errors. *)
From Coq Require Import Reals List Bool Arith Lia.
From Verif.Matrix Require Import MatrixModel GaussSeidel.
From Verif.Common Require Import Base Flt.
From Verif.Geometry Require Import Vec TriangleModel.
From Verif.State Require Import ControlModel.
From Verif.Weather Require Import SunModel SkyModel PerezModel.
From Verif.Rendering Require Import SamplersModel DaylightModel.
From Verif.Heat Require Import GasModel MarchModel.
Import ListNotations.
Open Scope R_scope.

(** ** Points and rays of a surface *)

(** solar_surface.rs:43-50, the loop; [unreachable!()] when no triangle is left *)
Fixpoint pick (areas : list R) (i : nat) (acc r : R) : res nat :=
  match areas with
  | [] => Panic
  | area :: areas => let acc := acc + area in if Rleb r acc then Ok i else pick areas (S i) acc r
  end.
(** solar_surface.rs:37-53 *)
Definition sampler (areas : list R) (u : R) : res nat := pick areas 0 0 (u * fold_left Rplus areas 0).

(** solar_surface.rs:87-94, one point: the first number chooses the triangle, the others a point in it *)
Definition sample_point (triangles : list (Tri * R)) (u : R * (R * R)) : res pt :=
  do i <- sampler (map snd triangles) (fst u);
  match nth_error triangles i with
  | Some (t, _) => Ok (uniform_sample_triangle (snd u) (ta t) (tb t) (tc t))
  | None => Panic
  end.
Fixpoint sample_points (triangles : list (Tri * R)) (us : list (R * (R * R))) : res (list pt) :=
  match us with
  | [] => Ok []
  | u :: us => do p <- sample_point triangles u; do ps <- sample_points triangles us; Ok (p :: ps)
  end.

(** solar_surface.rs:58-63 *)
Record ssurface := mkSSurf { points : list pt; normal : pt; receives_sun_front : bool; receives_sun_back : bool }.
(** solar_surface.rs:67 *)
Definition DELTA : R := 1 / 1000.
(** solar_surface.rs:259-267 *)
Definition front_rays (s : ssurface) : list Ray :=
  map (fun p => mkRay (vadd p (vscale (normal s) DELTA)) (normal s)) (points s).
(** solar_surface.rs:270-278 *)
Definition back_rays (s : ssurface) : list Ray :=
  map (fun p => mkRay (vsub p (vscale (normal s) DELTA)) (vscale (normal s) (-1))) (points s).

(** solar_surface.rs:108-110 *)
Definition boundary_receives_sun (b : boundary) : bool := match b with Space _ | Outdoor => true | _ => false end.
(** solar_surface.rs:70-105 as called from 197-208 and 242-252 *)
Definition make_surface (triangles : list (Tri * R)) (n : pt) (front back : boundary) (us : list (R * (R * R))) : res ssurface :=
  do ps <- sample_points triangles us;
  Ok (mkSSurf ps n (boundary_receives_sun front) (boundary_receives_sun back)).

(** ** Daylight coefficients of the surfaces *)
Section Coefficients.
(** [calc_dc] is [DCFactory::calc_dc] (Rendering/DaylightModel.v) with the random numbers of the [i]-th surface *)
Context (calc_dc : nat -> list Ray -> res (mat spectrum)) (n_bins : nat).

(** solar_surface.rs:281-292 *)
Definition solar_irradiance (i : nat) (rays : list Ray) : res (mat R) :=
  do dc <- calc_dc i rays;
  average_matrix (colour_matrix_to_radiance dc).

(** solar_surface.rs:129-147, one surface *)
Definition surface_dc (front_side : bool) (i : nat) (s : ssurface) : res (mat R) :=
  if front_side && negb (receives_sun_front s) then Ok (new_mat 0 1 n_bins)
  else if negb front_side && negb (receives_sun_back s) then Ok (new_mat 0 1 n_bins)
  else solar_irradiance i (if front_side then front_rays s else back_rays s).
Fixpoint surfaces_dc (front_side : bool) (i : nat) (l : list ssurface) : res (list (mat R)) :=
  match l with
  | [] => Ok []
  | s :: l => do dc <- surface_dc front_side i s; do dcs <- surfaces_dc front_side (S i) l; Ok (dc :: dcs)
  end.
(** solar_surface.rs:151-155 *)
Fixpoint stack (ret : mat R) (dcs : list (mat R)) : res (mat R) :=
  match dcs with [] => Ok ret | dc :: dcs => do ret <- concat_rows ret dc; stack ret dcs end.
(** solar_surface.rs:116-158 *)
Definition calc_solar_dc_matrix (l : list ssurface) (front_side : bool) : res (mat R) :=
  match l with
  | [] => Ok empty_mat
  | _ => do dcs <- surfaces_dc front_side 0 l;
    match dcs with [] => Ok empty_mat | dc :: dcs => stack dc dcs end
  end.
End Coefficients.

(** ** View factors *)

(** optical_info.rs:33-43 *)
Record view := mkView { v_sky : R; v_ground : R; v_air : R }.

Section View.
(** [scene.cast_ray(..).is_none()] *)
Context (free : Ray -> bool).

(** solar_surface.rs:318-329: the samples of one ray.  The ray that is cast is the ray of the surface, not the sampled direction. *)
Fixpoint samples_loop (ray : Ray) (e1 e2 : pt) (us : list (R * R)) (sky_ground : R * R) : R * R :=
  match us with
  | [] => sky_ground
  | u :: us =>
    let dir := uniform_sample_tilted_hemisphere u e1 e2 (direction ray) in
    let '(sky, ground) := sky_ground in
    samples_loop ray e1 e2 us
      (if free ray then if Rltb 0 (vz dir) then (sky + 1, ground) else (sky, ground + 1) else (sky, ground))
  end.
(** solar_surface.rs:313-330; [draws i] are the [n_samples] random pairs of the [i]-th ray *)
Fixpoint view_loop (draws : nat -> list (R * R)) (i : nat) (rays : list Ray) (sky_ground : R * R) : res (R * R) :=
  match rays with
  | [] => Ok sky_ground
  | ray :: rays =>
    do e1 <- get_perpendicular (direction ray);
    let e2 := vcross (direction ray) e1 in
    view_loop draws (S i) rays (samples_loop ray e1 e2 (draws i) sky_ground)
  end.
(** solar_surface.rs:295-341.  Without rays the quotients are [0 / 0]: [None] stands for these factors, which are not numbers. *)
Definition n_samples : nat := (10 * 1000)%nat.
Definition calc_view_factors (s : ssurface) (front_side : bool) (draws : nat -> list (R * R)) : res (option view) :=
  let rays := if front_side then front_rays s else back_rays s in
  do sky_ground <- view_loop draws 0 rays (0, 0);
  match rays with
  | [] => Ok None
  | _ =>
    let n := INR n_samples * INR (length rays) in
    let ground := snd sky_ground / n in
    let sky := fst sky_ground / n in
    let beta := sqrt sky in
    let air := sky * (1 - beta) in
    Ok (Some (mkView (sky * beta) ground air))
  end.
End View.

(** ** The state of the surfaces *)

(** model/src/surface.rs and model/src/fenestration.rs: the parts of a surface or a fenestration that are used here *)
Record lsurface := mkLS {
  l_front : boundary; l_back : boundary; l_opening : bool;
  l_front_solar : field; l_back_solar : field; l_front_ir : field; l_back_ir : field;
  l_first_node : field; l_last_node : field }.

(** optical_info.rs:47-71 *)
Record optical := mkOptical {
  front_surfaces_vf : list view; back_surfaces_vf : list view; front_fen_vf : list view; back_fen_vf : list view;
  front_surfaces_dc : mat R; back_surfaces_dc : mat R; front_fen_dc : mat R; back_fen_dc : mat R }.

(** the parts of weather/src/current_weather.rs:30-78 that are used here *)
Record lweather := mkLW {
  w_dry_bulb : R; w_dew_point : R; w_cover : R; w_horizontal_ir : option R; w_direct : R; w_diffuse : R }.

(** current_weather.rs:125-137 *)
Definition derive_horizontal_ir (w : lweather) : R :=
  let n := w_cover w in
  let dp := w_dew_point w + 27315 / 100 in
  let temp := w_dry_bulb w + 27315 / 100 in
  let e_sky_clear := 787 / 1000 + 764 / 1000 * ln (dp / 273) in
  let e_sky := e_sky_clear * (1 + 224 / 10000 * n - 35 / 10000 * n ^ 2 + 28 / 100000 * n ^ 3) in
  SIGMA * e_sky * temp ^ 4.

(** solar_model.rs:72-74 *)
Definition ir (temp emissivity : R) : R := emissivity * SIGMA * (temp + 27315 / 100) ^ 4.

(** solar_model.rs:76-80 with 85-119 (front of a surface), 122-153 (its back), 163-179 and 182-199 (fenestrations) *)
Definition update_ir_side (w : lweather) (b : boundary) (node fld : field) (views : list view) (i : nat) (st : list R) : res (list R) :=
  let db := w_dry_bulb w in
  let horizontal_ir := match w_horizontal_ir w with Some v => v | None => derive_horizontal_ir w end in
  match b with
  | Space _ =>
    do t <- get_state node st;
    let temp := match t with Some t => t | None => 22 end in
    set_state fld st (ir temp 1)
  | AmbientTemperature temperature => set_state fld st (ir temperature 1)
  | Ground | Adiabatic => Ok st
  | Outdoor =>
    match nth_error views i with
    | None => Panic
    | Some vf =>
      let ground_other := (v_ground vf + v_air vf) * ir db 1 in
      let sky := v_sky vf * horizontal_ir in
      set_state fld st (ground_other + sky)
    end
  end.
Definition update_ir_surface (w : lweather) (fronts backs : list view) (i : nat) (s : lsurface) (st : list R) : res (list R) :=
  do st <- update_ir_side w (l_front s) (l_first_node s) (l_front_ir s) fronts i st;
  update_ir_side w (l_back s) (l_last_node s) (l_back_ir s) backs i st.
(** solar_model.rs:83-154 *)
Fixpoint ir_surfaces (w : lweather) (o : optical) (i : nat) (l : list lsurface) (st : list R) : res (list R) :=
  match l with
  | [] => Ok st
  | s :: l => do st <- update_ir_surface w (front_surfaces_vf o) (back_surfaces_vf o) i s st; ir_surfaces w o (S i) l st
  end.
(** solar_model.rs:157-200: openings are skipped *)
Fixpoint ir_fenestrations (w : lweather) (o : optical) (i : nat) (l : list lsurface) (st : list R) : res (list R) :=
  match l with
  | [] => Ok st
  | s :: l =>
    do st <- (if l_opening s then Ok st else update_ir_surface w (front_fen_vf o) (back_fen_vf o) i s st);
    ir_fenestrations w o (S i) l st
  end.
(** solar_model.rs:64-203 *)
Definition update_ir_radiation (w : lweather) (o : optical) (surfaces fenestrations : list lsurface) (st : list R) : res (list R) :=
  do st <- ir_surfaces w o 0 surfaces st;
  ir_fenestrations w o 0 fenestrations st.

(** solar_model.rs:218-219 and 225-226 *)
Definition night_surface (s : lsurface) (st : list R) : res (list R) :=
  do st <- set_state (l_front_solar s) st 0;
  set_state (l_back_solar s) st 0.
Fixpoint night_surfaces (l : list lsurface) (st : list R) : res (list R) :=
  match l with [] => Ok st | s :: l => do st <- night_surface s st; night_surfaces l st end.
Fixpoint night_fenestrations (l : list lsurface) (st : list R) : res (list R) :=
  match l with
  | [] => Ok st
  | s :: l => do st <- (if l_opening s then Ok st else night_surface s st); night_fenestrations l st
  end.

(** solar_model.rs:247-259 and 266-278 for surfaces, where [clamp] holds; 290-298 and 308-315 for fenestrations, where it does not *)
Definition update_solar_side (clamp : bool) (b : boundary) (fld : field) (irradiance : mat R) (i : nat) (st : list R) : res (list R) :=
  do st <- (if boundary_receives_sun b then Ok st else set_state fld st 0);
  do v <- get irradiance i 0;
  let v := if clamp && Rltb v 0 then 0 else v in
  do old <- get_state fld st;
  match old with
  | None => Err
  | Some old_v => set_state fld st ((v + old_v) / 2)
  end.
Fixpoint solar_loop (clamp skip_openings : bool) (bound : lsurface -> boundary) (fld : lsurface -> field) (irradiance : mat R) (i : nat)
    (l : list lsurface) (st : list R) : res (list R) :=
  match l with
  | [] => Ok st
  | s :: l =>
    do st <- (if skip_openings && l_opening s then Ok st else update_solar_side clamp (bound s) (fld s) irradiance i st);
    solar_loop clamp skip_openings bound fld irradiance (S i) l st
  end.
(** generic_matrix.rs:101-103 *)
Definition is_empty (m : mat R) : bool := (nrows m =? 0)%nat && (ncols m =? 0)%nat.
(** solar_model.rs:243-261, 262-280, 283-300 and 301-317: one of the four matrices *)
Definition solar_side (clamp skip_openings : bool) (bound : lsurface -> boundary) (fld : lsurface -> field) (dc : mat R) (vec : list R)
    (l : list lsurface) (st : list R) : res (list R) :=
  if is_empty dc then Ok st
  else
    do irradiance <- op_mul Rnum dc (mkMat (length vec) 1 vec);
    solar_loop clamp skip_openings bound fld irradiance 0 l st.

(** solar_model.rs:205-320 *)
Definition update_solar_radiation (mf : nat) (s : solar) (date : R) (w : lweather) (o : optical) (surfaces fenestrations : list lsurface)
    (st : list R) : res (list R) :=
  let is_day := Rleb (1 / 10 ^ 4) (w_direct w + w_diffuse w) in
  if negb is_day then
    do st <- night_surfaces surfaces st;
    night_fenestrations fenestrations st
  else
    do vec <- gen_sky_vec mf s date (w_dew_point w) (w_diffuse w) (w_direct w) UnitsSolar (2 / 10) true true;
    do st <- solar_side true false l_front l_front_solar (front_surfaces_dc o) vec surfaces st;
    do st <- solar_side true false l_back l_back_solar (back_surfaces_dc o) vec surfaces st;
    do st <- solar_side false true l_front l_front_solar (front_fen_dc o) vec fenestrations st;
    solar_side false true l_back l_back_solar (back_fen_dc o) vec fenestrations st.

(** ** The model *)

(** solar_model.rs:43-59 *)
Record solar_model := mkSM { sm_optical : optical; sm_solar : solar; sm_mf : nat }.

(** solar_model.rs:420-430: the loop; [n] is [9 - mf] *)
Fixpoint mf_loop (ncols : nat) (mf n : nat) : res nat :=
  match n with
  | O => Err
  | S n => if (n_bins_of mf =? ncols)%nat then Ok mf else mf_loop ncols (S mf) n
  end.
(** solar_model.rs:397-437, once the optical data have been computed or read.  West is negative for the program and positive for the sun. *)
Definition new_solar_model (latitude longitude standard_meridian : R) (o : optical) (surfaces : list lsurface) : res solar_model :=
  let s := mkSolar latitude (- longitude) (- standard_meridian) in
  match surfaces with
  | [] => Ok (mkSM o s 1)
  | _ =>
    if (ncols (back_surfaces_dc o) =? 0)%nat then Err
    else
      do mf <- mf_loop (ncols (back_surfaces_dc o)) 1 8;
      Ok (mkSM o s mf)
  end.

(** solar_model.rs:439-457 *)
Definition march_light (sm : solar_model) (date : R) (w : lweather) (surfaces fenestrations : list lsurface) (st : list R) : res (list R) :=
  do st <- update_ir_radiation w (sm_optical sm) surfaces fenestrations st;
  update_solar_radiation (sm_mf sm) (sm_solar sm) date w (sm_optical sm) surfaces fenestrations st.
