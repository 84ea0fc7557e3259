(** Daylight coefficients: /repo/rendering/src/daylight_coefficients.rs, with the colours of /repo/rendering/src/colour.rs and the
    averages of /repo/rendering/src/colour_matrix.rs.  Arithmetic is exact.  The random numbers, what a ray hits ([Scene::cast_ray], see
    Rendering/BvhModel.v) and the way materials scatter light are parameters.  The progress bar and the debug assertion on the length of
    the directions are left out; the textures are off, which is the default. *)
From Coq Require Import Reals List Bool Lia.
From Verif.Matrix Require Import MatrixModel GaussSeidel.
From Verif.Common Require Import Base Flt.
From Verif.Geometry Require Import Vec TriangleModel.
From Verif.Weather Require Import SkyModel.
From Verif.Rendering Require Import SamplersModel.
Import ListNotations.
Open Scope R_scope.

(** colour.rs:24-25, with three channels *)
Record spectrum := mkS { red : R; green : R; blue : R }.
(** colour.rs:52-54 *)
Definition gray (v : R) : spectrum := mkS v v v.
(** colour.rs:48-49 *)
Definition ONE : spectrum := gray 1.
Definition BLACK : spectrum := gray 0.
(** colour.rs:126-138, 173-186, and the product and the quotient with a number, 252-264 and 266-278 *)
Definition sadd (a b : spectrum) : spectrum := mkS (red a + red b) (green a + green b) (blue a + blue b).
Definition smul (a b : spectrum) : spectrum := mkS (red a * red b) (green a * green b) (blue a * blue b).
Definition sscale (a : spectrum) (k : R) : spectrum := mkS (red a * k) (green a * k) (blue a * k).
Definition sdiv (a : spectrum) (k : R) : spectrum := mkS (red a / k) (green a / k) (blue a / k).
(** colour.rs:26 and 85-92 *)
Definition radiance (a : spectrum) : R := red a * (265 / 1000) + green a * (67 / 100) + blue a * (65 / 1000).

(** generic_matrix.rs, [add_to_element] on the only row, with the [unwrap] *)
Definition add_at (row : list spectrum) (i : nat) (v : spectrum) : res (list spectrum) :=
  if (i <? length row)%nat then Ok (upd row i (sadd (nth i row BLACK) v)) else Panic.
(** generic_matrix.rs:415-426 *)
Definition add_rows (a b : list spectrum) : list spectrum := map (fun p => sadd (fst p) (snd p)) (combine a b).

Section Trace.
Context {G I M : Type}.
(** [rng.gen()] *)
Context (gen : G -> R * G).
(** [scene.cast_ray(ray, aux)] *)
Context (cast_ray : Ray -> option I).
(** [interaction.point], [interaction.geometry_shading.normal] and the material of the side that is hit (none for [NonApplicable]) *)
Context (hit_point hit_normal : I -> pt) (material : I -> option M).
(** [material.sample_bsdf]: direction, spectrum and density of the sample; the interaction, the coefficient and the generator may change *)
Context (sample_bsdf : M -> pt -> I -> R -> G -> option (pt * spectrum * R) * I * R * G).
Context (reinhart : sky) (max_depth n_ambient_samples : nat).

(** daylight_coefficients.rs:159-229.  [budget] is [max_depth - depth]. *)
Fixpoint trace_loop (budget : nat) (ray : Ray) (contribution : list spectrum) (rng : G) (beta : spectrum) (coefficient : R)
    : res (list spectrum) :=
  match cast_ray ray with
  | None =>
    do bin_n <- dir_to_bin reinhart (direction ray);
    add_at contribution bin_n (sdiv (smul ONE beta) (INR n_ambient_samples))
  | Some interaction =>
    match material interaction with
    | None => Ok contribution
    | Some m =>
      match budget with
      | O => Ok contribution
      | S budget =>
        match sample_bsdf m (direction ray) interaction coefficient rng with
        | (None, _, _, _) => Ok contribution
        | (Some (wi, spec, pdf), interaction, coefficient, rng) =>
          let cos_theta := Rabs (vdot (hit_normal interaction) wi) in
          let beta := smul beta (sdiv (sscale spec cos_theta) pdf) in
          let ray := mkRay (hit_point interaction) wi in
          let q := Rmax (1 - radiance beta) 0 in
          let '(aux, rng) := gen rng in
          if Rltb aux q then Ok contribution
          else trace_loop budget ray contribution rng (sdiv beta (1 - q)) coefficient
        end
      end
    end
  end.
Definition trace_ray (ray : Ray) (contribution : list spectrum) (rng : G) : res (list spectrum) :=
  trace_loop max_depth ray contribution rng (gray PI) 1.

(** [draws i j] are the two numbers that place the [j]-th direction of the [i]-th ray, and [seeds i j] is the generator with which that
    direction is followed. *)
Context (draws : nat -> nat -> R * R) (seeds : nat -> nat -> G).

(** daylight_coefficients.rs:84-108, one direction *)
Definition sample_direction (e1 e2 normal : pt) (u : R * R) : pt :=
  let local_ray_dir := sample_cosine_weighted_horizontal_hemisphere u in
  local_to_world e1 e2 normal (mkV 0 0 0) (vx local_ray_dir) (vy local_ray_dir) (vz local_ray_dir).
(** daylight_coefficients.rs:96-137: the contributions of the directions are added in their order *)
Fixpoint directions_loop (i : nat) (e1 e2 : pt) (ray : Ray) (js : list nat) (ret : list spectrum) : res (list spectrum) :=
  match js with
  | [] => Ok ret
  | j :: js =>
    let new_ray := mkRay (origin ray) (sample_direction e1 e2 (direction ray) (draws i j)) in
    do this_ret <- trace_ray new_ray (repeat BLACK (n_bins reinhart)) (seeds i j);
    directions_loop i e1 e2 ray js (add_rows ret this_ret)
  end.
(** daylight_coefficients.rs:74-140 *)
Definition ray_row (i : nat) (ray : Ray) : res (list spectrum) :=
  match get_perpendicular (direction ray) with
  | Ok e2 =>
    let e1 := vcross e2 (direction ray) in
    directions_loop i e1 e2 ray (seq 0 n_ambient_samples) (repeat BLACK (n_bins reinhart))
  | _ => Panic
  end.
Fixpoint rays_loop (i : nat) (rays : list Ray) : res (list (list spectrum)) :=
  match rays with
  | [] => Ok []
  | ray :: rays => do row <- ray_row i ray; do rows <- rays_loop (S i) rays; Ok (row :: rows)
  end.
(** daylight_coefficients.rs:57-154 *)
Definition calc_dc (rays : list Ray) : res (mat spectrum) :=
  do rows <- rays_loop 0 rays;
  Ok (mkMat (length rays) (n_bins reinhart) (concat rows)).
End Trace.

(** colour_matrix.rs:36-46 *)
Definition colour_matrix_to_radiance (cm : mat spectrum) : mat R := mkMat (nrows cm) (ncols cm) (map radiance (data cm)).
(** colour_matrix.rs:29-34 *)
Definition average_matrix (dc : mat R) : res (mat R) := op_mul Rnum (new_mat (1 / INR (nrows dc)) 1 (nrows dc)) dc.
