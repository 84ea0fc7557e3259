(** One step of a wall or a window: the border conditions, the march of the massless nodes, and the whole march
    (/repo/heat/src/surface.rs lines 276-345, 569-738, 1031-1154 and 1253-1354), and how the surfaces of a building are
    marched together (/repo/heat/src/heat_model.rs lines 78-214). Numbers are exact reals, so the patches for NaN are not
    modelled (surface.rs:726-735, 1084-1101, 1267 and 1271). *)
From Coq Require Import List Arith Reals Bool.
From Verif.Common Require Import Base Flt.
From Verif.Matrix Require Import MatrixModel GaussSeidel.
From Verif.Heat Require Import GasModel DiscretizationModel ConvectionModel WallModel.
Import ListNotations.
Open Scope R_scope.

(** /repo/model/src/boundary.rs; a space is given by its position in the model *)
Inductive boundary := Ground | Outdoor | Space (i : nat) | AmbientTemperature (t : R) | Adiabatic.

(** surface.rs:280-345; [normal] is given by its two horizontal components *)
Record tsurface := mkTS {
  ts_segments : list segment; ts_front_boundary : boundary; ts_back_boundary : boundary;
  ts_front_emissivity : R; ts_back_emissivity : R; ts_area : R; ts_perimeter : R; ts_nx : R; ts_ny : R;
  ts_wind_modifier : R; ts_cos_tilt : R; ts_massive : list (nat * nat); ts_nomass : list (nat * nat);
  ts_front_alphas : list R; ts_back_alphas : list R; ts_front_hs : option R; ts_back_hs : option R }.

(** the part of the simulation state a surface reads and writes: infrared and solar irradiance at each face, node temperatures,
    convection coefficients and convective heat flows *)
Record sstate := mkSS { s_ir_front : R; s_ir_back : R; s_solar_front : R; s_solar_back : R; s_nodes : list R;
                        s_front_hs : R; s_back_hs : R; s_front_flow : R; s_back_flow : R }.
(** /repo/model/src/surface_trait.rs:262-271 *)
Definition front_temperature (st : sstate) : res R := idx (s_nodes st) 0.
Definition back_temperature (st : sstate) : res R := idx (s_nodes st) (length (s_nodes st) - 1).

(** [match self.front_hs { Some(v) => v, None => e }] *)
Definition fixed_or (h : option R) (e : res R) : res R := match h with Some v => Ok v | None => e end.
(** [(ir / SIGMA).powf(0.25) - 273.15]; negative irradiance (NaN in Rust) gives absolute zero here *)
Definition sky_temperature (ir : R) : R := powf (ir / SIGMA) (1 / 4) - 27315 / 100.

(** surface.rs:583-659 *)
Definition front_conditions (s : tsurface) (st : sstate) (t_front t_back wind_direction wind_speed : R) : res (conv * R) :=
  match ts_front_boundary s with
  | Adiabatic =>
      do ts <- back_temperature st;
      let env := mkConv t_back 0 t_back ts 1 (ts_cos_tilt s) in
      do h <- fixed_or (ts_front_hs s) (natural_convection env);
      Ok (env, h)
  | Space _ =>
      do ts <- front_temperature st;
      let env := mkConv t_front 0 t_front ts 1 (ts_cos_tilt s) in
      do h <- fixed_or (ts_front_hs s) (natural_convection env);
      Ok (env, h)
  | AmbientTemperature t =>
      do ts <- front_temperature st;
      let env := mkConv t 0 t ts 1 (ts_cos_tilt s) in
      do h <- fixed_or (ts_front_hs s) (natural_convection env);
      Ok (env, h)
  | Ground => Panic
  | Outdoor =>
      do ts <- front_temperature st;
      let env := mkConv t_front (wind_speed * ts_wind_modifier s) (sky_temperature (s_ir_front st)) ts 1 (- ts_cos_tilt s) in
      do h <- fixed_or (ts_front_hs s)
                (tarp_convection env (ts_area s) (ts_perimeter s) (is_windward wind_direction (ts_cos_tilt s) (ts_nx s) (ts_ny s)));
      Ok (env, h)
  end.

(** surface.rs:661-719 *)
Definition back_conditions (s : tsurface) (st : sstate) (t_front t_back wind_direction wind_speed : R) (front : conv * R)
  : res (conv * R) :=
  match ts_back_boundary s with
  | Adiabatic => Ok front
  | Space _ =>
      do ts <- back_temperature st;
      let env := mkConv t_back 0 t_back ts 1 (ts_cos_tilt s) in
      do h <- fixed_or (ts_back_hs s) (natural_convection env);
      Ok (env, h)
  | AmbientTemperature t =>
      do ts <- front_temperature st;
      let env := mkConv t 0 t ts 1 (ts_cos_tilt s) in
      do h <- fixed_or (ts_back_hs s) (natural_convection env);
      Ok (env, h)
  | Ground => Panic
  | Outdoor =>
      do ts <- back_temperature st;
      let env := mkConv t_back (wind_speed * ts_wind_modifier s) (sky_temperature (s_ir_back st)) ts 1 (ts_cos_tilt s) in
      do h <- fixed_or (ts_back_hs s)
                (tarp_convection env (ts_area s) (ts_perimeter s) (is_windward wind_direction (ts_cos_tilt s) (ts_nx s) (ts_ny s)));
      Ok (env, h)
  end.

(** surface.rs:569-738 *)
Definition border_conditions (s : tsurface) (st : sstate) (t_front t_back wind_direction wind_speed : R)
  : res ((conv * R) * (conv * R)) :=
  do front <- front_conditions s st t_front t_back wind_direction wind_speed;
  do back <- back_conditions s st t_front t_back wind_direction wind_speed front;
  Ok (front, back).

(** the threshold of the elimination, /repo/matrix/src/matrix.rs:39 *)
Definition below_tiny (x : R) : bool := Rltb (Rabs x) (1 / 10 ^ 26).
Definition above_tiny (x : R) : bool := Rltb (1 / 10 ^ 26) (Rabs x).

(** surface.rs:1085-1090 *)
Definition nomass_error (temps x : list R) (ini fin : nat) : res R :=
  do e <- fold_res (fun local_i e => do l <- idx x local_i; do g <- col_get temps (ini + local_i); Ok (e + Rabs (l - g)))
                   (seq 0 (fin - ini)) 0;
  Ok (e / INR (fin - ini)).
(** surface.rs:1127-1132 *)
Definition average_in (temps x : list R) (ini fin : nat) : res (list R) :=
  fold_res (fun local_i ts => do l <- idx x local_i; do g <- col_get ts (ini + local_i);
                              do ts <- col_set ts (ini + local_i) (g + l);
                              do g <- col_get ts (ini + local_i); col_set ts (ini + local_i) (g * (5 / 10)))
           (seq 0 (fin - ini)) temps.

(** surface.rs:1055-1083: what one turn of the loop solves *)
Definition nomass_solve (segs : list segment) (temps solar : list R) (b : border) (ini fin : nat) (m : chunk)
  : res (list R * chunk) :=
  do m <- get_k_q segs ini fin temps (b_front b) (b_front_hs b) (b_front_rad b) (b_back b) (b_back_hs b) (b_back_rad b) m;
  do q <- add_solar solar ini fin (cq m);
  let q := scale q (- 1) in
  do x <- nd_mut_gaussian Rnum 3 below_tiny above_tiny (ck m) q;
  Ok (x, mkChunk (ck m) (cc m) q (ctemps m) (cscratch m)).

(** surface.rs:1054-1152; [fuel] bounds the number of turns ([march_nomass] gives as many as [count] allows) *)
Fixpoint nomass_loop (fuel count : nat) (old_err : R) (segs : list segment) (temps solar : list R) (b : border) (ini fin : nat)
         (m : chunk) : res (list R * chunk) :=
  match fuel with
  | O => Panic
  | S fuel =>
      do r <- nomass_solve segs temps solar b ini fin m;
      let (x, m) := r in
      do err <- nomass_error temps x ini fin;
      if Rltb old_err err then Ok (temps, m)
      else
        do temps <- average_in temps x ini fin;
        let max_allowed_error := if (count <? 100)%nat then 1 / 100 else 5 / 10 in
        if Rltb err max_allowed_error then Ok (temps, m)
        else if (19 * 1000 <? count)%nat then Ok (temps, m)
        else nomass_loop fuel (count + 1) err segs temps solar b ini fin m
  end.

(** the border conditions with the radiative coefficients computed in [march] *)
Definition as_border (fb : (conv * R) * (conv * R)) (front_rad back_rad : R) : border :=
  mkBorder (fst (fst fb)) (fst (snd fb)) (snd (fst fb)) (snd (snd fb)) front_rad back_rad.

(** surface.rs:1031-1154; the border conditions are computed in every turn, but from a [state] that does not change *)
Definition march_nomass (s : tsurface) (st : sstate) (t_front t_back wind_direction wind_speed front_rad back_rad : R)
           (temps solar : list R) (chunk_ends : nat * nat) (m : chunk) : res (list R * chunk) :=
  do fb <- border_conditions s st t_front t_back wind_direction wind_speed;
  nomass_loop (19 * 1000 + 2) 0 99999 (ts_segments s) temps solar (as_border fb front_rad back_rad) (fst chunk_ends) (snd chunk_ends) m.

(** surface.rs:1290-1297 *)
Definition rad_coefficient (emissivity : R) (env : conv) : R :=
  4 * emissivity * SIGMA * (27315 / 100 + (rad_temperature env + surface_temperature env) / 2) ^ 3.

(** surface.rs:104-120 *)
Record smemory := mkMem { m_massive : list chunk; m_nomass : list chunk; m_temps : list R }.

(** surface.rs:1266-1285: solar radiation absorbed by each node; the sizes are compared with those of the memory
    (/repo/matrix/src/generic_matrix.rs:220-229) *)
Definition absorbed_solar (s : tsurface) (st : sstate) (n : nat) : res (list R) :=
  let solar_front := if Rltb (s_solar_front st) 0 then 0 else s_solar_front st in
  let solar_back := if Rltb solar_front 0 then 0 else s_solar_back st in
  if negb (length (ts_front_alphas s) =? n)%nat then Err
  else if negb (length (ts_back_alphas s) =? n)%nat then Err
  else Ok (add_assign (scale (ts_front_alphas s) solar_front) (scale (ts_back_alphas s) solar_back)).

(** [for (chunk_i, (ini, fin)) in chunks.iter().enumerate()]: a missing memory panics *)
Fixpoint march_chunks (march : list R -> nat * nat -> chunk -> res (list R * chunk)) (ends : list (nat * nat)) (ms : list chunk)
         (temps : list R) : res (list R * list chunk) :=
  match ends with
  | [] => Ok (temps, ms)
  | e :: ends =>
      match ms with
      | [] => Panic
      | m :: ms =>
          do r <- march temps e m;
          do r' <- march_chunks march ends ms (fst r);
          Ok (fst r', snd r :: snd r')
      end
  end.

(** surface.rs:1253-1354 *)
Definition march (s : tsurface) (st : sstate) (t_front t_back wind_direction wind_speed dt : R) (mem : smemory) : res smemory :=
  do solar <- absorbed_solar s st (length (m_temps mem));
  do fb <- border_conditions s st t_front t_back wind_direction wind_speed;
  let front_rad := rad_coefficient (ts_front_emissivity s) (fst (fst fb)) in
  let back_rad := rad_coefficient (ts_back_emissivity s) (fst (snd fb)) in
  do r <- march_chunks (fun temps ends m =>
             march_nomass s st t_front t_back wind_direction wind_speed front_rad back_rad temps solar ends m)
             (ts_nomass s) (m_nomass mem) (m_temps mem);
  do fb <- border_conditions s st t_front t_back wind_direction wind_speed;
  let front_rad := rad_coefficient (ts_front_emissivity s) (fst (fst fb)) in
  let back_rad := rad_coefficient (ts_back_emissivity s) (fst (snd fb)) in
  do r' <- march_chunks (fun temps ends m =>
             march_mass (ts_segments s) temps solar dt (as_border fb front_rad back_rad) (fst ends) (snd ends) m)
             (ts_massive s) (m_massive mem) (fst r);
  Ok (mkMem (snd r') (snd r) (fst r')).

(** heat_model.rs:78-101; [zones] are the temperatures of the spaces *)
Definition boundary_temperature (b : boundary) (t_out : R) (zones : list R) : res R :=
  match b with
  | Adiabatic => Panic
  | Space i => match nth_error zones i with Some t => Ok t | None => Err end
  | Ground => Panic
  | AmbientTemperature t => Ok t
  | Outdoor => Ok t_out
  end.
(** [.unwrap()] *)
Definition unwrap {A} (r : res A) : res A := match r with Ok a => Ok a | _ => Panic end.
(** heat_model.rs:122-138 *)
Definition boundary_temps (s : tsurface) (st : sstate) (t_out : R) (zones : list R) : res (R * R) :=
  do t_front <- match ts_front_boundary s with
                | Adiabatic => back_temperature st
                | b => unwrap (boundary_temperature b t_out zones)
                end;
  do t_back <- match ts_back_boundary s with
               | Adiabatic => Ok t_front
               | b => unwrap (boundary_temperature b t_out zones)
               end;
  Ok (t_front, t_back).

(** heat_model.rs:174-204: what is written in the state after the march *)
Definition write_surface (s : tsurface) (st : sstate) (t_front t_back wind_direction wind_speed : R) (mem : smemory) : res sstate :=
  let st := mkSS (s_ir_front st) (s_ir_back st) (s_solar_front st) (s_solar_back st) (m_temps mem)
                 (s_front_hs st) (s_back_hs st) (s_front_flow st) (s_back_flow st) in
  do ts_front <- col_get (m_temps mem) 0;
  do ts_back <- col_get (m_temps mem) (length (m_temps mem) - 1);
  do fb <- border_conditions s st t_front t_back wind_direction wind_speed;
  let front_hs := snd (fst fb) in
  let back_hs := snd (snd fb) in
  Ok (mkSS (s_ir_front st) (s_ir_back st) (s_solar_front st) (s_solar_back st) (s_nodes st) front_hs back_hs
           ((ts_front - t_front) * front_hs) ((ts_back - t_back) * back_hs)).

(** heat_model.rs:141-204 for one surface; every surface reads the state as it was before any of them was written *)
Definition surface_step (s : tsurface) (st : sstate) (t_out : R) (zones : list R) (wind_direction wind_speed dt : R) (mem : smemory)
  : res (sstate * smemory) :=
  do t <- boundary_temps s st t_out zones;
  do mem <- march s st (fst t) (snd t) wind_direction wind_speed dt mem;
  do st <- write_surface s st (fst t) (snd t) wind_direction wind_speed mem;
  Ok (st, mem).
