(** How the solar model registers irradiances in the simulation state: /repo/light/src/solar_surface.rs:162-256, /repo/light/src/solar_model.rs:338-395.
    Numbers are of any type [F]; [zero] is 0.0. The locks around the indices are left out: there is one thread. *)
From Coq Require Import List Arith Bool.
From Verif.Common Require Import Base.
From Verif.State Require Import StateModel.
Import ListNotations.

(** model/src/surface.rs:164-176, model/src/fenestration.rs:213-225: the indices of the four irradiances, None until they are set;
    [sf_points] tells whether SolarSurface::new (solar_surface.rs:70-105), i.e. triangulating the outline, succeeds *)
Record surf := mkSurf { sf_front_solar : option nat; sf_back_solar : option nat; sf_front_ir : option nat; sf_back_ir : option nat; sf_points : bool }.
Inductive kind := OfSurface | OfFenestration.

Section Solar.
Context {F : Type} (zero : F).

(** solar_surface.rs:170-176 and the seven alike: an index is asked for only when there is none. What the header is after an error is left out. *)
Definition reg (h : header F) (cur : option nat) (e : element) : res (header F * nat) :=
  match cur with Some i => Ok (h, i) | None => match push h e zero with (h', Ok i) => Ok (h', i) | (_, Err) => Err | (_, Panic) => Panic end end.

(** solar_surface.rs:168-207 for fenestrations, 222-253 for surfaces; [i] is the position in the list *)
Definition make_one (k : kind) (i : nat) (h : header F) (s : surf) : res (header F * surf) :=
  do p1 <- reg h (sf_front_solar s) (match k with OfSurface => SurfaceFrontSolarIrradiance i | OfFenestration => FenestrationFrontSolarIrradiance i end);
  do p2 <- reg (fst p1) (sf_back_solar s) (match k with OfSurface => SurfaceBackSolarIrradiance i | OfFenestration => FenestrationBackSolarIrradiance i end);
  do p3 <- reg (fst p2) (sf_front_ir s) (match k with OfSurface => SurfaceFrontIRIrradiance i | OfFenestration => FenestrationFrontIRIrradiance i end);
  do p4 <- reg (fst p3) (sf_back_ir s) (match k with OfSurface => SurfaceBackIRIrradiance i | OfFenestration => FenestrationBackIRIrradiance i end);
  if sf_points s then Ok (fst p4, mkSurf (Some (snd p1)) (Some (snd p2)) (Some (snd p3)) (Some (snd p4)) true) else Err.
Fixpoint make (k : kind) (i : nat) (h : header F) (ss : list surf) : res (header F * list surf) :=
  match ss with
  | [] => Ok (h, [])
  | s :: ss' => do p <- make_one k i h s; do r <- make k (S i) (fst p) ss'; Ok (fst r, snd p :: snd r)
  end.

(** solar_model.rs:347-395 with optical_info.rs:89-91: optical data are read from a file when there is one, otherwise they are computed *)
Definition solar_new (from_file : bool) (h : header F) (surfaces fenestrations : list surf) : res (header F * list surf * list surf) :=
  if from_file then Ok (h, surfaces, fenestrations)
  else do p <- make OfSurface 0 h surfaces; do r <- make OfFenestration 0 (fst p) fenestrations; Ok (fst r, snd p, snd r).

(** surface.rs:366-429 as used in heat/src/surface.rs:401-405: the thermal model wants to set the first index itself *)
Definition thermal_reg (h : header F) (s : surf) (i : nat) : res (header F * nat) :=
  match sf_front_solar s with None => reg h None (SurfaceFrontSolarIrradiance i) | Some _ => Err end.

(** the derived set_… methods, derive/src/object_struct.rs:306-320: writing outside of the state panics *)
Definition set_value (index : option nat) (state : list F) (v : F) : res (list F) :=
  match index with
  | Some i => if i <? length state then Ok (firstn i state ++ v :: skipn (S i) state) else Panic
  | None => Err
  end.
End Solar.
