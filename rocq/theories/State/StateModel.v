(** Model of the simulation state: model/src/simulation_state_element.rs and
    model/src/simulation_state.rs.

    The numbers stored in the state are an arbitrary type [F] (the code uses f64):
    nothing in these functions computes with them. *)
From Coq Require Import List Arith Lia Bool.
From Verif Require Import Common.Base.
Import ListNotations.

(** SimulationStateElement, model/src/simulation_state_element.rs:30-225. *)
Inductive element : Type :=
| Clothing
| FenestrationOpenFraction (i : nat)
| HeatingCoolingPowerConsumption (i : nat)
| LuminairePowerConsumption (i : nat)
| SurfaceFrontConvectionCoefficient (i : nat)
| SurfaceBackConvectionCoefficient (i : nat)
| SurfaceFrontConvectiveHeatFlow (i : nat)
| SurfaceBackConvectiveHeatFlow (i : nat)
| SurfaceFrontSolarIrradiance (i : nat)
| SurfaceBackSolarIrradiance (i : nat)
| SurfaceFrontIRIrradiance (i : nat)
| SurfaceBackIRIrradiance (i : nat)
| FenestrationFrontConvectionCoefficient (i : nat)
| FenestrationBackConvectionCoefficient (i : nat)
| FenestrationFrontConvectiveHeatFlow (i : nat)
| FenestrationBackConvectiveHeatFlow (i : nat)
| FenestrationFrontSolarIrradiance (i : nat)
| FenestrationBackSolarIrradiance (i : nat)
| FenestrationFrontIRIrradiance (i : nat)
| FenestrationBackIRIrradiance (i : nat)
| SpaceDryBulbTemperature (i : nat)
| SpaceInfiltrationVolume (i : nat)
| SpaceInfiltrationTemperature (i : nat)
| SpaceVentilationVolume (i : nat)
| SpaceVentilationTemperature (i : nat)
| SpaceAirExchangeVolume (i j : nat)
| SurfaceNodeTemperature (i j : nat)
| FenestrationNodeTemperature (i j : nat).

Definition element_eq_dec (a b : element) : {a = b} + {a <> b}.
Proof. decide equality; apply Nat.eq_dec. Defined.

(** The three predicates derived from the attribute of each variant:
    derive/src/simulation_state_behaviour.rs:112-147 with the attributes of
    model/src/simulation_state_element.rs:30-225. *)
Definition is_personal (e : element) : bool :=
  match e with Clothing => true | _ => false end.

Definition is_operational (e : element) : bool :=
  match e with
  | FenestrationOpenFraction _ | HeatingCoolingPowerConsumption _
  | LuminairePowerConsumption _ => true
  | _ => false
  end.

Definition is_physical (e : element) : bool :=
  match e with
  | SurfaceFrontConvectionCoefficient _ | SurfaceBackConvectionCoefficient _
  | SurfaceFrontConvectiveHeatFlow _ | SurfaceBackConvectiveHeatFlow _
  | SurfaceFrontSolarIrradiance _ | SurfaceBackSolarIrradiance _
  | SurfaceFrontIRIrradiance _ | SurfaceBackIRIrradiance _
  | FenestrationFrontConvectionCoefficient _ | FenestrationBackConvectionCoefficient _
  | FenestrationFrontConvectiveHeatFlow _ | FenestrationBackConvectiveHeatFlow _
  | FenestrationFrontSolarIrradiance _ | FenestrationBackSolarIrradiance _
  | FenestrationFrontIRIrradiance _ | FenestrationBackIRIrradiance _
  | SpaceDryBulbTemperature _ | SpaceInfiltrationVolume _ | SpaceInfiltrationTemperature _
  | SpaceVentilationVolume _ | SpaceVentilationTemperature _
  | SpaceAirExchangeVolume _ _ | SurfaceNodeTemperature _ _ | FenestrationNodeTemperature _ _ => true
  | _ => false
  end.

Section State.
Context {F : Type}.

(** SimulationStateHeader, model/src/simulation_state.rs:36-69. *)
Record header : Type := mkHeader {
  n_operational : nat;
  n_individual : nat;
  passed_operational : bool;
  passed_personal : bool;
  elements : list element;
  default_values : option (list F)
}.

(** Default, model/src/simulation_state.rs:71-82. *)
Definition header_new : header := mkHeader 0 0 false false [] (Some []).

(** The tail of [push]: model/src/simulation_state.rs:120-131.  The element is stored
    before the values vector is looked at. *)
Definition store (h : header) (e : element) (v : F) : header * res nat :=
  let ret := length (elements h) in
  let elements' := elements h ++ [e] in
  match default_values h with
  | Some values =>
      (mkHeader (n_operational h) (n_individual h) (passed_operational h) (passed_personal h)
         elements' (Some (values ++ [v])), Ok ret)
  | None =>
      (mkHeader (n_operational h) (n_individual h) (passed_operational h) (passed_personal h)
         elements' None, Err)
  end.

(** push, model/src/simulation_state.rs:97-132.  The new header is returned also when the
    result is an error, because the method takes [&mut self]. *)
Definition push (h : header) (e : element) (v : F) : header * res nat :=
  if is_personal e then
    if passed_personal h then (h, Err)
    else store (mkHeader (n_operational h) (S (n_individual h)) (passed_operational h)
                  (passed_personal h) (elements h) (default_values h)) e v
  else if is_operational e then
    if passed_operational h then (h, Err)
    else store (mkHeader (S (n_operational h)) (n_individual h) (passed_operational h)
                  true (elements h) (default_values h)) e v
  else store (mkHeader (n_operational h) (n_individual h) true true
                (elements h) (default_values h)) e v.

(** take_values, model/src/simulation_state.rs:236-238. *)
Definition take_values (h : header) : header * option (list F) :=
  (mkHeader (n_operational h) (n_individual h) (passed_operational h) (passed_personal h)
     (elements h) None, default_values h).

(** [destination[ini..fin].copy_from_slice(&origin[ini..fin])]: both slices panic when the
    range is not within the vector. *)
Definition copy_slice (ini fin : nat) (origin destination : list F) : res (list F) :=
  if (ini <=? fin) && (fin <=? length origin) && (fin <=? length destination)
  then Ok (firstn ini destination ++ firstn (fin - ini) (skipn ini origin) ++ skipn fin destination)
  else Panic.

(** copy_physical_state, model/src/simulation_state.rs:166-185 (the debug assertions are not
    modelled: they are absent of release builds). *)
Definition copy_physical_state (h : header) (origin destination : list F) : res (list F) :=
  copy_slice (n_individual h + n_operational h) (length (elements h)) origin destination.

(** copy_operational_state, model/src/simulation_state.rs:190-209. *)
Definition copy_operational_state (h : header) (origin destination : list F) : res (list F) :=
  copy_slice (n_individual h) (n_individual h + n_operational h) origin destination.

(** copy_individual_state, model/src/simulation_state.rs:214-232. *)
Definition copy_individual_state (h : header) (origin destination : list F) : res (list F) :=
  copy_slice 0 (n_individual h) origin destination.

(** A sequence of registrations, and the takes of the values in between. *)
Inductive event : Type := Push (e : element) (v : F) | TakeValues.

Definition handle (h : header) (ev : event) : header :=
  match ev with
  | Push e v => fst (push h e v)
  | TakeValues => fst (take_values h)
  end.

Definition run_events (evs : list event) : header := fold_left handle evs header_new.

End State.

Arguments header : clear implicits.
Arguments event : clear implicits.
