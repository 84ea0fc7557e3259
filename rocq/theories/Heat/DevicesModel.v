(** Heaters, coolers and luminaires in the thermal model: /repo/heat/src/heating_cooling.rs lines 49-76 and 80-124, /repo/heat/src/luminaire.rs
    lines 36-52 and /repo/heat/src/heat_model.rs lines 379-389, 542-556 and 449-462. A device is the name of the space it is meant for and the
    power that the simulation state holds for it, if any; both kinds of HVAC do the same. Texts of errors are left out. *)
From Coq Require Import List Arith Reals Bool String.
From Verif.Common Require Import Base.
From Verif.Heat Require Import ZoneModel.
Import ListNotations.
Open Scope R_scope.

Record device := mkDevice { dv_target : option string; dv_power : option R }.

(** heating_cooling.rs:52-60 and 64-72 and luminaire.rs:39-51: the names of spaces are gone through from the first one (number [i] here);
    [target_space()?] ends with an error at once when the device has none *)
Fixpoint target_index (spaces : list string) (i : nat) (target : option string) : res nat :=
  match spaces with
  | [] => match target with None => Err | Some _ => Err end
  | s :: spaces =>
      match target with
      | None => Err
      | Some t => if String.eqb s t then Ok i else target_index spaces (S i) target
      end
  end.

(** heat_model.rs:380-383 and 386-389: the devices of the thermal model and the numbers of their spaces *)
Fixpoint thermal_devices (spaces : list string) (ds : list device) : res (list (device * nat)) :=
  match ds with
  | [] => Ok []
  | d :: ds => do i <- target_index spaces 0 (dv_target d); do r <- thermal_devices spaces ds; Ok ((d, i) :: r)
  end.

(** heating_cooling.rs:80-124 *)
Definition cooling_heating_power (h : device * nat) : res (list (nat * R)) :=
  match dv_target (fst h) with
  | None => Ok []
  | Some _ => match dv_power (fst h) with Some v => Ok [(snd h, v)] | None => Err end
  end.
(** heat_model.rs:542-547: the powers of HVACs, in the order in which they are added *)
Fixpoint hvac_gains (hs : list (device * nat)) : res (list (nat * R)) :=
  match hs with
  | [] => Ok []
  | h :: hs => do g <- cooling_heating_power h; do r <- hvac_gains hs; Ok (g ++ r)
  end.
(** heat_model.rs:549-556: a luminaire that has no power in the state is a panic *)
Fixpoint luminaire_gains (ls : list (device * nat)) : res (list (nat * R)) :=
  match ls with
  | [] => Ok []
  | l :: ls => do v <- match dv_power (fst l) with Some v => Ok v | None => Panic end; do r <- luminaire_gains ls; Ok ((snd l, v) :: r)
  end.
Definition device_gains (hs ls : list (device * nat)) : res (list (nat * R)) :=
  do g <- hvac_gains hs; do g' <- luminaire_gains ls; Ok (g ++ g').

(** heat_model.rs:379-389, then one step of the march (lines 449-462), for a building with the given spaces (their names and their air) *)
Definition run_devices (names : list string) (zones : list zone) (hvacs luminaires : list device) (ss : list surf) (dt : R) : res (list R) :=
  do hs <- thermal_devices names hvacs;
  do ls <- thermal_devices names luminaires;
  do g <- device_gains hs ls;
  march_zones zones g ss dt.
