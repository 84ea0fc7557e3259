(** Temperatures of the air of zones: /repo/heat/src/zone.rs lines 58-65 and /repo/heat/src/heat_model.rs lines 528-723. Numbers are exact
    reals. The values that the code reads from the simulation state (temperatures, coefficients, powers, flows) are given as data; values that
    are missing in the state (errors and [expect]) are not modelled. *)
From Coq Require Import List Arith Reals Bool.
From Verif.Common Require Import Base Flt.
From Verif.Polynomial Require Import PolynomialModel.
From Verif.Heat Require Import GasModel.
Import ListNotations.
Open Scope R_scope.

(** a zone: volume, temperature, and temperature and volume flow of infiltration and ventilation, if any *)
Record zone := mkZone { z_volume : R; z_temp : R; z_infiltration : option (R * R); z_ventilation : option (R * R) }.
(** a surface or fenestration: area, and for each side the zone it leads to (if it leads to one), convection coefficient and temperature *)
Record side := mkSide { sd_zone : option nat; sd_h : R; sd_temp : R }.
Record surf := mkSurf { sf_area : R; sf_front : side; sf_back : side }.

(** zone.rs:59-65 *)
Definition mcp (volume temp : R) : R :=
  volume * density AIR (temp + 27315 / 100) * heat_capacity AIR (temp + 27315 / 100) / 1.

(** [v[i] += x] *)
Definition add_at (l : list R) (i : nat) (x : R) : res (list R) :=
  match nth_error l i with Some v => Ok (upd l i (v + x)) | None => Panic end.

(** heat_model.rs:542-556: heating and cooling, then luminaires; both are a power for a zone *)
Fixpoint add_gains (gains : list (nat * R)) (a : list R) : res (list R) :=
  match gains with [] => Ok a | (i, q) :: gains => do a <- add_at a i q; add_gains gains a end.

(** heat_model.rs:563-584 *)
Definition add_flow (i : nat) (flow : option (R * R)) (ab : list R * list R) : res (list R * list R) :=
  match flow with
  | None => Ok ab
  | Some (t, v) =>
      let cp := heat_capacity AIR (t + 27315 / 100) in
      let rho := density AIR (t + 27315 / 100) in
      do a <- add_at (fst ab) i (rho * v * cp * t);
      do b <- add_at (snd ab) i (rho * v * cp);
      Ok (a, b)
  end.
(** heat_model.rs:560-593; [c[i]] is the capacity of zone [i] *)
Fixpoint add_flows (zones : list zone) (i : nat) (ab : list R * list R) : res (list R * list R) :=
  match zones with
  | [] => Ok ab
  | z :: zones => do ab <- add_flow i (z_infiltration z) ab; do ab <- add_flow i (z_ventilation z) ab; add_flows zones (S i) ab
  end.

(** heat_model.rs:613-632 *)
Definition add_side (area : R) (s : side) (ab : list R * list R) : res (list R * list R) :=
  match sd_zone s with
  | None => Ok ab
  | Some z => do a <- add_at (fst ab) z (sd_h s * area * sd_temp s); do b <- add_at (snd ab) z (sd_h s * area); Ok (a, b)
  end.
(** heat_model.rs:596-638 *)
Fixpoint add_surfaces (ss : list surf) (ab : list R * list R) : res (list R * list R) :=
  match ss with
  | [] => Ok ab
  | s :: ss => do ab <- add_side (sf_area s) (sf_front s) ab; do ab <- add_side (sf_area s) (sf_back s) ab; add_surfaces ss ab
  end.

(** heat_model.rs:529-645; surfaces are followed by fenestrations *)
Definition zones_abc (zones : list zone) (gains : list (nat * R)) (ss : list surf) : res (list R * list R * list R) :=
  do a <- add_gains gains (repeat 0 (length zones));
  do ab <- add_flows zones 0 (a, repeat 0 (length zones));
  do ab <- add_surfaces ss ab;
  Ok (fst ab, snd ab, map (fun z => mcp (z_volume z) (z_temp z)) zones).

(** heat_model.rs:710-718, for one zone *)
Definition future_temperature (t a b c time : R) : R :=
  if Rltb (1 / 10 ^ 9) (Rabs b) then a / b + (t - a / b) * exp (- b * time / c) else t.
(** heat_model.rs:677-689, for one zone *)
Definition mean_future_temperature (t a b c time : R) : R :=
  if Rltb (1 / 10 ^ 9) (Rabs b) then a / b + (c * (t - a / b) / time / b) * (1 - exp (- b * time / c)) else t.

(** heat_model.rs:698-722 *)
Fixpoint future_temperatures (ts a b c : list R) (time : R) : res (list R) :=
  match ts with
  | [] => Ok []
  | t :: ts =>
      match a, b, c with
      | a0 :: a, b0 :: b, c0 :: c => do r <- future_temperatures ts a b c time; Ok (future_temperature t a0 b0 c0 time :: r)
      | _, _, _ => Panic
      end
  end.

(** heat_model.rs:449-462: the temperatures at the end of the step *)
Definition march_zones (zones : list zone) (gains : list (nat * R)) (ss : list surf) (dt : R) : res (list R) :=
  do abc <- zones_abc zones gains ss;
  let '(a, b, c) := abc in
  future_temperatures (map z_temp zones) a b c dt.
