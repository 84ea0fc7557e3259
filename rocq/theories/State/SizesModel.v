(** Floor areas and set points of a model: /repo/model/src/model.rs:1327-1425, in exact arithmetic. Hash maps are lists of pairs without
    repeated keys; the order, which the code leaves open, is the one in which keys were first inserted. *)
From Coq Require Import Reals List Bool String.
From Verif.Common Require Import Base Flt.
Import ListNotations.
Open Scope R_scope.

(** HashMap::insert, HashMap::get *)
Fixpoint m_insert {V} (k : string) (v : V) (m : list (string * V)) : list (string * V) :=
  match m with [] => [(k, v)] | (k', v') :: m' => if String.eqb k k' then (k, v) :: m' else (k', v') :: m_insert k v m' end.
Fixpoint m_get {V} (k : string) (m : list (string * V)) : option V :=
  match m with [] => None | (k', v') :: m' => if String.eqb k k' then Some v' else m_get k m' end.

(** surface.rs:46-76 *)
Inductive SurfaceType := ExteriorWall | InteriorWall | GroundFloor | ExteriorFloor | InteriorFloor | Ceiling | Roof | OtherType.
(** boundary.rs:46-90: all boundaries that are not spaces are alike here *)
Inductive side := ToSpace (space : string) | Elsewhere.
(** surface.rs:93-121: the fields that are used; [fs_up] is the third component of the normal *)
Record fsurface := mkFS { fs_category : option SurfaceType; fs_up : R; fs_front : side; fs_back : side; fs_area : R }.

(** model.rs:1378-1392 *)
Definition space_above (s : fsurface) : option string :=
  match (if Rltb 0 (fs_up s) then fs_front s else fs_back s) with ToSpace n => Some n | Elsewhere => None end.
(** model.rs:1398-1419: the three arms do the same *)
Definition is_floor (c : SurfaceType) : bool := match c with GroundFloor | InteriorFloor | ExteriorFloor => true | _ => false end.

(** model.rs:1394-1422 *)
Fixpoint add_floors (total : R) (m : list (string * R)) (ss : list fsurface) : res (R * list (string * R)) :=
  match ss with
  | [] => Ok (total, m)
  | s :: ss' =>
      match fs_category s, space_above s with
      | Some c, Some n =>
          if is_floor c then
            match m_get n m with
            | Some k => add_floors (total + fs_area s) (m_insert n (k + fs_area s) m) ss'
            | None => Panic
            end
          else add_floors total m ss'
      | _, _ => add_floors total m ss'
      end
  end.
(** model.rs:1370-1425 *)
Definition get_space_sizes (spaces : list string) (ss : list fsurface) : res (R * list (string * R)) :=
  add_floors 0 (fold_left (fun m n => m_insert n 0 m) spaces []) ss.

(** hvac/electric_heater.rs and hvac/ideal_heater_cooler.rs: the set points, when they have been given *)
Inductive hvac := ElectricHeater (name : string) (heating : option R) | IdealHeaterCooler (name : string) (heating cooling : option R).
Definition hvac_name (h : hvac) : string := match h with ElectricHeater n _ => n | IdealHeaterCooler n _ _ => n end.
(** model.rs:1327-1354 *)
Definition get_hvac_setpoints (hs : list hvac) : list (string * (option R * option R)) :=
  fold_left (fun m h => match h with ElectricHeater n a => m_insert n (a, None) m | IdealHeaterCooler n a b => m_insert n (a, b) m end) hs [].
