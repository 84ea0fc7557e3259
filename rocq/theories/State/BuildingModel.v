(** Model of the container of a building: model/src/model.rs (adding objects, looking them
    up by name).

    Simplifications.  The parts of an object that these functions never look at are the opaque
    types [D] (data of an object) and [G] (a polygon).  [cut] stands for
    Polygon3D::cut_hole and [same_dir] for comparing the normals of two polygons.  Whether the
    caller still holds a reference to the parent surface (Arc::get_mut fails then) is an input
    of the operation, as it depends on code outside of the model. Warnings printed for
    repeated names are dropped. *)
From Coq Require Import String List Arith Lia Bool.
From Verif Require Import Common.Base State.StateModel.
Import ListNotations.

Section Building.
Context {D G F : Type}.
Context (cut : G -> G -> res G) (same_dir : G -> G -> bool) (zero : F).

(** Substance, Material, Construction, Space, Building: a name and data. *)
Record named := mkNamed { o_name : string; o_data : D }.

(** Boundary (model/src/boundary.rs): either a space, by name, or something else. *)
Inductive boundary := BSpace (space : string) | BOther (data : D).

(** Surface, model/src/surface.rs:60-190 *)
Record surface := mkSurface {
  s_name : string; s_construction : string; s_vertices : G;
  s_front : boundary; s_back : boundary; s_data : D }.

(** Fenestration, model/src/fenestration.rs:130-226.  [f_open_index] is the index of the state
    element with its open fraction; [f_outline] is [vertices.clone_outer()]. *)
Record fenestration := mkFenestration {
  f_name : string; f_is_opening : bool; f_construction : string; f_outline : G;
  f_parent : option string; f_front : boundary; f_back : boundary;
  f_open_index : option nat; f_data : D }.

(** HVAC (model/src/hvac/mod.rs) and Luminaire (model/src/luminaire.rs): both own one
    operational state element. *)
Record device := mkDevice { d_name : string; d_index : option nat; d_data : D }.

(** Object, model/src/objects/mod.rs: may name the space it is in. *)
Record thing := mkThing { t_name : string; t_space : option string; t_data : D }.

(** Model, model/src/model.rs:40-83 *)
Record model := mkModel {
  substances : list named; materials : list named; constructions : list named;
  spaces : list named; buildings : list named; objects : list thing;
  surfaces : list surface; fenestrations : list fenestration;
  hvacs : list device; luminaires : list device;
  simulation_state : option (header F) }.

(** Default, model/src/model.rs:139-159 *)
Definition model_new : model :=
  mkModel [] [] [] [] [] [] [] [] [] [] (Some header_new).

(** All get_x functions are the same loop: model/src/model.rs:589-597, 640-648, 692-700,
    805-813, 852-860, 903-911, 1121-1129, 1195-1208, 1261-1269. *)
Definition get {A} (name_of : A -> string) (l : list A) (name : string) : option A :=
  find (fun x => String.eqb (name_of x) name) l.

Definition found {A} (o : option A) : bool := match o with Some _ => true | None => false end.

(** push_to_state, model/src/model.rs:353-360 *)
Definition push_to_state (m : model) (e : element) (v : F) : model * res nat :=
  match simulation_state m with
  | Some s =>
      let (s', r) := push s e v in
      (mkModel (substances m) (materials m) (constructions m) (spaces m) (buildings m) (objects m)
         (surfaces m) (fenestrations m) (hvacs m) (luminaires m) (Some s'), r)
  | None => (m, Err)
  end.

(** take_state, model/src/model.rs:362-364 *)
Definition take_state (m : model) : model :=
  mkModel (substances m) (materials m) (constructions m) (spaces m) (buildings m) (objects m)
    (surfaces m) (fenestrations m) (hvacs m) (luminaires m) None.

Definition set_surfaces (m : model) l := mkModel (substances m) (materials m) (constructions m)
  (spaces m) (buildings m) (objects m) l (fenestrations m) (hvacs m) (luminaires m) (simulation_state m).
Definition set_fenestrations (m : model) l := mkModel (substances m) (materials m) (constructions m)
  (spaces m) (buildings m) (objects m) (surfaces m) l (hvacs m) (luminaires m) (simulation_state m).
Definition set_hvacs (m : model) l := mkModel (substances m) (materials m) (constructions m)
  (spaces m) (buildings m) (objects m) (surfaces m) (fenestrations m) l (luminaires m) (simulation_state m).
Definition set_luminaires (m : model) l := mkModel (substances m) (materials m) (constructions m)
  (spaces m) (buildings m) (objects m) (surfaces m) (fenestrations m) (hvacs m) l (simulation_state m).

(** add_substance 558-567, add_material 615-625, add_construction 666-677, add_space 831-838,
    add_building 878-888 *)
Definition add_substance (m : model) (x : named) : model :=
  mkModel (substances m ++ [x]) (materials m) (constructions m) (spaces m) (buildings m) (objects m)
    (surfaces m) (fenestrations m) (hvacs m) (luminaires m) (simulation_state m).
Definition add_material (m : model) (x : named) : model :=
  mkModel (substances m) (materials m ++ [x]) (constructions m) (spaces m) (buildings m) (objects m)
    (surfaces m) (fenestrations m) (hvacs m) (luminaires m) (simulation_state m).
Definition add_construction (m : model) (x : named) : model :=
  mkModel (substances m) (materials m) (constructions m ++ [x]) (spaces m) (buildings m) (objects m)
    (surfaces m) (fenestrations m) (hvacs m) (luminaires m) (simulation_state m).
Definition add_space (m : model) (x : named) : model :=
  mkModel (substances m) (materials m) (constructions m) (spaces m ++ [x]) (buildings m) (objects m)
    (surfaces m) (fenestrations m) (hvacs m) (luminaires m) (simulation_state m).
Definition add_building (m : model) (x : named) : model :=
  mkModel (substances m) (materials m) (constructions m) (spaces m) (buildings m ++ [x]) (objects m)
    (surfaces m) (fenestrations m) (hvacs m) (luminaires m) (simulation_state m).

(** add_object, model/src/model.rs:528-540 *)
Definition add_object (m : model) (x : thing) : model * bool :=
  match t_space x with
  | Some sp =>
      if found (get o_name (spaces m) sp)
      then (mkModel (substances m) (materials m) (constructions m) (spaces m) (buildings m)
              (objects m ++ [x]) (surfaces m) (fenestrations m) (hvacs m) (luminaires m)
              (simulation_state m), true)
      else (m, false)
  | None => (mkModel (substances m) (materials m) (constructions m) (spaces m) (buildings m)
              (objects m ++ [x]) (surfaces m) (fenestrations m) (hvacs m) (luminaires m)
              (simulation_state m), true)
  end.

Definition boundary_ok (m : model) (b : boundary) : bool :=
  match b with BSpace sp => found (get o_name (spaces m) sp) | BOther _ => true end.

(** add_surface, model/src/model.rs:744-768 *)
Definition add_surface (m : model) (x : surface) : model * res surface :=
  if negb (found (get o_name (constructions m) (s_construction x))) then (m, Err)
  else if negb (boundary_ok m (s_front x)) then (m, Err)
  else if negb (boundary_ok m (s_back x)) then (m, Err)
  else (set_surfaces m (surfaces m ++ [x]), Ok x).

(** The loop over the surfaces of add_fenestration, model/src/model.rs:1036-1057: cut a hole in
    the first surface with the name of the parent. *)
Fixpoint cut_parent (held : bool) (outline : G) (name : string) (l : list surface)
  : res (list surface * option surface) :=
  match l with
  | [] => Ok ([], None)
  | s :: l' =>
      if String.eqb (s_name s) name then
        if held then Err
        else match cut (s_vertices s) outline with
             | Ok v => let s' := mkSurface (s_name s) (s_construction s) v (s_front s) (s_back s) (s_data s) in
                       Ok (s' :: l', Some s')
             | Err => Err
             | Panic => Panic
             end
      else match cut_parent held outline name l' with
           | Ok (l2, p) => Ok (s :: l2, p)
           | Err => Err
           | Panic => Panic
           end
  end.

(** The boundaries of the fenestration after model/src/model.rs:1066-1079 *)
Definition inherit (f : fenestration) (i : nat) (p : option surface) : fenestration :=
  match p with
  | None => mkFenestration (f_name f) (f_is_opening f) (f_construction f) (f_outline f) (f_parent f)
              (f_front f) (f_back f) (Some i) (f_data f)
  | Some s =>
      if same_dir (s_vertices s) (f_outline f) then
        mkFenestration (f_name f) (f_is_opening f) (f_construction f) (f_outline f) (f_parent f)
          (s_front s) (s_back s) (Some i) (f_data f)
      else
        mkFenestration (f_name f) (f_is_opening f) (f_construction f) (f_outline f) (f_parent f)
          (s_back s) (s_front s) (Some i) (f_data f)
  end.

(** add_fenestration, model/src/model.rs:1007-1085 *)
Definition add_fenestration (m : model) (f : fenestration) (held : bool) : model * res fenestration :=
  if negb (f_is_opening f) && negb (found (get o_name (constructions m) (f_construction f)))
  then (m, Err)
  else
    let fen_index := length (fenestrations m) in
    match push_to_state m (FenestrationOpenFraction fen_index) zero with
    | (m1, Err) => (m1, Err)
    | (m1, Panic) => (m1, Panic)
    | (m1, Ok i) =>
        match f_open_index f with
        | Some _ => (m1, Err)
        | None =>
            match f_parent f with
            | None => let f' := inherit f i None in
                      (set_fenestrations m1 (fenestrations m1 ++ [f']), Ok f')
            | Some pname =>
                match cut_parent held (f_outline f) pname (surfaces m1) with
                | Err => (m1, Err)
                | Panic => (m1, Panic)
                | Ok (_, None) => (m1, Err)
                | Ok (l2, Some s) =>
                    let m2 := set_surfaces m1 l2 in
                    let f' := inherit f i (Some s) in
                    (set_fenestrations m2 (fenestrations m2 ++ [f']), Ok f')
                end
            end
        end
    end.

(** add_hvac, model/src/model.rs:1147-1174 (both variants do the same) *)
Definition add_hvac (m : model) (x : device) : model * res device :=
  match push_to_state m (HeatingCoolingPowerConsumption (length (hvacs m))) zero with
  | (m1, Err) => (m1, Err)
  | (m1, Panic) => (m1, Panic)
  | (m1, Ok i) =>
      match d_index x with
      | Some _ => (m1, Err)
      | None => let x' := mkDevice (d_name x) (Some i) (d_data x) in
                (set_hvacs m1 (hvacs m1 ++ [x']), Ok x')
      end
  end.

(** add_luminaire, model/src/model.rs:1227-1246 *)
Definition add_luminaire (m : model) (x : device) : model * res device :=
  match push_to_state m (LuminairePowerConsumption (length (luminaires m))) zero with
  | (m1, Err) => (m1, Err)
  | (m1, Panic) => (m1, Panic)
  | (m1, Ok i) =>
      match d_index x with
      | Some _ => (m1, Err)
      | None => let x' := mkDevice (d_name x) (Some i) (d_data x) in
                (set_luminaires m1 (luminaires m1 ++ [x']), Ok x')
      end
  end.

(** Histories of a model. *)
Inductive op :=
| OSubstance (x : named) | OMaterial (x : named) | OConstruction (x : named)
| OSpace (x : named) | OBuilding (x : named) | OObject (x : thing)
| OSurface (x : surface) | OFenestration (x : fenestration) (held : bool)
| OHvac (x : device) | OLuminaire (x : device) | OTakeState.

Definition apply (m : model) (o : op) : model :=
  match o with
  | OSubstance x => add_substance m x
  | OMaterial x => add_material m x
  | OConstruction x => add_construction m x
  | OSpace x => add_space m x
  | OBuilding x => add_building m x
  | OObject x => fst (add_object m x)
  | OSurface x => fst (add_surface m x)
  | OFenestration x h => fst (add_fenestration m x h)
  | OHvac x => fst (add_hvac m x)
  | OLuminaire x => fst (add_luminaire m x)
  | OTakeState => take_state m
  end.

Definition history (ops : list op) : model := fold_left apply ops model_new.

End Building.
