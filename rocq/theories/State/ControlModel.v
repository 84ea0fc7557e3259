(** Model of the two ways of operating a building: the built-in behaviour
    (src/occupant_behaviour.rs:42-108) and the functions available to control scripts
    (derive/src/field.rs:217-294, derive/src/object_struct.rs:276-363 and 484-642,
    model/src/rhai_api.rs:30-44, src/rhai_script_controller.rs:40-85). *)
From Coq Require Import String List Arith Lia Bool.
From Verif Require Import Common.Base State.StateModel.
Import ListNotations.

Section Control.
Context {F : Type} (zero : F) (opp : F -> F) (lt : F -> F -> bool).

(** A state field of an object (StateElementField, model/src/simulation_state_element.rs:26) is
    the index of its element, once it has been assigned. *)
Definition field := option nat.

(** The generated setter of a state field, derive/src/object_struct.rs:304-320.  [state[i] = v]
    panics out of bounds. *)
Definition set_state (fld : field) (state : list F) (v : F) : res (list F) :=
  match fld with
  | Some i => if i <? length state then Ok (upd state i v) else Panic
  | None => Err
  end.

(** The generated getter, derive/src/object_struct.rs:348-364. *)
Definition get_state (fld : field) (state : list F) : res (option F) :=
  match fld with
  | Some i => match nth_error state i with Some v => Ok (Some v) | None => Panic end
  | None => Ok None
  end.

(** The parts of the spaces and HVACs that the behaviour reads. *)
Record space := mkSpace { sp_name : string; sp_temperature : field }.

Record heater := mkHeater {
  h_consumption : field; h_target : option string;
  h_heating_setpoint : option F; h_heating_power : option F }.

Record ideal := mkIdeal {
  i_consumption : field; i_target : option string;
  i_heating_setpoint : option F; i_heating_power : option F;
  i_cooling_setpoint : option F; i_cooling_power : option F }.

Inductive hvac := ElectricHeater (h : heater) | IdealHeaterCooler (h : ideal).

Definition consumption (h : hvac) : field :=
  match h with ElectricHeater h => h_consumption h | IdealHeaterCooler h => i_consumption h end.

(** [model.get_space(name)?.dry_bulb_temperature(state).ok_or(..)?] *)
Definition space_temp (spaces : list space) (name : string) (state : list F) : res F :=
  match find (fun s => String.eqb (sp_name s) name) spaces with
  | None => Err
  | Some s => do t <- get_state (sp_temperature s) state ;
              match t with Some v => Ok v | None => Err end
  end.

(** The body of the loop of src/occupant_behaviour.rs:50-105. *)
Definition control_hvac (spaces : list space) (state : list F) (h : hvac) : res (list F) :=
  match h with
  | ElectricHeater h =>
      match h_target h, h_heating_setpoint h, h_heating_power h with
      | Some name, Some setpoint, Some power =>
          do t <- space_temp spaces name state ;
          if lt t setpoint then set_state (h_consumption h) state power
          else set_state (h_consumption h) state zero
      | _, _, _ => Ok state
      end
  | IdealHeaterCooler h =>
      match i_target h with
      | None => Ok state
      | Some name =>
          do t <- space_temp spaces name state ;
          do hs <- match i_heating_setpoint h, i_heating_power h with
                   | Some setpoint, Some power =>
                       do s <- (if lt t setpoint then set_state (i_consumption h) state power
                                else set_state (i_consumption h) state zero) ;
                       Ok (true, s)
                   | _, _ => Ok (false, state)
                   end ;
          let '(has_heating, s1) := hs in
          match i_cooling_setpoint h, i_cooling_power h with
          | Some setpoint, Some power =>
              if lt setpoint t then set_state (i_consumption h) s1 (opp power)
              else if negb has_heating then set_state (i_consumption h) s1 zero
              else Ok s1
          | _, _ => Ok s1
          end
      end
  end.

(** OccupantBehaviour::control *)
Fixpoint occupant_control (spaces : list space) (hvacs : list hvac) (state : list F) : res (list F) :=
  match hvacs with
  | [] => Ok state
  | h :: hs => do s1 <- control_hvac spaces state h ; occupant_control spaces hs s1
  end.

(** The objects available to scripts and their state fields.  For every field with a [physical] or
    [operational] attribute a property with a getter and a setter is registered
    (derive/src/object_struct.rs:495-527): the loop does not distinguish the two.  The
    [research_mode] argument of [register_api] is not used by the generated code. *)
Inductive attribute := APhysical | AOperational.

Record property := mkProperty {
  p_object : string;           (* object it belongs to *)
  p_field : string;            (* name in the script *)
  p_attribute : attribute;
  p_index : field }.

Inductive command :=
| Assign (object field : string) (v : F).

Definition registered (research_mode : bool) (ps : list property) : list property := ps.

(** A setter called by a script, derive/src/field.rs:258-291. *)
Definition exec (research_mode : bool) (ps : list property) (state : list F) (c : command) : res (list F) :=
  match c with
  | Assign o f v =>
      match find (fun p => String.eqb (p_object p) o && String.eqb (p_field p) f)
                 (registered research_mode ps) with
      | None => Err
      | Some p => match p_index p with
                  | Some _ => set_state (p_index p) state v
                  | None => Err
                  end
      end
  end.

(** A script: any program that looks at the state and decides its next assignment, or stops. *)
Definition script := list F -> option command.

Fixpoint run_script (fuel : nat) (research_mode : bool) (ps : list property)
    (sc : nat -> script) (state : list F) : res (list F) :=
  match fuel with
  | O => Ok state
  | S fuel' =>
      match sc fuel' state with
      | None => Ok state
      | Some c => do s1 <- exec research_mode ps state c ;
                  run_script fuel' research_mode ps sc s1
      end
  end.

End Control.
