(** Discretization of a construction: /repo/heat/src/discretization.rs lines 29-553 and the choice of the time step in
    /repo/heat/src/heat_model.rs lines 284-376. Numbers are exact reals. The materials of a construction are given already
    resolved (thickness and substance); the errors for missing names are not modelled. *)
From Coq Require Import List Arith Reals Bool ZArith Lra.
From Verif.Common Require Import Base Flt.
From Verif.Heat Require Import GasModel.
Import ListNotations.
Open Scope R_scope.

(** model/src/substance/normal.rs: the fields used by the thermal model *)
Record normal := mkNormal { s_k : option R; s_rho : option R; s_cp : option R; s_front_em : option R; s_back_em : option R }.
(** model/src/substance/gas.rs:29-42 *)
Inductive gas_spec := Air | Argon | Krypton | Xenon.
(** model/src/substance/mod.rs *)
Inductive substance := Normal (s : normal) | Gas (g : option gas_spec).
(** model/src/material.rs, with its substance resolved *)
Record layer := mkLayer { thickness : R; sub : substance }.

(** discretization.rs:21 *)
Definition MAX_RS : R := 5 / 100.

(** discretization.rs:32-45 *)
Inductive uvalue := Solid (u : R) | Cavity (c : cavity) | Back | UNone.

(** discretization.rs:49-56 *)
Definition u_value (u : uvalue) (t_before t_after : R) : res R :=
  match u with
  | Solid u => Ok u
  | Cavity c => cavity_u_value c t_before t_after
  | Back => Ok 0
  | UNone => Panic
  end.

(** a node of the discretization: its mass and the U-value of the element after it *)
Definition segment : Type := R * uvalue.

(** [segments[i].0 += m] and [segments[i].1 = u] *)
Definition add_mass (l : list segment) (i : nat) (m : R) : res (list segment) :=
  match nth_error l i with None => Panic | Some (x, u) => Ok (upd l i (x + m, u)) end.
Definition set_u (l : list segment) (i : nat) (u : uvalue) : res (list segment) :=
  match nth_error l i with None => Panic | Some (x, _) => Ok (upd l i (x, u)) end.

(** A getter such as [s.density()?]: an error if the value was not given *)
Definition getter {A} (o : option A) : res A := match o with Some v => Ok v | None => Err end.
(** [x_or(default)] *)
Definition or_default (o : option R) (d : R) : R := match o with Some v => v | None => d end.

(** discretization.rs:217-230 *)
Definition gas_of (g : option gas_spec) : res gas :=
  match g with
  | Some Air => Ok AIR | Some Argon => Ok ARGON | Some Xenon => Ok XENON | Some Krypton => Ok KRYPTON
  | None => Err
  end.

(** discretization.rs:185-197 *)
Definition element_mass (lay : layer) (n : nat) : res R :=
  if (n =? 0)%nat then Ok 0
  else match sub lay with
       | Normal s => do rho <- getter (s_rho s); do cp <- getter (s_cp s); Ok (rho * cp * (thickness lay / INR n))
       | Gas _ => Ok 0
       end.

(** discretization.rs:203-280: one element; [n] is already at least one *)
Definition build_element (layers : list layer) (height angle : R) (n_layer : nat) (lay : layer) (mass : R) (n : nat)
           (st : list segment * nat) : res (list segment * nat) :=
  let '(segs, i) := st in
  match sub lay with
  | Normal s =>
      do segs <- add_mass segs i (mass / 2);
      do segs <- add_mass segs (i + 1) (mass / 2);
      do k <- getter (s_k s);
      do segs <- set_u segs i (Solid (k / (thickness lay / INR n)));
      Ok (segs, (i + 1)%nat)
  | Gas g =>
      do gas <- gas_of g;
      if (n_layer =? 0)%nat then Err
      else
        match nth_error layers (n_layer - 1), nth_error layers (n_layer + 1) with
        | Some prev, Some next =>
            match sub next, sub prev with
            | Normal sn, Normal sp =>
                let ein := or_default (s_front_em sn) (84 / 100) in
                let eout := or_default (s_back_em sp) (84 / 100) in
                do segs <- set_u segs i (Cavity (mkCavity (thickness lay) height gas eout ein angle));
                Ok (segs, (i + 1)%nat)
            | _, _ => Err
            end
        | _, _ => Err
        end
  end.

Fixpoint iter_res {A} (f : A -> res A) (n : nat) (a : A) : res A :=
  match n with O => Ok a | S n' => do a' <- f a; iter_res f n' a' end.

(** discretization.rs:177-283: one layer *)
Definition build_layer (layers : list layer) (height angle : R) (n_nodes : nat) (n_layer n : nat) (st : list segment * nat)
  : res (list segment * nat) :=
  match nth_error layers n_layer with
  | None => Panic
  | Some lay =>
      do mass <- element_mass lay n;
      let n := if (n =? 0)%nat then 1%nat else n in
      do st <- iter_res (build_element layers height angle n_layer lay mass n) n st;
      do segs <- set_u (fst st) (n_nodes - 1) Back;
      Ok (segs, snd st)
  end.

Fixpoint build_layers (layers : list layer) (height angle : R) (n_nodes : nat) (n_layer : nat) (ns : list nat)
         (st : list segment * nat) : res (list segment * nat) :=
  match ns with
  | [] => Ok st
  | n :: ns' => do st <- build_layer layers height angle n_nodes n_layer n st;
                build_layers layers height angle n_nodes (n_layer + 1) ns' st
  end.

(** discretization.rs:169-171 *)
Definition count_nodes (ns : list nat) : nat := (list_sum ns + length (filter (fun x => x =? 0)%nat ns) + 1)%nat.

(** discretization.rs:158-290 (the [segments] field of the result; the debug assertion that both lists have the same length is
    a hypothesis where it matters) *)
Definition build (layers : list layer) (ns : list nat) (height angle : R) : res (list segment) :=
  let n_nodes := count_nodes ns in
  do st <- build_layers layers height angle n_nodes 0 ns (repeat (0, UNone) n_nodes, 0%nat);
  Ok (fst st).

(** discretization.rs:112-132 *)
Fixpoint chunk_loop (rest : list nat) (start prev : nat) (acc : list (nat * nat)) : res (list (nat * nat)) :=
  match rest with
  | [] => Ok (acc ++ [(start, (prev + 1)%nat)])
  | i :: rest' =>
      if negb (start <? i)%nat then Panic
      else if negb (prev <? i)%nat then Panic
      else if (i - prev =? 1)%nat then chunk_loop rest' start i acc
      else chunk_loop rest' i i (acc ++ [(start, (prev + 1)%nat)])
  end.
Definition chunk_segments (indexes : list nat) : res (list (nat * nat)) :=
  match indexes with [] => Ok [] | start :: rest => chunk_loop rest start start [] end.

(** discretization.rs:139-155 *)
Definition get_chunks (segs : list segment) : res (list (nat * nat) * list (nat * nat)) :=
  let indices (p : R -> bool) :=
    map fst (filter (fun x => p (fst (snd x))) (combine (seq 0 (length segs)) segs)) in
  let mass_nodes := indices (fun m => Rleb (1 / 10 ^ 5) m) in
  let nomass_nodes := indices (fun m => Rltb m (1 / 10 ^ 5)) in
  do mass <- chunk_segments mass_nodes;
  do nomass <- chunk_segments nomass_nodes;
  Ok (mass, nomass).

(** discretization.rs:297-311 *)
Fixpoint r_value_loop (segs : list segment) (r : R) : res R :=
  match segs with
  | [] => if Rltb 0 r then Ok r else Panic
  | (_, u) :: segs' =>
      match u with
      | Cavity _ => Panic
      | Solid v => r_value_loop segs' (r + 1 / v)
      | Back => r_value_loop segs' (r + 0)
      | UNone => Panic
      end
  end.
Definition r_value (segs : list segment) : res R := r_value_loop segs 0.

(** discretization.rs:388-403 *)
Definition min_dx (dt k rho cp : R) : res R :=
  let a := 1 in
  let b := - dt / (rho * cp * MAX_RS) in
  let c := -2 * dt * k / (rho * cp) in
  let disc := b * b - 4 * a * c in
  if negb (Rleb 0 disc) then Panic
  else if negb (Rltb ((- b - sqrt disc) / (2 * a)) 0) then Panic
  else Ok ((- b + sqrt disc) / (2 * a)).

(** [x.ceil()] *)
Definition ceilR (x : R) : Z := (- Int_part (- x))%Z.

(** discretization.rs:434-453; [Err] marks a loop that did not stop within [fuel] rounds *)
Fixpoint nseg_loop (fuel : nat) (model_dt min_dt dx : R) (n_segments : nat) (k rho cp : R) (n : nat) : res (option (nat * nat)) :=
  match fuel with
  | O => Err
  | S fuel' =>
      let dt := model_dt / INR n in
      if Rltb dt min_dt then Ok None
      else
        do m <- min_dx dt k rho cp;
        let m := 2 * m in
        if Rleb m dx then Ok (Some (n_segments, n))
        else if (12 <? n)%nat then Ok None
        else nseg_loop fuel' model_dt min_dt dx n_segments k rho cp (n + 1)
  end.

(** discretization.rs:407-454 *)
Definition nsegments (model_dt max_dx min_dt thick : R) (s : substance) : res (option (nat * nat)) :=
  match s with
  | Gas _ => Ok None
  | Normal s =>
      match s_k s, s_rho s, s_cp s with
      | Some k, Some rho, Some cp =>
          let n_segments := ceilR (thick / max_dx) in
          let dx := thick / IZR n_segments in
          nseg_loop 13 model_dt min_dt dx (Z.to_nat n_segments) k rho cp 1
      | _, _, _ => Panic
      end
  end.

(** discretization.rs:475-492 *)
Fixpoint discretize_loop (layers : list layer) (model_dt max_dx min_dt : R) (n : nat) (els : list nat) : res (nat * list nat) :=
  match layers with
  | [] => Ok (n, els)
  | lay :: layers' =>
      do r <- nsegments model_dt max_dx min_dt (thickness lay) (sub lay);
      match r with
      | Some (e, nsubs) => discretize_loop layers' model_dt max_dx min_dt (if (n <? nsubs)%nat then nsubs else n) (els ++ [e])
      | None => discretize_loop layers' model_dt max_dx min_dt n (els ++ [0%nat])
      end
  end.

(** discretization.rs:496-551: the assertions made by debug builds *)
Fixpoint check_loop (layers : list layer) (els : list nat) (dt : R) : res unit :=
  match layers, els with
  | lay :: layers', e :: els' =>
      if (e =? 0)%nat then check_loop layers' els' dt
      else match sub lay with
           | Gas _ => check_loop layers' els' dt
           | Normal s =>
               do k <- getter (s_k s); do rho <- getter (s_rho s); do cp <- getter (s_cp s);
               let dx := thickness lay / INR e in
               let lambda1 := - dt / (MAX_RS * rho * cp * dx) in
               let r := dx / k in
               let lambda2 := lambda1 - 2 * dt / (r * rho * cp * dx) in
               if negb (Rleb (-2) lambda1) then Panic
               else if negb (Rleb lambda1 0) then Panic
               else if negb (Rleb (-2) lambda2) then Panic
               else if negb (Rleb lambda2 0) then Panic
               else check_loop layers' els' dt
           end
  | _, _ => Ok tt
  end.

(** discretization.rs:464-553, in a debug build *)
Definition discretize_construction (layers : list layer) (model_dt max_dx min_dt : R) : res (nat * list nat) :=
  do r <- discretize_loop layers model_dt max_dx min_dt 0 [];
  do _ <- check_loop layers (snd r) (model_dt / INR (fst r));
  Ok r.

(** discretization.rs:66-82 *)
Record discretization := mkDiscretization { segments : list segment; tstep_subdivision : nat; n_elements : list nat }.

(** discretization.rs:90-109 *)
Definition new_discretization (layers : list layer) (model_dt max_dx min_dt height angle : R) : res discretization :=
  do r <- discretize_construction layers model_dt max_dx min_dt;
  do segs <- build layers (snd r) height angle;
  Ok (mkDiscretization segs (fst r) (snd r)).

(** heat_model.rs:286-376: the discretizations of all walls and windows, the number of sub-steps and the sub-step; [walls] are
    the layers and tilt angle of each wall, then of each window that is not a mere opening *)
Fixpoint model_loop (walls : list (list layer * R)) (main_dt : R) (subs : nat) (ds : list discretization)
  : res (nat * list discretization) :=
  match walls with
  | [] => Ok (subs, ds)
  | (layers, angle) :: walls' =>
      do d <- new_discretization layers main_dt (5 / 100) 60 1 angle;
      model_loop walls' main_dt (if (subs <? tstep_subdivision d)%nat then tstep_subdivision d else subs) (ds ++ [d])
  end.
Definition model_steps (walls : list (list layer * R)) (n : nat) : res (R * nat * list discretization) :=
  let main_dt := 60 * 60 / INR n in
  do r <- model_loop walls main_dt 1 [];
  let subs := (fst r * 2)%nat in
  Ok (60 * 60 / (INR n * INR subs), subs, snd r).
