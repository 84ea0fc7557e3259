(** Optics of glazing systems: /repo/heat/src/glazing.rs lines 25-283, and the share of the solar radiation given to each node of a
    wall (/repo/heat/src/surface.rs lines 432-505). The optics are written over [Flt] so that they can also be run on IEEE doubles.
    Names of materials are resolved: a construction is the list of the optical properties of its substances. *)
From Coq Require Import List Arith Reals Bool PrimFloat.
From Verif.Common Require Import Base Flt.
Import ListNotations.

(** glazing.rs:31-46 *)
Record glazing (T : Type) := mkGlazing { tau : T; rho_front : T; rho_back : T; alpha_front : T; alpha_back : T }.
Arguments mkGlazing {T}. Arguments tau {T}. Arguments rho_front {T}. Arguments rho_back {T}. Arguments alpha_front {T}. Arguments alpha_back {T}.

(** what glazing.rs reads from a substance: solar transmittance, front and back solar absorbtances, if given (model/src/substance) *)
Inductive optics (T : Type) := Glass (t a_front a_back : option T) | GasLayer.
Arguments Glass {T}. Arguments GasLayer {T}.

Section Optics.
Context {T : Type} (F : Flt T) (c084 c1e9 : T).
Local Notation "a + b" := (fadd F a b). Local Notation "a - b" := (fsub F a b).
Local Notation "a * b" := (fmul F a b). Local Notation "a / b" := (fdiv F a b).

(** glazing.rs:50-65; a failed assertion is a panic *)
Definition new_glazing (t rf rb : T) : res (glazing T) :=
  if fleb F (f0 F) t && fleb F t (f1 F) && fleb F (f0 F) rf && fleb F (f0 F) rb && fleb F rf (f1 F) && fleb F rb (f1 F)
  then Ok (mkGlazing t rf rb (f1 F - t - rf) (f1 F - t - rb)) else Panic.

Definition or_else (o : option T) (d : T) : T := match o with Some v => v | None => d end.

(** glazing.rs:67-108 *)
Fixpoint glazing_from_iter (l : list (optics T)) : res (list (glazing T)) :=
  match l with
  | [] => Err
  | GasLayer :: _ => Panic
  | Glass t af ab :: rest =>
      let t := or_else t (f0 F) in
      do g <- new_glazing t (f1 F - t - or_else af c084) (f1 F - t - or_else ab c084);
      if fltb F t c1e9 then Ok [g]
      else match rest with
           | [] => Ok [g]
           | Glass _ _ _ :: _ => Panic
           | GasLayer :: rest' => do r <- glazing_from_iter rest'; Ok (g :: r)
           end
  end.
(** glazing.rs:111-124; an empty construction is the same error as in the loop *)
Definition front_glazing_system (c : list (optics T)) : res (list (glazing T)) := glazing_from_iter c.
(** glazing.rs:127-133 *)
Definition back_glazing_system (c : list (optics T)) : res (list (glazing T)) := glazing_from_iter (rev c).

(** glazing.rs:176-178 *)
Definition combined_tau (g o : glazing T) : T := tau g * tau o / (f1 F - rho_back g * rho_front o).
(** glazing.rs:187-189; [powi(2)] is a product *)
Definition combined_rho_front (g o : glazing T) : T :=
  rho_front g + tau g * tau g * rho_front o / (f1 F - rho_back g * rho_front o).
(** glazing.rs:200-202 *)
Definition combined_rho_back (g o : glazing T) : T :=
  rho_back o + tau o * tau o * rho_back g / (f1 F - rho_front o * rho_back g).
(** glazing.rs:209-214 *)
Definition combine (g o : glazing T) : res (glazing T) :=
  new_glazing (combined_tau g o) (combined_rho_front g o) (combined_rho_back g o).
(** glazing.rs:217-226; slicing an empty slice from 1 panics *)
Fixpoint combine_layers (l : list (glazing T)) : res (glazing T) :=
  match l with
  | [] => Panic
  | [g] => Ok g
  | g :: rest => do r <- combine_layers rest; combine g r
  end.
(** glazing.rs:243-248 *)
Definition combined_alphas (g o : glazing T) : T * T :=
  let denom := f1 F - rho_back g * rho_front o in
  (alpha_front g + alpha_back g * tau g * rho_front o / denom, alpha_front o * tau g / denom).

(** glazing.rs:268-274 *)
Fixpoint alphas_loop (l : list (glazing T)) (idx : list nat) (acc : T) : res (list T) :=
  match idx with
  | [] => Ok []
  | i :: idx =>
      do g0 <- combine_layers (firstn i l);
      do g1 <- combine_layers (skipn i l);
      let a0 := fst (combined_alphas g0 g1) in
      do r <- alphas_loop l idx a0;
      Ok ((a0 - acc) :: r)
  end.
(** glazing.rs:255-282 *)
Definition alphas (l : list (glazing T)) : res (list T) :=
  match l with
  | [] => Ok []
  | [g] => Ok [alpha_front g]
  | _ =>
      do r <- alphas_loop l (seq 1 (length l - 1)) (f0 F);
      do g0 <- combine_layers (firstn (length l - 1) l);
      match nth_error l (length l - 1) with
      | None => Panic
      | Some g1 => Ok (r ++ [snd (combined_alphas g0 g1)])
      end
  end.
End Optics.

(** The shares of the nodes. *)
Open Scope R_scope.
(** matrix/src/generic_matrix.rs [add_to_element] on a column; an error outside of it *)
Definition add_to (l : list R) (i : nat) (x : R) : res (list R) :=
  match nth_error l i with Some v => Ok (upd l i (v + x)) | None => Err end.

(** surface.rs:458-464 and 493-496: the same share to each of the nodes of a layer *)
Fixpoint spread (rows : list nat) (x : R) (l : list R) : res (list R) :=
  match rows with [] => Ok l | i :: rows => do l <- add_to l i x; spread rows x l end.

Definition elements (ns : list nat) (i : nat) : res nat :=
  match nth_error ns i with Some n => Ok (if (n =? 0)%nat then 1%nat else n) | None => Panic end.

(** surface.rs:444-473; [taus] are the transmittances of the layers ([None] for gases, [unreachable!] there) *)
Fixpoint front_shares (ns : list nat) (taus : list (option R)) (als : list R) (k global : nat) (acc : list R) : res (list R) :=
  match als with
  | [] => Ok acc
  | a :: als =>
      do n <- elements ns (2 * k);
      match nth_error taus (2 * k) with
      | None => Panic
      | Some None => Panic
      | Some (Some t) =>
          do acc <- (if Rltb 0 t then spread (map (fun i => global + i)%nat (seq 0 (n + 1))) (a / INR (n + 1)) acc
                     else add_to acc global a);
          front_shares ns taus als (S k) (global + (n + 1))%nat acc
      end
  end.
Definition front_alphas (ns : list nat) (taus : list (option R)) (n_nodes : nat) (als : list R) : res (list R) :=
  front_shares ns taus als 0 0 (repeat 0 n_nodes).

(** [a - b] on [usize]; below zero the program panics *)
Definition usub (a b : nat) : res nat := if (b <=? a)%nat then Ok (a - b)%nat else Panic.
Fixpoint spread_down (idx : list nat) (global : nat) (x : R) (l : list R) : res (list R) :=
  match idx with
  | [] => Ok l
  | i :: idx => do r <- usub global (i + 1); do l <- add_to l r x; spread_down idx global x l
  end.
(** surface.rs:479-505 *)
Fixpoint back_shares (ns : list nat) (taus : list (option R)) (als : list R) (k global : nat) (acc : list R) : res (list R) :=
  match als with
  | [] => Ok acc
  | a :: als =>
      do li <- usub (length taus) (2 * k + 1);
      do n <- elements ns li;
      match nth_error taus li with
      | None => Panic
      | Some None => Panic
      | Some (Some t) =>
          do acc <- (if Rltb 0 t then spread_down (seq 0 (n + 1)) global (a / INR (n + 1)) acc
                     else do r <- usub global 1; add_to acc r a);
          do global <- usub global (n + 1);
          back_shares ns taus als (S k) global acc
      end
  end.
Definition back_alphas (ns : list nat) (taus : list (option R)) (n_nodes : nat) (als : list R) : res (list R) :=
  back_shares ns taus als 0 n_nodes (repeat 0 n_nodes).
