(** Model of a simulation run: src/run_simulation.rs:145-371.

    [F] is the type of the values of the state, [Dt] the type of the dates, [Mem] the memory of
    the physics model.  [control] and [march] are arbitrary functions: the controller and the
    physics.  [show_value] stands for [format!("{:.3}", v)] and [show_date] for
    [format!("{}", date)].  The progress messages printed to the standard error are dropped. *)
From Coq Require Import String Ascii List Arith Lia Bool.
From Verif Require Import Common.Base.
Import ListNotations.
Open Scope string_scope.

(** [iter().position(|x| x == item)] *)
Fixpoint position (names : list string) (item : string) : option nat :=
  match names with
  | [] => None
  | x :: l => if String.eqb x item then Some 0 else option_map S (position l item)
  end.

Fixpoint filter_map {A B} (f : A -> option B) (l : list A) : list B :=
  match l with
  | [] => []
  | x :: l' => match f x with Some y => y :: filter_map f l' | None => filter_map f l' end
  end.

(** The columns to report: src/run_simulation.rs:145-167.  [full_header] are the strings made
    from the elements of the state and [outputs] the serialized requests. *)
Definition report_indexes (full_header outputs : list string) : list nat :=
  let r := filter_map (position full_header) outputs in
  match r with
  | [] => seq 0 (length full_header)
  | _ => r
  end.

(** src/run_simulation.rs:198-202 *)
Definition report_len (full_header outputs : list string) : nat :=
  match outputs with [] => length full_header | _ => length outputs end.

Fixpoint concat_strings (l : list string) : string :=
  match l with [] => "" | s :: l' => s ++ concat_strings l' end.

(** A line: the loops of src/run_simulation.rs:210-222 and 254-263.  [report_len - 1] is only
    evaluated inside the loop, where [report_len] is not zero, or [usize] would underflow. *)
Fixpoint line_from (index : nat) (rlen : nat) (cells : list string) : string :=
  match cells with
  | [] => ""
  | c :: cs => (if Nat.ltb index (rlen - 1) then c ++ "," else c) ++ line_from (S index) rlen cs
  end.

Definition newline : string := String (ascii_of_nat 10) "".

Section Run.
Context {F Dt Mem : Type}.
Context (show_value : F -> string) (show_date : Dt -> string).

(** [state[*i]] panics out of bounds *)
Fixpoint read_cells (indexes : list nat) (state : list F) : res (list string) :=
  match indexes with
  | [] => Ok []
  | i :: is => match nth_error state i with
               | None => Panic
               | Some v => do cs <- read_cells is state ; Ok (show_value v :: cs)
               end
  end.

Fixpoint header_cells (indexes : list nat) (full_header : list string) : res (list string) :=
  match indexes with
  | [] => Ok []
  | i :: is => match nth_error full_header i with
               | None => Panic
               | Some v => do cs <- header_cells is full_header ; Ok (v :: cs)
               end
  end.

Definition header_line (full_header outputs : list string) : res string :=
  do cs <- header_cells (report_indexes full_header outputs) full_header ;
  Ok ("Date," ++ line_from 0 (report_len full_header outputs) cs).

Definition row (full_header outputs : list string) (date : Dt) (state : list F) : res string :=
  do cs <- read_cells (report_indexes full_header outputs) state ;
  Ok (show_date date ++ "," ++ line_from 0 (report_len full_header outputs) cs).

(** The main loop: src/run_simulation.rs:231-267 (and 328-368).  The rows written so far are kept when a step
    fails; they are given without the newline that ends each of them. *)
Fixpoint run_loop (control : list F -> res (list F))
    (march : Dt -> list F -> Mem -> res (list F * Mem))
    (full_header outputs : list string) (dates : list Dt) (state : list F) (mem : Mem)
    : list string * res (list F * Mem) :=
  match dates with
  | [] => ([], Ok (state, mem))
  | d :: ds =>
      match (do s1 <- control state ; march d s1 mem) with
      | Err => ([], Err)
      | Panic => ([], Panic)
      | Ok (s2, mem2) =>
          match row full_header outputs d s2 with
          | Ok r => let (rows, fin) := run_loop control march full_header outputs ds s2 mem2 in
                    (r :: rows, fin)
          | Err => ([], Err)
          | Panic => ([], Panic)
          end
      end
  end.

(** What [run] writes: the header and the rows, each followed by a newline. *)
Definition run (control : list F -> res (list F))
    (march : Dt -> list F -> Mem -> res (list F * Mem))
    (full_header outputs : list string) (dates : list Dt) (state : list F) (mem : Mem)
    : string * res (list F * Mem) :=
  match header_line full_header outputs with
  | Ok h =>
      let (rows, fin) := run_loop control march full_header outputs dates state mem in
      (h ++ newline ++ concat_strings (map (fun r => r ++ newline) rows), fin)
  | Err => ("", Err)
  | Panic => ("", Panic)
  end.

End Run.

(** The string of an element: derive/src/simulation_state_behaviour.rs:258-275, where [tag] is
    the name of the variant and [args] the names it refers to, joined with "-". *)
Definition quote : string := String (ascii_of_nat 34) "".
Definition stringify (tag args : string) : string :=
  "{" ++ quote ++ tag ++ quote ++ ":" ++ quote ++ args ++ quote ++ "}".

(** serde_json's escaping of a string, for the characters other than control characters. *)
Fixpoint json_escape (s : string) : string :=
  match s with
  | EmptyString => EmptyString
  | String c s' =>
      if Ascii.eqb c (ascii_of_nat 34) || Ascii.eqb c (ascii_of_nat 92)
      then String (ascii_of_nat 92) (String c (json_escape s'))
      else String c (json_escape s')
  end.

(** [serde_json::to_string(item)] for an Output: src/run_simulation.rs:157 *)
Definition output_json (tag arg : string) : string :=
  "{" ++ quote ++ tag ++ quote ++ ":" ++ quote ++ json_escape arg ++ quote ++ "}".
