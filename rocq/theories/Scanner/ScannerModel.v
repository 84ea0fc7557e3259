(** Model of the reader of SIMPLE files: model/src/scanner.rs:26-440.

    Bytes are [ascii] (8 bits).  [as char] of a byte only matters for comparisons with ASCII
    characters.  Indices are unbounded natural numbers: [usize] would wrap around after 2^64
    steps.  Line numbers are kept, error messages are dropped.  Parsing the text of an object
    (json5) and adding it to the model is an arbitrary function; so is the UTF-8 check.

    Loops take fuel; [None] means that the fuel ran out.  [ticks] is a ghost counter of loop
    iterations, used to state how long the scanner takes. *)
From Coq Require Import String Ascii List Arith Lia Bool ZArith.
From Verif Require Import Common.Base.
Import ListNotations.

Definition nl : ascii := ascii_of_nat 10.
Definition cr : ascii := ascii_of_nat 13.
Definition tab : ascii := ascii_of_nat 9.
Definition nul : ascii := ascii_of_nat 0.

(** SimpleScanner, model/src/scanner.rs:26-37 (the source is a parameter) *)
Record st : Type := mkSt { line : nat; cur : nat; start : nat; finished : bool; ticks : nat }.

Definition tick (s : st) : st := mkSt (line s) (cur s) (start s) (finished s) (S (ticks s)).
Definition newline (s : st) : st := mkSt (S (line s)) (cur s) (start s) (finished s) (ticks s).

(** new, model/src/scanner.rs:41-49 *)
Definition init (src : list ascii) (ln : nat) : st :=
  mkSt ln 0 0 (match src with [] => true | _ => false end) 0.

Section Source.
Context (src : list ascii).

(** advance, model/src/scanner.rs:59-70 *)
Definition advance (s : st) : st * option ascii :=
  match nth_error src (cur s) with
  | Some v =>
      let c := S (cur s) in
      (mkSt (line s) c (start s) (if c =? length src then true else finished s) (ticks s), Some v)
  | None => (mkSt (line s) (cur s) (start s) true (ticks s), None)
  end.

(** peek, model/src/scanner.rs:74-79 (indexing panics out of bounds) *)
Definition peek (s : st) : res ascii :=
  if finished s then Ok nul
  else match nth_error src (cur s) with Some c => Ok c | None => Panic end.

(** peek_next, model/src/scanner.rs:83-89 *)
Definition peek_next (s : st) : res ascii :=
  if finished s || (S (cur s) =? length src) then Ok nul
  else match nth_error src (S (cur s)) with Some c => Ok c | None => Panic end.

(** [self.advance().ok_or(..)?] *)
Definition advance_ok (s : st) : res (st * ascii) :=
  match advance s with
  | (s', Some c) => Ok (s', c)
  | (_, None) => Err
  end.

(** The loop of a line comment, model/src/scanner.rs:118-120 *)
Fixpoint line_comment (fuel : nat) (s : st) : option (res st) :=
  match fuel with
  | O => None
  | S fuel' =>
      let s := tick s in
      match peek s with
      | Ok c =>
          if negb (Ascii.eqb c nl) && negb (finished s) then
            match advance_ok s with
            | Ok (s', _) => line_comment fuel' s'
            | Err => Some Err
            | Panic => Some Panic
            end
          else Some (Ok s)
      | Err => Some Err
      | Panic => Some Panic
      end
  end.

(** The loop of a block comment, model/src/scanner.rs:126-142.  The boolean tells whether the
    whole function returns (end of file) instead of leaving the loop. *)
Fixpoint block_comment (fuel : nat) (s : st) : option (res (st * bool)) :=
  match fuel with
  | O => None
  | S fuel' =>
      let s := tick s in
      if finished s then Some (Ok (s, true))
      else
        match (do c <- peek s ; if Ascii.eqb c "*" then do d <- peek_next s ; Ok (Ascii.eqb d "/") else Ok false) with
        | Ok true =>
            match (do p <- advance_ok s ; advance_ok (fst p)) with
            | Ok (s', _) => Some (Ok (s', false))
            | Err => Some Err
            | Panic => Some Panic
            end
        | Ok false =>
            match advance_ok s with
            | Ok (s', c) => block_comment fuel' (if Ascii.eqb c nl then newline s' else s')
            | Err => Some Err
            | Panic => Some Panic
            end
        | Err => Some Err
        | Panic => Some Panic
        end
  end.

(** The loop of skip_white_space, model/src/scanner.rs:100-149 *)
Fixpoint skip_loop (fuel : nat) (s : st) : option (res st) :=
  match fuel with
  | O => None
  | S fuel' =>
      let s := tick s in
      match peek s with
      | Err => Some Err
      | Panic => Some Panic
      | Ok c =>
          if Ascii.eqb c " " || Ascii.eqb c cr || Ascii.eqb c tab then
            match advance_ok s with
            | Ok (s', _) => skip_loop fuel' s'
            | Err => Some Err
            | Panic => Some Panic
            end
          else if Ascii.eqb c nl then
            match advance_ok (newline s) with
            | Ok (s', _) => skip_loop fuel' s'
            | Err => Some Err
            | Panic => Some Panic
            end
          else if Ascii.eqb c "/" then
            match peek_next s with
            | Err => Some Err
            | Panic => Some Panic
            | Ok d =>
                if Ascii.eqb d "/" then
                  match line_comment fuel' s with
                  | Some (Ok s') => skip_loop fuel' s'
                  | r => r
                  end
                else if Ascii.eqb d "*" then
                  match (do p <- advance_ok s ; advance_ok (fst p)) with
                  | Ok (s', _) =>
                      match block_comment fuel' s' with
                      | Some (Ok (s2, true)) => Some (Ok s2)
                      | Some (Ok (s2, false)) => skip_loop fuel' s2
                      | Some Err => Some Err
                      | Some Panic => Some Panic
                      | None => None
                      end
                  | Err => Some Err
                  | Panic => Some Panic
                  end
                else Some (Ok s)
            end
          else Some (Ok s)
      end
  end.

(** skip_white_space, model/src/scanner.rs:93-150 *)
Definition skip_white_space (fuel : nat) (s : st) : option (res st) :=
  if finished s then Some (Ok s) else skip_loop fuel s.

(** is_ascii_alphabetic, is_ascii_digit or '_', model/src/scanner.rs:157 *)
Definition is_ident_char (c : ascii) : bool :=
  let n := nat_of_ascii c in
  (andb (65 <=? n) (n <=? 90)) || (andb (97 <=? n) (n <=? 122)) || (andb (48 <=? n) (n <=? 57)) || Ascii.eqb c "_".

(** identifier, model/src/scanner.rs:153-168 *)
Fixpoint identifier (fuel : nat) (s : st) : option (res st) :=
  match fuel with
  | O => None
  | S fuel' =>
      let s := tick s in
      match peek s with
      | Ok c =>
          if is_ident_char c then
            match advance s with
            | (s', Some _) => identifier fuel' s'
            | (_, None) => Some Err
            end
          else Some (Ok s)
      | Err => Some Err
      | Panic => Some Panic
      end
  end.

(** object, model/src/scanner.rs:171-209 *)
Fixpoint object (fuel : nat) (levels : Z) (started : bool) (open close : ascii) (s : st) : option (res st) :=
  if negb ((0 <? levels)%Z || negb started) then Some (Ok s)
  else
  match fuel with
  | O => None
  | S fuel' =>
      let s := tick s in
      match peek s with
      | Err => Some Err
      | Panic => Some Panic
      | Ok next =>
          if negb started && Ascii.eqb next "," then Some Err
          else
            let paren := negb started && Ascii.eqb next "(" in
            let open := if paren then "("%char else open in
            let close := if paren then ")"%char else close in
            let levels1 := if Ascii.eqb next open then (levels + 1)%Z else levels in
            let started := if Ascii.eqb next open then true else started in
            let levels2 := if Ascii.eqb next close then (levels1 - 1)%Z else levels1 in
            let s := if Ascii.eqb next nl then newline s else s in
            let c := S (cur s) in
            if c =? length src
            then Some (Ok (mkSt (line s) c (start s) true (ticks s)))
            else object fuel' levels2 started open close (mkSt (line s) c (start s) (finished s) (ticks s))
      end
  end.

(** update_start_index, model/src/scanner.rs:212-214 *)
Definition update_start (s : st) : st := mkSt (line s) (cur s) (cur s) (finished s) (ticks s).

(** [&self.source[ini..fin]] panics when out of bounds *)
Definition slice (ini fin : nat) : res (list ascii) :=
  if (ini <=? fin) && (fin <=? length src) then Ok (firstn (fin - ini) (skipn ini src)) else Panic.

(** An identifier, the text of its object and the line where the object ends. *)
Record token := mkToken { t_ident : list ascii; t_object : list ascii; t_line : nat }.

Context (utf8_ok : list ascii -> bool).

(** The scanning loop of parse_model, model/src/scanner.rs:220-255.  The tokens are listed in the order
    they are stored. *)
Fixpoint scan_loop (fuel : nat) (s : st) : option (res (list token) * nat) :=
  match fuel with
  | O => None
  | S fuel' =>
      let s := tick s in
      match skip_white_space (S (S (length src))) s with
      | None => None
      | Some Err => Some (Err, ticks s)
      | Some Panic => Some (Panic, ticks s)
      | Some (Ok s1) =>
          let s1 := update_start s1 in
          if finished s1 then Some (Ok [], ticks s1)
          else
            match identifier (S (S (length src))) s1 with
            | None => None
            | Some Err => Some (Err, ticks s1)
            | Some Panic => Some (Panic, ticks s1)
            | Some (Ok s2) =>
                match slice (start s2) (cur s2) with
                | Err => Some (Err, ticks s2)
                | Panic => Some (Panic, ticks s2)
                | Ok ident =>
                    match skip_white_space (S (S (length src))) s2 with
                    | None => None
                    | Some Err => Some (Err, ticks s2)
                    | Some Panic => Some (Panic, ticks s2)
                    | Some (Ok s3) =>
                        let s3 := update_start s3 in
                        match object fuel' 0 false "{" "}" s3 with
                        | None => None
                        | Some Err => Some (Err, ticks s3)
                        | Some Panic => Some (Panic, ticks s3)
                        | Some (Ok s4) =>
                            match slice (start s4) (cur s4) with
                            | Err => Some (Err, ticks s4)
                            | Panic => Some (Panic, ticks s4)
                            | Ok obj =>
                                if utf8_ok obj then
                                  match scan_loop fuel' s4 with
                                  | None => None
                                  | Some (Ok ts, n) => Some (Ok (mkToken ident obj (line s4) :: ts), n)
                                  | Some (r, n) => Some (r, n)
                                  end
                                else Some (Err, ticks s4)
                            end
                        end
                    end
                end
            end
      end
  end.

End Source.

(** Scanning a file from line [ln]. *)
Definition scan (utf8_ok : list ascii -> bool) (fuel : nat) (src : list ascii) (ln : nat)
  : option (res (list token) * nat) := scan_loop src utf8_ok fuel (init src ln).

(** The order in which kinds of objects are read, model/src/scanner.rs:258-272 *)
Definition read_order : list (list ascii) := map list_ascii_of_string
  ["Space"; "Substance"; "Material"; "Construction"; "Surface"; "Fenestration"; "Building";
   "HVAC"; "Luminaire"; "Object"; "Output"; "SiteDetails"; "SolarOptions"]%string.

Definition ident_eqb (a b : list ascii) : bool :=
  if list_eq_dec ascii_dec a b then true else false.

(** Building the model, model/src/scanner.rs:257-438.  The objects stored under one identifier keep
    their order (a HashMap of vectors).  [add] parses and adds one object. *)
Section Build.
Context {M : Type} (add : list ascii -> list ascii -> M -> res M).

Fixpoint add_all (ident : list ascii) (objs : list (list ascii)) (m : M) : res M :=
  match objs with
  | [] => Ok m
  | o :: os => do m1 <- add ident o m ; add_all ident os m1
  end.

Definition objects_of (ident : list ascii) (ts : list token) : list (list ascii) :=
  map t_object (filter (fun t => ident_eqb (t_ident t) ident) ts).

Fixpoint build (order : list (list ascii)) (ts : list token) (m : M) : res M :=
  match order with
  | [] => Ok m
  | ident :: rest => do m1 <- add_all ident (objects_of ident ts) m ; build rest ts m1
  end.

(** parse_model, model/src/scanner.rs:217-439 *)
Definition parse_model (utf8_ok : list ascii -> bool) (fuel : nat) (src : list ascii) (m0 : M) : option (res M) :=
  match scan utf8_ok fuel src 1 with
  | None => None
  | Some (Ok ts, _) => Some (build read_order ts m0)
  | Some (Err, _) => Some Err
  | Some (Panic, _) => Some Panic
  end.
End Build.
