(** Model of the reader of EPW files: weather/src/epw/scanner.rs:48-347 and
    weather/src/epw/weather_line.rs:159-184.

    Bytes are [ascii].  Converting text to a number ([str::parse], preceded by the UTF-8 check) is an arbitrary
    function [num]; the UTF-8 check of text that is kept is an arbitrary predicate.  [Float] is [Q].
    Line numbers and error messages are dropped. *)
From Coq Require Import ZArith QArith Qround Ascii String List Bool Arith Lia.
From Verif.Calendar Require Import DateModel.
From Verif.Weather Require Import WeatherModel.
From Verif Require Import Common.Base.
Import ListNotations.
Open Scope list_scope.
Open Scope nat_scope.

Definition nl : ascii := ascii_of_nat 10.
Definition cr : ascii := ascii_of_nat 13.
Definition comma : ascii := ","%char.
Definition quote : ascii := ascii_of_nat 34.

(** EPWScanner, weather/src/epw/scanner.rs:29-46; [start] always equals the index after the last separator *)
Record st := mkSt { current : nat; start : nat; in_string : bool }.
Definition st0 : st := mkSt 0 0 false.

Section Source.
Context (src : list ascii).

(** is_finished, weather/src/epw/scanner.rs:84-86 *)
Definition is_finished (s : st) : bool := length src <=? current s.

(** The loop of scan_element, weather/src/epw/scanner.rs:95-117, on what is left of the source.
    Gives the number of characters passed and the new [in_string]. *)
Fixpoint scan_to (rest : list ascii) (in_string : bool) : nat * bool :=
  match rest with
  | [] => (0, in_string)
  | c :: r =>
      if negb in_string && Ascii.eqb c comma then (0, in_string)
      else if Ascii.eqb c nl then (0, in_string)
      else
        let '(k, b) := scan_to r (if Ascii.eqb c quote then negb in_string else in_string) in (S k, b)
  end.

(** scan_element, weather/src/epw/scanner.rs:90-130.  [Ok None] is the [None] of the code. *)
Definition scan_element (s : st) : res (st * option (list ascii)) :=
  if is_finished s then Ok (s, None)
  else
    let '(k, b) := scan_to (skipn (current s) src) (in_string s) in
    let cur := current s + k in
    match cur with
    | 0 => Panic (* src[end - 1] with end = 0 *)
    | S e =>
        match nth_error src e with
        | None => Panic
        | Some c =>
            let fin := if Ascii.eqb c cr then e else cur in
            Ok (mkSt (S cur) (S cur) b,
                if (start s <=? fin) && (fin <=? length src)
                then Some (firstn (fin - start s) (skipn (start s) src)) else None)
        end
    end.

(** next_is_empty, weather/src/epw/scanner.rs:170-188 *)
Definition next_is_empty (s : st) : res bool :=
  if is_finished s then Ok true
  else match nth_error src (current s) with
       | None => Panic
       | Some c =>
           if Ascii.eqb c comma then Ok true
           else if Ascii.eqb c nl then Ok (Ascii.eqb c comma)
           else Ok false
       end.

Context (utf8 : list ascii -> bool) (num : list ascii -> option Q).

(** scan_string, weather/src/epw/scanner.rs:132-144 *)
Definition scan_string (sl : option (list ascii)) : res (list ascii) :=
  match sl with
  | Some v => if utf8 v then Ok v else Err
  | None => Err
  end.

(** scan_number, weather/src/epw/scanner.rs:154-167: text that is not a number panics *)
Definition scan_number (sl : option (list ascii)) : res Q :=
  match scan_string sl with
  | Ok v => match num v with Some q => Ok q | None => Panic end
  | _ => Err
  end.

(** [EPWScanner::scan_number(self.scan_element())?] and [scan_string(..)?] *)
Definition get_number (s : st) : res (st * Q) :=
  do p <- scan_element s ; do q <- scan_number (snd p) ; Ok (fst p, q).
Definition get_string (s : st) : res (st * list ascii) :=
  do p <- scan_element s ; do q <- scan_string (snd p) ; Ok (fst p, q).
(** skip_string, weather/src/epw/scanner.rs:148-151: never fails *)
Definition get_flag (s : st) : res (st * bool) :=
  do p <- scan_element s ; Ok (fst p, true).

(** [x as usize], [x as u8], [x as i8] of a float: truncation and saturation *)
Definition clampZ (lo hi : Z) (q : Q) : Z := Z.max lo (Z.min hi (Qtrunc q)).
Definition q_usize (q : Q) : Z := clampZ 0 (2 ^ 64 - 1) q.
Definition q_u8 (q : Q) : Z := clampZ 0 255 q.
Definition q_i8 (q : Q) : Z := clampZ (-128) 127 q.
Definition Qmax' (a b : Q) : Q := if Qle_bool a b then b else a.

(** EPWWeatherLine, weather/src/epw/weather_line.rs:27-157.  The numbers from the dry bulb temperature on are
    [values], in the order of the file. *)
Record EPWLine := mkLine {
  l_year : Z; l_month : Z; l_day : Z; l_hour : Q; l_minute : Z; l_flags : bool; l_values : list Q }.

(** What happens to the value read at each position after the uncertainty flags: the wind direction (position 14)
    goes through [.max(360.)] (scanner.rs:274) and the days since the last snowfall (position 25) through
    [as usize] (scanner.rs:285). *)
Definition adjust (i : nat) (q : Q) : Q :=
  if i =? 14 then Qmax' q 360
  else if i =? 25 then inject_Z (q_usize q)
  else q.

Fixpoint get_values (k : nat) (i : nat) (s : st) : res (st * list Q) :=
  match k with
  | 0 => Ok (s, [])
  | S k' => do p <- get_number s ; do r <- get_values k' (S i) (fst p) ; Ok (fst r, adjust i (snd p) :: snd r)
  end.

(** One record, weather/src/epw/scanner.rs:247-290 *)
Definition get_line (s : st) : res (st * EPWLine) :=
  do y <- get_number s ;
  do m <- get_number (fst y) ;
  do d <- get_number (fst m) ;
  do h <- get_number (fst d) ;
  do mi <- get_number (fst h) ;
  do f <- get_flag (fst mi) ;
  do v <- get_values 29 0 (fst f) ;
  Ok (fst v, mkLine (q_usize (snd y)) (q_u8 (snd m)) (q_u8 (snd d)) (snd h) (q_u8 (snd mi)) (snd f) (snd v)).

(** while !self.is_finished(), weather/src/epw/scanner.rs:246-291 *)
Fixpoint get_lines (fuel : nat) (s : st) : option (res (st * list EPWLine)) :=
  match fuel with
  | 0 => None
  | S fuel' =>
      if is_finished s then Some (Ok (s, []))
      else
        match get_line s with
        | Ok (s1, l) =>
            match get_lines fuel' s1 with
            | Some (Ok (s2, ls)) => Some (Ok (s2, l :: ls))
            | r => r
            end
        | Err => Some Err
        | Panic => Some Panic
        end
  end.

(** parse_data_periods, weather/src/epw/scanner.rs:225-293 *)
Definition parse_data_periods (fuel : nat) (s : st) : option (res (st * list EPWLine)) :=
  match (do n <- get_number s ;
         if negb (q_usize (snd n) =? 1)%Z then Panic else
         do r <- get_number (fst n) ;
         if negb (q_usize (snd r) =? 1)%Z then Panic else
         do a <- get_string (fst r) ;
         do b <- get_string (fst a) ;
         do c <- get_string (fst b) ;
         do d <- get_string (fst c) ;
         Ok (fst d)) with
  | Ok s1 => get_lines fuel s1
  | Err => Some Err
  | Panic => Some Panic
  end.

(** Location, weather/src/location.rs; angles in degrees here ([to_radians] is applied afterwards). *)
Record Location := mkLoc {
  city : list ascii; state : list ascii; country : list ascii; source : list ascii; wmo : list ascii;
  latitude : Q; longitude : Q; timezone : Z; elevation : Q }.

(** EPWGroundTemperature, weather/src/epw/ground_temperature.rs *)
Record Ground := mkGround {
  depth : Q; soil_conductivity : option Q; soil_density : option Q; soil_specific_heat : option Q; monthly : list Q }.

Record EPW := mkEPW { e_location : option Location; e_ground : list Ground; e_data : list EPWLine }.

(** parse_location, weather/src/epw/scanner.rs:297-310 *)
Definition parse_location (s : st) : res (st * Location) :=
  do a <- get_string s ;
  do b <- get_string (fst a) ;
  do c <- get_string (fst b) ;
  do d <- get_string (fst c) ;
  do e <- get_string (fst d) ;
  do f <- get_number (fst e) ;
  do g <- get_number (fst f) ;
  do h <- get_number (fst g) ;
  do i <- get_number (fst h) ;
  Ok (fst i, mkLoc (snd a) (snd b) (snd c) (snd d) (snd e) (snd f) (snd g) (q_i8 (snd h)) (snd i)).

(** weather/src/epw/scanner.rs:322-336 *)
Definition get_optional (s : st) : res (st * option Q) :=
  do e <- next_is_empty s ;
  if (e : bool) then do p <- scan_element s ; Ok (fst p, None)
  else do p <- get_number s ; Ok (fst p, Some (snd p)).

Fixpoint get_numbers (k : nat) (s : st) : res (st * list Q) :=
  match k with
  | 0 => Ok (s, [])
  | S k' => do p <- get_number s ; do r <- get_numbers k' (fst p) ; Ok (fst r, snd p :: snd r)
  end.

(** weather/src/epw/scanner.rs:318-344 *)
Fixpoint get_grounds (k : nat) (s : st) : res (st * list Ground) :=
  match k with
  | 0 => Ok (s, [])
  | S k' =>
      do d <- get_number s ;
      do a <- get_optional (fst d) ;
      do b <- get_optional (fst a) ;
      do c <- get_optional (fst b) ;
      do m <- get_numbers 12 (fst c) ;
      do r <- get_grounds k' (fst m) ;
      Ok (fst r, mkGround (snd d) (snd a) (snd b) (snd c) (snd m) :: snd r)
  end.

(** parse_ground_temperature, weather/src/epw/scanner.rs:314-346 *)
Definition parse_ground_temperature (s : st) : res (st * list Ground) :=
  do n <- get_number s ; get_grounds (Z.to_nat (q_usize (snd n))) (fst n).

Definition kw (s : string) : list ascii := list_ascii_of_string s.
Definition is_kw (a : list ascii) (s : string) : bool := if list_eq_dec ascii_dec a (kw s) then true else false.

(** parse_file, weather/src/epw/scanner.rs:193-220 *)
Fixpoint parse_file (fuel : nat) (s : st) (e : EPW) : option (res EPW) :=
  match fuel with
  | 0 => None
  | S fuel' =>
      match scan_element s with
      | Panic => Some Panic
      | Err => Some Err
      | Ok (_, None) => Some (Ok e)
      | Ok (s1, Some v) =>
          match scan_string (Some v) with
          | Ok keyword =>
              if is_kw keyword "GROUND TEMPERATURES" then
                match parse_ground_temperature s1 with
                | Ok (s2, g) => parse_file fuel' s2 (mkEPW (e_location e) (e_ground e ++ g) (e_data e))
                | Err => Some Err
                | Panic => Some Panic
                end
              else if is_kw keyword "LOCATION" then
                match parse_location s1 with
                | Ok (s2, l) => parse_file fuel' s2 (mkEPW (Some l) (e_ground e) (e_data e))
                | Err => Some Err
                | Panic => Some Panic
                end
              else if is_kw keyword "DATA PERIODS" then
                match parse_data_periods fuel' s1 with
                | Some (Ok (s2, ls)) => parse_file fuel' s2 (mkEPW (e_location e) (e_ground e) (e_data e ++ ls))
                | Some Err => Some Err
                | Some Panic => Some Panic
                | None => None
                end
              else parse_file fuel' s1 e
          | Err => Some Err
          | Panic => Some Panic
          end
      end
  end.

End Source.

(** build_weather_file, weather/src/epw/scanner.rs:71-81 *)
Definition build_weather_file (utf8 : list ascii -> bool) (num : list ascii -> option Q) (fuel : nat)
  (src : list ascii) : option (res EPW) :=
  parse_file src utf8 num fuel st0 (mkEPW None [] []).

(** The conversion to the data used by the simulation, weather/src/epw/weather_line.rs:159-184.
    [to_radians] multiplies by an approximation of pi/180. *)
Definition to_radians (pi180 : Q) (x : Q) : Q := (x * pi180)%Q.

Definition cw_from (pi180 : Q) (l : EPWLine) : CurrentWeather :=
  let v := fun i => nth i (l_values l) 0%Q in
  mkCW (mkDate (l_month l) (l_day l) (l_hour l - (1 # 1000000)))
    (v 0) (v 1) (v 7) (v 8) (v 9) (v 15) (to_radians pi180 (v 14)) (Some (v 6))
    (v 17%nat / 10)%Q (v 2%nat / 100)%Q (v 3).
