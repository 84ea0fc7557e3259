(** Model of the [calendar] crate: /repo/calendar/src/date.rs and
    /repo/calendar/src/period.rs.

    Simplification: [Float] is [Q] (exact).  [month] and [day] are [u8] in the code;
    they are [Z] here and additions to them wrap modulo 256 explicitly (release
    build).  A Rust panic is [None]. *)
From Coq Require Import ZArith QArith Qround List Bool.
Import ListNotations.
Local Open Scope Z_scope.

(** date.rs:39-48 *)
Record Date := mkDate { month : Z; day : Z; hour : Q }.

(** [x as u8] of an unsigned integer *)
Definition as_u8 (x : Z) : Z := x mod 256.
(** [x as usize] of a float that is integral: saturating *)
Definition as_usize (x : Z) : Z := Z.min (2 ^ 64 - 1) (Z.max 0 x).
(** truncation and [%] on floats: the result has the sign of the dividend *)
Definition Qtrunc (q : Q) : Z := if Qle_bool 0 q then Qfloor q else - Qfloor (- q).
Definition Qrem (a b : Q) : Q := (a - b * inject_Z (Qtrunc (a / b)))%Q.
(** [<] on floats *)
Definition Qltb (a b : Q) : bool := negb (Qle_bool b a).

(** date.rs:183-196 and 231-244 *)
Definition CUMULATED_DAYS_BEFORE_MONTH : list Z :=
  [0; 31; 59; 90; 120; 151; 181; 212; 243; 273; 304; 334].
(** date.rs:270-283 *)
Definition N_DAYS_PER_MONTH : list Z :=
  [31; 28; 31; 30; 31; 30; 31; 31; 30; 31; 30; 31].

(** array access with a [usize] index; [None] is an out-of-bounds panic (a negative
    index is the wrapped / panicking result of [0 - 1]) *)
Definition index {A} (l : list A) (i : Z) : option A :=
  if i <? 0 then None else nth_error l (Z.to_nat i).

(** date.rs:230-248 *)
Definition day_of_year (d : Date) : option Q :=
  match index CUMULATED_DAYS_BEFORE_MONTH (month d - 1) with
  | None => None
  | Some c => Some (inject_Z c + inject_Z (day d) + hour d / 24 - 1)%Q
  end.

(** date.rs:204-210, 214-225: the date built for a month that starts after [c] days *)
Definition date_in_month (n : Q) (m c : Z) : Date :=
  let day_hour := (n - inject_Z c)%Q in
  let dy := Qfloor day_hour in
  let hr := (day_hour - inject_Z dy)%Q in
  mkDate m (as_u8 (1 + Z.min 255 (Z.max 0 dy))) (hr * 24)%Q.

(** date.rs:198-212: first [i] whose table entry is larger than [n]; [prev] is entry
    [i-1] *)
Fixpoint find_month (n : Q) (i : Z) (prev : Z) (l : list Z) : Date :=
  match l with
  | [] => date_in_month n 12 prev
  | c :: l' => if Qltb n (inject_Z c) then date_in_month n i prev
               else find_month n (i + 1) c l'
  end.

(** date.rs:178-226.  The first table entry is 0, never larger than [n]. *)
Definition from_day_of_year (n : Q) : option Date :=
  if Qle_bool 0 n && Qltb n 365
  then Some (find_month n 0 0 CUMULATED_DAYS_BEFORE_MONTH)
  else None.

(** date.rs:269-307.  The Rust function is recursive; [fuel] bounds the depth and
    [None] is either out of fuel or an index panic. *)
Fixpoint add_days_f (fuel : nat) (d : Date) (n_days : Z) : option Date :=
  match fuel with
  | O => None
  | S f =>
    let n_days := n_days mod 365 in
    if 0 <? n_days then
      let would_be_day := day d + n_days in
      match index N_DAYS_PER_MONTH (month d - 1) with
      | None => None
      | Some n_days_this_month =>
        if n_days_this_month <? as_u8 would_be_day then
          let m := as_u8 (month d + 1) in
          let m := if m =? 13 then 1 else m in
          add_days_f f (mkDate m 1 (hour d)) (would_be_day - n_days_this_month - 1)
        else
          Some (mkDate (month d) (as_u8 (day d + as_u8 n_days)) (hour d))
      end
    else Some d
  end.

(** at most 14 months can be consumed; see [add_days_total] *)
Definition add_days (d : Date) (n : Z) : option Date := add_days_f 16 d n.

(** date.rs:251-266 *)
Definition add_hours (d : Date) (n_hours : Q) : option Date :=
  let n_days := Qfloor (n_hours / 24) in
  match add_days d (as_usize n_days) with
  | None => None
  | Some d1 =>
    let remaining_hours := (n_hours - 24 * inject_Z n_days)%Q in
    let h := (hour d1 + remaining_hours)%Q in
    let d2 := mkDate (month d1) (day d1) h in
    if Qle_bool 24 h then
      match add_days d2 1 with
      | None => None
      | Some d3 => Some (mkDate (month d3) (day d3) (Qrem (hour d3) 24))
      end
    else Some d2
  end.

(** date.rs:311-313, 316-318 *)
Definition add_seconds (d : Date) (dt : Q) : option Date := add_hours d (dt / 3600).
Definition add_minutes (d : Date) (m : Q) : option Date := add_hours d (m / 60).

(** date.rs:106-130 *)
Definition date_cmp (a b : Date) : comparison :=
  match month a ?= month b with
  | Eq => match day a ?= day b with
          | Eq => if Qltb (hour a) (hour b) then Lt
                  else if Qltb (hour b) (hour a) then Gt else Eq
          | c => c
          end
  | c => c
  end.
Definition date_le (a b : Date) : bool := match date_cmp a b with Gt => false | _ => true end.
Definition date_lt (a b : Date) : bool := match date_cmp a b with Lt => true | _ => false end.

(** derived [PartialEq], date.rs:38 *)
Definition date_eqb (a b : Date) : bool :=
  (month a =? month b) && (day a =? day b) && Qeq_bool (hour a) (hour b).
(** date.rs:321-323 *)
Definition same_day (a b : Date) : bool := (month a =? month b) && (day a =? day b).
(** date.rs:328-333 *)
Definition is_earlier (a b : Date) : bool := if date_eqb a b then false else date_le a b.

(** date.rs:90-96 *)
Definition date_sub (a b : Date) : option Q :=
  match day_of_year a, day_of_year b with
  | Some x, Some y => Some (x - y)%Q
  | _, _ => None
  end.

(** date.rs:163-175 *)
Definition interpolate (a b : Date) (x : Q) : option Date :=
  match day_of_year a, day_of_year b with
  | Some n_self, Some n_other =>
    let n_other := if Qltb n_other n_self then (n_other + 365)%Q else n_other in
    from_day_of_year (Qrem (n_self + x * (n_other - n_self)) 365)
  | _, _ => None
  end.

(** period.rs:29-45 *)
Record Period := mkPeriod {
  p_end : Date; p_start : Date; p_current : Date; p_dt : Q; goes_through_new_year : bool }.

(** period.rs:50-72 *)
Definition period_new (start fin : Date) (dt : Q) : option Period :=
  if Qle_bool 24 (hour start) then None
  else if Qle_bool 24 (hour fin) then None
  else Some (mkPeriod fin start start dt (date_lt fin start)).

(** period.rs:109-117 *)
Definition period_contains (p : Period) (d : Date) : bool :=
  if negb (goes_through_new_year p)
  then date_le d (p_end p) && date_le (p_start p) d
  else date_le d (p_end p) || date_le (p_start p) d.

Inductive step := Panic | Done | Yield (p : Period) (d : Date).

(** period.rs:123-144 *)
Definition period_next (p : Period) : step :=
  let old := p_current p in
  let vs_end_before := date_le old (p_end p) in
  match add_seconds old (p_dt p) with
  | None => Panic
  | Some new =>
    let vs_end_after := date_le new (p_end p) in
    let crossed_end := negb (Bool.eqb vs_end_before vs_end_after) in
    let crossed_ny := date_lt new old in
    if (crossed_ny || crossed_end) && (negb crossed_ny || negb (goes_through_new_year p))
    then Done
    else Yield (mkPeriod (p_end p) (p_start p) new (p_dt p) (goes_through_new_year p)) new
  end.

(** [for date in period { … }]: the dates produced.  [None]: panic or not finished
    after [fuel] calls of [next]. *)
Fixpoint period_collect (fuel : nat) (p : Period) : option (list Date) :=
  match fuel with
  | O => None
  | S f => match period_next p with
           | Panic => None
           | Done => Some []
           | Yield p' d => option_map (cons d) (period_collect f p')
           end
  end.
