(** Specification vocabulary for the calendar: no reference to the conversion or
    addition functions of the model. *)
From Coq Require Import ZArith QArith List.
From Verif.Calendar Require Import DateModel.
Import ListNotations.
Local Open Scope Z_scope.

(** Number of days of a month of a non-leap year. *)
Definition month_length (m : Z) : Z :=
  if m =? 2 then 28
  else if (m =? 4) || (m =? 6) || (m =? 9) || (m =? 11) then 30 else 31.

(** A date that exists in a non-leap year, with an hour in [0,24). *)
Definition valid_date (d : Date) : Prop :=
  1 <= month d <= 12 /\ 1 <= day d <= month_length (month d) /\
  (0 <= hour d)%Q /\ (hour d < 24)%Q.

(** Days elapsed from the beginning of the year to the beginning of month [1+k]. *)
Fixpoint days_before (k : nat) : Z :=
  match k with
  | O => 0
  | S k' => days_before k' + month_length (Z.of_nat k)
  end.

(** Whole days elapsed since the beginning of the year. *)
Definition day_index (d : Date) : Z := days_before (Z.to_nat (month d - 1)) + day d - 1.

(** Time elapsed since the beginning of the year, in days. *)
Definition position (d : Date) : Q := (inject_Z (day_index d) + hour d / 24)%Q.

(** [x] and [y] are the same instant of a 365-day year. *)
Definition same_instant (x y : Q) : Prop := exists k : Z, (x == y + 365 * inject_Z k)%Q.

(** Same month and day, same hour as numbers. *)
Definition date_eq (a b : Date) : Prop :=
  month a = month b /\ day a = day b /\ (hour a == hour b)%Q.
