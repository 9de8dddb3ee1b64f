(** The proleptic Gregorian calendar. *)
From Verif Require Import Lib.

Definition leap (y : Z) : bool := (y mod 4 =? 0) && (negb (y mod 100 =? 0) || (y mod 400 =? 0)).
Definition month_length (y m : Z) : Z :=
  if m =? 2 then (if leap y then 29 else 28)
  else if (m =? 4) || (m =? 6) || (m =? 9) || (m =? 11) then 30 else 31.
Definition valid (x : Z * Z * Z) : Prop := let '(y, m, d) := x in 1 <= m <= 12 /\ 1 <= d <= month_length y m.
(** the day after *)
Definition next_day (x : Z * Z * Z) : Z * Z * Z :=
  let '(y, m, d) := x in
  if d <? month_length y m then (y, m, d + 1)
  else if m <? 12 then (y, m + 1, 1) else (y + 1, 1, 1).

(** Days since 1970-01-01.  That this is what it should be is C49_calendar *)
Definition leaps_before (y : Z) : Z := (y - 1) / 4 - (y - 1) / 100 + (y - 1) / 400.
Fixpoint days_before (y : Z) (m : nat) : Z :=
  match m with O => 0 | S m => days_before y m + month_length y (Z.of_nat m + 1) end.
Definition day_number (x : Z * Z * Z) : Z :=
  let '(y, m, d) := x in
  365 * (y - 1970) + (leaps_before y - leaps_before 1970) + days_before y (Z.to_nat (m - 1)) + (d - 1).
