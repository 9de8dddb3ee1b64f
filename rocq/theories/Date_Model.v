(** Model of common/3rd_party/datetime.c (from musl).  `/` and `%` on signed integers are
    [Z.quot] and [Z.rem]; s64 values need no wrapping (|t| < 2^56); the conversions to
    int that could lose bits are explicit. *)
From Verif Require Import Lib.

(** struct datetime, include/tilck/common/datetime.h:6-22 *)
Record datetime := DT { year : Z; month : Z; day : Z; hour : Z; min : Z; sec : Z }.

(** The static tables, lines 55 and 205-209 *)
Definition days_in_month : list Z := [31; 30; 31; 30; 31; 31; 30; 31; 30; 31; 31; 29].
Definition secs_through_month : list Z :=
  [0; 31 * 86400; 59 * 86400; 90 * 86400; 120 * 86400; 151 * 86400; 181 * 86400; 212 * 86400;
   243 * 86400; 273 * 86400; 304 * 86400; 334 * 86400].
Definition LEAPOCH := 946684800 + 86400 * (31 + 29).
Definition DAYS_PER_400Y := 365 * 400 + 97.
Definition DAYS_PER_100Y := 365 * 100 + 24.
Definition DAYS_PER_4Y := 365 * 4 + 1.
Definition INT_MAX := 2147483647.
Definition INT_MIN := -2147483648.

(** the loop at lines 109-110; [None]: reads past the table *)
Fixpoint months_loop (tab : list Z) (months remdays : Z) : option (Z * Z) :=
  match tab with
  | [] => None
  | n :: tab => if n <=? remdays then months_loop tab (months + 1) (remdays - n) else Some (months, remdays)
  end.
(** lines 83-110, from remdays on: years in the cycle, months, remdays *)
Definition in_cycle (remdays : Z) : option (Z * Z * Z) :=
  let c_cycles := Z.quot remdays DAYS_PER_100Y in
  let c_cycles := if c_cycles =? 4 then c_cycles - 1 else c_cycles in
  let remdays := remdays - c_cycles * DAYS_PER_100Y in
  let q_cycles := Z.quot remdays DAYS_PER_4Y in
  let q_cycles := if q_cycles =? 25 then q_cycles - 1 else q_cycles in
  let remdays := remdays - q_cycles * DAYS_PER_4Y in
  let remyears := Z.quot remdays 365 in
  let remyears := if remyears =? 4 then remyears - 1 else remyears in
  let remdays := remdays - remyears * 365 in
  match months_loop days_in_month 0 remdays with
  | None => None
  | Some (months, remdays) => Some (remyears + 4 * q_cycles + 100 * c_cycles, months, remdays)
  end.
(** timestamp_to_datetime, lines 46-129.  [Some None]: returns -1; [None]: undefined *)
Definition to_date (t : Z) : option (option datetime) :=
  if (t <? INT_MIN * 31622400) || (INT_MAX * 31622400 <? t) then Some None
  else
    let secs := t - LEAPOCH in
    let days := Z.quot secs 86400 in
    let remsecs := Z.rem secs 86400 in
    let '(remsecs, days) := if remsecs <? 0 then (remsecs + 86400, days - 1) else (remsecs, days) in
    let qc_cycles := s32 (Z.quot days DAYS_PER_400Y) in
    let remdays := s32 (Z.rem days DAYS_PER_400Y) in
    let '(remdays, qc_cycles) := if remdays <? 0 then (remdays + DAYS_PER_400Y, qc_cycles - 1) else (remdays, qc_cycles) in
    match in_cycle remdays with
    | None => None
    | Some (ys, months, remdays) =>
        let years := ys + 400 * qc_cycles in
        let '(months, years) := if 10 <=? months then (months - 12, years + 1) else (months, years) in
        if (INT_MAX <? years + 100) || (years + 100 <? INT_MIN) then Some None
        else Some (Some (DT ((years + 2000) mod 65536) ((months + 3) mod 256) ((remdays + 1) mod 256)
                            (Z.quot remsecs 3600 mod 256) (Z.rem (Z.quot remsecs 60) 60 mod 256) (Z.rem remsecs 60 mod 256)))
    end.

(** __year_to_secs, lines 131-201: the seconds and *is_leap *)
Definition year_to_secs (year : Z) : Z * bool :=
  if (year - 2) mod 2 ^ 64 <=? 136 then
    let y := s32 year in
    let leaps := Z.shiftr (y - 68) 2 in
    let is_leap := Z.land (y - 68) 3 =? 0 in
    let leaps := if is_leap then leaps - 1 else leaps in
    (s32 (s32 (31536000 * (y - 70)) + s32 (86400 * leaps)), is_leap)
  else
    let cycles := s32 (Z.quot (year - 100) 400) in
    let rem := s32 (Z.rem (year - 100) 400) in
    let '(cycles, rem) := if rem <? 0 then (cycles - 1, rem + 400) else (cycles, rem) in
    let '(centuries, leaps, is_leap) :=
      if rem =? 0 then (0, 0, true)
      else
        let '(centuries, rem) :=
          if 200 <=? rem then (if 300 <=? rem then (3, rem - 300) else (2, rem - 200))
          else if 100 <=? rem then (1, rem - 100) else (0, rem) in
        if rem =? 0 then (centuries, 0, false) else (centuries, rem / 4, rem mod 4 =? 0) in
    let leaps := leaps + (97 * cycles + 24 * centuries - (if is_leap then 1 else 0)) in
    ((year - 100) * 31536000 + leaps * 86400 + 946684800 + 86400, is_leap).
(** __month_to_secs, lines 203-217 *)
Definition month_to_secs (month : Z) (is_leap : bool) : Z :=
  let t := znth 0 secs_through_month month in
  if is_leap && (2 <=? month) then t + 86400 else t.
(** datetime_to_timestamp, lines 219-243 *)
Definition from_date (d : datetime) : Z :=
  let y := year d - 1900 in
  let m := month d - 1 in
  let '(y, m) :=
    if (12 <=? m) || (m <? 0) then
      let adj := Z.quot m 12 in
      let m := Z.rem m 12 in
      let '(adj, m) := if m <? 0 then (adj - 1, m + 12) else (adj, m) in
      (y + adj, m)
    else (y, m) in
  let '(t, is_leap) := year_to_secs y in
  t + month_to_secs m is_leap + 86400 * (day d - 1) + 3600 * hour d + 60 * min d + sec d.
