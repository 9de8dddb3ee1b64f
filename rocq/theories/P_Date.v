(** C49: calendar dates. *)
From Verif Require Import Lib Date_Model Date_Spec Date_Proofs.

(** Sanity of the specification: day numbers count days of the Gregorian calendar, one by one *)
Theorem C49_calendar : forall x, valid x -> valid (next_day x) /\ day_number (next_day x) = day_number x + 1.
Proof. exact next_ok. Qed.
Print Assumptions C49_calendar.

(** from the first of January 1970 *)
Theorem C49_epoch : day_number (1970, 1, 1) = 0.
Proof. exact epoch. Qed.
Print Assumptions C49_epoch.

(** and a day number names one date *)
Theorem C49_dates_unique : forall a b, valid a -> valid b -> day_number a = day_number b -> a = b.
Proof. exact number_inj. Qed.
Print Assumptions C49_dates_unique.

(** timestamp_to_datetime returns the date and time of every timestamp of the years 0 to 65535. Missing: later and earlier years, which are truncated (see C49_year_refuted) *)
Theorem C49_to_date_partial : forall t, 86400 * day_number (0, 1, 1) <= t < 86400 * day_number (65536, 1, 1) ->
  exists d, to_date t = Some (Some d) /\ 0 <= year d < 65536 /\ valid (year d, month d, day d) /\ 0 <= hour d < 24 /\ 0 <= min d < 60 /\ 0 <= sec d < 60 /\
    t = 86400 * day_number (year d, month d, day d) + 3600 * hour d + 60 * min d + sec d.
Proof. exact date_exact. Qed.
Print Assumptions C49_to_date_partial.

(** For all timestamps whose absolute value is accepted, the date is right except for the year, which is taken modulo 65536; -1 is returned when the year does not fit an int *)
Theorem C49_all_timestamps : forall t, -2147483648 * 31622400 <= t <= 2147483647 * 31622400 ->
  exists y m d, valid (y, m, d) /\ day_number (y, m, d) = t / 86400 /\
  to_date t = Some (if (INT_MAX <? y - 1900) || (y - 1900 <? INT_MIN) then None
                    else Some (DT (y mod 65536) m d (t mod 86400 / 3600) (t mod 86400 / 60 mod 60) (t mod 60))).
Proof. exact to_date_ok. Qed.
Print Assumptions C49_all_timestamps.

(** The loop over the months never leaves the table, for any 64-bit timestamp *)
Theorem C49_no_undefined_access : forall t, exists r, to_date t = Some r.
Proof. exact to_date_total. Qed.
Print Assumptions C49_no_undefined_access.

(** datetime_to_timestamp, for all values of the fields, also out of range: months carry over to years, days, hours, minutes and seconds are added *)
Theorem C49_from_date : forall d, 0 <= year d < 65536 -> 0 <= month d < 256 ->
  from_date d = 86400 * (day_number (year d + (month d - 1) / 12, (month d - 1) mod 12 + 1, 1) + (day d - 1)) + 3600 * hour d + 60 * min d + sec d.
Proof. exact from_date_ok. Qed.
Print Assumptions C49_from_date.

(** To a date and back. Missing: years that do not fit 16 bits *)
Theorem C49_roundtrip_partial : forall t, 86400 * day_number (0, 1, 1) <= t < 86400 * day_number (65536, 1, 1) -> exists d, to_date t = Some (Some d) /\ from_date d = t.
Proof. exact roundtrip. Qed.
Print Assumptions C49_roundtrip_partial.

(** From a date and back *)
Theorem C49_roundtrip_back : forall d, 0 <= year d < 65536 -> valid (year d, month d, day d) -> 0 <= hour d < 24 -> 0 <= min d < 60 -> 0 <= sec d < 60 -> to_date (from_date d) = Some (Some d).
Proof. exact roundtrip'. Qed.
Print Assumptions C49_roundtrip_back.

(** The first second of the year 65536 is accepted and becomes the year 0 *)
Theorem C49_year_refuted : exists t d, -2147483648 * 31622400 <= t <= 2147483647 * 31622400 /\ to_date t = Some (Some d) /\ year d = 0 /\ from_date d <> t.
Proof. exact truncated. Qed.
Print Assumptions C49_year_refuted.

(** 1234567890 is 2009-02-13 23:31:30; 29 February 2000; before the epoch *)
Example C49_nontrivial : to_date 1234567890 = Some (Some (DT 2009 2 13 23 31 30)) /\ to_date 951782400 = Some (Some (DT 2000 2 29 0 0 0)) /\
  to_date (-1) = Some (Some (DT 1969 12 31 23 59 59)) /\ from_date (DT 2009 14 1 0 0 0) = from_date (DT 2010 2 1 0 0 0) /\
  next_day (2100, 2, 28) = (2100, 3, 1) /\ next_day (2000, 2, 28) = (2000, 2, 29).
Proof. vm_compute. auto 10. Qed.

