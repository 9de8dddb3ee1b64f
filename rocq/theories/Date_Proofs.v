From Verif Require Import Lib Date_Model Date_Spec.

(** the calendar *)
Lemma leaps_step y : leaps_before (y + 1) = leaps_before y + (if leap y then 1 else 0).
Proof.
  unfold leaps_before, leap. replace (y + 1 - 1) with y by lia.
  destruct (y mod 4 =? 0) eqn:A, (y mod 100 =? 0) eqn:B, (y mod 400 =? 0) eqn:C; cbn [negb andb orb]; lia.
Qed.
Lemma ml_bounds y m : 28 <= month_length y m <= 31.
Proof. unfold month_length. destruct (m =? 2), (leap y), ((m =? 4) || (m =? 6) || (m =? 9) || (m =? 11)); lia. Qed.
Lemma days_year y : days_before y 12 = 365 + (if leap y then 1 else 0).
Proof. cbn. unfold month_length. cbn. destruct (leap y); reflexivity. Qed.
Lemma epoch : day_number (1970, 1, 1) = 0.
Proof. reflexivity. Qed.
Lemma next_ok x : valid x -> valid (next_day x) /\ day_number (next_day x) = day_number x + 1.
Proof.
  destruct x as [[y m] d]. intros [M D]. unfold next_day. pose proof (ml_bounds y m). destruct (d <? month_length y m) eqn:E; [split; [cbn; lia|cbn [day_number]; lia]|].
  assert (Ed : d = month_length y m) by lia. destruct (m <? 12) eqn:Em.
  - split; [pose proof (ml_bounds y (m + 1)); cbn; lia|]. cbn [day_number]. replace (Z.to_nat (m + 1 - 1)) with (S (Z.to_nat (m - 1))) by lia. cbn [days_before]. replace (Z.of_nat (Z.to_nat (m - 1)) + 1) with m by lia. lia.
  - split; [pose proof (ml_bounds (y + 1) 1); cbn; lia|]. assert (m = 12) by lia. subst m. cbn [day_number]. rewrite leaps_step. change (Z.to_nat (1 - 1)) with O. cbn [days_before].
    pose proof (days_year y) as Y. change 12%nat with (S (Z.to_nat (12 - 1))) in Y. cbn [days_before] in Y. change (Z.of_nat (Z.to_nat (12 - 1)) + 1) with 12 in Y. lia.
Qed.
Lemma days_mono y a b : (a < b)%nat -> days_before y a + month_length y (Z.of_nat a + 1) <= days_before y b.
Proof. induction b as [|b IH]; [lia|]. intros H. cbn [days_before]. pose proof (ml_bounds y (Z.of_nat b + 1)). destruct (Nat.eq_dec a b) as [->|]; [lia|]. specialize (IH ltac:(lia)). lia. Qed.
Lemma days_pos y m : 0 <= days_before y m.
Proof. induction m as [|m IH]; cbn [days_before]; [lia|]. pose proof (ml_bounds y (Z.of_nat m + 1)). lia. Qed.
Lemma year_end y m d : valid (y, m, d) -> days_before y (Z.to_nat (m - 1)) + (d - 1) < 365 + (if leap y then 1 else 0).
Proof. intros [M D]. rewrite <- days_year. pose proof (days_mono y (Z.to_nat (m - 1)) 12 ltac:(lia)) as H. replace (Z.of_nat (Z.to_nat (m - 1)) + 1) with m in H by lia. lia. Qed.
Lemma number_lt y m d y' m' d' : valid (y, m, d) -> valid (y', m', d') -> y < y' \/ (y = y' /\ m < m') \/ (y = y' /\ m = m' /\ d < d') -> day_number (y, m, d) < day_number (y', m', d').
Proof.
  intros V V' [H|[[-> H]|(-> & -> & H)]].
  - pose proof (year_end y m d V). pose proof (days_pos y' (Z.to_nat (m' - 1))). destruct V' as [M' D']. cbn [day_number]. pose proof (leaps_step y) as S. assert (X : 365 * (y + 1) + leaps_before (y + 1) <= 365 * y' + leaps_before y').
    { unfold leaps_before. destruct (Z.eq_dec y' (y + 1)) as [->|]; [lia|]. assert (y + 2 <= y') by lia. clear - H2. lia. }
    lia.
  - destruct V as [M D], V' as [M' D']. cbn [day_number]. pose proof (days_mono y' (Z.to_nat (m - 1)) (Z.to_nat (m' - 1)) ltac:(lia)) as X. replace (Z.of_nat (Z.to_nat (m - 1)) + 1) with m in X by lia. lia.
  - cbn [day_number]. lia.
Qed.
Lemma number_inj a b : valid a -> valid b -> day_number a = day_number b -> a = b.
Proof.
  destruct a as [[y m] d], b as [[y' m'] d']. intros A B E.
  destruct (Z.lt_trichotomy y y') as [H|[->|H]]; [pose proof (number_lt _ _ _ _ _ _ A B (or_introl H)); lia| |pose proof (number_lt _ _ _ _ _ _ B A (or_introl H)); lia].
  destruct (Z.lt_trichotomy m m') as [H|[->|H]]; [pose proof (number_lt _ _ _ _ _ _ A B ltac:(auto)); lia| |pose proof (number_lt _ _ _ _ _ _ B A ltac:(auto)); lia].
  destruct (Z.lt_trichotomy d d') as [H|[->|H]]; [pose proof (number_lt _ _ _ _ _ _ A B ltac:(auto)); lia|reflexivity|pose proof (number_lt _ _ _ _ _ _ B A ltac:(auto)); lia].
Qed.
(** period *)
Lemma leap_period y k : leap (y + 400 * k) = leap y.
Proof.
  unfold leap. replace ((y + 400 * k) mod 4) with (y mod 4) by (replace (y + 400 * k) with (y + (100 * k) * 4) by lia; rewrite Z.mod_add by lia; reflexivity).
  replace ((y + 400 * k) mod 100) with (y mod 100) by (replace (y + 400 * k) with (y + (4 * k) * 100) by lia; rewrite Z.mod_add by lia; reflexivity).
  replace ((y + 400 * k) mod 400) with (y mod 400) by (replace (y + 400 * k) with (y + k * 400) by lia; rewrite Z.mod_add by lia; reflexivity). reflexivity.
Qed.
Lemma ml_period y k m : month_length (y + 400 * k) m = month_length y m.
Proof. unfold month_length. rewrite leap_period. reflexivity. Qed.
Lemma days_period y k m : days_before (y + 400 * k) m = days_before y m.
Proof. induction m as [|m IH]; cbn [days_before]; [reflexivity|]. rewrite IH, ml_period. reflexivity. Qed.
Lemma leaps_period y k : leaps_before (y + 400 * k) = leaps_before y + 97 * k.
Proof. unfold leaps_before. lia. Qed.
Lemma number_period y k m d : day_number (y + 400 * k, m, d) = day_number (y, m, d) + 146097 * k.
Proof. cbn [day_number]. rewrite days_period, leaps_period. lia. Qed.

(** exhaustive checks *)
Fixpoint chk (k : nat) (b : Z) (f : Z -> bool) : bool :=
  match k with O => f b | S k => chk k b f && chk k (b + 2 ^ Z.of_nat k) f end.
Lemma chk_ok k f : forall b, chk k b f = true -> forall x, b <= x < b + 2 ^ Z.of_nat k -> f x = true.
Proof.
  induction k as [|k IH]; intros b H x X; cbn [chk] in H; [cbn in X; replace x with b by lia; exact H|]. apply andb_prop in H. destruct H as [H1 H2]. rewrite Nat2Z.inj_succ, Z.pow_succ_r in X by lia.
  destruct (Z_lt_dec x (b + 2 ^ Z.of_nat k)); [apply (IH b)|apply (IH (b + 2 ^ Z.of_nat k))]; auto; lia.
Qed.
(** first day (from 1 March 2000) of year [ys] of the cycle, and of the month [i] (0 = March) of that year *)
Definition ybase (ys : Z) : Z := ys / 100 * 36524 + ys mod 100 / 4 * 1461 + ys mod 4 * 365.
Definition moff : list Z := [0; 31; 61; 92; 122; 153; 184; 214; 245; 275; 306; 337].
Definition cyc (ys i : Z) : Z * Z := if 10 <=? i then (i - 12 + 3, ys + 1) else (i + 3, ys).
Definition cyc_year_ok (ys : Z) : bool :=
  (400 <=? ys) ||
  forallb (fun i => let '(m, y) := cyc ys i in
     (day_number (2000 + y, m, 1) =? ybase ys + znth 0 moff i + 11017) &&
     (month_length (2000 + y) m =? (if i =? 11 then (if (ys mod 4 =? 3) && (negb (ys mod 100 / 4 =? 24) || (ys / 100 =? 3)) then 29 else 28) else znth 0 days_in_month i)))
    [0; 1; 2; 3; 4; 5; 6; 7; 8; 9; 10; 11].
Definition rem_ok (d : Z) : bool :=
  (366 <=? d) ||
  match months_loop days_in_month 0 d with
  | None => false
  | Some (i, r) => (0 <=? i) && (i <=? 11) && (0 <=? r) && (d =? znth 0 moff i + r) && (r <? znth 0 days_in_month i)
  end.
Lemma cyc_year_all : chk 9 0 cyc_year_ok = true.
Proof. vm_cast_no_check (eq_refl true). Qed.
Lemma rem_all : chk 9 0 rem_ok = true.
Proof. vm_cast_no_check (eq_refl true). Qed.
Lemma cyc_year_spec ys i m y : 0 <= ys < 400 -> 0 <= i <= 11 -> cyc ys i = (m, y) -> day_number (2000 + y, m, 1) = ybase ys + znth 0 moff i + 11017 /\
  month_length (2000 + y) m = (if i =? 11 then (if (ys mod 4 =? 3) && (negb (ys mod 100 / 4 =? 24) || (ys / 100 =? 3)) then 29 else 28) else znth 0 days_in_month i).
Proof.
  intros Y I E. pose proof (chk_ok 9 cyc_year_ok 0 cyc_year_all ys) as C. change (2 ^ Z.of_nat 9) with 512 in C. specialize (C ltac:(lia)). unfold cyc_year_ok in C. destruct (400 <=? ys) eqn:E4; [lia|]. rewrite orb_false_l in C.
  rewrite forallb_forall in C. specialize (C i). rewrite E in C. assert (X : In i [0; 1; 2; 3; 4; 5; 6; 7; 8; 9; 10; 11]) by (cbn [In]; lia). specialize (C X). apply andb_prop in C. destruct C as [C1 C2]. apply Z.eqb_eq in C1, C2. auto.
Qed.
Lemma rem_spec d : 0 <= d <= 365 -> exists i r, months_loop days_in_month 0 d = Some (i, r) /\ 0 <= i <= 11 /\ 0 <= r /\ d = znth 0 moff i + r /\ r < znth 0 days_in_month i.
Proof.
  intros D. pose proof (chk_ok 9 rem_ok 0 rem_all d) as C. change (2 ^ Z.of_nat 9) with 512 in C. specialize (C ltac:(lia)). unfold rem_ok in C. destruct (366 <=? d) eqn:E4; [lia|]. rewrite orb_false_l in C.
  destruct (months_loop days_in_month 0 d) as [[i r]|]; [|discriminate]. exists i, r. repeat (apply andb_prop in C; let X := fresh in destruct C as [C X]). repeat split; lia.
Qed.
(** the three divisions, each with its last part one day longer or shorter *)
Lemma split_days D : 0 <= D < 146097 -> exists c q ry d,
  (let c_cycles := Z.quot D DAYS_PER_100Y in
   let c_cycles := if c_cycles =? 4 then c_cycles - 1 else c_cycles in
   let remdays := D - c_cycles * DAYS_PER_100Y in
   let q_cycles := Z.quot remdays DAYS_PER_4Y in
   let q_cycles := if q_cycles =? 25 then q_cycles - 1 else q_cycles in
   let remdays := remdays - q_cycles * DAYS_PER_4Y in
   let remyears := Z.quot remdays 365 in
   let remyears := if remyears =? 4 then remyears - 1 else remyears in
   let remdays := remdays - remyears * 365 in (c_cycles, q_cycles, remyears, remdays)) = (c, q, ry, d) /\
  0 <= c <= 3 /\ 0 <= q <= 24 /\ 0 <= ry <= 3 /\ 0 <= d <= 365 /\ D = c * 36524 + q * 1461 + ry * 365 + d /\ (d = 365 -> ry = 3 /\ (q = 24 -> c = 3)).
Proof.
  intros H. cbv zeta. change DAYS_PER_100Y with 36524. change DAYS_PER_4Y with 1461.
  set (c := if Z.quot D 36524 =? 4 then Z.quot D 36524 - 1 else Z.quot D 36524).
  assert (Hc : 0 <= c <= 3 /\ 0 <= D - c * 36524 /\ (D - c * 36524 <= 36523 \/ (c = 3 /\ D - c * 36524 <= 36524))).
  { unfold c. rewrite Z.quot_div_nonneg by lia. destruct (D / 36524 =? 4) eqn:E; lia. }
  clearbody c. destruct Hc as (C1 & C2 & C3). set (D1 := D - c * 36524) in *. assert (E1 : D = c * 36524 + D1) by lia. clearbody D1.
  set (q := if Z.quot D1 1461 =? 25 then Z.quot D1 1461 - 1 else Z.quot D1 1461).
  assert (Hq : 0 <= q <= 24 /\ 0 <= D1 - q * 1461 <= 1460 /\ (D1 - q * 1461 = 1460 -> q = 24 -> c = 3)).
  { unfold q. rewrite Z.quot_div_nonneg by lia. destruct (D1 / 1461 =? 25) eqn:E; lia. }
  clearbody q. destruct Hq as (Q1 & Q2 & Q3). set (D2 := D1 - q * 1461) in *. assert (E2 : D1 = q * 1461 + D2) by lia. clearbody D2.
  set (ry := if Z.quot D2 365 =? 4 then Z.quot D2 365 - 1 else Z.quot D2 365).
  assert (Hr : 0 <= ry <= 3 /\ 0 <= D2 - ry * 365 <= 365 /\ (D2 - ry * 365 = 365 -> ry = 3)).
  { unfold ry. rewrite Z.quot_div_nonneg by lia. destruct (D2 / 365 =? 4) eqn:E; lia. }
  clearbody ry. destruct Hr as (R1 & R2 & R3). exists c, q, ry, (D2 - ry * 365). split; [reflexivity|]. repeat split; lia.
Qed.
Lemma cycle_spec D : 0 <= D < 146097 -> exists ys months r, in_cycle D = Some (ys, months, r) /\
  let '(m, y) := if 10 <=? months then (months - 12 + 3, ys + 1) else (months + 3, ys) in
  0 <= ys < 400 /\ 1 <= m <= 12 /\ 0 <= r /\ r + 1 <= month_length (2000 + y) m /\ day_number (2000 + y, m, r + 1) = D + 11017.
Proof.
  intros H. destruct (split_days D H) as (c & q & ry & d & E & C & Q & R & Dd & Ed & L). cbv zeta in E. injection E as E1 E2 E3 E4. subst c. rewrite E2 in E3, E4. rewrite E3 in E4.
  unfold in_cycle. cbv zeta. rewrite E2, E3, E4. destruct (rem_spec d Dd) as (i & r & Em & I & R0 & Er & Lr). rewrite Em.
  set (c := if Z.quot D DAYS_PER_100Y =? 4 then Z.quot D DAYS_PER_100Y - 1 else Z.quot D DAYS_PER_100Y) in *. clearbody c. clear E2 E3 E4.
  exists (ry + 4 * q + 100 * c), i, r. split; [reflexivity|]. set (ys := ry + 4 * q + 100 * c).
  assert (Yr : 0 <= ys < 400) by (unfold ys; lia). assert (Y1 : ys / 100 = c) by (unfold ys; lia). assert (Y2 : ys mod 100 / 4 = q) by (unfold ys; lia). assert (Y3 : ys mod 4 = ry) by (unfold ys; lia).
  fold (cyc ys i). destruct (cyc ys i) as [m y] eqn:Ec. destruct (cyc_year_spec ys i m y Yr I Ec) as [N M]. rewrite Y1, Y2, Y3 in M. unfold ybase in N. rewrite Y1, Y2, Y3 in N. clear Y1 Y2 Y3.
  split; [exact Yr|]. split; [unfold cyc in Ec; destruct (10 <=? i) eqn:E10; inversion Ec; lia|]. split; [exact R0|]. split.
  - rewrite M. destruct (i =? 11) eqn:E11; [|lia]. apply Z.eqb_eq in E11. subst i. change (znth 0 moff 11) with 337 in Er. change (znth 0 days_in_month 11) with 29 in Lr.
    destruct ((ry =? 3) && (negb (q =? 24) || (c =? 3))) eqn:B; [lia|]. destruct (Z.eq_dec d 365) as [X|X]; [|lia]. specialize (L X). destruct L as [L1 L2]. destruct (Z.eq_dec q 24); lia.
  - assert (Dn : day_number (2000 + y, m, r + 1) = day_number (2000 + y, m, 1) + r) by (cbn [day_number]; lia). rewrite Dn, N. lia.
Qed.

Lemma quot_floor a b : 0 < b -> (if Z.rem a b <? 0 then (Z.rem a b + b, Z.quot a b - 1) else (Z.rem a b, Z.quot a b)) = (a mod b, a / b).
Proof.
  intros B. pose proof (Z.quot_rem a b ltac:(lia)) as Q. pose proof (Z.rem_bound_abs a b ltac:(lia)) as R. assert (Rb : - b < Z.rem a b < b) by lia.
  destruct (Z.rem a b <? 0) eqn:E.
  - assert (X : a / b = Z.quot a b - 1) by (symmetry; apply (Z.div_unique a b (Z.quot a b - 1) (Z.rem a b + b)); lia). pose proof (Z.div_mod a b ltac:(lia)). rewrite X in *. f_equal. lia.
  - assert (X : a / b = Z.quot a b) by (symmetry; apply (Z.div_unique a b (Z.quot a b) (Z.rem a b)); lia). pose proof (Z.div_mod a b ltac:(lia)). rewrite X in *. f_equal. lia.
Qed.
Definition range (t : Z) : Prop := INT_MIN * 31622400 <= t <= INT_MAX * 31622400.
Definition out_year (t y : Z) : Prop := y - 1900 > INT_MAX \/ y - 1900 < INT_MIN.
Lemma to_date_ok t : range t -> exists y m d, valid (y, m, d) /\ day_number (y, m, d) = t / 86400 /\
  to_date t = Some (if (INT_MAX <? y - 1900) || (y - 1900 <? INT_MIN) then None else Some (DT (y mod 65536) m d (t mod 86400 / 3600) (t mod 86400 / 60 mod 60) (t mod 60))).
Proof.
  intros [T1 T2]. unfold INT_MIN, INT_MAX in T1, T2. unfold to_date. destruct (_ || _) eqn:E; [apply orb_prop in E; unfold INT_MAX, INT_MIN in E; lia|clear E].
  rewrite (quot_floor (t - LEAPOCH) 86400) by lia. change LEAPOCH with 951868800. set (days := (t - 951868800) / 86400). change DAYS_PER_400Y with 146097.
  assert (Dr : -800000000000 <= days <= 800000000000) by (unfold days; lia).
  assert (Qr : -800000000000 <= Z.quot days 146097 * 146097 <= 800000000000).
  { pose proof (Z.quot_rem days 146097 ltac:(lia)). pose proof (Z.rem_bound_abs days 146097 ltac:(lia)). pose proof (Z.rem_sign_mul days 146097 ltac:(lia)). nia. }
  rewrite (s32_small (Z.quot days 146097)) by lia. rewrite (s32_small (Z.rem days 146097)) by (pose proof (Z.rem_bound_abs days 146097 ltac:(lia)); lia).
  rewrite (quot_floor days 146097) by lia. destruct (cycle_spec (days mod 146097)) as (ys & months & r & Ec & S); [apply Z.mod_pos_bound; lia|]. rewrite Ec. set (k := days / 146097) in *.
  assert (Dk : days = 146097 * k + days mod 146097) by (apply Z.div_mod; lia).
  assert (Tm : (t - 951868800) mod 86400 = t mod 86400) by (replace (t - 951868800) with (t + (-11017) * 86400) by lia; apply Z.mod_add; lia).
  assert (Td : days = t / 86400 - 11017) by (unfold days; lia).
  assert (Time : forall y m d, 1 <= m <= 12 -> 1 <= d <= 31 -> DT (y mod 65536) (m mod 256) (d mod 256) (Z.quot (t mod 86400) 3600 mod 256) (Z.rem (Z.quot (t mod 86400) 60) 60 mod 256) (Z.rem (t mod 86400) 60 mod 256) = DT (y mod 65536) m d (t mod 86400 / 3600) (t mod 86400 / 60 mod 60) (t mod 60)).
  { intros y m d M D. pose proof (Z.mod_pos_bound t 86400 ltac:(lia)). rewrite !Z.quot_div_nonneg by lia. rewrite !Z.rem_mod_nonneg by lia. f_equal; lia. }
  rewrite Tm. destruct (10 <=? months) eqn:Em; destruct S as (Y & M & R & R' & N).
  - exists (2000 + (ys + 1) + 400 * k), (months - 12 + 3), (r + 1). split; [split; [exact M|rewrite ml_period; lia]|]. split; [rewrite number_period, N; lia|].
    replace (2000 + (ys + 1) + 400 * k - 1900) with (ys + 400 * k + 1 + 100) by lia. destruct (_ || _); [reflexivity|]. pose proof (ml_bounds (2000 + (ys + 1)) (months - 12 + 3)). rewrite <- Time by lia. replace (ys + 400 * k + 1 + 2000) with (2000 + (ys + 1) + 400 * k) by lia. reflexivity.
  - exists (2000 + ys + 400 * k), (months + 3), (r + 1). split; [split; [exact M|rewrite ml_period; lia]|]. split; [rewrite number_period, N; lia|].
    replace (2000 + ys + 400 * k - 1900) with (ys + 400 * k + 100) by lia. destruct (_ || _); [reflexivity|]. pose proof (ml_bounds (2000 + ys) (months + 3)). rewrite <- Time by lia. replace (ys + 400 * k + 2000) with (2000 + ys + 400 * k) by lia. reflexivity.
Qed.

(** back *)
Definition slow (year : Z) : Z * bool :=
  let '(rem, cycles) := ((year - 100) mod 400, (year - 100) / 400) in
    let '(centuries, leaps, is_leap) :=
      if rem =? 0 then (0, 0, true)
      else
        let '(centuries, rem) :=
          if 200 <=? rem then (if 300 <=? rem then (3, rem - 300) else (2, rem - 200))
          else if 100 <=? rem then (1, rem - 100) else (0, rem) in
        if rem =? 0 then (centuries, 0, false) else (centuries, rem / 4, rem mod 4 =? 0) in
    let leaps := leaps + (97 * cycles + 24 * centuries - (if is_leap then 1 else 0)) in
    ((year - 100) * 31536000 + leaps * 86400 + 946684800 + 86400, is_leap).
Lemma slow_ok year : slow year = (86400 * day_number (1900 + year, 1, 1), leap (1900 + year)).
Proof.
  unfold slow. set (k := (year - 100) / 400). set (rem := (year - 100) mod 400). assert (E : 1900 + year = 2000 + rem + 400 * k) by (unfold rem, k; pose proof (Z.div_mod (year - 100) 400 ltac:(lia)); lia).
  assert (R : 0 <= rem < 400) by (apply Z.mod_pos_bound; lia). assert (Y : year - 100 = rem + 400 * k) by lia. rewrite Y, E, number_period, leap_period. clear E Y. clearbody rem k. clear year. revert k.
  assert (C : chk 9 0 (fun rem => (400 <=? rem) ||
     (let '(centuries, leaps, is_leap) :=
      if rem =? 0 then (0, 0, true)
      else
        let '(centuries, rem) :=
          if 200 <=? rem then (if 300 <=? rem then (3, rem - 300) else (2, rem - 200))
          else if 100 <=? rem then (1, rem - 100) else (0, rem) in
        if rem =? 0 then (centuries, 0, false) else (centuries, rem / 4, rem mod 4 =? 0) in
      (rem * 31536000 + (leaps + (24 * centuries - (if is_leap then 1 else 0))) * 86400 + 946684800 + 86400 =? 86400 * day_number (2000 + rem, 1, 1)) && Bool.eqb is_leap (leap (2000 + rem)))) = true) by (vm_compute; reflexivity).
  intros k. pose proof (chk_ok 9 _ 0 C rem) as X. change (2 ^ Z.of_nat 9) with 512 in X. specialize (X ltac:(lia)). cbv beta in X. destruct (400 <=? rem) eqn:G; [lia|]. rewrite orb_false_l in X.
  destruct (if rem =? 0 then (0, 0, true) else _) as [[centuries leaps] is_leap]. apply andb_prop in X. destruct X as [X1 X2]. apply Bool.eqb_prop in X2. rewrite X2 in *. f_equal. lia.
Qed.
Lemma year_ok year : -2000 <= year <= 70000 -> year_to_secs year = (86400 * day_number (1900 + year, 1, 1), leap (1900 + year)).
Proof.
  intros Y. destruct ((year - 2) mod 2 ^ 64 <=? 136) eqn:E.
  - assert (Yr : 2 <= year <= 138).
    { destruct (Z_lt_dec year 2) as [H|H]; [|rewrite Z.mod_small in E by (change (2 ^ 64) with 18446744073709551616; lia); lia].
      replace ((year - 2) mod 2 ^ 64) with (year - 2 + 2 ^ 64) in E; [change (2 ^ 64) with 18446744073709551616 in E; lia|]. apply (Z.mod_unique _ _ (-1)); change (2 ^ 64) with 18446744073709551616; lia. }
    assert (C : chk 8 0 (fun y => (y <? 2) || (138 <? y) || ((fst (year_to_secs y) =? 86400 * day_number (1900 + y, 1, 1)) && Bool.eqb (snd (year_to_secs y)) (leap (1900 + y)))) = true) by (vm_compute; reflexivity).
    pose proof (chk_ok 8 _ 0 C year) as X. change (2 ^ Z.of_nat 8) with 256 in X. specialize (X ltac:(lia)). cbv beta in X. destruct (year <? 2) eqn:G1; [lia|]. destruct (138 <? year) eqn:G2; [lia|]. rewrite !orb_false_l in X. apply andb_prop in X. destruct X as [X1 X2]. apply Bool.eqb_prop in X2.
    destruct (year_to_secs year) as [a b]. cbn [fst snd] in *. f_equal; [lia|exact X2].
  - rewrite <- slow_ok. unfold year_to_secs. rewrite E. unfold slow.
    pose proof (Z.quot_rem (year - 100) 400 ltac:(lia)) as Q. pose proof (Z.rem_bound_abs (year - 100) 400 ltac:(lia)) as R. rewrite !s32_small by lia.
    pose proof (quot_floor (year - 100) 400 ltac:(lia)) as F. destruct (Z.rem (year - 100) 400 <? 0); injection F as F1 F2; rewrite F1, F2; reflexivity.
Qed.
Lemma month_ok y m : 0 <= m <= 11 -> month_to_secs m (leap y) = 86400 * days_before y (Z.to_nat m).
Proof.
  intros M. assert (H : forall n, (n < 12)%nat -> month_to_secs (Z.of_nat n) (leap y) = 86400 * days_before y n).
  { intros n N. unfold month_to_secs. do 12 (destruct n as [|n]; [cbn; unfold month_length; cbn; destruct (leap y); reflexivity|]). lia. }
  rewrite <- (H (Z.to_nat m)) by lia. rewrite Z2Nat.id by lia. reflexivity.
Qed.
Lemma from_date_ok d : 0 <= year d < 65536 -> 0 <= month d < 256 ->
  from_date d = 86400 * (day_number (year d + (month d - 1) / 12, (month d - 1) mod 12 + 1, 1) + (day d - 1)) + 3600 * hour d + 60 * min d + sec d.
Proof.
  intros Y M. destruct d as [y m dd h mi s]. cbn [year month day hour min sec] in *. unfold from_date. cbn [year month day hour min sec].
  set (Y' := y + (m - 1) / 12). set (M' := (m - 1) mod 12). assert (E : (if (12 <=? m - 1) || (m - 1 <? 0) then let adj := Z.quot (m - 1) 12 in let m0 := Z.rem (m - 1) 12 in let '(adj, m0) := if m0 <? 0 then (adj - 1, m0 + 12) else (adj, m0) in (y - 1900 + adj, m0) else (y - 1900, m - 1)) = (Y' - 1900, M')).
  { unfold Y', M'. destruct ((12 <=? m - 1) || (m - 1 <? 0)) eqn:G; cbv zeta.
    - pose proof (quot_floor (m - 1) 12 ltac:(lia)) as F. destruct (Z.rem (m - 1) 12 <? 0); injection F as F1 F2; rewrite F1, F2; f_equal; lia.
    - apply orb_false_elim in G. rewrite Z.div_small, Z.mod_small by lia. f_equal; lia. }
  cbv zeta in E |- *. rewrite E. assert (M'b : 0 <= M' <= 11) by (unfold M'; pose proof (Z.mod_pos_bound (m - 1) 12 ltac:(lia)); lia). rewrite year_ok by (unfold Y'; lia). replace (1900 + (Y' - 1900)) with Y' by lia. rewrite month_ok by exact M'b.
  cbn [day_number]. replace (Z.to_nat (M' + 1 - 1)) with (Z.to_nat M') by lia. change (Z.to_nat (1 - 1)) with O. cbn [days_before]. lia.
Qed.
Lemma from_date_valid d : 0 <= year d < 65536 -> valid (year d, month d, day d) -> from_date d = 86400 * day_number (year d, month d, day d) + 3600 * hour d + 60 * min d + sec d.
Proof.
  intros Y [M D]. rewrite from_date_ok by lia. rewrite Z.div_small, Z.mod_small by lia. replace (month d - 1 + 1) with (month d) by lia. rewrite Z.add_0_r. cbn [day_number]. lia.
Qed.
(** timestamps of the years 0 to 65535 *)
Lemma year_range y m d : valid (y, m, d) -> day_number (0, 1, 1) <= day_number (y, m, d) < day_number (65536, 1, 1) -> 0 <= y < 65536.
Proof.
  intros V N. destruct (Z_lt_dec y 0) as [H|H]; [pose proof (number_lt y m d 0 1 1 V ltac:(cbn; lia) ltac:(lia)); lia|]. destruct (Z_lt_dec y 65536); [lia|].
  destruct (Z.eq_dec y 65536) as [->|]; [|pose proof (number_lt 65536 1 1 y m d ltac:(cbn; lia) V ltac:(lia)); lia]. destruct V as [M D]. cbn [day_number] in N. pose proof (days_pos 65536 (Z.to_nat (m - 1))). change (Z.to_nat (1 - 1)) with O in N. cbn [days_before] in N. lia.
Qed.
Definition first_ts := 86400 * day_number (0, 1, 1).
Definition end_ts := 86400 * day_number (65536, 1, 1).
Lemma date_exact t : 86400 * day_number (0, 1, 1) <= t < 86400 * day_number (65536, 1, 1) ->
  exists d, to_date t = Some (Some d) /\ 0 <= year d < 65536 /\ valid (year d, month d, day d) /\ 0 <= hour d < 24 /\ 0 <= min d < 60 /\ 0 <= sec d < 60 /\
    t = 86400 * day_number (year d, month d, day d) + 3600 * hour d + 60 * min d + sec d.
Proof.
  intros T. assert (Tn : -62167219200 <= t < 2005949145600) by exact T. destruct (to_date_ok t ltac:(unfold range, INT_MIN, INT_MAX; lia)) as (y & m & d & V & N & E).
  assert (Y : 0 <= y < 65536) by (apply (year_range y m d V); rewrite N; change (day_number (0, 1, 1)) with (-719528); change (day_number (65536, 1, 1)) with 23217004; lia).
  destruct (_ || _) eqn:G in E; [apply orb_prop in G; unfold INT_MAX, INT_MIN in G; lia|]. rewrite E. eexists. split; [reflexivity|]. cbn [year month day hour min sec]. rewrite Z.mod_small by exact Y. split; [exact Y|]. split; [exact V|]. rewrite N. lia.
Qed.
Lemma roundtrip t : 86400 * day_number (0, 1, 1) <= t < 86400 * day_number (65536, 1, 1) -> exists d, to_date t = Some (Some d) /\ from_date d = t.
Proof. intros T. destruct (date_exact t T) as (d & E & Y & V & _ & _ & _ & X). exists d. split; [exact E|]. rewrite from_date_valid by assumption. lia. Qed.
Lemma roundtrip' d : 0 <= year d < 65536 -> valid (year d, month d, day d) -> 0 <= hour d < 24 -> 0 <= min d < 60 -> 0 <= sec d < 60 -> to_date (from_date d) = Some (Some d).
Proof.
  intros Y V H M S. set (t := from_date d). assert (Et : t = 86400 * day_number (year d, month d, day d) + 3600 * hour d + 60 * min d + sec d) by (apply from_date_valid; assumption).
  assert (B : day_number (0, 1, 1) <= day_number (year d, month d, day d) < day_number (65536, 1, 1)).
  { split; [|apply number_lt; [exact V|cbn; lia|lia]]. destruct (Z.eq_dec (day_number (0, 1, 1)) (day_number (year d, month d, day d))); [lia|]. 
    destruct (Z.eq_dec (year d) 0) as [Y0|]; [|pose proof (number_lt 0 1 1 (year d) (month d) (day d) ltac:(cbn; lia) V ltac:(lia)); lia].
    destruct V as [Vm Vd]. cbn [day_number]. rewrite Y0. pose proof (days_pos 0 (Z.to_nat (month d - 1))). change (Z.to_nat (1 - 1)) with O. cbn [days_before]. lia. }
  destruct (date_exact t ltac:(lia)) as (d' & E & Y' & V' & H' & M' & S' & X). rewrite E. f_equal. f_equal. rewrite Et in X.
  assert (Nd : day_number (year d, month d, day d) = day_number (year d', month d', day d')) by lia. pose proof (number_inj _ _ V V' Nd) as I. injection I as I1 I2 I3.
  destruct d as [y m dd h mi s], d' as [y' m' dd' h' mi' s']. cbn [year month day hour min sec] in *. subst. f_equal; lia.
Qed.
Lemma truncated : exists t d, range t /\ to_date t = Some (Some d) /\ year d = 0 /\ from_date d <> t.
Proof. exists 2005949145600. eexists. split; [unfold range, INT_MIN, INT_MAX; lia|]. split; [vm_compute; reflexivity|]. split; [reflexivity|]. vm_compute. discriminate. Qed.
Lemma to_date_total t : exists r, to_date t = Some r.
Proof.
  destruct (Z_lt_dec t (INT_MIN * 31622400)) as [H|H]; [exists None; unfold to_date; rewrite (proj2 (Z.ltb_lt _ _) H); reflexivity|].
  destruct (Z_lt_dec (INT_MAX * 31622400) t) as [H'|H']; [exists None; unfold to_date; rewrite (proj2 (Z.ltb_lt (INT_MAX * 31622400) t) H'), orb_true_r; reflexivity|].
  destruct (to_date_ok t) as (y & m & d & _ & _ & E); [unfold range; lia|]. eauto.
Qed.
