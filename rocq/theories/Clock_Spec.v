(** Exact arithmetic the clock should follow. *)
From Verif Require Import Lib Clock_Model.

Fixpoint ticks (l : list op) : Z :=
  match l with [] => 0 | OTick :: l => ticks l + 1 | _ :: l => ticks l end.

(** Total correction of the clock after the operations: a drift [d] sets the
    correction to [-step] or [step] per tick for [|d| / step] ticks *)
Record corr := Corr { total : Z; per : Z; left : Z }.
Definition corr1 (step : Z) (c : corr) (o : op) : corr :=
  match o with
  | OTick => if left c =? 0 then c else Corr (total c + per c) (per c) (left c - 1)
  | ODrift d => if d =? 0 then c else Corr (total c) (- Z.sgn d * step) (Z.abs d / step)
  end.
Definition correction (step : Z) (l : list op) : corr := fold_left (corr1 step) l (Corr 0 0 0).

(** Drifts for which the number of ticks fits a positive int *)
Definition drift_ok (step d : Z) : Prop := Z.abs d < 2 ^ 31 * step /\ Z.abs d < 2 ^ 63.
Definition op_ok (step : Z) (o : op) : Prop := match o with OTick => True | ODrift d => drift_ok step d end.

(** A usable tick: the duration leaves room for the correction, the residue is a proper fraction *)
Definition hw_ok (h : hw) : Prop :=
  10 <= ns_per_tick h < 2 ^ 31 / 2 /\ 0 <= frac_per_tick h < frac_denom h /\ frac_denom h <= 2 ^ 31.

Definition only_ticks (k : nat) : list op := repeat OTick k.
