(** Specification vocabulary for durations. *)
From Verif Require Import Base Util_Model Num_Model Duration_Model.

(** Nanoseconds in a unit. *)
Definition second : Z := 1000000000.
Definition nanos_in (u : time_unit) : Z :=
  match u with
  | NANOSECONDS => 1 | MICROSECONDS => 1000 | MILLISECONDS => 1000000 | SECONDS => second
  | MINUTES => 60 * second | HOURS => 3600 * second | DAYS => 86400 * second
  end.

(** The length of a duration in nanoseconds. *)
Definition total (d : duration) : Z := fst d * second + snd d.

(** Less than a second of nanoseconds, in the direction of the seconds. *)
Definition normal_duration (d : duration) : Prop :=
  in_int64 (fst d) = true /\ - second < snd d < second /\ (0 < fst d -> 0 <= snd d) /\ (fst d < 0 -> snd d <= 0).

(** The names of the units; the long ones also in the singular. *)
Definition unit_names (u : time_unit) : list string :=
  match u with
  | NANOSECONDS => ["ns"; "nano"; "nanos"; "nanosecond"; "nanoseconds"]
  | MICROSECONDS => ["us"; "micro"; "micros"; "microsecond"; "microseconds"]
  | MILLISECONDS => [""; "ms"; "milli"; "millis"; "millisecond"; "milliseconds"]
  | SECONDS => ["s"; "second"; "seconds"]
  | MINUTES => ["m"; "minute"; "minutes"]
  | HOURS => ["h"; "hour"; "hours"]
  | DAYS => ["d"; "day"; "days"]
  end%string.

(** Decimal integers: an optional sign and digits, written in base ten. *)
Definition digit (c : ascii) : Z := Z.of_nat (nat_of_ascii c) - 48.
Fixpoint digits_value (s : str) : Z :=
  match s with [] => 0 | c :: s' => digit c * 10 ^ Z.of_nat (List.length s') + digits_value s' end.
Inductive decimal : str -> Z -> Prop :=
| decimal_plain : forall ds, ds <> [] -> Forall (fun c => isdigit c = true) ds -> decimal ds (digits_value ds)
| decimal_plus : forall ds, ds <> [] -> Forall (fun c => isdigit c = true) ds -> decimal ("+"%char :: ds) (digits_value ds)
| decimal_minus : forall ds, ds <> [] -> Forall (fun c => isdigit c = true) ds -> decimal ("-"%char :: ds) (- digits_value ds).

Definition spaces (s : str) : Prop := Forall (fun c => isspace c = true) s.
