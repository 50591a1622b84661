(** Specification vocabulary for decimal fractions and for durations that are rounded. *)
From Verif Require Import Base Util_Model Num_Model Duration_Model Duration_Spec.

(** Decimal fractions: [fraction t n k] says that t is the text of n / 10^k, with k digits after the point. *)
Inductive fraction : str -> Z -> nat -> Prop :=
| fraction_plain : forall ip fp, Forall (fun c => isdigit c = true) (ip ++ fp) -> fp <> [] ->
    fraction (ip ++ "."%char :: fp) (digits_value (ip ++ fp)) (List.length fp)
| fraction_plus : forall ip fp, Forall (fun c => isdigit c = true) (ip ++ fp) -> fp <> [] ->
    fraction ("+"%char :: ip ++ "."%char :: fp) (digits_value (ip ++ fp)) (List.length fp)
| fraction_minus : forall ip fp, Forall (fun c => isdigit c = true) (ip ++ fp) -> fp <> [] ->
    fraction ("-"%char :: ip ++ "."%char :: fp) (- digits_value (ip ++ fp)) (List.length fp).

(** The integer t lies within two units and one part in 2^50 of n / 10^k. *)
Definition close_to (t n : Z) (k : nat) : Prop :=
  2 ^ 50 * Z.abs (t * 10 ^ Z.of_nat k - n) <= 2 ^ 50 * (2 * 10 ^ Z.of_nat k) + Z.abs n.

(** n millionths are nearest to m * 2^e. *)
Definition nearest_millionths (m e n : Z) : Prop :=
  if 0 <=? e then n = m * 2 ^ e * 10 ^ 6 else 2 * Z.abs (n * 2 ^ (- e) - m * 10 ^ 6) <= 2 ^ (- e).

(** Numbers as texts: [numeral t n x] says that t is the text of n * 10^x, with an optional sign, point and
    exponent and at least one digit. *)
Definition all_digits (s : str) : Prop := Forall (fun c => isdigit c = true) s.
Inductive sign_text : str -> bool -> Prop :=
| sign_none : sign_text [] false
| sign_plus : sign_text (lit "+") false
| sign_minus : sign_text (lit "-") true.
Inductive point_text : str -> str -> Prop :=
| point_none : point_text [] []
| point_some : forall fp, all_digits fp -> point_text ("."%char :: fp) fp.
Inductive exponent_text : str -> Z -> Prop :=
| exponent_none : exponent_text [] 0
| exponent_some : forall c sg neg ds, c = "e"%char \/ c = "E"%char -> sign_text sg neg -> all_digits ds -> ds <> [] ->
    exponent_text (c :: sg ++ ds) (if neg then - digits_value ds else digits_value ds).
Inductive numeral : str -> Z -> Z -> Prop :=
| numeral_text : forall sg neg ip pt fp ex x, sign_text sg neg -> all_digits ip -> point_text pt fp -> ip ++ fp <> [] -> exponent_text ex x ->
    numeral (sg ++ ip ++ pt ++ ex) (if neg then - digits_value (ip ++ fp) else digits_value (ip ++ fp)) (x - Z.of_nat (List.length fp)).

(** n * 10^x as a quotient of integers. *)
Definition upper (n x : Z) : Z := n * 10 ^ Z.max x 0.
Definition lower_part (x : Z) : Z := 10 ^ Z.max (- x) 0.

(** The double d is within half a unit in its last place of n * 10^x; below the normal numbers the last place
    is 2^-1074.  The double is in its standard form: 53 digits, or fewer at the smallest exponent. *)
Definition half_unit (d : double) (n x : Z) : Prop :=
  match d with
  | S754_zero _ => 2 ^ 1075 * upper (Z.abs n) x <= lower_part x
  | S754_finite s m e =>
      (s = true <-> n < 0) /\ Zpos m < 2 ^ 53 /\ -1074 <= e <= 971 /\ (2 ^ 52 <= Zpos m \/ e = -1074) /\
      2 * Z.abs (Zpos m * 2 ^ Z.max e 0 * lower_part x - upper (Z.abs n) x * 2 ^ Z.max (- e) 0) <= 2 ^ Z.max e 0 * lower_part x
  | _ => False
  end.
(** n * 10^x is at least half a unit above the largest double. *)
Definition beyond (n x : Z) : Prop := (2 ^ 54 - 1) * 2 ^ 970 * lower_part x <= upper (Z.abs n) x.
