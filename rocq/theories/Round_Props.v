(** Property C71: durations written as decimal fractions. *)
From Verif Require Import Base Util_Model Num_Model Path_Model PathParser_Model PathParser_Spec Value_Model Value_Spec Value_Props
  Duration_Model Duration_Spec Config_Model Config_Spec Config_Props Round_Spec Round_Lemmas6 Round_Lemmas7.

(** C71.  The text of a decimal fraction and a unit, up to 2^31 seconds: the seconds and nanoseconds that
    come back are a normalised duration within two nanoseconds and one part in 2^50 of the fraction.  When
    there is none, a config_exception is raised and the fraction is that close to a whole number of seconds.
    Missing: more than 200 decimals, and more than 2^31 seconds. *)
Theorem duration_of_fraction_partial : forall w1 t w2 name w3 n k u, spaces w1 -> spaces w2 -> spaces w3 ->
  fraction t n k -> In name (unit_names u) -> (k <= 200)%nat -> Z.abs n * nanos_in u <= 2 ^ 31 * second * 10 ^ Z.of_nat k ->
  match parse_duration (w1 ++ t ++ w2 ++ lit name ++ w3) with
  | Ok d => normal_duration d /\ close_to (total d) (n * nanos_in u) k
  | Throw e => e = EConfig /\ exists w, close_to (w * second) (n * nanos_in u) k
  | Stuck _ => False
  end.
Proof. exact fraction_text. Qed.
Print Assumptions duration_of_fraction_partial.

(** C71.  The same through get_duration, which also takes a plain fraction as milliseconds: the result counts
    the whole units of such a duration.  An exception is also raised for negative durations below one second
    or one unit (see C38). *)
Theorem get_duration_fraction_partial : forall self ps p v n k u unit, plain self -> simple_object self ->
  new_path ps = Ok p -> get p self = Some v ->
  ((exists t d, v = VScalar (SDouble d t) /\ lexical_cast_double t = Some d /\ fraction t n k) /\ u = MILLISECONDS \/
   (exists w1 t w2 name w3 q, v = VScalar (SStr (w1 ++ t ++ w2 ++ lit name ++ w3) q) /\
      spaces w1 /\ spaces w2 /\ spaces w3 /\ fraction t n k /\ In name (unit_names u))) ->
  (k <= 200)%nat -> Z.abs (n * nanos_in u) <= 2 ^ 31 * second * 10 ^ Z.of_nat k ->
  match get_duration self ps unit with
  | Ok r => exists t, close_to t (n * nanos_in u) k /\ r = Z.quot t (nanos_in unit)
  | Throw e => e = EConfig /\ ((exists w, close_to (w * second) (n * nanos_in u) k) \/
                               (exists t, close_to t (n * nanos_in u) k /\ t < 0 /\ (- second < t \/ - nanos_in unit < t)))
  | Stuck _ => False
  end.
Proof. exact fraction_duration. Qed.
Print Assumptions get_duration_fraction_partial.

Example duration_of_fraction_ex :
  fraction (lit "-1.25") (-125) 2 /\ In "hours"%string (unit_names HOURS) /\ parse_duration (lit " -1.25 hours") = Throw EConfig /\
  close_to (-4500 * second) (-125 * nanos_in HOURS) 2 /\
  fraction (lit "2.7") 27 1 /\ parse_duration (lit "2.7 ms") = Ok (0, 2700000) /\
  parse_duration (lit "-1.5s") = Ok (-1, -500000000) /\ parse_duration (lit "0.0001d") = Ok (8, 640000000) /\
  parse_duration (lit "1234567890.5 us") = Ok (1234, 567890500) /\ parse_duration (lit ".1 s") = Ok (0, 100000000).
Proof.
  split; [exact (fraction_minus (lit "1") (lit "25") ltac:(repeat constructor) ltac:(discriminate))|]. split; [cbn; auto|]. split; [vm_compute; reflexivity|]. split; [vm_compute; discriminate|].
  split; [exact (fraction_plain (lit "2") (lit "7") ltac:(repeat constructor) ltac:(discriminate))|]. repeat split; vm_compute; reflexivity.
Qed.
(** The value is not always the nearest one. *)
Example duration_of_fraction_rounds : parse_duration (lit "1.001 s") = Ok (1, 999999) /\ get_duration (obj [(lit "w", VScalar (SStr (lit "1.001 s") true))]) (lit "w") MILLISECONDS = Ok 1000.
Proof. split; vm_compute; reflexivity. Qed.

(** C71, refuted: whole numbers written with a point are not durations, though the same integers are; a long
    number of milliseconds is converted to an integer type that cannot hold it. *)
Theorem duration_of_fraction_refuted :
  parse_duration (lit "1.5 m") = Throw EConfig /\ parse_duration (lit "90 s") = Ok (90, 0) /\ parse_duration (lit "0.0 s") = Throw EConfig /\
  parse_duration (lit "99999999999999999999999.5 ms") = Stuck UFloatCast.
Proof. repeat split; vm_compute; reflexivity. Qed.
Print Assumptions duration_of_fraction_refuted.
