(** Specification vocabulary for the texts that are durations. *)
From Verif Require Import Base Util_Model Num_Model Duration_Model Duration_Spec Round_Spec.

(** [duration_written s t name]: s is the number t and the name of a unit, with white space before, between and behind. *)
Inductive duration_written : str -> str -> string -> Prop :=
| written_duration : forall w1 t w2 name w3, spaces w1 -> spaces w2 -> spaces w3 -> duration_written (w1 ++ t ++ w2 ++ lit name ++ w3) t name.
(** A number with an optional sign and point, and without an exponent. *)
Definition plain_numeral (t : str) : Prop := (exists n x, numeral t n x) /\ Forall (fun c => isalpha c = false) t.
Definition duration_text (s : str) : Prop := exists t name u, duration_written s t name /\ plain_numeral t /\ In name (unit_names u).
