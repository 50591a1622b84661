(** Property C73: the numbers written in documents. *)
From Coq Require Import Floats.SpecFloat.
From Verif Require Import Base Util_Model Num_Model Token_Model PathParser_Model Value_Model Value_Props Doc_Model ConfigParser_Model Config_Model Round_Spec Round_Lemmas11.

(** C73, for numbers up to the last double before 2^63.  Every decimal number that starts with a digit or a minus sign is accepted as a
    value, as JSON and as HOCON.  Read as text it is exactly what was written, read as a double it is within half a
    unit in the last place, and written without point and exponent it is read exactly as an integer.
    Missing: larger numbers, see number_in_document_refuted. *)
Theorem number_in_document_partial : forall f inc next c more n x,
  numeral (c :: more) n x -> (isdigit c = true \/ c = "-"%char) -> upper (Z.abs n) x < (2 ^ 63 - 1024) * lower_part x ->
  exists root d, parse_config f inc (lit "{""k"":" ++ (c :: more) ++ lit "}") next = Ok (Some root, next) /\
    get_string root (lit "k") = Ok (c :: more) /\ get_double root (lit "k") = Ok d /\ half_unit d n x /\
    ((forall a, In a more -> a <> "."%char /\ a <> "e"%char /\ a <> "E"%char) -> get_long root (lit "k") = Ok n).
Proof. exact number_document. Qed.
Print Assumptions number_in_document_partial.

(** C73, integers.  Every integer of 64 bits, with leading zeros or not, is kept as it was written and read exactly. *)
Theorem integer_in_document : forall f inc next c more n,
  numeral (c :: more) n 0 -> (isdigit c = true \/ c = "-"%char) ->
  (forall a, In a more -> a <> "."%char /\ a <> "e"%char /\ a <> "E"%char) -> - 2 ^ 63 <= n < 2 ^ 63 ->
  exists root, parse_config f inc (lit "{""k"":" ++ (c :: more) ++ lit "}") next = Ok (Some root, next) /\
    get_string root (lit "k") = Ok (c :: more) /\ get_long root (lit "k") = Ok n.
Proof. exact integer_document. Qed.
Print Assumptions integer_in_document.

Example number_in_document_ex :
  numeral (lit "-2.50") (-250) (-2) /\ upper 250 (-2) < (2 ^ 63 - 1024) * lower_part (-2) /\
  (exists root, parse_config JSON no_includes (lit "{""k"":-2.50}") 0 = Ok (Some root, 0%nat) /\
     get_string root (lit "k") = Ok (lit "-2.50") /\ get_double root (lit "k") = Ok (S754_finite true 5629499534213120 (-51))) /\
  (exists root, parse_config CONF no_includes (lit "{""k"":-9223372036854775808}") 0 = Ok (Some root, 0%nat) /\
     get_long root (lit "k") = Ok (-9223372036854775808)).
Proof.
  split; [exact (numeral_text (lit "-") true (lit "2") (lit ".50") (lit "50") [] 0 sign_minus ltac:(repeat constructor) (point_some (lit "50") ltac:(repeat constructor)) ltac:(discriminate) exponent_none)|].
  split; [vm_compute; reflexivity|]. split; eexists; repeat split; vm_compute; reflexivity.
Qed.

(** C73, refuted for large numbers.  A number with an exponent that is a double but not an int64 is converted to
    int64 by the tokenizer, which is undefined behaviour.  2^63 without exponent is rejected in JSON and becomes
    a text in HOCON, and so does a number above the doubles. *)
Theorem number_in_document_refuted :
  let root t := VObj true false [(lit "k", VScalar (SStr t false))] in
  numeral (lit "1e300") 1 300 /\ ~ beyond 1 300 /\
  parse_config JSON no_includes (lit "{""k"":1e300}") 0 = Stuck UFloatCast /\
  parse_config CONF no_includes (lit "{""k"":1e300}") 0 = Stuck UFloatCast /\
  parse_config JSON no_includes (lit "{""k"":9223372036854775808}") 0 = Throw EParse /\
  parse_config CONF no_includes (lit "{""k"":9223372036854775808}") 0 = Ok (Some (root (lit "9223372036854775808")), 0%nat) /\
  parse_config JSON no_includes (lit "{""k"":1e999}") 0 = Throw EParse /\
  parse_config CONF no_includes (lit "{""k"":1e999}") 0 = Ok (Some (root (lit "1e999")), 0%nat).
Proof.
  split; [exact (numeral_text [] false (lit "1") [] [] (lit "e300") 300 sign_none ltac:(repeat constructor) point_none ltac:(discriminate) (exponent_some "e" [] false (lit "300") (or_introl eq_refl) sign_none ltac:(repeat constructor) ltac:(discriminate)))|].
  split; [intro H; vm_compute in H; apply H; reflexivity|]. repeat split; vm_compute; reflexivity.
Qed.
Print Assumptions number_in_document_refuted.
