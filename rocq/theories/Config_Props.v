(** Properties C35-C40 and C51: the getters of a resolved configuration. *)
From Verif Require Import Base Util_Model Num_Model Path_Model Path_Spec Token_Model Token_Spec PathParser_Model PathParser_Spec
  Value_Model Value_Spec Value_Props Duration_Model Duration_Spec Duration_Lemmas Config_Model Config_Spec Config_Lemmas Config_Lemmas2.

Definition text_value (s : string) : value := VScalar (SStr (lit s) true).
Definition settings : value := obj
  [(lit "n", num 42); (lit "big", VScalar (SLong 3000000000 (lit "3000000000"))); (lit "half", VScalar (SDouble (S754_finite false 15 (-1)) (lit "7.5")));
   (lit "s", text_value "17"); (lit "yes", text_value "yes"); (lit "nil", VScalar SNull); (lit "wait", text_value " 90 seconds ");
   (lit "a", obj [(lit "b c", VList [num 1; num 2]); (lit "d", VScalar (SBool true)); (lit "e", VScalar SNull)])].
Example settings_plain : plain settings /\ simple_object settings.
Proof. split; [plains|repeat eexists]. Qed.

(** C35.  get_int only returns an int that the stored number stands for. *)
Theorem get_int_exact : forall self ps n, plain self -> simple_object self -> get_int self ps = Ok n ->
  exists p v, new_path ps = Ok p /\ get p self = Some v /\ stands_for v n /\ fits32 n.
Proof. exact get_int_sound. Qed.
Print Assumptions get_int_exact.

(** C35.  Of a number that fits 64 bits get_long returns the integer; get_int does or raises, according
    to the 32-bit range.  Missing: numbers that do not fit 64 bits; for these the cast is undefined. *)
Theorem get_int_range_partial : forall self ps p v n, plain self -> simple_object self ->
  new_path ps = Ok p -> get p self = Some v -> stands_for v n -> fits64 n ->
  get_long self ps = Ok n /\ (fits32 n -> get_int self ps = Ok n) /\ (~ fits32 n -> get_int self ps = Throw EConfig).
Proof. exact get_int_complete. Qed.
Print Assumptions get_int_range_partial.

Example get_int_ex : get_int settings (lit "n") = Ok 42 /\ get_int settings (lit "half") = Ok 7 /\ get_int settings (lit "s") = Ok 17 /\
  get_int settings (lit "big") = Throw EConfig /\ get_long settings (lit "big") = Ok 3000000000.
Proof. repeat split; vm_compute; reflexivity. Qed.

(** C35.  The tokenizer never wraps an integer literal: the token of a whole number holds that number. *)
Theorem integer_literals_exact : forall allow_comments s, Forall exact_integer (fst (lex allow_comments s)).
Proof. exact literals_exact. Qed.
Print Assumptions integer_literals_exact.

Example integer_literals_ex :
  fst (lex false (lit "-9223372036854775808,9223372036854775808")) =
  [TStart; TValue (SLong (-9223372036854775808) (lit "-9223372036854775808")) (lit "-9223372036854775808"); TComma;
   TUnquoted (lit "9223372036854775808"); TEnd].
Proof. vm_compute. reflexivity. Qed.

(** C35, refuted for numbers beyond 64 bits: a larger literal becomes a string, and asking for its
    integer casts a double that is out of range. *)
Theorem get_long_range_refuted : exists self ps, plain self /\ simple_object self /\
  get [lit "x"] self = Some (text_value "9223372036854775808") /\ new_path ps = Ok [lit "x"] /\
  get_long self ps = Stuck UFloatCast /\ get_int self ps = Stuck UFloatCast.
Proof.
  exists (obj [(lit "x", text_value "9223372036854775808")]), (lit "x"). split; [plains|]. split; [repeat eexists|]. repeat split; vm_compute; reflexivity.
Qed.
Print Assumptions get_long_range_refuted.

(** C36.  has_path tells exactly whether get_value returns; has_path_or_null also accepts null. *)
Theorem has_path_tells_get_value : forall self ps, plain self -> simple_object self ->
  (has_path self ps = Ok true <-> exists v, get_value self ps = Ok v) /\
  (has_path self ps = Ok false -> exists e, get_value self ps = Throw e /\ is_config_exn e = true) /\
  (has_path_or_null self ps = Ok true <-> has_path self ps = Ok true \/ get_value self ps = Throw ENull).
Proof. exact has_path_spec. Qed.
Print Assumptions has_path_tells_get_value.

(** C36.  And get_value returns the value at the path. *)
Theorem get_value_at_path : forall self ps p, plain self -> simple_object self -> new_path ps = Ok p ->
  get_value self ps = outcome (get p self) Some /\
  has_path self ps = Ok (match get p self with Some v => negb (is_null v) | None => false end) /\
  has_path_or_null self ps = Ok (match get p self with Some _ => true | None => false end).
Proof. intros self ps p H1 H2 Hp. split; [exact (find_value self ps p H1 H2 Hp)|exact (has_path_value self ps p H1 H2 Hp)]. Qed.
Print Assumptions get_value_at_path.

Example has_path_ex : has_path settings (lit "a.d") = Ok true /\ has_path settings (lit "a.e") = Ok false /\
  has_path_or_null settings (lit "a.e") = Ok true /\ has_path_or_null settings (lit "a.x") = Ok false /\ has_path settings (lit "n.x") = Ok false.
Proof. repeat split; vm_compute; reflexivity. Qed.

(** C37.  What each getter gives: the converted value at the path; null_exception (a missing_exception)
    for null; a config_exception when the path leads nowhere or to a value that cannot be converted.
    Missing: in those two cases it is not a missing_exception or wrong_type_exception. *)
Theorem getter_conversions_partial : forall self ps p, plain self -> simple_object self -> new_path ps = Ok p ->
  get_value self ps = outcome (get p self) Some /\
  get_string self ps = outcome (get p self) as_text /\
  get_bool self ps = outcome (get p self) as_bool /\
  get_double self ps = outcome (get p self) as_double /\
  get_object self ps = outcome (get p self) as_object /\
  get_list self ps = outcome (get p self) as_list.
Proof. exact getters_spec. Qed.
Print Assumptions getter_conversions_partial.

(** C37.  get_int and get_long of anything that is not a number or text of a number. *)
Theorem get_int_rejects_partial : forall self ps p, plain self -> simple_object self -> new_path ps = Ok p ->
  match get p self with Some v => as_double v = None | None => True end ->
  get_int self ps = outcome (get p self) (fun _ => None) /\ get_long self ps = outcome (get p self) (fun _ => None).
Proof. exact get_int_other. Qed.
Print Assumptions get_int_rejects_partial.

Example getter_conversions_ex :
  get_string settings (lit "half") = Ok (lit "7.5") /\ get_bool settings (lit "yes") = Ok true /\
  get_string settings (lit "a.d") = Ok (lit "true") /\ get_string settings (lit "nil") = Throw ENull /\
  get_list settings (lit "a.'b c'") = Throw EConfig /\
  get_list settings (lit "a.""b c""") = Ok (Some [num 1; num 2]) /\ get_int settings (lit "yes") = Throw EConfig.
Proof. repeat split; vm_compute; reflexivity. Qed.

(** C37, refuted: the class of the exception is lost. *)
Theorem getter_exceptions_refuted : exists self, plain self /\ simple_object self /\
  get [lit "gone"] self = None /\ get_string self (lit "gone") = Throw EConfig /\
  get [lit "l"] self = Some (VList []) /\ get_string self (lit "l") = Throw EConfig.
Proof.
  exists (obj [(lit "l", VList [])]). split; [plains|]. split; [repeat eexists|]. repeat split; vm_compute; reflexivity.
Qed.
Print Assumptions getter_exceptions_refuted.

(** C38.  The duration of an integer (milliseconds) or of the text of an integer and a unit, in any unit:
    what comes back is the exact quotient, rounded towards zero.  Missing: an exception is also raised
    for negative durations that fit, and when a duration does not fit the signed arithmetic overflows
    instead of raising. *)
Theorem get_duration_exact_partial : forall self ps p v n u unit, plain self -> simple_object self ->
  new_path ps = Ok p -> get p self = Some v ->
  ((exists t, v = VScalar (SInt n t) \/ v = VScalar (SLong n t)) /\ u = MILLISECONDS \/
   (exists w1 t w2 name w3 q, v = VScalar (SStr (w1 ++ t ++ w2 ++ lit name ++ w3) q) /\
      spaces w1 /\ spaces w2 /\ spaces w3 /\ decimal t n /\ In name (unit_names u))) ->
  fits64 n ->
  match get_duration self ps unit with
  | Ok r => r = Z.quot (n * nanos_in u) (nanos_in unit)
  | Throw e => e = EConfig /\ n < 0 /\ (- second < n * nanos_in u \/ - nanos_in unit < n * nanos_in u)
  | Stuck x => x = UOverflow /\ (~ fits64 (Z.quot (n * nanos_in u) second) \/ ~ fits64 (Z.quot (n * nanos_in u) (nanos_in unit)))
  end.
Proof. exact duration_correct. Qed.
Print Assumptions get_duration_exact_partial.

(** C38.  The pair of seconds and nanoseconds made of an integer and a unit is that duration, normalised. *)
Theorem duration_of_integer_partial : forall n u, in_int64 n = true ->
  match convert_long n u with
  | Ok d => total d = n * nanos_in u /\ normal_duration d
  | Throw e => e = EConfig /\ - second < n * nanos_in u < 0
  | Stuck v => v = UOverflow /\ in_int64 (Z.quot (n * nanos_in u) second) = false
  end.
Proof. exact convert_long_full. Qed.
Print Assumptions duration_of_integer_partial.

Example get_duration_ex : get_duration settings (lit "wait") MINUTES = Ok 1 /\ get_duration settings (lit "wait") MICROSECONDS = Ok 90000000 /\
  get_duration settings (lit "n") NANOSECONDS = Ok 42000000 /\ convert_long (-1500) MILLISECONDS = Ok (-1, -500000000).
Proof. repeat split; vm_compute; reflexivity. Qed.

(** C38, refuted: -5 ns raises although it fits; "2.0 s" raises; 2^62 days overflows. *)
Theorem durations_refuted :
  convert_long (-5) NANOSECONDS = Throw EConfig /\
  parse_duration (lit "2.0 s") = Throw EConfig /\ parse_duration (lit "2 s") = Ok (2, 0) /\
  parse_duration (lit "4611686018427387904 d") = Stuck UOverflow.
Proof. repeat split; vm_compute; reflexivity. Qed.
Print Assumptions durations_refuted.

(** C39.  entry_set lists exactly the leaves, one entry for each path. *)
Theorem entry_set_lists_leaves : forall self, plain self -> exists ps,
  entry_set self = Ok (map (fun pv => (render_path (fst pv), snd pv)) ps) /\ NoDup (map fst ps) /\
  (forall p w, In (p, w) ps <-> p <> [] /\ get p self = Some w /\ leaf w).
Proof. exact entry_set_spec. Qed.
Print Assumptions entry_set_lists_leaves.

(** C39.  The path of an entry leads back to its value (see C01 for the restriction). *)
Theorem entry_set_paths_readable : forall self l s v, plain self -> simple_object self -> entry_set self = Ok l -> In (s, v) l ->
  exists p, s = render_path p /\ get p self = Some v /\
    (Forall (Forall quotable) p -> no_plain_digit p -> get_value self s = Ok v).
Proof. exact entry_readable. Qed.
Print Assumptions entry_set_paths_readable.

Example entry_set_ex : entry_set (obj [(lit "a", obj [(lit "b c", VList [num 1]); (lit "e", VScalar SNull)]); (lit "o", obj []); (lit "z", num 2)]) =
  Ok [(lit "a.""b c""", VList [num 1]); (lit "z", num 2)].
Proof. vm_compute. reflexivity. Qed.

(** C40.  Every getter returns or raises a config exception.  Missing: path expressions on which the path
    parser itself is undefined (C04); get_int and get_long of a number beyond 64 bits; get_duration when
    it overflows (C38); get_object_list of a list with a non-object. *)
Theorem getters_well_behaved_partial : forall self ps, plain self -> simple_object self -> (forall u, new_path ps <> Stuck u) ->
  well_behaved (has_path self ps) /\ well_behaved (has_path_or_null self ps) /\ well_behaved (get_is_null self ps) /\
  well_behaved (get_value self ps) /\ well_behaved (get_bool self ps) /\ well_behaved (get_double self ps) /\
  well_behaved (get_string self ps) /\ well_behaved (get_object self ps) /\ well_behaved (get_config self ps) /\
  well_behaved (get_list self ps) /\ well_behaved (get_any_ref self ps) /\ well_behaved (get_bool_list self ps) /\
  well_behaved (get_int_list self ps) /\ well_behaved (get_long_list self ps) /\ well_behaved (get_double_list self ps) /\
  well_behaved (get_string_list self ps) /\ well_behaved (get_config_list self ps) /\
  ((forall v s d t, get_value self ps = Ok v -> as_number v = Some s -> s = SDouble d t -> exists n, integer_part d n /\ fits64 n) ->
     well_behaved (get_int self ps) /\ well_behaved (get_long self ps)) /\
  ((forall vs, get_list self ps = Ok (Some vs) -> forallb is_object vs = true) -> well_behaved (get_object_list self ps)).
Proof. exact getters_behaved_all. Qed.
Print Assumptions getters_well_behaved_partial.

Example getters_well_behaved_ex : new_path (lit "a..b") = Throw EBadPath /\ get_value settings (lit "a..b") = Throw EBadPath /\
  get_string_list settings (lit "a.""b c""") = Throw EConfig /\ get_int_list settings (lit "a.""b c""") = Ok [1; 2].
Proof. repeat split; vm_compute; reflexivity. Qed.

(** C40, refuted: get_object_list throws a pointer; get_int and get_duration reach undefined behaviour. *)
Theorem getters_well_behaved_refuted : exists self, plain self /\ simple_object self /\
  get_object_list self (lit "l") = Throw EThrownPointer /\ is_config_exn EThrownPointer = false /\
  get_int self (lit "x") = Stuck UFloatCast /\ get_duration self (lit "d") SECONDS = Stuck UOverflow /\
  get_config_list self (lit "o") = Throw EConfig.
Proof.
  exists (obj [(lit "l", VList [num 1]); (lit "x", text_value "1e300"); (lit "d", text_value "4611686018427387904 d"); (lit "o", VList [obj []])]).
  split; [plains|]. split; [repeat eexists|]. repeat split; vm_compute; reflexivity.
Qed.
Print Assumptions getters_well_behaved_refuted.

(** C51.  The list getters return the elements of the list in order, and raise a config_exception if one is
    of another type.  There is no conversion: get_double_list only accepts elements stored as doubles. *)
Theorem list_getters_exact : forall self ps p, plain self -> simple_object self -> new_path ps = Ok p ->
  lists_elements int_element (get p self) (get_int_list self ps) /\
  lists_elements long_element (get p self) (get_long_list self ps) /\
  lists_elements double_element (get p self) (get_double_list self ps) /\
  lists_elements string_element (get p self) (get_string_list self ps) /\
  lists_elements bool_element (get p self) (get_bool_list self ps).
Proof. exact list_getters. Qed.
Print Assumptions list_getters_exact.

Example list_getters_ex : get_int_list settings (lit "a.""b c""") = Ok [1; 2] /\ get_double_list settings (lit "a.""b c""") = Throw EConfig /\
  get_long_list settings (lit "nil") = Throw ENull.
Proof. repeat split; vm_compute; reflexivity. Qed.
