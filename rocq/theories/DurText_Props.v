(** C80: only numbers with a unit are durations. *)
From Verif Require Import Base Util_Model Num_Model Path_Model PathParser_Model Value_Model Value_Spec Config_Model Config_Spec Duration_Model Duration_Spec Round_Spec DurText_Spec DurText_Lemmas.

(** A text is a number without an exponent and the name of a unit, or is refused with one of two exceptions. *)
Theorem durations_only : forall s, duration_text s \/ parse_duration s = Throw EBadValue \/ parse_duration s = Throw EConfig.
Proof. exact text_or_throws. Qed.
Print Assumptions durations_only.

(** What get_duration does not refuse is a number or such a text. *)
Theorem get_duration_only : forall self ps p unit, plain self -> simple_object self -> new_path ps = Ok p -> (forall e, get_duration self ps unit <> Throw e) ->
  exists v, get p self = Some v /\
    ((exists n t, v = VScalar (SInt n t) \/ v = VScalar (SLong n t)) \/ (exists d t, v = VScalar (SDouble d t)) \/ exists s q, v = VScalar (SStr s q) /\ duration_text s).
Proof. exact duration_only. Qed.
Print Assumptions get_duration_only.

Example durations_only_ex : duration_text (lit " -1.5  hour ") /\ (forall e, parse_duration (lit " -1.25 s ") <> Throw e) /\
  parse_duration (lit "3 weeks") = Throw EConfig /\ parse_duration (lit "1e3 s") = Throw EConfig /\ parse_duration (lit "1.2.3 s") = Throw EBadValue /\ parse_duration (lit "days") = Throw EBadValue.
Proof.
  split; [|repeat split; vm_compute; congruence]. exists (lit "-1.5"), "hour"%string, HOURS. split; [|split; [split|]].
  - apply (written_duration (lit " ") (lit "-1.5") (lit "  ") "hour" (lit " ")); repeat constructor.
  - eexists. eexists. apply (numeral_text (lit "-") true (lit "1") (lit ".5") (lit "5") [] 0); [constructor|repeat constructor|constructor; repeat constructor|discriminate|constructor].
  - repeat constructor.
  - right. left. reflexivity.
Qed.
Definition timeouts : value := VObj true false [(lit "t", VScalar (SStr (lit "90 minutes") true))].
Example get_duration_only_ex : plain timeouts /\ simple_object timeouts /\ new_path (lit "t") = Ok [lit "t"] /\ get_duration timeouts (lit "t") SECONDS = Ok 5400.
Proof. split; [|split; [repeat eexists|split; vm_compute; reflexivity]]. unfold timeouts. apply plain_obj; [repeat constructor; intros []|repeat constructor]. Qed.
