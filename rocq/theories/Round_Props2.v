(** Property C72: decimal numbers read as doubles, and doubles written as decimal fractions. *)
From Coq Require Import Floats.SpecFloat.
From Verif Require Import Base Util_Model Num_Model Path_Model PathParser_Model PathParser_Spec Value_Model Value_Spec Value_Props
  Duration_Model Duration_Spec Config_Model Config_Spec Config_Props Round_Spec Round_Lemmas9 Round_Lemmas10.

(** C72.  get_double on any decimal number, a text or a number of the document: a double within half a unit in
    the last place, unless the number is that far above the largest double, which is a config_exception. *)
Theorem get_double_of_decimal : forall self ps p v t n x, plain self -> simple_object self ->
  new_path ps = Ok p -> get p self = Some v -> numeral t n x ->
  ((exists q, v = VScalar (SStr t q)) \/ (exists d, v = VScalar (SDouble d t) /\ lexical_cast_double t = Some d)) ->
  match get_double self ps with
  | Ok d => half_unit d n x
  | Throw e => e = EConfig /\ beyond n x
  | Stuck _ => False
  end.
Proof. exact get_double_numeral. Qed.
Print Assumptions get_double_of_decimal.

(** C72.  get_string on a double that was given without a text: the decimal fraction of six decimals that is
    nearest to it, for all finite doubles. *)
Theorem get_string_of_double : forall self ps p s m e, plain self -> simple_object self ->
  new_path ps = Ok p -> get p self = Some (VScalar (SDouble (S754_finite s m e) [])) ->
  exists t n, get_string self ps = Ok t /\ 0 <= n /\ fraction t (if s then - n else n) 6 /\ nearest_millionths (Zpos m) e n.
Proof. exact get_string_near. Qed.
Print Assumptions get_string_of_double.

Example get_double_of_decimal_ex :
  let self := obj [(lit "a", VScalar (SStr (lit "-0.1") true)); (lit "b", VScalar (SStr (lit "2.5E+3") false)); (lit "c", VScalar (SStr (lit "9e999") true)); (lit "d", VScalar (SStr (lit "3e-320") true))] in
  numeral (lit "-0.1") (-1) (-1) /\ get_double self (lit "a") = Ok (S754_finite true 7205759403792794 (-56)) /\
  numeral (lit "2.5E+3") 25 2 /\ get_double self (lit "b") = Ok (S754_finite false 5497558138880000 (-41)) /\
  get_double self (lit "c") = Throw EConfig /\ beyond 9 999 /\
  get_double self (lit "d") = Ok (S754_finite false 6072 (-1074)) /\ half_unit (S754_finite false 6072 (-1074)) 3 (-320).
Proof.
  split; [exact (numeral_text (lit "-") true (lit "0") (lit ".1") (lit "1") [] 0 sign_minus ltac:(repeat constructor) (point_some (lit "1") ltac:(repeat constructor)) ltac:(discriminate) exponent_none)|].
  split; [vm_compute; reflexivity|]. split.
  { exact (numeral_text [] false (lit "2") (lit ".5") (lit "5") (lit "E+3") 3 sign_none ltac:(repeat constructor) (point_some (lit "5") ltac:(repeat constructor)) ltac:(discriminate)
      (exponent_some "E" (lit "+") false (lit "3") (or_intror eq_refl) sign_plus ltac:(repeat constructor) ltac:(discriminate))). }
  split; [vm_compute; reflexivity|]. split; [vm_compute; reflexivity|]. split; [vm_compute; discriminate|]. split; [vm_compute; reflexivity|].
  vm_compute. repeat split; try discriminate. right. reflexivity.
Qed.
Example get_string_of_double_ex :
  let self := obj [(lit "big", VScalar (SDouble (S754_finite false 6755399441055744 30) [])); (lit "half", VScalar (SDouble (S754_finite true 5066549580791808 (-53)) []))] in
  simple_object self /\ plain self /\ get_string self (lit "big") = Ok (lit "7253554917687775048237056.000000") /\
  get_string self (lit "half") = Ok (lit "-0.562500") /\ nearest_millionths 5066549580791808 (-53) 562500.
Proof. split; [do 3 eexists; reflexivity|]. split; [constructor; [constructor; [cbn; intros [H|[]]; discriminate H|repeat constructor; intros []]|repeat constructor]|]. repeat split; vm_compute; try discriminate; reflexivity. Qed.

(** C72, refuted for writing and reading again: doubles below half a millionth are written as zero, and others
    lose their last digits. *)
Theorem double_text_again_refuted :
  let tiny := S754_finite false 4503599627370496 (-80) in
  get_string (obj [(lit "x", VScalar (SDouble tiny []))]) (lit "x") = Ok (lit "0.000000") /\
  get_double (obj [(lit "x", VScalar (SStr (lit "0.000000") true))]) (lit "x") = Ok (S754_zero false).
Proof. split; vm_compute; reflexivity. Qed.
Print Assumptions double_text_again_refuted.
