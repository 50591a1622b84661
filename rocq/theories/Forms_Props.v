(** C82: what the forms of an include statement mean. *)
From Verif Require Import Base BaseLemmas Path_Model PathParser_Model PathParser_Spec Doc_Model Value_Model ConfigParser_Model ConfText_Spec Escape_Spec Rfc_Spec Forms_Spec Forms_Lemmas.

(** A plain name asks for the file in the general way, file(…) for the file as such; url(…) and classpath(…) are refused without
    asking. *)
Theorem include_forms : forall g g1 w g2 named, blank_text g = true -> maybe_blank g1 -> maybe_blank g2 -> stands_for w named ->
  asks KHeuristic named (plain_include g w) /\ asks KFile named (called_include (lit "file") g g1 w g2) /\
  (forall inc next, parse_config CONF inc (called_include (lit "url") g g1 w g2) next = Throw EConfig) /\
  (forall inc next, parse_config CONF inc (called_include (lit "classpath") g g1 w g2) next = Throw EConfig).
Proof. exact forms. Qed.
Print Assumptions include_forms.

(** Any other name before the parenthesis is a syntax error.  (true, false and null are read as values, not as names.) *)
Theorem include_other_forms_refused : forall f g g1 w g2 named inc next, f <> [] -> Forall (fun c => isalpha c = true) f ->
  (forall x b, In x [lit "true"; lit "null"; lit "false"] -> f <> x ++ b) -> ~ In f [lit "file"; lit "url"; lit "classpath"] ->
  blank_text g = true -> maybe_blank g1 -> maybe_blank g2 -> stands_for w named ->
  parse_config CONF inc (called_include f g g1 w g2) next = Throw EParse.
Proof. exact other_form. Qed.
Print Assumptions include_other_forms_refused.

(** A name with an escape in it: the backslash is doubled in the text. *)
Example a_name : stands_for (lit "a\\b.conf") (lit "a\b.conf").
Proof. apply s_plain; [vm_compute; split; discriminate|discriminate|discriminate|]. apply (s_short "\"%char "\"%char); [cbn; auto|]. repeat (apply s_plain; [vm_compute; split; discriminate|discriminate|discriminate|]). constructor. Qed.
Example a_statement : called_include (lit "file") (lit "  ") (lit " ") (lit "a\\b.conf") [] = lit "include  file( ""a\\b.conf"")".
Proof. reflexivity. Qed.
Example a_file : asks KFile (lit "a\b.conf") (lit "include  file( ""a\\b.conf"")").
Proof. exact (proj1 (proj2 (include_forms (lit "  ") (lit " ") (lit "a\\b.conf") [] (lit "a\b.conf") eq_refl (or_intror eq_refl) (or_introl eq_refl) a_name))). Qed.
(** What it then is, with an includer that knows that file only. *)
Example a_file_read : parse_config CONF (fun kind name next => match kind with KFile => if str_eqb name (lit "a\b.conf") then Ok (VObj true false [(lit "x", VList [])], next) else Throw EConfig | _ => Throw EConfig end)
  (lit "include  file( ""a\\b.conf"")") 7 = Ok (Some (VObj true false [(lit "x", VList [])]), 7%nat).
Proof. vm_compute. reflexivity. Qed.
Example required_refused : forall inc next, parse_config CONF inc (lit "include required(""a\\b.conf"" )") next = Throw EParse.
Proof.
  intros inc next. refine (include_other_forms_refused (lit "required") (lit " ") [] (lit "a\\b.conf") (lit " ") (lit "a\b.conf") inc next _ _ _ _ eq_refl (or_introl eq_refl) (or_intror eq_refl) a_name);
    [discriminate|repeat constructor|intros x b [<-|[<-|[<-|[]]]]; discriminate|cbn; intuition discriminate].
Qed.
