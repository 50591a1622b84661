(** Wrapping plain data as values (C59), rendering it (C60), and setting values in documents (C61). *)
From Verif Require Import Base Util_Model Num_Model Path_Model PathParser_Model Token_Model Doc_Model Edit_Model Edit_Spec Value_Model Value_Spec Config_Model Concat_Model ConfigParser_Model Render_Model Render_Spec
  Factory_Model Factory_Spec Factory_Lemmas Factory_Lemmas2 Factory_Lemmas3 Factory_Lemmas4 Factory_Lemmas5.

(** C59.  Data wrapped as a value is found again by unwrapping it. *)
Theorem wrapped_data_unwraps : forall u, unwrapped (from_any_ref u) = Ok u.
Proof. exact wrap_unwrap. Qed.
Print Assumptions wrapped_data_unwraps.

Example wrapped_data_unwraps_ex :
  unwrapped (from_any_ref (UMap [(lit "a.b", UList [UInt 3; UBlank; UBool true]); (lit "c", UMap [([], ULong (2 ^ 40))]); (lit "d", UString (lit "x"))])) =
  Ok (UMap [(lit "a.b", UList [UInt 3; UBlank; UBool true]); (lit "c", UMap [([], ULong (2 ^ 40))]); (lit "d", UString (lit "x"))]).
Proof. vm_compute. reflexivity. Qed.

(** C59.  Every value without substitutions can be unwrapped, and wrapping what was found gives a value that matches
    it: same structure, kinds, keys, numbers and strings. *)
Theorem unwrapped_value_rewraps : forall v, plain v -> exists u, unwrapped v = Ok u /\ matching v (from_any_ref u).
Proof. exact rewraps. Qed.
Print Assumptions unwrapped_value_rewraps.

(** C59.  The two are equal for the library too. *)
Theorem rewrapped_value_equal : forall v u, unwrapped v = Ok u -> well_keyed v -> comparable v ->
  value_eq v (from_any_ref u) = Ok true /\ value_eq (from_any_ref u) v = Ok true.
Proof. exact rewrapped_equal. Qed.
Print Assumptions rewrapped_value_equal.

(** C59.  They read alike, by every getter but get_string. *)
Theorem rewrapped_value_reads_partial : forall v u p, unwrapped v = Ok u ->
  let w := from_any_ref u in
  Config_Model.has_path v p = Config_Model.has_path w p /\ has_path_or_null v p = has_path_or_null w p /\ get_is_null v p = get_is_null w p /\
  get_bool v p = get_bool w p /\ get_int v p = get_int w p /\ get_long v p = get_long w p /\ get_double v p = get_double w p /\
  (forall unit, get_duration v p unit = get_duration w p unit) /\ get_any_ref v p = get_any_ref w p /\
  get_bool_list v p = get_bool_list w p /\ get_int_list v p = get_int_list w p /\ get_long_list v p = get_long_list w p /\
  get_double_list v p = get_double_list w p /\ get_string_list v p = get_string_list w p.
Proof. exact rewrapped_reads. Qed.
Print Assumptions rewrapped_value_reads_partial.

(** A value that meets the hypotheses: a number with a text of its own, an unquoted string, flags. *)
Definition worn : value := VObj true true [(lit "a", VScalar (SInt 7 (lit "007"))); (lit "b", VList [VScalar (SStr (lit "yes") false); VScalar SNull]); (lit "c", VObj true false [])].
Example rewrapped_value_ex : plain worn /\ well_keyed worn /\ comparable worn /\
  exists u, unwrapped worn = Ok u /\ from_any_ref u <> worn /\ get_int worn (lit "a") = Ok 7 /\ get_int (from_any_ref u) (lit "a") = Ok 7.
Proof.
  split; [|split; [|split]].
  - unfold worn. repeat constructor; cbn; intuition discriminate.
  - unfold worn. repeat constructor; cbn; intuition discriminate.
  - unfold worn. comparing.
  - eexists. split; [vm_compute; reflexivity|]. split; [vm_compute; discriminate|]. split; vm_compute; reflexivity.
Qed.

(** C59, refuted for get_string: a number keeps the text it was read from, the rewrapped one has none. *)
Theorem rewrapped_value_reads_refuted : exists v u, unwrapped v = Ok u /\ plain v /\ well_keyed v /\ comparable v /\
  get_string v (lit "a") = Ok (lit "007") /\ get_string (from_any_ref u) (lit "a") = Ok (lit "7").
Proof. exact rewrapped_string_bad. Qed.
Print Assumptions rewrapped_value_reads_refuted.

(** C60.  Data that JSON can hold, wrapped and rendered as JSON without comments, parses back to the same contents. *)
Theorem wrapped_data_renders_partial : forall o d u includer next, data u -> match u with UList _ | UMap _ => True | _ => False end ->
  json o = true -> origin_comments o = false -> comments o = false ->
  exists text w, render_value o (from_any_ref_notes d) (from_any_ref u) = Ok text /\ parse_config JSON includer text next = Ok (Some w, next) /\
    same_contents (from_any_ref u) w.
Proof. exact data_renders. Qed.
Print Assumptions wrapped_data_renders_partial.

Example wrapped_data_renders_ex : exists text w, render_value concise (from_any_ref_notes []) (from_any_ref (UMap [(lit "b", UList [UInt (-3); UBlank]); (lit "a", UString (lit "x""y"))])) = Ok text /\
  text = lit "{""a"":""x\""y"",""b"":[-3,null]}" /\ parse_config JSON no_includes text 0 = Ok (Some w, 0%nat) /\
  data (UMap [(lit "b", UList [UInt (-3); UBlank]); (lit "a", UString (lit "x""y"))]).
Proof. eexists. eexists. split; [vm_compute; reflexivity|]. split; [reflexivity|]. split; [vm_compute; reflexivity|]. exact data_case. Qed.

(** C60, refuted with comments switched on, as they are by default: what is inside has a null origin, which is
    dereferenced.  This goes for every list or map that is not empty. *)
Theorem wrapped_data_renders_refuted : forall o d u, origin_comments o = true \/ comments o = true -> with_parts u ->
  render_value o (from_any_ref_notes d) (from_any_ref u) = Stuck UNullDeref.
Proof. exact data_stuck. Qed.
Print Assumptions wrapped_data_renders_refuted.

Example wrapped_data_renders_refuted_ex : comments default_options = true /\ with_parts (UList [UInt 1]) /\
  render_value default_options (from_any_ref_notes []) (from_any_ref (UList [UInt 1])) = Stuck UNullDeref.
Proof. split; [reflexivity|]. split; [exact I|]. vm_compute. reflexivity. Qed.

(** C60, refuted for doubles: a program's double is written with six decimals. *)
Theorem wrapped_doubles_render_refuted : exists x text w, render_value concise (from_any_ref_notes []) (from_any_ref (UList [UDouble x])) = Ok text /\
  parse_config JSON no_includes text 0 = Ok (Some w, 0%nat) /\ ~ same_contents (from_any_ref (UList [UDouble x])) w /\ SFeqb x x = true.
Proof. exact double_bad. Qed.
Print Assumptions wrapped_doubles_render_refuted.

(** C61.  A value set in a document is there afterwards. *)
Theorem value_set_present_partial : forall f root ps v ns root', document f root -> f = CONF \/ (exists p, new_path ps = Ok p) ->
  document_with_value f root ps v ns = Ok root' -> Edit_Model.has_path root' ps = Ok true.
Proof. exact set_value_present. Qed.
Print Assumptions value_set_present_partial.

(** C61.  The text written for a value is a value for the document parser and means the same as the value, in a HOCON
    document whatever comments there are in the value, in a JSON document if there are none. *)
Theorem value_set_means_value_partial : forall includer v ns, writable v -> one_line_comments ns ->
  exists text n w, (forall root ps, document_with_value CONF root ps v ns = root_set_value root ps (Some n) CONF) /\
    (no_comments ns -> forall root ps, document_with_value JSON root ps v ns = root_set_value root ps (Some n) JSON) /\
    parse_value_text CONF text = Ok (Some n) /\ (forall st ac next, parse_value CONF includer n st ac next = Ok (w, next)) /\ same_contents v w.
Proof. exact set_means. Qed.
Print Assumptions value_set_means_value_partial.

Example value_set_ex : exists root root', parse_document CONF (lit "{ a : 1 }") = Ok root /\
  document_with_value CONF root (lit "b.c") (VList [VScalar (SInt 2 []); VScalar (SStr (lit "x") true)]) (fun _ => Some ([], [lit "note"])) = Ok root' /\
  render_document root' = lit "{ a : 1, b : { c : [" ++ [nl] ++ lit "      # note" ++ [nl] ++ lit "      2," ++ [nl] ++ lit "      # note" ++ [nl] ++ lit "      ""x""" ++ [nl] ++ lit "  ] } }" /\
  Edit_Model.has_path root' (lit "b.c") = Ok true /\
  one_line_comments (fun _ => Some ([], [lit "note"])) /\ writable (VList [VScalar (SInt 2 []); VScalar (SStr (lit "x") true)]).
Proof. exact set_case. Qed.

(** C61.  Setting a plain value, with comments or not, succeeds at every accepted path of a document: in HOCON if the
    object of the document is written in braces, in JSON if there are no comments in the value. *)
Theorem value_set_succeeds_partial : forall f root ps p cs v ns, document f root -> top_object root = Some cs ->
  parse_path_node ps f = Ok p -> writable v -> one_line_comments ns ->
  match f with CONF => in_braces cs = true | JSON => no_comments ns end ->
  exists root', document_with_value f root ps v ns = Ok root'.
Proof. exact set_value_ends. Qed.
Print Assumptions value_set_succeeds_partial.

Example value_set_succeeds_ex : exists root cs root', parse_document CONF (lit "{ a { b : 1 } }") = Ok root /\ top_object root = Some cs /\ in_braces cs = true /\
  writable (VList [VScalar (SInt 2 []); VScalar (SStr (lit "x") true)]) /\ one_line_comments (fun _ => Some ([], [lit "note"])) /\
  document_with_value CONF root (lit "a.c") (VList [VScalar (SInt 2 []); VScalar (SStr (lit "x") true)]) (fun _ => Some ([], [lit "note"])) = Ok root'.
Proof.
  eexists. eexists. eexists. repeat (split; [vm_compute; reflexivity|]). destruct set_case as [? [? [_ [_ [_ [_ [C W]]]]]]]. split; [exact W|]. split; [exact C|]. vm_compute. reflexivity.
Qed.

(** C61, refuted: no list or map that is not empty and was made by the value factory can be set in any document. *)
Theorem data_set_refuted : forall f root ps d u, with_parts u ->
  document_with_value f root ps (from_any_ref u) (from_any_ref_notes d) = Stuck UNullDeref.
Proof. exact set_data_stuck. Qed.
Print Assumptions data_set_refuted.

(** C61, refuted: a value with a comment cannot be set in a JSON document. *)
Theorem commented_value_set_refuted : exists s root v ns, parse_document JSON s = Ok root /\ writable v /\ one_line_comments ns /\
  document_with_value JSON root (lit "a") v ns = Throw EConfig.
Proof. exact set_comment_bad. Qed.
Print Assumptions commented_value_set_refuted.

(** C61, refuted: setting a list in a document of two lines without braces never ends. *)
Theorem value_set_terminates_refuted : exists s root v ns, parse_document CONF s = Ok root /\ writable v /\ one_line_comments ns /\
  document_with_value CONF root (lit "c") v ns = Stuck UNoTermination.
Proof. exact set_endless_bad. Qed.
Print Assumptions value_set_terminates_refuted.
