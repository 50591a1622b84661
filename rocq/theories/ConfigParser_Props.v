(** Properties C25, C26: repeated, dotted and appending fields. *)
From Verif Require Import Base Util_Model Num_Model Path_Model Token_Model PathParser_Model Doc_Model Edit_Model Value_Model Value_Spec Value_Props Concat_Model
  ConfigParser_Model ConfigParser_Spec ConfigParser_Lemmas ConfigParser_Lemmas2.

(** C25.  The value at a key is made of the values its definitions give, in order, each with what came before
    as its fallback.  For all fields, resolved or not. *)
Theorem definitions_in_order : forall includer cs path_stack ac next v next', Forall no_include cs ->
  parse_value CONF includer (NObject cs) path_stack ac next = Ok (v, next') ->
  exists defs, Forall2 (defines includer path_stack ac) (field_nodes cs) defs /\
    simple_object v /\ forall k, history (definitions_of k defs) = Ok (get [k] v).
Proof. exact object_meaning. Qed.
Print Assumptions definitions_in_order.

(** C25.  So a last definition that is no object is the value of the key, and several resolved definitions are
    the stack of them with the last in front (C15, C17 say what that is): objects are merged. *)
Theorem last_definition_wins : forall includer cs path_stack ac next v next', Forall no_include cs ->
  parse_value CONF includer (NObject cs) path_stack ac next = Ok (v, next') ->
  exists defs, Forall2 (defines includer path_stack ac) (field_nodes cs) defs /\
    (forall k, definitions_of k defs = [] -> get [k] v = None) /\
    (forall k before last, definitions_of k defs = before ++ [last] -> plain last -> is_object last = false -> get [k] v = Some last) /\
    (forall k, definitions_of k defs <> [] -> Forall plain (definitions_of k defs) ->
       exists w, get [k] v = Some w /\ stack_of (rev (definitions_of k defs)) = Ok w).
Proof. exact last_wins. Qed.
Print Assumptions last_definition_wins.

(** C25.  A dotted key means nested objects: the outcome of the whole object is the same.  Missing (false, see
    the end of this file): values with [+=] in them. *)
Theorem dotted_key_is_nested_partial : forall includer before after k rest ts ts1 ts2 fcs n s ac next,
  field_path fcs = Ok (k :: rest, ts) -> rest <> [] -> is_plus_equals fcs = false -> field_value fcs = Ok n -> no_append n = true ->
  parse_value CONF includer (NObject (before ++ NField fcs :: after)) s ac next =
  parse_value CONF includer (NObject (before ++ nested_field k rest ts1 ts2 n :: after)) s ac next.
Proof. exact dotted_nested. Qed.
Print Assumptions dotted_key_is_nested_partial.

Definition parsed (s : string) : result (option value) := '(v, _) <- parse_config CONF no_includes (lit s) 0 ;; Ok v.
Definition at_path_of (r : result (option value)) (p : path) : result (option value) :=
  o <- r ;; match o with Some v => Ok (get p v) | None => Ok None end.

Example repeated_keys_ex :
  at_path_of (parsed "a = 1, a { x = 1, y = 1 }, b = q, a.y = 2, a.z.w = 3") [lit "a"; lit "x"] = Ok (Some (VScalar (SInt 1 (lit "1")))) /\
  at_path_of (parsed "a = 1, a { x = 1, y = 1 }, b = q, a.y = 2, a.z.w = 3") [lit "a"; lit "y"] = Ok (Some (VScalar (SInt 2 (lit "2")))) /\
  at_path_of (parsed "a = 1, a { x = 1, y = 1 }, b = q, a.y = 2, a.z.w = 3") [lit "a"; lit "z"; lit "w"] = Ok (Some (VScalar (SInt 3 (lit "3")))) /\
  at_path_of (parsed "a { x = 1 }, a = 5, a { y = 2 }") [lit "a"; lit "x"] = Ok None /\
  at_path_of (parsed "a { x = 1 }, a = 5, a { y = 2 }, a = 6") [lit "a"] = Ok (Some (VScalar (SInt 6 (lit "6")))).
Proof. repeat split; vm_compute; reflexivity. Qed.

(** The document of a text is one object whose fields meet the hypotheses. *)
Definition field_text (s : string) : result (list (list node)) :=
  ns <- parse_document CONF (lit s) ;;
  match ns with [NObject cs] => Ok (field_nodes cs) | _ => Throw EBug end.
Example dotted_key_ex : exists f1 f2 p ts n, field_text "x = 1, a.b.c = {q = 1}" = Ok [f1; f2] /\
  field_path f2 = Ok (p, ts) /\ p = [lit "a"; lit "b"; lit "c"] /\ is_plus_equals f2 = false /\ field_value f2 = Ok n /\ no_append n = true /\
  parsed "x = 1, a.b.c = {q = 1}" = parsed "x = 1, a : { b.c : {q = 1}}".
Proof. do 5 eexists. repeat split; try (vm_compute; reflexivity). Qed.

(** The identities given to references do not matter to the parser. *)
Theorem identities_irrelevant : forall flavor includer, steady includer ->
  forall n s ac n1 n2, same_outcome (parse_value flavor includer n s ac n1) (parse_value flavor includer n s ac n2).
Proof. exact numbers_same. Qed.
Print Assumptions identities_irrelevant.

(** C26.  A field [p += n] of the root object means [p = ${?p} [n]].  Missing (false, see below): fields of
    objects below the root. *)
Theorem append_is_self_reference_partial : forall includer before after fcs p ts n expression ts' next, steady includer ->
  field_path fcs = Ok (p, ts) -> is_plus_equals fcs = true -> field_value fcs = Ok n ->
  parse_path_expression true CONF expression LEnd = Ok (p, ts') ->
  same_outcome (parse_value CONF includer (NObject (before ++ NField fcs :: after)) [] 0 next)
    (parse_value CONF includer (NObject (before ++ self_append p ts expression n :: after)) [] 0 next).
Proof. exact append_same. Qed.
Print Assumptions append_is_self_reference_partial.

Example append_ex : exists f1 f2 p ts n e ts', field_text "a.b = [1], a.b += ${x}" = Ok [f1; f2] /\
  field_path f2 = Ok (p, ts) /\ is_plus_equals f2 = true /\ field_value f2 = Ok n /\ parse_path_expression true CONF e LEnd = Ok (p, ts') /\
  parsed "a.b = [1], a.b += 2" = parsed "a.b = [1], a.b = ${?a.b} [2]".
Proof.
  do 5 eexists. exists [TUnquoted (lit "a.b")]. eexists. repeat split; try (vm_compute; reflexivity).
Qed.
Example steady_ex : steady no_includes.
Proof. intros kind name n1 n2. reflexivity. Qed.

(** C26, refuted: below the root the reference is to the outermost field, not to the field itself, and
    appending inside a list raises. *)
Theorem nested_append_refuted :
  parsed "a { b = [1], b += 2 }" <> parsed "a { b = [1], b = ${?a.b} [2] }" /\
  parsed "a { b += 2 }" = parsed "a { b = ${?a} [2] }" /\
  parsed "a = [{ b += 2 }]" = Throw EParse /\ (exists v, parsed "a = [{ b = ${?b} [2] }]" = Ok (Some v)).
Proof. split; [vm_compute; discriminate|]. split; [vm_compute; reflexivity|]. split; [vm_compute; reflexivity|eexists; vm_compute; reflexivity]. Qed.
Print Assumptions nested_append_refuted.

(** C25, refuted with [+=] inside: the reference is to the whole outermost key. *)
Theorem dotted_append_refuted : parsed "a.b { c += 1 }" <> parsed "a { b { c += 1 } }".
Proof. vm_compute. discriminate. Qed.
Print Assumptions dotted_append_refuted.
