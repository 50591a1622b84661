(** Properties of editing JSON documents. *)
From Verif Require Import Base Util_Model Num_Model Path_Model Path_Spec Token_Model Token_Spec PathParser_Model PathParser_Spec Doc_Model Edit_Model Value_Model Value_Spec Concat_Model ConfigParser_Model JsonEdit_Spec JsonEdit_Lemmas8.

(** C50, C62.  A JSON document edited any number of times is JSON again.  Restricted to documents and value texts where
    every comma in an object is on the line of the field before it, to path texts as in [path_text], and to
    paths not going through anything but objects; refuted otherwise, see below. *)
Theorem json_edits_parse_partial : forall ns, json_document ns -> exists v, json_text (render_document ns) v.
Proof. exact json_edits_text. Qed.
Print Assumptions json_edits_parse_partial.

(** C50, C62.  Setting a value then ends, and gives a JSON text that has the value at the path, and at every path apart
    from it what was there before. *)
Theorem json_set_value_partial : forall ns v ps p text n w, json_document ns -> json_text (render_document ns) v -> simple_object v ->
  path_text ps p -> way_open p v -> ~ In (ch 0) text -> json_value_text text n w -> neat n = true ->
  exists ns' v', with_value_text JSON ns ps text = Ok ns' /\ json_document ns' /\ json_text (render_document ns') v' /\
    get p v' = Some w /\ forall q, apart p q -> get q v' = get q v.
Proof. exact json_set_meaning. Qed.
Print Assumptions json_set_value_partial.

(** C62.  Removing a path gives a JSON text without the value, and with what was there before at every path apart. *)
Theorem json_remove_value_partial : forall ns v ps p, json_document ns -> json_text (render_document ns) v -> simple_object v -> path_text ps p ->
  exists ns' v', Edit_Model.without_path JSON ns ps = Ok ns' /\ json_document ns' /\ json_text (render_document ns') v' /\
    get p v' = None /\ forall q, apart p q -> get q v' = get q v.
Proof. exact json_remove_meaning. Qed.
Print Assumptions json_remove_value_partial.

(** C62.  has_path tells whether the text of the document has a value at the path. *)
Theorem json_has_path_partial : forall ns v ps p, json_document ns -> json_text (render_document ns) v -> simple_object v -> new_path ps = Ok p ->
  Edit_Model.has_path ns ps = Ok (match get p v with Some _ => true | None => false end).
Proof. exact json_has_meaning. Qed.
Print Assumptions json_has_path_partial.

(** A document with all kinds of layout, a value of several lines, and edits in a row: replacing, adding below
    an object, adding a new path and removing. *)
Definition edited : str :=
  lit "{ ""a"" : [1, {""x"":null}]," ++ [nl] ++ lit "  ""b b"" : {""c"" : true }  , ""d"":""A""" ++ [nl] ++ lit "}" ++ [nl].
Definition several : str := lit "{""k"":" ++ [nl] ++ lit "[ ""v""," ++ [nl] ++ lit "2 ] }".
Definition several_value : value := new_object [(lit "k", VList [VScalar (SStr (lit "v") true); VScalar (SInt 2 (lit "2"))])].
Example json_edits_ex :
  exists ns n1 n2 n3 v, parse_document JSON edited = Ok ns /\ ~ In (ch 0) edited /\ forallb neat ns = true /\
  with_value_text JSON ns (lit "a") (lit """new""") = Ok n1 /\
  with_value_text JSON n1 (quoted_path [lit "b b"; lit "e.f"; lit "g"]) several = Ok n2 /\
  Edit_Model.without_path JSON n2 (lit "d") = Ok n3 /\
  render_document n3 = lit "{ ""a"" : ""new""," ++ [nl] ++ lit "  ""b b"" : {""c"" : true, ""e.f"" : { ""g"" : {""k"":" ++ [nl] ++ lit "[ ""v""," ++ [nl] ++ lit "  2 ] } } }   " ++ [nl] ++ lit "}" ++ [nl] /\
  parse_config JSON (fun _ _ _ => Throw EConfig) (render_document n3) 0 = Ok (Some v, 0%nat) /\
  get [lit "a"] v = Some (VScalar (SStr (lit "new") true)) /\ get [lit "b b"; lit "e.f"; lit "g"] v = Some several_value /\
  get [lit "b b"; lit "c"] v = Some (VScalar (SBool true)) /\ get [lit "d"] v = None.
Proof.
  eexists _, _, _, _, _. split; [vm_compute; reflexivity|]. split; [intro H; vm_compute in H; repeat destruct H as [H|H]; try discriminate H; exact H|].
  do 9 (split; [vm_compute; reflexivity|]). vm_compute. reflexivity.
Qed.
(** The hypotheses hold for these edits. *)
Example json_edits_paths : path_text (lit "a.b-1.true") [lit "a"; lit "b-1"; lit "true"] /\ path_text (lit """b b"".""e.f"".""""") [lit "b b"; lit "e.f"; []] /\
  exists n, json_value_text several n several_value /\ neat n = true.
Proof.
  split; [|split].
  - apply (text_plain (lit "a") [lit "b-1"; lit "true"]).
    + repeat (constructor; [split; [discriminate|]; repeat (constructor; [vm_compute; tauto|]); constructor|]). constructor.
    + right. split; [left; reflexivity|]. repeat split; intros r H; discriminate H.
  - apply (text_quoted [lit "b b"; lit "e.f"; []]); [discriminate|]. repeat (constructor; [repeat (constructor; [left; vm_compute; split; discriminate|]); constructor|]). constructor.
  - eexists. split; [split; [vm_compute; reflexivity|]|vm_compute; reflexivity]. intros inc st ac next. vm_compute. reflexivity.
Qed.

(** C50, C62, refuted without the restrictions.  Removing a field whose comma is on the next line leaves that comma. *)
Theorem json_remove_value_refuted : exists s ns ns', parse_document JSON s = Ok ns /\ Edit_Model.without_path JSON ns (lit "b") = Ok ns' /\
  s = lit "{""a"":1,""b"":2" ++ [nl] ++ lit ",""c"":3}" /\ render_document ns' = lit "{""a"":1," ++ [nl] ++ lit ",""c"":3}" /\ forall v, ~ json_text (render_document ns') v.
Proof. exact json_remove_refuted. Qed.
Print Assumptions json_remove_value_refuted.

(** Setting a path below a value that is not an object repeats the key of that value. *)
Theorem json_set_value_refuted : exists ns ns', parse_document JSON (lit "{""c"":3}") = Ok ns /\ with_value_text JSON ns (lit "c.d") (lit "1") = Ok ns' /\
  render_document ns' = lit "{""c"":3, ""c"" : { ""d"" : 1 }}" /\ forall v, ~ json_text (render_document ns') v.
Proof. exact json_set_blocked. Qed.
Print Assumptions json_set_value_refuted.

(** A path of one key that starts with null, true, false or a digit is written as two strings. *)
Theorem json_set_key_refuted : exists ns ns', parse_document JSON (lit "{""c"":3}") = Ok ns /\ with_value_text JSON ns (lit "nullable") (lit "1") = Ok ns' /\
  new_path (lit "nullable") = Ok [lit "nullable"] /\ render_document ns' = lit "{""c"":3, ""null""""able"" : 1}" /\ forall v, ~ json_text (render_document ns') v.
Proof. exact json_set_nullable. Qed.
Print Assumptions json_set_key_refuted.
