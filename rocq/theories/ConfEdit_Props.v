(** Properties of editing HOCON documents. *)
From Verif Require Import Base Util_Model Num_Model Path_Model Path_Spec Token_Model PathParser_Model Doc_Model Edit_Model Edit_Spec Value_Model Value_Spec Concat_Model ConfigParser_Model ConfEdit_Spec ConfEdit_Lemmas7.

(** C67.  A HOCON document without includes, substitutions and [+=], parsed and edited any number of times.  Setting a
    value gives nodes that have the value at the path, and what was there before at every path apart from it.  Missing:
    values on the way to the path that are not braced objects, and the text when it is not read as a document of the same
    fields and values; refuted for those below. *)
Theorem conf_set_value_partial : forall ns v ps p text w ns', document CONF ns -> conf_nodes ns v -> new_path ps = Ok p -> conf_value_text text w ->
  (forall u, on_way p (root_object ns) u -> exists cs, u = NObject cs) -> with_value_text CONF ns ps text = Ok ns' ->
  exists v', conf_nodes ns' v' /\ (reread ns' -> conf_text (render_document ns') v') /\ get p v' = Some w /\ forall q, apart p q -> get q v' = get q v.
Proof. exact conf_set_text. Qed.
Print Assumptions conf_set_value_partial.

(** C67.  Removing a path gives nodes without a value there.  Missing: concatenations on the way, and the text as above. *)
Theorem conf_remove_value_partial : forall ns v ps p ns', document CONF ns -> conf_nodes ns v -> new_path ps = Ok p ->
  (forall u, on_way p (root_object ns) u -> forall cs, u <> NConcat cs) -> Edit_Model.without_path CONF ns ps = Ok ns' ->
  exists v', conf_nodes ns' v' /\ (reread ns' -> conf_text (render_document ns') v') /\ get p v' = None /\ forall q, apart p q -> get q v' = get q v.
Proof. exact conf_remove_text. Qed.
Print Assumptions conf_remove_value_partial.

(** C67.  Whatever is on the way, an edit leaves the values at all paths apart from the edited one. *)
Theorem conf_edit_other_paths_partial : forall ns v ps p ns', document CONF ns -> conf_nodes ns v -> new_path ps = Ok p ->
  (exists text w, conf_value_text text w /\ with_value_text CONF ns ps text = Ok ns') \/ Edit_Model.without_path CONF ns ps = Ok ns' ->
  exists v', conf_nodes ns' v' /\ forall q, apart p q -> get q v' = get q v.
Proof. exact conf_frame. Qed.
Print Assumptions conf_edit_other_paths_partial.

(** C67.  has_path tells whether the document has a value at the path. *)
Theorem conf_has_path_partial : forall ns v ps p b, document CONF ns -> conf_nodes ns v -> new_path ps = Ok p ->
  (forall u, on_way p (root_object ns) u -> exists cs, u = NObject cs) -> Edit_Model.has_path ns ps = Ok b -> b = match get p v with Some _ => true | None => false end.
Proof. exact conf_has_text. Qed.
Print Assumptions conf_has_path_partial.

(** A document with comments, keys of several elements, a repeated object and an unquoted string; setting below an object,
    a new path, and removing.  Every document on the way is read as one of the same fields and values. *)
Definition hocon : str := lit "# top" ++ [nl] ++ lit "a.b : 1 // one" ++ [nl] ++ lit "a { c = x y, d : [1" ++ [nl] ++ lit "2] }" ++ [nl] ++ lit "e.f { g = 2 }" ++ [nl].
Example conf_edits_ex : exists ns n1 n2 n3 v v3, parse_document CONF hocon = Ok ns /\ conf_text hocon v /\
  (forall u, on_way [lit "a"; lit "c"] (root_object ns) u -> exists cs, u = NObject cs) /\
  with_value_text CONF ns (lit "a.c") (lit "{ z : [ true ] }") = Ok n1 /\ with_value_text CONF n1 (lit "n.m") (lit "p q") = Ok n2 /\ Edit_Model.without_path CONF n2 (lit "e.f.g") = Ok n3 /\
  reread n1 /\ reread n2 /\ reread n3 /\ conf_text (render_document n3) v3 /\
  get [lit "a"; lit "c"; lit "z"] v3 = Some (VList [VScalar (SBool true)]) /\ get [lit "n"; lit "m"] v3 = Some (VScalar (SStr (lit "p q") true)) /\
  get [lit "e"; lit "f"; lit "g"] v3 = None /\ get [lit "a"; lit "b"] v3 = get [lit "a"; lit "b"] v /\ get [lit "a"; lit "b"] v = Some (VScalar (SInt 1 (lit "1"))).
Proof.
  eexists _, _, _, _, _, _. split; [vm_compute; reflexivity|]. split; [intros inc next; vm_compute; reflexivity|]. split.
  { intros u U. inversion U as [? ? fc r v Hi R V|? ? fc r ocs v Hi R V U']; subst; cbn [root_object In] in Hi;
      repeat (destruct Hi as [Hi|Hi]; [first [discriminate Hi|injection Hi as <-; vm_compute in R; first [discriminate R|injection R as <-]; vm_compute in V; injection V as <-]|]); try contradiction Hi.
    - eexists. reflexivity.
    - exfalso. inversion U' as [? ? fc r v' Hi' R' V'|? ? fc r ocs' v' Hi' R' V' U'']; subst; cbn [In] in Hi';
      repeat (destruct Hi' as [Hi'|Hi']; [first [discriminate Hi'|injection Hi' as <-; vm_compute in R'; discriminate R']|]); contradiction Hi'. }
  do 3 (split; [vm_compute; reflexivity|]). do 3 (split; [eexists; split; [vm_compute; reflexivity|vm_compute; reflexivity]|]). split; [intros inc next; vm_compute; reflexivity|]. do 4 (split; [vm_compute; reflexivity|]). vm_compute. reflexivity.
Qed.

(** C67, refuted without the restrictions.  After a comment at the end of the only line, a new field becomes part of the
    comment. *)
Theorem conf_set_value_refuted : exists ns ns' v v', parse_document CONF (lit "a=1 # c") = Ok ns /\ conf_nodes ns v /\ with_value_text CONF ns (lit "b") (lit "2") = Ok ns' /\
  render_document ns' = lit "a=1, # c b : 2" /\ conf_text (render_document ns') v' /\ get [lit "b"] v' = None.
Proof. exact conf_comment. Qed.
Print Assumptions conf_set_value_refuted.

(** Setting a field that has no separator, to something that is not an object, gives a text that is not HOCON. *)
Theorem conf_set_syntax_refuted : exists ns ns' v, parse_document CONF (lit "a {b=1}") = Ok ns /\ conf_nodes ns v /\ with_value_text CONF ns (lit "a") (lit "2") = Ok ns' /\
  render_document ns' = lit "a 2" /\ forall v', ~ conf_text (render_document ns') v'.
Proof. exact conf_no_separator. Qed.
Print Assumptions conf_set_syntax_refuted.

(** The value set is hidden by a later value that is not an object: has_path says it is there, the text has none. *)
Theorem conf_set_hidden_refuted : exists ns ns' v v', parse_document CONF (lit "a {b=1}, a=5, a={c=2}") = Ok ns /\ conf_nodes ns v /\ with_value_text CONF ns (lit "a.b") (lit "2") = Ok ns' /\
  render_document ns' = lit "a {b=2}, a=5, a={c=2}" /\ Edit_Model.has_path ns' (lit "a.b") = Ok true /\ conf_text (render_document ns') v' /\ get [lit "a"; lit "b"] v' = None.
Proof. exact conf_hidden. Qed.
Print Assumptions conf_set_hidden_refuted.

(** Removing a path in concatenated objects does nothing: has_path says it is not there, and the text still has the value. *)
Theorem conf_remove_value_refuted : exists ns v, parse_document CONF (lit "a={c=1} {d=3}") = Ok ns /\ conf_nodes ns v /\ Edit_Model.without_path CONF ns (lit "a.c") = Ok ns /\
  Edit_Model.has_path ns (lit "a.c") = Ok false /\ conf_text (render_document ns) v /\ get [lit "a"; lit "c"] v = Some (VScalar (SInt 1 (lit "1"))).
Proof. exact conf_concat_kept. Qed.
Print Assumptions conf_remove_value_refuted.

(** Removing a field whose comma is on the next line gives a text that is not HOCON. *)
Theorem conf_remove_syntax_refuted : exists ns ns' v, parse_document CONF (lit "{b=1" ++ [nl] ++ lit ", c=1}") = Ok ns /\ conf_nodes ns v /\ Edit_Model.without_path CONF ns (lit "b") = Ok ns' /\
  render_document ns' = lit "{" ++ [nl] ++ lit ", c=1}" /\ forall v', ~ conf_text (render_document ns') v'.
Proof. exact conf_remove_comma. Qed.
Print Assumptions conf_remove_syntax_refuted.
