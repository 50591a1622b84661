(** Properties of document editing. *)
From Verif Require Import Base Path_Model Path_Spec Token_Model PathParser_Model Doc_Model Edit_Model Edit_Spec Edit_Lemmas5 Edit_Lemmas6 Edit_Lemmas7
  ConfText_Spec Edit_Lemmas9.

(** C10.  A value set in a document (parsed, then edited any number of times) is there afterwards.  In JSON
    the path text has to be a path for has_path too: there the editor reads "//" in it as text. *)
Theorem set_path_present_partial : forall f root ps text root', document f root ->
  f = CONF \/ (exists p, new_path ps = Ok p) ->
  with_value_text f root ps text = Ok root' -> has_path root' ps = Ok true.
Proof. exact set_has. Qed.
Print Assumptions set_path_present_partial.

Example set_path_present_ex :
  exists root root', parse_document CONF (lit "a.b = 1, a { b : 2, c : [3] }, include ""x"", a = 4") = Ok root /\
  with_value_text CONF root (lit "a.b.""c.d""") (lit "{x : 1}") = Ok root' /\
  has_path root (lit "a.b.""c.d""") = Ok false /\ has_path root' (lit "a.b.""c.d""") = Ok true.
Proof. eexists. eexists. repeat (split; [vm_compute; reflexivity|]). vm_compute. reflexivity. Qed.

(** C10, refuted as stated: in a JSON document a path the editor accepts can be one that has_path rejects. *)
Theorem set_path_present_refuted : exists s root root', parse_document JSON s = Ok root /\
  with_value_text JSON root (lit "a//b") (lit "1") = Ok root' /\ has_path root' (lit "a//b") = Throw EBadPath.
Proof. exact set_path_bad. Qed.
Print Assumptions set_path_present_refuted.

(** C11.  A path removed from a document is gone, however often and in whatever notation it was defined. *)
Theorem removed_path_absent_partial : forall f root ps root', document f root ->
  f = CONF \/ (exists p, new_path ps = Ok p) ->
  without_path f root ps = Ok root' -> has_path root' ps = Ok false.
Proof. exact removed_not. Qed.
Print Assumptions removed_path_absent_partial.

Example removed_path_absent_ex :
  exists root root', parse_document CONF (lit "{a.b = 1, a { b : 2, c : [3] }, a : { b.x : 5 }, ""a"".b.y = 3, z : 4}") = Ok root /\
  without_path CONF root (lit "a.b") = Ok root' /\ has_path root (lit "a.b") = Ok true /\ has_path root' (lit "a.b") = Ok false /\
  render_document root' = lit "{a { c : [3] }, a : { }, z : 4}".
Proof. eexists. eexists. repeat (split; [vm_compute; reflexivity|]). vm_compute. reflexivity. Qed.

(** C12.  Setting or removing a path does not change whether an unrelated path is present. *)
Theorem edit_unrelated_paths : forall f root ps root' p q s, document f root -> new_path ps = Ok p ->
  (exists text, with_value_text f root ps text = Ok root') \/ without_path f root ps = Ok root' ->
  new_path s = Ok q -> ~ is_prefix p q /\ ~ is_prefix q p -> has_path root' s = has_path root s.
Proof. exact edit_frame. Qed.
Print Assumptions edit_unrelated_paths.

Example edit_unrelated_paths_ex :
  exists root root', parse_document CONF (lit "a { b : 2, c : [3] }, a.d = 1") = Ok root /\
  without_path CONF root (lit "a.b") = Ok root' /\ new_path (lit "a.""c""") = Ok [lit "a"; lit "c"] /\
  has_path root (lit "a.""c""") = Ok true /\ has_path root' (lit "a.""c""") = Ok true.
Proof. eexists. eexists. repeat (split; [vm_compute; reflexivity|]). vm_compute. reflexivity. Qed.

(** C12, second half.  Removing an absent path leaves the document as it was. *)
Theorem remove_absent_unchanged : forall f root ps root', document f root ->
  has_path root ps = Ok false -> without_path f root ps = Ok root' -> root' = root.
Proof. exact remove_absent_any. Qed.
Print Assumptions remove_absent_unchanged.

Example remove_absent_unchanged_ex :
  exists root root1 root2, parse_document JSON (lit "{""a"" : 1 , ""b"" : {""c"" : 2} }") = Ok root /\
  with_value_text JSON root (lit "e.f") (lit "[3]") = Ok root1 /\ without_path JSON root1 (lit "a") = Ok root2 /\
  render_document root2 = lit "{""b"" : {""c"" : 2}, ""e"" : { ""f"" : [3] } }" /\
  has_path root2 (lit "b.d") = Ok false /\ without_path JSON root2 (lit "b.d") = Ok root2.
Proof. eexists. eexists. eexists. repeat (split; [vm_compute; reflexivity|]). vm_compute. reflexivity. Qed.

(** C13.  Comments, includes and the fields an edit is not about keep their text and their order, at
    every depth, and so does everything around the top object. *)
Theorem edit_keeps_other_text : forall f root ps root' p, document f root -> new_path ps = Ok p ->
  (exists text, with_value_text f root ps text = Ok root') \/ without_path f root ps = Ok root' ->
  (forall n, others n p (root_object root') = others n p (root_object root)) /\ outside root' = outside root.
Proof. exact edit_others. Qed.
Print Assumptions edit_keeps_other_text.

Example edit_keeps_other_text_ex :
  exists root root', parse_document CONF (lit "a { b : 2, c : [3] }, x.y : [ 4 ,5], a.d = 1") = Ok root /\
  with_value_text CONF root (lit "a.b") (lit "7") = Ok root' /\
  others 3 [lit "a"; lit "b"] (root_object root') = [lit "c : [3]"; lit "x.y : [ 4 ,5]"; lit "a.d = 1"].
Proof. eexists. eexists. repeat (split; [vm_compute; reflexivity|]). vm_compute. reflexivity. Qed.

(** C50.  Setting an accepted value text at an accepted path of a document with an object at the top ends and
    succeeds, when the syntax is JSON, or the value has no newline in it, or that object is written in braces.  Without
    the three it need not end: [edit_terminates_refuted]. *)
Theorem edit_terminates_partial : forall f root ps p text v cs, document f root -> top_object root = Some cs ->
  parse_path_node ps f = Ok p -> parse_value_text f text = Ok (Some v) ->
  f = JSON \/ newline_free v = true \/ in_braces cs = true -> exists root', with_value_text f root ps text = Ok root'.
Proof. exact edit_set_ends. Qed.
Print Assumptions edit_terminates_partial.

Example edit_terminates_ex :
  exists root cs v, parse_document CONF (lit "{" ++ [nl] ++ lit "a.b = 1, a { b : 2 }" ++ [nl] ++ lit "x += 3}") = Ok root /\ top_object root = Some cs /\ in_braces cs = true /\
  parse_value_text CONF (lit "{" ++ [nl] ++ lit "x:1}") = Ok (Some v) /\ newline_free v = false /\
  exists root', with_value_text CONF root (lit "a.c.""d.e""") (lit "{" ++ [nl] ++ lit "x:1}") = Ok root'.
Proof.
  eexists. eexists. eexists. repeat (split; [vm_compute; reflexivity|]). eexists. vm_compute. reflexivity.
Qed.

(** C50.  Removing an accepted path always ends and succeeds. *)
Theorem remove_terminates : forall f root ps p cs, document f root -> top_object root = Some cs ->
  parse_path_node ps f = Ok p -> exists root', without_path f root ps = Ok root'.
Proof. exact edit_remove_ends. Qed.
Print Assumptions remove_terminates.

Example remove_terminates_ex :
  exists root cs root', parse_document CONF (lit "a.b = 1, a { b : 2 }" ++ [nl] ++ lit "x += 3") = Ok root /\ top_object root = Some cs /\ in_braces cs = false /\
  is_ok (parse_path_node (lit " a.""b"" .c") CONF) = true /\ without_path CONF root (lit " a.""b"" .c") = Ok root'.
Proof. eexists. eexists. eexists. repeat (split; [vm_compute; reflexivity|]). vm_compute. reflexivity. Qed.

(** C50, refuted: an edit of an accepted document by an accepted value need not end. *)
Theorem edit_terminates_refuted : exists s root, parse_document CONF s = Ok root /\
  is_ok (parse_value_text CONF (lit "{" ++ [nl] ++ lit "x:1}")) = true /\
  with_value_text CONF root (lit "c") (lit "{" ++ [nl] ++ lit "x:1}") = Stuck UNoTermination.
Proof. exact edit_endless_bad. Qed.
Print Assumptions edit_terminates_refuted.

(** C50, refuted: the text of an edited document need not be accepted again. *)
Theorem edited_text_parses_refuted : exists s root root', parse_document CONF s = Ok root /\
  with_value_text CONF root (lit "c") (lit "3") = Ok root' /\ parse_document CONF (render_document root') = Throw EParse.
Proof. exact edit_reparse_bad. Qed.
Print Assumptions edited_text_parses_refuted.
