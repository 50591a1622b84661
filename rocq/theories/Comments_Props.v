(** Properties of comments and of the line numbers given by the parser. *)
From Verif Require Import Base Token_Model PathParser_Model Doc_Model Origin_Model Comments_Model Comments_Spec Comments_Lemmas4.

(** C54.  The comments of a field are the block directly above it, those between its key and its value, and
    the one behind it on its line.  Part: no include stands among the statements above, and the comment behind
    does not repeat the ones before, when it is dropped (see the refutations). *)
Theorem field_comments_partial : forall pre fcs post o, no_include pre -> comments o = [] ->
  exists before behind, nth_error (object_comments false false [] (pre ++ NField fcs :: post)) (fields_in pre) = Some (fcs, before, behind) /\
  let above := rev (above_field false (rev pre)) ++ comment_texts fcs in
  (above <> behind_field post -> comments (annotate o before behind) = above ++ behind_field post) /\
  (above = behind_field post -> comments (annotate o before behind) = above).
Proof. exact field_comments_origin. Qed.
Print Assumptions field_comments_partial.

(** In the text below: a block of two lines, a comment between key and value, one behind; a comment cut off by
    a blank line; one behind the field before, which is not the next field's. *)
Example field_comments_ex :
  let s := lit "#lost" ++ [nl; nl] ++ lit "#one" ++ [nl] ++ lit "#two" ++ [nl] ++ lit "a : #three" ++ [nl] ++ lit " 1 , #four" ++ [nl] ++ lit "//five" ++ [nl] ++ lit "b = {}" in
  exists pre fa mid fb, parse_document CONF s = Ok [NObject (pre ++ NField fa :: mid ++ [NField fb])] /\
  no_include (pre ++ NField fa :: mid) /\
  rev (above_field false (rev pre)) ++ comment_texts fa = [lit "one"; lit "two"; lit "three"] /\
  behind_field (mid ++ [NField fb]) = [lit "four"] /\
  rev (above_field false (rev (pre ++ NField fa :: mid))) = [lit "five"] /\
  object_comments false false [] (pre ++ NField fa :: mid ++ [NField fb]) =
    [(fa, [lit "one"; lit "two"; lit "three"], [lit "four"]); (fb, [lit "five"], [])].
Proof.
  eexists [_; _; _; _; _; _; _], _, [_; _; _; _; _; _; _], _. split; [vm_compute; reflexivity|]. split; [repeat constructor|].
  repeat split; vm_compute; reflexivity.
Qed.

(** C54.  No comment is given to two fields, and none is made up or moved before another. *)
Theorem field_comments_once : forall cs, subsequence (attached (object_comments false false [] cs)) (all_comments cs).
Proof. exact object_comments_once. Qed.
Print Assumptions field_comments_once.

Example field_comments_once_ex :
  let cs := [NComment (TComment true (lit "a")); NTok TNewline; NField [NComment (TComment true (lit "b"))]; NTok TComma;
             NComment (TComment true (lit "c")); NTok TNewline; NTok TNewline; NField []] in
  attached (object_comments false false [] cs) = [lit "a"; lit "b"; lit "c"] /\ all_comments cs = [lit "a"; lit "b"; lit "c"].
Proof. vm_compute. split; reflexivity. Qed.

(** C54, refuted with an include: the comment above an include is given to the field below the include. *)
Theorem field_comments_refuted : exists s pre fcs post, parse_document CONF s = Ok [NObject (pre ++ NField fcs :: post)] /\
  rev (above_field false (rev pre)) ++ comment_texts fcs = [] /\
  nth_error (object_comments false false [] (pre ++ NField fcs :: post)) (fields_in pre) = Some (fcs, [lit "the include"], []).
Proof. exact include_comment. Qed.
Print Assumptions field_comments_refuted.

(** C54, refuted with equal comments: a comment behind a field that repeats the one above is lost. *)
Theorem field_comments_equal_refuted : exists s pre fcs post before behind, parse_document CONF s = Ok [NObject (pre ++ NField fcs :: post)] /\
  rev (above_field false (rev pre)) ++ comment_texts fcs = [lit "x"] /\ behind_field post = [lit "x"] /\
  nth_error (object_comments false false [] (pre ++ NField fcs :: post)) (fields_in pre) = Some (fcs, before, behind) /\
  forall o, comments o = [] -> comments (annotate o before behind) = [lit "x"].
Proof. exact equal_comment. Qed.
Print Assumptions field_comments_equal_refuted.

(** C55.  The comments of an element of a list are the block directly above it and those behind it on its line.
    Part: if those behind repeat those above they are dropped, as for fields (see the refutation). *)
Theorem element_comments_partial : forall pre v post o, is_value_node v = true -> comments o = [] ->
  exists before behind, nth_error (array_comments false [] None (pre ++ v :: post)) (elements_in pre) = Some (v, before, behind) /\
  let above := rev (above_element false (rev pre)) in
  (above <> behind_element post -> comments (annotate o before behind) = above ++ behind_element post) /\
  (above = behind_element post -> comments (annotate o before behind) = above).
Proof. exact element_comments_origin. Qed.
Print Assumptions element_comments_partial.

Example element_comments_ex :
  let s := lit "[ #lost" ++ [nl; nl] ++ lit "#one" ++ [nl] ++ lit "1, #two" ++ [nl] ++ lit "#three" ++ [nl] ++ lit "2, 3 #four" ++ [nl] ++ lit "]" in
  exists cs a b c, parse_document CONF s = Ok [NArray cs] /\
  array_comments false [] None cs = [(a, [lit "one"], [lit "two"]); (b, [lit "three"], []); (c, [], [lit "four"])] /\
  map is_value_node [a; b; c] = [true; true; true].
Proof. eexists. eexists. eexists. eexists. split; [vm_compute; reflexivity|]. split; vm_compute; reflexivity. Qed.

(** C55, refuted with equal comments. *)
Theorem element_comments_equal_refuted : exists s pre v post before behind, parse_document CONF s = Ok [NArray (pre ++ v :: post)] /\ is_value_node v = true /\
  rev (above_element false (rev pre)) = [lit "x"] /\ behind_element post = [lit "x"] /\
  nth_error (array_comments false [] None (pre ++ v :: post)) (elements_in pre) = Some (v, before, behind) /\
  forall o, comments o = [] -> comments (annotate o before behind) = [lit "x"].
Proof. exact equal_element_comment. Qed.
Print Assumptions element_comments_equal_refuted.

(** C56.  The comments of a whole document in braces or brackets are the block directly above it and those behind
    its end.  Part: the latter if the line ends there. *)
Theorem root_comments_partial : forall f s root, parse_document f s = Ok root ->
  exists ws v ws2 behind, root = ws ++ v :: ws2 /\ match v with NObject _ | NArray _ => True | _ => False end /\
    forallb plain ws = true /\ forallb plain ws2 = true /\
    root_comments false [] None root = Some (v, rev (above_element false (rev ws)), behind) /\
    (has_newline ws2 = true -> behind = behind_element ws2).
Proof. exact document_comments. Qed.
Print Assumptions root_comments_partial.

Example root_comments_ex :
  let s := lit "#lost" ++ [nl; nl] ++ lit "#one" ++ [nl] ++ lit "{a:1 #no" ++ [nl] ++ lit "} #two" ++ [nl] ++ lit "#no" in
  exists root v, parse_document CONF s = Ok root /\ root_comments false [] None root = Some (v, [lit "one"], [lit "two"]).
Proof. eexists. eexists. split; vm_compute; reflexivity. Qed.

(** C56, refuted: a comment behind the closing brace on the last line is lost if no newline follows. *)
Theorem root_comments_refuted : exists s ws v ws2, parse_document CONF s = Ok (ws ++ v :: ws2) /\ match v with NObject _ | NArray _ => True | _ => False end /\
  behind_element ws2 = [lit "x"] /\ root_comments false [] None (ws ++ v :: ws2) = Some (v, [], []).
Proof. exact last_comment. Qed.
Print Assumptions root_comments_refuted.

(** C57.  The line the parser gives an object or list is the line of the text on which it begins.  Part: in
    documents with ends of lines only between fields, between elements and around the whole. *)
Theorem value_lines_partial : forall f s root, parse_document f s = Ok root -> regular_document root = true ->
  walk_root false root 1 = begins_all [] root.
Proof. exact Comments_Lemmas3.parse_lines. Qed.
Print Assumptions value_lines_partial.

Example value_lines_ex :
  let s := lit "#c" ++ [nl] ++ lit "a {" ++ [nl] ++ lit "b = [1" ++ [nl] ++ lit " []," ++ [nl] ++ lit "{}]" ++ [nl] ++ lit "}, c : {} {}" ++ [nl] in
  exists root, parse_document CONF s = Ok root /\ regular_document root = true /\ render_nodes root = s /\
  walk_root false root 1 = [1; 2; 3; 4; 5; 6; 6].
Proof. eexists. split; [vm_compute; reflexivity|]. repeat split; vm_compute; reflexivity. Qed.

(** C57, refuted: after a string of two lines every line number is too small. *)
Theorem value_lines_refuted : exists s root, parse_document CONF s = Ok root /\ render_nodes root = s /\
  begins_all [] root = [1; 3] /\ walk_root false root 1 = [1; 2].
Proof. exact wrong_lines. Qed.
Print Assumptions value_lines_refuted.

(** C57, refuted in JSON too: a value on the line after its key. *)
Theorem value_lines_json_refuted : exists s root, parse_document JSON s = Ok root /\ render_nodes root = s /\
  begins_all [] root = [1; 3] /\ walk_root false root 1 = [1; 2].
Proof. exact wrong_lines'. Qed.
Print Assumptions value_lines_json_refuted.
