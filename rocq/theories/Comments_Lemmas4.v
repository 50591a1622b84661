(** The statements about comments and lines put together, and what refutes them. *)
From Verif Require Import Base BaseLemmas Util_Model Num_Model Path_Model Token_Model PathParser_Model Doc_Model Origin_Model Comments_Model Comments_Spec
  Comments_Lemmas Comments_Lemmas2 Comments_Lemmas3.

Lemma field_comments_origin : forall pre fcs post o, no_include pre -> comments o = [] ->
  exists before behind, nth_error (object_comments false false [] (pre ++ NField fcs :: post)) (fields_in pre) = Some (fcs, before, behind) /\
  let above := rev (above_field false (rev pre)) ++ comment_texts fcs in
  (above <> behind_field post -> comments (annotate o before behind) = above ++ behind_field post) /\
  (above = behind_field post -> comments (annotate o before behind) = above).
Proof.
  intros pre fcs post o H Ho. eexists. eexists. split; [apply object_comments_spec; exact H|]. cbv zeta.
  rewrite annotate_comments by exact Ho. destruct (list_eq_dec _ _) as [E|E]; split; intro N; try reflexivity; exfalso; [apply N; symmetry; exact E|apply E; symmetry; exact N].
Qed.
Lemma element_comments_origin : forall pre v post o, is_value_node v = true -> comments o = [] ->
  exists before behind, nth_error (array_comments false [] None (pre ++ v :: post)) (elements_in pre) = Some (v, before, behind) /\
  let above := rev (above_element false (rev pre)) in
  (above <> behind_element post -> comments (annotate o before behind) = above ++ behind_element post) /\
  (above = behind_element post -> comments (annotate o before behind) = above).
Proof.
  intros pre v post o H Ho. eexists. eexists. split; [apply array_comments_spec; exact H|]. cbv zeta.
  rewrite annotate_comments by exact Ho. destruct (list_eq_dec _ _) as [E|E]; split; intro N; try reflexivity; exfalso; [apply N; symmetry; exact E|apply E; symmetry; exact N].
Qed.
Lemma object_comments_once : forall cs, subsequence (attached (object_comments false false [] cs)) (all_comments cs).
Proof. intro cs. exact (object_comments_sub cs false false []). Qed.
Lemma flat_plain : forall cs, forallb flat cs = true -> forallb plain cs = true.
Proof. intros cs H. exact H. Qed.
Lemma document_comments : forall f s root, parse_document f s = Ok root ->
  exists ws v ws2 behind, root = ws ++ v :: ws2 /\ match v with NObject _ | NArray _ => True | _ => False end /\
    forallb plain ws = true /\ forallb plain ws2 = true /\
    root_comments false [] None root = Some (v, rev (above_element false (rev ws)), behind) /\
    (has_newline ws2 = true -> behind = behind_element ws2).
Proof.
  intros f s root H. destruct (parse_document_shape _ _ _ H) as [ws [v [ws2 [-> [H1 [H2 [S V]]]]]]].
  exists ws, v, ws2. eexists. split; [reflexivity|]. split; [exact V|]. split; [exact H1|]. split; [exact H2|]. split.
  - pose proof (root_comments_at ws [] v ws2 H1 eq_refl H2 V) as G. rewrite app_nil_r in G. exact G.
  - intros ->. reflexivity.
Qed.

(** The comment above an include is given to the field below it. *)
Lemma include_comment : exists s pre fcs post, parse_document CONF s = Ok [NObject (pre ++ NField fcs :: post)] /\
  rev (above_field false (rev pre)) ++ comment_texts fcs = [] /\
  nth_error (object_comments false false [] (pre ++ NField fcs :: post)) (fields_in pre) = Some (fcs, [lit "the include"], []).
Proof.
  exists (lit "#the include" ++ [nl] ++ lit "include ""f""" ++ [nl] ++ lit "a=1").
  eexists [_; _; _; _]. eexists. eexists []. split; [vm_compute; reflexivity|]. split; vm_compute; reflexivity.
Qed.
(** Two comments with the same text: one of them is lost. *)
Lemma equal_comment : exists s pre fcs post before behind, parse_document CONF s = Ok [NObject (pre ++ NField fcs :: post)] /\
  rev (above_field false (rev pre)) ++ comment_texts fcs = [lit "x"] /\ behind_field post = [lit "x"] /\
  nth_error (object_comments false false [] (pre ++ NField fcs :: post)) (fields_in pre) = Some (fcs, before, behind) /\
  forall o, comments o = [] -> comments (annotate o before behind) = [lit "x"].
Proof.
  exists (lit "#x" ++ [nl] ++ lit "a=1#x"). eexists [_; _]. eexists. eexists. eexists. eexists.
  split; [vm_compute; reflexivity|]. split; [vm_compute; reflexivity|]. split; [vm_compute; reflexivity|]. split; [vm_compute; reflexivity|].
  intros o Ho. rewrite annotate_comments by exact Ho. reflexivity.
Qed.
Lemma equal_element_comment : exists s pre v post before behind, parse_document CONF s = Ok [NArray (pre ++ v :: post)] /\ is_value_node v = true /\
  rev (above_element false (rev pre)) = [lit "x"] /\ behind_element post = [lit "x"] /\
  nth_error (array_comments false [] None (pre ++ v :: post)) (elements_in pre) = Some (v, before, behind) /\
  forall o, comments o = [] -> comments (annotate o before behind) = [lit "x"].
Proof.
  exists (lit "[" ++ [nl] ++ lit "#x" ++ [nl] ++ lit "1#x" ++ [nl] ++ lit "]"). eexists [_; _; _; _]. eexists. eexists. eexists. eexists.
  split; [vm_compute; reflexivity|]. split; [vm_compute; reflexivity|]. split; [vm_compute; reflexivity|]. split; [vm_compute; reflexivity|]. split; [vm_compute; reflexivity|].
  intros o Ho. rewrite annotate_comments by exact Ho. reflexivity.
Qed.
(** A comment behind the closing brace, and nothing after it. *)
Lemma last_comment : exists s ws v ws2, parse_document CONF s = Ok (ws ++ v :: ws2) /\ match v with NObject _ | NArray _ => True | _ => False end /\
  behind_element ws2 = [lit "x"] /\ root_comments false [] None (ws ++ v :: ws2) = Some (v, [], []).
Proof. exists (lit "{a:1} #x"), []. eexists. eexists. split; [vm_compute; reflexivity|]. split; [exact I|]. split; vm_compute; reflexivity. Qed.
(** A string over two lines, and a value on the line after its key. *)
Lemma wrong_lines : exists s root, parse_document CONF s = Ok root /\ render_nodes root = s /\
  begins_all [] root = [1; 3] /\ walk_root false root 1 = [1; 2].
Proof. exists (lit "a=""""""x" ++ [nl] ++ lit "y""""""" ++ [nl] ++ lit "b={}"). eexists. split; [vm_compute; reflexivity|]. repeat split; vm_compute; reflexivity. Qed.
Lemma wrong_lines' : exists s root, parse_document JSON s = Ok root /\ render_nodes root = s /\
  begins_all [] root = [1; 3] /\ walk_root false root 1 = [1; 2].
Proof. exists (lit "{""a"":" ++ [nl] ++ lit "1," ++ [nl] ++ lit """b"":{}}"). eexists. split; [vm_compute; reflexivity|]. repeat split; vm_compute; reflexivity. Qed.
