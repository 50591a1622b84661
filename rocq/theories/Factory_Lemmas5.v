(** Setting a value succeeds. *)
From Verif Require Import Base BaseLemmas Util_Model Num_Model Path_Model PathParser_Model Token_Model Doc_Model Edit_Model Edit_Spec Edit_Lemmas9 Value_Model Config_Model Concat_Model ConfigParser_Model
  Render_Model Render_Spec Factory_Model Factory_Spec Factory_Lemmas4.

Lemma set_value_ends : forall f root ps p cs v ns, document f root -> top_object root = Some cs -> parse_path_node ps f = Ok p -> writable v -> one_line_comments ns ->
  match f with CONF => in_braces cs = true | JSON => no_comments ns end -> exists root', document_with_value f root ps v ns = Ok root'.
Proof.
  intros f root ps p cs v ns D T P W C F. destruct (set_means no_includes v ns W C) as [text [n [w [E1 [E2 [V _]]]]]].
  destruct f; [rewrite E1; eapply root_set_ends; try eassumption; auto|rewrite (E2 F); eapply root_set_ends; try eassumption; auto].
Qed.
