(** Properties of the texts of edited HOCON documents. *)
From Verif Require Import Base Util_Model Num_Model Path_Model Path_Spec Token_Model PathParser_Model PathParser_Spec Doc_Model Edit_Model Edit_Spec Value_Model Value_Spec Concat_Model ConfigParser_Model ConfEdit_Spec ConfText_Spec ConfText_Lemmas13.

(** C50.  A HOCON document written tidily, parsed and edited any number of times: its text is read as a document of the same
    fields and values.  Missing: documents written otherwise, and values set that are on several lines; refuted for some of
    those in ConfEdit_Props.v. *)
Theorem conf_edits_reread_partial : forall ns, tidily_edited ns -> reread ns.
Proof. exact edited_reread. Qed.
Print Assumptions conf_edits_reread_partial.

(** C67.  Setting a value in such a document gives a text that has the value at the path and, at every path apart from it, what
    the text had before. *)
Theorem conf_set_text_partial : forall ns v ps p text n w ns', tidily_edited ns -> conf_text (render_document ns) v -> conf_path_text ps p -> tidy_value text n -> stands_for n w ->
  field_object n = true \/ ~ bare p (root_object ns) -> (forall u, on_way p (root_object ns) u -> exists cs, u = NObject cs) -> with_value_text CONF ns ps text = Ok ns' ->
  tidily_edited ns' /\ exists v', conf_text (render_document ns') v' /\ get p v' = Some w /\ forall q, apart p q -> get q v' = get q v.
Proof. exact edited_set. Qed.
Print Assumptions conf_set_text_partial.

(** C67.  Removing a path from such a document gives a text without a value there. *)
Theorem conf_remove_text_partial : forall ns v ps p ns', tidily_edited ns -> conf_text (render_document ns) v -> new_path ps = Ok p ->
  (forall u, on_way p (root_object ns) u -> forall cs, u <> NConcat cs) -> Edit_Model.without_path CONF ns ps = Ok ns' ->
  tidily_edited ns' /\ exists v', conf_text (render_document ns') v' /\ get p v' = None /\ forall q, apart p q -> get q v' = get q v.
Proof. exact edited_remove. Qed.
Print Assumptions conf_remove_text_partial.

(** A document with comments, keys of several elements, commas, a repeated object and an unquoted string.  Setting below an
    object, setting a new path, and removing. *)
Definition hocon : str := lit "# top" ++ [nl] ++ lit "a.b : 1 // one" ++ [nl] ++ lit "a { c = x y, d : [1" ++ [nl] ++ lit "2] }" ++ [nl] ++ lit "e.f { g = 2 }" ++ [nl].
Definition hocon' : str := lit "# top" ++ [nl] ++ lit "a.b : 1 // one" ++ [nl] ++ lit "a { c = { z : [ true ] }, d : [1" ++ [nl] ++ lit "2] }" ++ [nl] ++ lit "e.f { }" ++ [nl] ++ lit "n : {" ++ [nl] ++ lit "  m : p q" ++ [nl] ++ lit "}" ++ [nl].
Example conf_texts_ex : exists ns n1 n2 n3 v3, parse_document CONF hocon = Ok ns /\ tidily_edited ns /\
  with_value_text CONF ns (lit "a.c") (lit "{ z : [ true ] }") = Ok n1 /\ tidily_edited n1 /\
  with_value_text CONF n1 (lit "n.m") (lit "p q") = Ok n2 /\ tidily_edited n2 /\
  Edit_Model.without_path CONF n2 (lit "e.f.g") = Ok n3 /\ tidily_edited n3 /\ render_document n3 = hocon' /\ conf_text hocon' v3 /\ get [lit "n"; lit "m"] v3 = Some (VScalar (SStr (lit "p q") true)).
Proof.
  assert (Key : forall s, In s [lit "a"; lit "c"; lit "n"; lit "m"] -> plain_key s /\ word_key s /\ s <> lit "include").
  { intros s I. repeat (destruct I as [<-|I]; [split; [split; [discriminate|repeat constructor; left; reflexivity]|split; [right; repeat split; (left; reflexivity) || discriminate|discriminate]]|]). destruct I. }
  assert (Nul : forall s, forallb (fun c => negb (Ascii.eqb c (ch 0))) s = true -> ~ In (ch 0) s) by (intros s H I; rewrite forallb_forall in H; specialize (H _ I); discriminate H).
  eexists _, _, _, _, _. split; [vm_compute; reflexivity|].
  match goal with |- ?A /\ _ => assert (T0 : A) end. { eapply tidy_parsed; [apply (Nul hocon); vm_compute; reflexivity|vm_compute; reflexivity|vm_compute; reflexivity]. }
  split; [exact T0|]. split; [vm_compute; reflexivity|].
  match goal with |- ?A /\ _ => assert (T1 : A) end.
  { eapply (tidy_set _ (lit "a.c") [lit "a"; lit "c"] (lit "{ z : [ true ] }")); [exact T0| | | |vm_compute; reflexivity].
    - apply (conf_plain (lit "a") [lit "c"]). apply Forall_forall. intros k I. apply Key. cbn in *. tauto.
    - split; [apply Nul; reflexivity|]. split; [vm_compute; reflexivity|]. repeat split; vm_compute; reflexivity.
    - left. vm_compute. reflexivity. }
  split; [exact T1|]. split; [vm_compute; reflexivity|].
  match goal with |- ?A /\ _ => assert (T2 : A) end.
  { eapply (tidy_set _ (lit "n.m") [lit "n"; lit "m"] (lit "p q")); [exact T1| | | |vm_compute; reflexivity].
    - apply (conf_plain (lit "n") [lit "m"]). apply Forall_forall. intros k I. apply Key. cbn in *. tauto.
    - split; [apply Nul; reflexivity|]. split; [vm_compute; reflexivity|]. repeat split; vm_compute; reflexivity.
    - right. intro B. inversion B as [? fc p ts I P N1 N2|? fc p ts ocs q I P O B']; subst; cbn [root_object In] in I;
        repeat (destruct I as [I|I]; [first [discriminate I|injection I as <-; cbn [In] in P; repeat (destruct P as [P|P]; [try discriminate P|]); try contradiction P; injection P as <- <-; try discriminate]|]); try contradiction I. }
  split; [exact T2|]. split; [vm_compute; reflexivity|].
  match goal with |- ?A /\ _ => assert (T3 : A) end. { eapply (tidy_removed _ (lit "e.f.g")); [exact T2|vm_compute; reflexivity]. }
  split; [exact T3|]. split; [vm_compute; reflexivity|]. split; [intros inc next; vm_compute; reflexivity|]. vm_compute. reflexivity.
Qed.

(** Substitutions, with blanks and optional, in the document and in the value set. *)
Definition refs : str := lit "base : /usr" ++ [nl] ++ lit "bin = ${base}/bin ${? env.EXTRA } # both" ++ [nl].
Definition refs' : str := lit "base : [ ${x.y} ]" ++ [nl] ++ lit "bin = ${base}/bin ${? env.EXTRA} # both" ++ [nl].
Example conf_refs_ex : exists ns n1, parse_document CONF refs = Ok ns /\ tidily_edited ns /\
  with_value_text CONF ns (lit "base") (lit "[ ${x.y} ]") = Ok n1 /\ tidily_edited n1 /\ render_document n1 = refs' /\ reread n1.
Proof.
  assert (Nul : forall s, forallb (fun c => negb (Ascii.eqb c (ch 0))) s = true -> ~ In (ch 0) s) by (intros s H I; rewrite forallb_forall in H; specialize (H _ I); discriminate H).
  eexists _, _. split; [vm_compute; reflexivity|].
  match goal with |- ?A /\ _ => assert (T0 : A) end. { eapply tidy_parsed; [apply (Nul refs); vm_compute; reflexivity|vm_compute; reflexivity|vm_compute; reflexivity]. }
  split; [exact T0|]. split; [vm_compute; reflexivity|].
  match goal with |- ?A /\ _ => assert (T1 : A) end.
  { eapply (tidy_set _ (lit "base") [lit "base"] (lit "[ ${x.y} ]")); [exact T0| | | |vm_compute; reflexivity].
    - apply (conf_plain (lit "base") []). constructor; [|constructor]. split; [split; [discriminate|repeat constructor; left; reflexivity]|split; [right; repeat split; (left; reflexivity) || discriminate|discriminate]].
    - split; [apply Nul; reflexivity|]. split; [vm_compute; reflexivity|]. repeat split; vm_compute; reflexivity.
    - right. intro B. inversion B as [? fc p ts I P N1 N2|? fc p ts ocs q I P O B']; subst; cbn [root_object In] in I; repeat (destruct I as [I|I]; [try discriminate I|]); try contradiction I; injection I as <-.
      + apply N1. cbn [In]. auto.
      + apply N2. cbn [In]. auto.
      + cbn [In] in O. repeat (destruct O as [O|O]; [discriminate O|]). exact O.
      + cbn [In] in O. repeat (destruct O as [O|O]; [discriminate O|]). exact O. }
  split; [exact T1|]. split; [vm_compute; reflexivity|]. apply conf_edits_reread_partial, T1.
Qed.
