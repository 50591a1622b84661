(** Edits of tidily written HOCON documents. *)
From Verif Require Import Base BaseLemmas Util_Model Num_Model Path_Model Path_Spec Path_Lemmas Token_Model PathParser_Model Doc_Model Doc_Lemmas Edit_Model Edit_Spec Edit_Lemmas4 Edit_Lemmas5 Value_Model Value_Spec Concat_Model ConfigParser_Model Json_Lemmas2 JsonEdit_Lemmas6 ConfEdit_Spec ConfEdit_Lemmas7 ConfText_Spec ConfText_Lemmas7 ConfText_Lemmas8 ConfText_Lemmas9 ConfText_Lemmas10 ConfText_Lemmas11 ConfText_Lemmas12.

Lemma layout_no_object : forall l cs, root_layout l = true -> ~ In (NObject cs) l.
Proof. intros l cs H I. unfold root_layout in H. rewrite forallb_forall in H. specialize (H _ I). discriminate H. Qed.
Lemma tame_split : forall pre ocs post, Forall (fun c => match c with NObject _ | NArray _ => False | _ => True end) pre -> tame_document (pre ++ NObject ocs :: post) ->
  tame_fields ocs /\ (braced ocs = true \/ unbraced ocs = true) /\
  forall ocs', tame_fields ocs' -> (braced ocs = true -> braced ocs' = true) -> (unbraced ocs = true -> unbraced ocs' = true) -> tame_document (pre ++ NObject ocs' :: post).
Proof.
  intros pre ocs post Q [[cs [E [U T]]]|[pre2 [cs [post2 [h [s [E [R1 [R2 [W1 [W2 [B T]]]]]]]]]]]].
  - destruct pre as [|c pre]; [|injection E as -> E; destruct pre; discriminate E]. injection E as <- ->. split; [exact T|]. split; [auto|]. intros ocs' T' _ U'. left. exists ocs'. auto.
  - assert (P : pre = pre2 /\ ocs = cs /\ post = post2).
    { clear -Q E R1. revert pre2 E R1. induction pre as [|c pre IH]; intros [|c2 pre2] E R1; cbn [app] in E.
      - injection E as <- <-. auto.
      - injection E as <- _. discriminate R1.
      - injection E as -> _. inversion Q as [|? ? X _]; destruct X.
      - injection E as <- E. inversion Q as [|? ? _ Q']; subst. cbn [root_layout forallb] in R1. apply andb_true_iff in R1. destruct (IH Q' _ E (proj2 R1)) as [-> [-> ->]]. auto. }
    destruct P as [-> [-> ->]]. split; [exact T|]. split; [auto|]. intros ocs' T' B' _. right. exists pre2, ocs', post2, h, s. specialize (B' B). repeat (split; [assumption || reflexivity|]). exact T'.
Qed.
Lemma change_any : forall n cs p value cs', tame_fields cs -> braced cs = true \/ unbraced cs = true -> p <> [] -> fits value p cs -> change_value_n n CONF cs p value = Ok cs' ->
  tame_fields cs' /\ (braced cs' = true \/ unbraced cs' = true) /\ (braced cs = true -> braced cs' = true) /\ (unbraced cs = true -> unbraced cs' = true).
Proof.
  intros n cs p value cs' T BU N F H.
  assert (B : braced cs = true -> braced cs' = true /\ tame_fields cs') by (intro B; exact (change_all n cs p value cs' B T N F H)).
  assert (U : unbraced cs = true -> unbraced cs' = true /\ tame_fields cs') by (intro U; exact (change_open n cs p value cs' U T N F H)).
  destruct BU as [X|X]; [destruct (B X)|destruct (U X)]; (split; [assumption|]); (split; [auto|]); (split; [intro Y; apply B, Y|intro Y; apply U, Y]).
Qed.
Lemma removed_tame : forall ns ps ns', tame_document ns -> Edit_Model.without_path CONF ns ps = Ok ns' -> tame_document ns'.
Proof.
  intros ns ps ns' T H. apply root_set_split in H. destruct H as [pre [ocs [post [ocs' [pn [-> [-> [Q [Hp H]]]]]]]]].
  destruct (tame_split _ _ _ Q T) as [Tf [BU K]]. destruct (change_any _ _ _ None _ Tf BU (path_node_nonempty _ _ _ Hp) ltac:(intros v E; discriminate E) H) as [T' [_ [B' U']]]. apply K; assumption.
Qed.
Lemma set_tame : forall ns ps p text v ns', tame_document ns -> conf_path_text ps p -> tidy_value text v -> field_object v = true \/ ~ bare p (root_object ns) ->
  with_value_text CONF ns ps text = Ok ns' -> tame_document ns'.
Proof.
  intros ns ps p text v ns' T Pt [Nn [Pv [Td [Nf Th]]]] Bare H. destruct (conf_path_parse _ _ Pt) as [Np [tk [Sp Pp]]]. unfold with_value_text in H. destruct text as [|c text]; [discriminate|]. rewrite Pv in H. cbn [bind] in H.
  apply root_set_split in H. destruct H as [pre [ocs [post [ocs' [pn [-> [-> [Q [Hp H]]]]]]]]]. rewrite Pp in Hp. injection Hp as <-. destruct (tame_split _ _ _ Q T) as [Tf [BU K]].
  assert (Ro : root_object (pre ++ NObject ocs :: post) = ocs) by (clear -Q; induction Q as [|c pre X Q IH]; [reflexivity|]; destruct c; try contradiction; exact IH). rewrite Ro in Bare.
  assert (V : vok v). { split; [|split; assumption]. apply (value_tame _ _ Nn Pv Td). intros cs ->. exact Th. }
  unfold set_value_on_path in H. step H as cs1 Hc. step H as found Hh. cbn [key_node fst] in Hc.
  assert (Ft : fits (Some v) p ocs) by (intros v' E; injection E as <-; auto). destruct (change_any _ _ p (Some v) _ Tf BU Np Ft Hc) as [T1 [BU1 [B1 U1]]]. destruct found; [injection H as <-; apply K; assumption|].
  destruct (add_all tk _ p cs1 v ocs' Np Sp V T1 BU1 H) as [B2 [U2 T2]]. apply K; auto.
Qed.
Lemma edited_tame : forall ns, tidily_edited ns -> tame_document ns.
Proof.
  intros ns H. induction H as [text ns Nn P T|ns ps p text v ns' H IH Pt Tv B W|ns ps ns' H IH W]; [exact (parsed_tame _ _ Nn P T)|exact (set_tame _ _ _ _ _ _ IH Pt Tv B W)|exact (removed_tame _ _ _ IH W)].
Qed.
Lemma edited_document : forall ns, tidily_edited ns -> document CONF ns.
Proof. intros ns H. induction H; [eapply parsed_document|eapply set_document|eapply removed_document]; eassumption. Qed.

Lemma edited_reread : forall ns, tidily_edited ns -> reread ns.
Proof. intros ns H. apply tame_reread, edited_tame, H. Qed.
Lemma edited_means : forall ns v, tidily_edited ns -> (conf_text (render_document ns) v <-> conf_nodes ns v).
Proof. intros ns v H. apply reread_text; [apply edited_document, H|apply edited_reread, H]. Qed.
Lemma edited_set : forall ns v ps p text n w ns', tidily_edited ns -> conf_text (render_document ns) v -> conf_path_text ps p -> tidy_value text n -> stands_for n w ->
  field_object n = true \/ ~ bare p (root_object ns) -> (forall u, on_way p (root_object ns) u -> exists cs, u = NObject cs) -> with_value_text CONF ns ps text = Ok ns' ->
  tidily_edited ns' /\ exists v', conf_text (render_document ns') v' /\ get p v' = Some w /\ forall q, apart p q -> get q v' = get q v.
Proof.
  intros ns v ps p text n w ns' E M Pt Tv Sf B Y H. assert (E' : tidily_edited ns') by (eapply tidy_set; eassumption). split; [exact E'|].
  apply (edited_means _ _ E) in M. destruct (conf_path_parse _ _ Pt) as [_ [tk [_ Pp]]]. pose proof (path_node_conf _ _ Pp) as Np. cbn [key_node fst] in Np.
  destruct (conf_set_text ns v ps p text w ns' (edited_document _ E) M Np ltac:(exists n; destruct Tv as [_ [X _]]; auto) Y H) as [v' [A [T [G F]]]].
  exists v'. split; [apply (edited_means _ _ E'), A|]. auto.
Qed.
Lemma edited_remove : forall ns v ps p ns', tidily_edited ns -> conf_text (render_document ns) v -> new_path ps = Ok p ->
  (forall u, on_way p (root_object ns) u -> forall cs, u <> NConcat cs) -> Edit_Model.without_path CONF ns ps = Ok ns' ->
  tidily_edited ns' /\ exists v', conf_text (render_document ns') v' /\ get p v' = None /\ forall q, apart p q -> get q v' = get q v.
Proof.
  intros ns v ps p ns' E M Np Y H. assert (E' : tidily_edited ns') by (eapply tidy_removed; eassumption). split; [exact E'|].
  apply (edited_means _ _ E) in M. destruct (conf_remove_text ns v ps p ns' (edited_document _ E) M Np Y H) as [v' [A [T [G F]]]].
  exists v'. split; [apply (edited_means _ _ E'), A|]. auto.
Qed.
