(** What edits do to the meaning of the nodes of a HOCON document. *)
From Verif Require Import Base BaseLemmas Util_Model Num_Model Path_Model Path_Spec Path_Lemmas Token_Model PathParser_Model Doc_Model Doc_Spec Doc_Lemmas Edit_Model Edit_Spec Edit_Lemmas Edit_Lemmas2 Edit_Lemmas3 Value_Model Value_Spec Value_Lemmas Value_Lemmas2 Concat_Model ConfigParser_Model ConfigParser_Spec ConfigParser_Lemmas ConfigParser_Lemmas2 ConfEdit_Spec ConfEdit_Lemmas ConfEdit_Lemmas2.

(** ** Indenting does not change the value *)
Definition same_meaning (n n' : node) : Prop := is_value_node n' = is_value_node n /\ forall inc s ac next, parse_value CONF inc n' s ac next = parse_value CONF inc n s ac next.
Section Indent.
Variable t : token.
Notation ind := (NTok t).
Definition indented (n : node) : Prop := forall n', indent_text ind n = Ok n' -> same_meaning n n'.
Definition indented_fields (n : node) : Prop := match n with NField fcs => Forall indented fcs | _ => True end.

Lemma indent_field_same : forall fc, Forall indented fc -> forall fc', indent_field (indent_text ind) fc = Ok fc' ->
  field_path fc' = field_path fc /\ is_plus_equals fc' = is_plus_equals fc /\
  forall inc s ac next, parse_field_value (parse_value CONF inc) fc' s ac next = parse_field_value (parse_value CONF inc) fc s ac next.
Proof.
  intros fc F. induction F as [|c fc Hc F IH]; intros fc' H; [discriminate|]. cbn [indent_field] in H. destruct (is_value_node c) eqn:E.
  - destruct (is_complex c) eqn:C.
    + inv_bind H. injection Hk as <-. destruct (Hc a Hb) as [V M]. rewrite E in V.
      assert (K : is_complex a = true) by (destruct c; try discriminate C; cbn [indent_text] in Hb; unfold rmap in Hb; inv_bind Hb; injection Hk as <-; reflexivity).
      split; [destruct a, c; try discriminate; reflexivity|]. split; [destruct a, c; try discriminate; reflexivity|].
      intros. cbn [parse_field_value]. rewrite V, E. apply M.
    + injection H as <-. auto.
  - inv_bind H. injection Hk as <-. destruct (IH a Hb) as [A [B C]]. repeat split.
    + destruct c; cbn [field_path]; try exact A; reflexivity.
    + destruct c; cbn [is_plus_equals]; try exact B. destruct t0; try exact B; reflexivity.
    + intros. cbn [parse_field_value]. rewrite E. apply C.
Qed.
Lemma indent_values_same : forall cs, Forall indented cs -> forall cs', indent_children (indent_text ind) ind cs = Ok cs' ->
  forall inc s ac next, parse_values (parse_value CONF inc) cs' s ac next = parse_values (parse_value CONF inc) cs s ac next.
Proof.
  intros cs F. induction F as [|c cs Hc F IH]; intros cs' H inc s ac next; cbn [indent_children] in H; [injection H as <-; reflexivity|].
  destruct c as [t'|t'|p|t'|fc|fc k|fc|fc|fc].
  - destruct t'; try (inv_bind H; injection Hk as <-; cbn [parse_values is_value_node]; apply IH, Hb).
    destruct (is_newline ind); [discriminate|]. inv_bind H. injection Hk as <-. cbn [parse_values is_value_node]. apply IH, Hb.
  - inv_bind H; injection Hk as <-; cbn [parse_values is_value_node]; apply IH, Hb.
  - inv_bind H; injection Hk as <-; cbn [parse_values is_value_node]; apply IH, Hb.
  - inv_bind H; injection Hk as <-; cbn [parse_values is_value_node]. apply bind_same. intros [v n1]. rewrite (IH _ Hb). reflexivity.
  - inv_bind H. inv_bind Hk. injection Hk0 as <-. cbn [parse_values is_value_node]. reflexivity.
  - inv_bind H; injection Hk as <-; cbn [parse_values is_value_node]; apply IH, Hb.
  - inv_bind H. inv_bind Hk. injection Hk0 as <-. destruct (Hc _ Hb) as [V M]. cbn [parse_values]. rewrite V, M. cbn [is_value_node]. apply bind_same. intros [v n1]. rewrite (IH _ Hb0). reflexivity.
  - inv_bind H. inv_bind Hk. injection Hk0 as <-. destruct (Hc _ Hb) as [V M]. cbn [parse_values]. rewrite V, M. cbn [is_value_node]. apply bind_same. intros [v n1]. rewrite (IH _ Hb0). reflexivity.
  - inv_bind H. inv_bind Hk. injection Hk0 as <-. destruct (Hc _ Hb) as [V M]. cbn [parse_values]. rewrite V, M. cbn [is_value_node]. apply bind_same. intros [v n1]. rewrite (IH _ Hb0). reflexivity.
Qed.
Lemma indent_object_same : forall cs, Forall indented cs -> Forall indented_fields cs -> forall cs', indent_children (indent_text ind) ind cs = Ok cs' ->
  forall inc F s ac next, parse_object_nodes CONF inc (parse_value CONF inc) cs' F s ac next = parse_object_nodes CONF inc (parse_value CONF inc) cs F s ac next.
Proof.
  intros cs F. induction F as [|c cs Hc F IH]; intros G cs' H inc V s ac next; cbn [indent_children] in H; [injection H as <-; reflexivity|].
  inversion G as [|? ? G1 G2]; subst. destruct c as [t'|t'|p|t'|fc|fc k|fc|fc|fc].
  - destruct t'; try (inv_bind H; injection Hk as <-; cbn [parse_object_nodes]; apply (IH G2), Hb).
    destruct (is_newline ind); [discriminate|]. inv_bind H. injection Hk as <-. cbn [parse_object_nodes]. apply (IH G2), Hb.
  - inv_bind H; injection Hk as <-; cbn [parse_object_nodes]; apply (IH G2), Hb.
  - inv_bind H; injection Hk as <-; cbn [parse_object_nodes]; apply (IH G2), Hb.
  - inv_bind H; injection Hk as <-; cbn [parse_object_nodes]; apply (IH G2), Hb.
  - inv_bind H. inv_bind Hk. injection Hk0 as <-. cbn [parse_object_nodes]. destruct (indent_field_same fc G1 _ Hb) as [A [B C]].
    unfold parse_field. rewrite A, B. destruct (field_path fc) as [[p ts]|e|u]; cbn [bind]; [|reflexivity..]. rewrite C.
    match goal with |- bind ?x _ = _ => destruct x as [[[q v] n1]|e|u]; cbn [bind]; [|reflexivity..] end.
    destruct (add_field CONF V q v); cbn [bind]; [|reflexivity..]. apply (IH G2), Hb0.
  - inv_bind H; injection Hk as <-; cbn [parse_object_nodes is_json]. apply bind_same. intros [v n1]. apply (IH G2), Hb.
  - inv_bind H. inv_bind Hk. injection Hk0 as <-. cbn [indent_text] in Hb. unfold rmap in Hb. inv_bind Hb. injection Hk as <-. cbn [parse_object_nodes]. apply (IH G2), Hb0.
  - inv_bind H. inv_bind Hk. injection Hk0 as <-. cbn [indent_text] in Hb. unfold rmap in Hb. inv_bind Hb. injection Hk as <-. cbn [parse_object_nodes]. apply (IH G2), Hb0.
  - inv_bind H. inv_bind Hk. injection Hk0 as <-. cbn [indent_text] in Hb. unfold rmap in Hb. inv_bind Hb. injection Hk as <-. cbn [parse_object_nodes]. apply (IH G2), Hb0.
Qed.
Lemma indent_same_all : forall n, indented n /\ indented_fields n.
Proof.
  intro n. induction n as [t'|t'|p|t'|cs F|cs k F|cs F|cs F|cs F] using node_induction; (split; [|try exact I]);
    try (intros n' H; cbn [indent_text] in H; injection H as <-; split; reflexivity).
  - cbn [indented_fields]. apply Forall_forall. rewrite Forall_forall in F. intros c Hc. apply F, Hc.
  - intros n' H. cbn [indent_text] in H. unfold rmap in H. inv_bind H. injection Hk as <-. split; [reflexivity|]. intros inc s ac next. cbn [parse_value].
    rewrite (indent_values_same cs (Forall_impl _ (fun a H => proj1 H) F) _ Hb). reflexivity.
  - intros n' H. cbn [indent_text] in H. unfold rmap in H. inv_bind H. injection Hk as <-. split; [reflexivity|]. intros inc s ac next. cbn [parse_value].
    rewrite (indent_values_same cs (Forall_impl _ (fun a H => proj1 H) F) _ Hb). reflexivity.
  - intros n' H. cbn [indent_text] in H. unfold rmap in H. inv_bind H. injection Hk as <-. split; [reflexivity|]. intros inc s ac next. cbn [parse_value].
    apply (indent_object_same cs (Forall_impl _ (fun a H => proj1 H) F) (Forall_impl _ (fun a H => proj2 H) F) _ Hb).
Qed.
End Indent.
Lemma indent_stands : forall t n n' v, indent_text (NTok t) n = Ok n' -> stands_for n v -> stands_for n' v.
Proof. intros t n n' v H S inc s ac next. destruct (proj1 (indent_same_all t n) n' H) as [_ M]. rewrite M. apply S. Qed.

(** ** What an edit does *)
Section Edit.
(** What the new value node satisfies *)
Variable P : node -> Prop.

Inductive edit : path -> list node -> list node -> Prop :=
| ed_nil : forall p, edit p [] []
| ed_keep : forall p c cs cs', is_field c = false -> edit p cs cs' -> edit p (c :: cs) (c :: cs')
| ed_drop : forall p c cs cs', is_field c = false -> edit p cs cs' -> edit p (c :: cs) cs'
| ed_token : forall p t cs cs', edit p cs cs' -> edit p cs (NTok t :: cs')
| ed_delete : forall p fc cs cs', relate (key_of fc) p = Same \/ relate (key_of fc) p = Longer -> edit p cs cs' -> edit p (NField fc :: cs) cs'
| ed_replace : forall p fc fc' v cs cs', relate (key_of fc) p = Same -> replace_value fc v = Ok fc' -> is_value_node v = true -> P v ->
    edit p cs cs' -> edit p (NField fc :: cs) (NField fc' :: cs')
| ed_below : forall p r fc fc' ocs ocs' cs cs', relate (key_of fc) p = Above r -> value_of fc = Some (NObject ocs) ->
    edit r ocs ocs' -> replace_value fc (NObject ocs') = Ok fc' -> edit p cs cs' -> edit p (NField fc :: cs) (NField fc' :: cs')
| ed_other : forall p fc cs cs',
    match relate (key_of fc) p with
    | Apart => True
    | Above _ => match value_of fc with Some (NObject _) => False | _ => True end
    | _ => False
    end -> edit p cs cs' -> edit p (NField fc :: cs) (NField fc :: cs')
| ed_new : forall p fc v cs cs', wf_field fc = true -> key_of fc = p -> is_plus_equals fc = false -> value_of fc = Some v -> P v ->
    edit p cs cs' -> edit p cs (NField fc :: cs')
| ed_nested : forall k r fc ocs cs cs', wf_field fc = true -> key_of fc = [k] -> is_plus_equals fc = false -> r <> [] -> value_of fc = Some (NObject ocs) -> edit r [] ocs ->
    edit (k :: r) cs cs' -> edit (k :: r) cs (NField fc :: cs').

Lemma edit_refl_other : forall p cs, (forall fc, In (NField fc) cs -> match relate (key_of fc) p with
    | Apart => True
    | Above _ => match value_of fc with Some (NObject _) => False | _ => True end
    | _ => False
    end) -> edit p cs cs.
Proof.
  intros p cs. induction cs as [|c cs IH]; intro H; [constructor|]. destruct c; try (apply ed_keep; [reflexivity|]; apply IH; intros fc Hf; apply H; right; exact Hf).
  apply ed_other; [apply H; left; reflexivity|]. apply IH. intros fc Hf. apply H. right. exact Hf.
Qed.

Lemma replace_plus : forall fc v fc', replace_value fc v = Ok fc' -> is_value_node v = true -> is_plus_equals fc' = is_plus_equals fc.
Proof.
  induction fc as [|c fc IH]; intros v fc' H V; [discriminate|]. cbn [replace_value] in H. destruct (is_value_node c) eqn:E.
  - injection H as <-. destruct c, v; try discriminate; reflexivity.
  - inv_bind H. injection Hk as <-. destruct c; cbn [is_plus_equals]; try (eapply IH; eassumption); try discriminate. destruct t; try reflexivity; eapply IH; eassumption.
Qed.
Lemma replace_wf : forall fc v fc', replace_value fc v = Ok fc' -> is_value_node v = true -> wf_field fc = true -> wf_field fc' = true.
Proof.
  intros fc v fc' H V W. destruct (replace_parts _ _ _ H V) as [A [B _]]. unfold wf_field in *. rewrite A, B. destruct (key_of fc); [discriminate|reflexivity].
Qed.

(** ** The meaning of the fields *)
Lemma says_parts : forall fc p v, says fc p v -> wf_field fc = true -> p = key_of fc /\ plain v /\ is_plus_equals fc = false /\ exists n, value_of fc = Some n /\ stands_for n v.
Proof.
  intros fc p v [fc' p' ts n v' H1 H2 H3 H4 H5] W. destruct (field_parts _ W) as [toks [u [E1 [_ [E2 [E3 _]]]]]].
  rewrite H1 in E1. injection E1 as -> _. rewrite H3 in E2. injection E2 as ->. repeat split; try assumption. exists u. auto.
Qed.
Lemma says_intro : forall fc n v, wf_field fc = true -> is_plus_equals fc = false -> value_of fc = Some n -> stands_for n v -> says fc (key_of fc) v.
Proof.
  intros fc n v W E V S. destruct (field_parts _ W) as [toks [u [E1 [_ [E2 [E3 _]]]]]]. rewrite V in E3. injection E3 as <-.
  econstructor; try eassumption. exact (stands_plain _ _ S).
Qed.
Lemma runs_cons : forall fc cs F v, says fc (key_of fc) v -> wf_field fc = true -> plain_fields F ->
  exists F1, add_field CONF F (key_of fc) v = Ok F1 /\ plain_fields F1 /\ twins (obj F1) (over (Some (under (key_of fc) v)) (obj F)) /\
  forall F', runs cs F1 F' -> runs (NField fc :: cs) F F'.
Proof.
  intros fc cs F v S W PF. destruct (says_parts _ _ _ S W) as [_ [Pv _]]. destruct (field_parts _ W) as [_ [_ [_ [Hk _]]]].
  destruct (add_field_over F (key_of fc) v PF Pv Hk) as [F1 [E [P1 T]]]. exists F1. repeat split; try apply P1; try apply T; try exact E. intros F' R. eapply runs_field; eassumption.
Qed.

Lemma wfs_cons : forall c cs, wfs (c :: cs) = true -> wf_node c = true /\ wfs cs = true.
Proof. intros c cs H. unfold wfs in *. cbn [forallb] in H. apply andb_true_iff in H. exact H. Qed.
Lemma wf_object : forall cs, wf_node (NObject cs) = true -> wfs cs = true.
Proof. intros cs H. cbn [wf_node] in H. apply andb_true_iff in H. apply H. Qed.
Lemma wf_field_node : forall fc, wf_node (NField fc) = true -> wf_field fc = true /\ wfs fc = true.
Proof. intros fc H. cbn [wf_node] in H. apply andb_true_iff in H. exact H. Qed.

Lemma runs_agree : forall w, (forall n, P n -> stands_for n w) -> forall p cs cs', edit p cs cs' -> wfs cs = true ->
  forall F0 F0' F, plain_fields F0 -> plain_fields F0' -> agree p (obj F0) (obj F0') -> runs cs F0 F -> exists F', runs cs' F0' F' /\ agree p (obj F) (obj F').
Proof.
  intros w HP p cs cs' H. induction H as [p|p c cs cs' N H IH|p c cs cs' N H IH|p t cs cs' H IH|p fc cs cs' R H IH|p fc fc' v cs cs' R E V Pv H IH
    |p r fc fc' ocs ocs' cs cs' R V H1 IH1 E H IH|p fc cs cs' R H IH|p fc v cs cs' W K Pl V Pv H IH|k r fc ocs cs cs' W K Pl Nr V H1 IH1 H IH];
    intros Hw F0 F0' F P0 P0' A X; try (apply wfs_cons in Hw; destruct Hw as [Hc Hw]).
  - inversion X; subst. exists F0'. split; [constructor|exact A].
  - inversion X as [|? ? ? ? _ Hi X'|]; subst; [|discriminate N]. destruct (IH Hw _ _ _ P0 P0' A X') as [F' [Y B]]. exists F'. split; [apply runs_skip; assumption|exact B].
  - inversion X as [|? ? ? ? _ Hi X'|]; subst; [|discriminate N]. apply (IH Hw _ _ _ P0 P0' A X').
  - destruct (IH Hw _ _ _ P0 P0' A X) as [F' [Y B]]. exists F'. split; [apply runs_skip; [reflexivity|exact I|exact Y]|exact B].
  - inversion X as [|? ? ? ? Hf|? ? q u ? F1 ? S Ad X']; subst; [discriminate Hf|]. destruct (wf_field_node _ Hc) as [Wf Wc].
    destruct (says_parts _ _ _ S Wf) as [-> [Pu _]]. destruct (field_parts _ Wf) as [_ [_ [_ [Hk _]]]].
    destruct (add_field_over F0 (key_of fc) u P0 Pu Hk) as [F2 [E [P1 T]]]. rewrite Ad in E. injection E as <-.
    apply (IH Hw F1 F0' F P1 P0'); [|exact X']. eapply agree_trans; [apply agree_twins, T|].
    change (obj F0') with (over None (obj F0')). apply agree_over; try (apply obj_plain; assumption); [apply under_plain, Pu|exact I| |exact A].
    pose proof (relate_spec (key_of fc) p) as Rs. destruct R as [R|R]; rewrite R in Rs.
    + rewrite Rs. apply agree_at.
    + destruct Rs as [x [_ ->]]. apply agree_below.
  - inversion X as [|? ? ? ? Hf|? ? q u ? F1 ? S Ad X']; subst; [discriminate Hf|]. destruct (wf_field_node _ Hc) as [Wf Wc].
    destruct (says_parts _ _ _ S Wf) as [-> [Pu [Pl _]]]. destruct (field_parts _ Wf) as [_ [_ [_ [Hk _]]]].
    destruct (add_field_over F0 (key_of fc) u P0 Pu Hk) as [F2 [E2 [P1 T]]]. rewrite Ad in E2. injection E2 as <-.
    destruct (replace_parts _ _ _ E V) as [K1 [K2 _]]. pose proof (replace_wf _ _ _ E V Wf) as W'. pose proof (replace_plus _ _ _ E V) as Pl'. rewrite Pl in Pl'.
    destruct (runs_cons fc' cs' F0' w (says_intro _ _ _ W' Pl' K2 (HP _ Pv)) W' P0') as [F3 [_ [P3 [T3 G]]]].
    destruct (IH Hw F1 F3 F P1 P3) as [F' [Y B]]; [|exact X'|exists F'; split; [apply G, Y|exact B]].
    eapply agree_trans; [apply agree_twins, T|]. eapply agree_trans; [|apply agree_sym, agree_twins, T3]. rewrite K1.
    pose proof (stands_plain _ _ (HP _ Pv)) as Pw.
    apply agree_over; try (apply obj_plain; assumption); [apply under_plain, Pu|apply under_plain, Pw| |exact A].
    pose proof (relate_spec (key_of fc) p) as Rs. rewrite R in Rs. subst p. rewrite <- (app_nil_r (key_of fc)) at 1. apply agree_under. exact I.
  - inversion X as [|? ? ? ? Hf|? ? q u ? F1 ? S Ad X']; subst; [discriminate Hf|]. destruct (wf_field_node _ Hc) as [Wf Wc].
    destruct (says_parts _ _ _ S Wf) as [-> [Pu [Pl [n [Vn Sn]]]]]. destruct (field_parts _ Wf) as [_ [_ [_ [Hk _]]]].
    rewrite V in Vn. injection Vn as <-. destruct (stands_runs _ _ Sn) as [G [-> Rg]].
    pose proof (value_wf _ _ V Wc) as Vw. apply wf_object in Vw.
    assert (PN : plain_fields []) by (split; constructor).
    destruct (IH1 Vw [] [] G PN PN (agree_refl _ _) Rg) as [G' [Rg' Ag]].
    destruct (add_field_over F0 (key_of fc) _ P0 Pu Hk) as [F2 [E2 [P1 T]]]. rewrite Ad in E2. injection E2 as <-.
    destruct (replace_parts _ _ _ E eq_refl) as [K1 [K2 _]]. pose proof (replace_wf _ _ _ E eq_refl Wf) as W'. pose proof (replace_plus _ _ _ E eq_refl) as Pl'. rewrite Pl in Pl'.
    destruct (runs_cons fc' cs' F0' _ (says_intro _ _ _ W' Pl' K2 (runs_stands _ _ Rg')) W' P0') as [F3 [_ [P3 [T3 G3]]]].
    destruct (IH Hw F1 F3 F P1 P3) as [F' [Y B]]; [|exact X'|exists F'; split; [apply G3, Y|exact B]].
    eapply agree_trans; [apply agree_twins, T|]. eapply agree_trans; [|apply agree_sym, agree_twins, T3]. rewrite K1.
    pose proof (stands_plain _ _ (runs_stands _ _ Rg')) as Pw.
    apply agree_over; try (apply obj_plain; assumption); [apply under_plain, Pu|apply under_plain, Pw| |exact A].
    pose proof (relate_spec (key_of fc) p) as Rs. rewrite R in Rs. destruct Rs as [_ ->]. apply agree_under. exact Ag.
  - inversion X as [|? ? ? ? Hf|? ? q u ? F1 ? S Ad X']; subst; [discriminate Hf|]. destruct (wf_field_node _ Hc) as [Wf Wc].
    pose proof (says_parts _ _ _ S Wf) as [Eq [Pu _]]. subst q. destruct (field_parts _ Wf) as [_ [_ [_ [Hk _]]]].
    destruct (add_field_over F0 (key_of fc) u P0 Pu Hk) as [F2 [E2 [P1 T]]]. rewrite Ad in E2. injection E2 as <-.
    destruct (runs_cons fc cs' F0' u S Wf P0') as [F3 [_ [P3 [T3 G3]]]].
    destruct (IH Hw F1 F3 F P1 P3) as [F' [Y B]]; [|exact X'|exists F'; split; [apply G3, Y|exact B]].
    eapply agree_trans; [apply agree_twins, T|]. eapply agree_trans; [|apply agree_sym, agree_twins, T3].
    apply agree_over; try (apply obj_plain; assumption); [apply under_plain, Pu|apply under_plain, Pu|apply agree_refl|exact A].
  - destruct (runs_cons fc cs' F0' w (says_intro _ _ _ W Pl V (HP _ Pv)) W P0') as [F3 [_ [P3 [T3 G3]]]].
    destruct (IH Hw F0 F3 F P0 P3) as [F' [Y B]]; [|exact X|exists F'; split; [apply G3, Y|exact B]].
    eapply agree_trans; [|apply agree_sym, agree_twins, T3]. change (obj F0) with (over None (obj F0)).
    pose proof (stands_plain _ _ (HP _ Pv)) as Pw. rewrite K.
    apply agree_over; try (apply obj_plain; assumption); [exact I|apply under_plain, Pw| |exact A].
    apply agree_sym, agree_at.
  - assert (PN : plain_fields []) by (split; constructor).
    destruct (IH1 eq_refl [] [] [] PN PN (agree_refl _ _) (runs_nil [])) as [G' [Rg' Ag]].
    destruct (runs_cons fc cs' F0' _ (says_intro _ _ _ W Pl V (runs_stands _ _ Rg')) W P0') as [F3 [_ [P3 [T3 G3]]]].
    destruct (IH Hw F0 F3 F P0 P3) as [F' [Y B]]; [|exact X|exists F'; split; [apply G3, Y|exact B]].
    eapply agree_trans; [|apply agree_sym, agree_twins, T3]. change (obj F0) with (over None (obj F0)).
    pose proof (stands_plain _ _ (runs_stands _ _ Rg')) as Pw. rewrite K.
    apply agree_over; try (apply obj_plain; assumption); [exact I|apply (under_plain [k]), Pw| |exact A].
    pose proof (under_sub k [] (new_object G')) as U. set (x := Some (under [k] (new_object G'))) in *.
    split; [reflexivity|]. split.
    + intros k' N. rewrite U. destruct (str_eqb k' k) eqn:E; [apply str_eqb_eq in E; congruence|reflexivity].
    + rewrite U, str_eqb_refl. eapply agree_trans; [|exact Ag]. apply agree_twins. split; [reflexivity|]. intro k'. reflexivity.
Qed.
End Edit.
