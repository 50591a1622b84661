(** The editing operations on documents. *)
From Verif Require Import Base BaseLemmas Util_Model Num_Model Path_Model Path_Spec Path_Lemmas Token_Model PathParser_Model
  PathParser_Lemmas PathParser_Lemmas3 Doc_Model Doc_Spec Doc_Lemmas Doc_Lemmas2 Doc_Lemmas3 Edit_Model Edit_Spec Edit_Lemmas Edit_Lemmas2 Edit_Lemmas3
  Edit_Lemmas4.

Lemma path_node_nonempty : forall s f pn, parse_path_node s f = Ok pn -> fst pn <> [].
Proof.
  intros s f pn H. unfold parse_path_node in H. destruct (delivered _) as [[|t ts] e]; [destruct e; discriminate|].
  unfold parse_path_expression in H.
  assert (H' : ('(buff, acc) <- path_tokens_loop true f [([], false)] [] ts ;;
      raise_end e (p <- build_path true (rev buff) [] ;; Ok (p, acc))) = Ok pn) by (destruct ts, e; try discriminate; exact H).
  clear H. inv_bind H'. destruct a as [b acc]. destruct e; try discriminate. cbn [raise_end] in Hk. inv_bind Hk. injection Hk0 as <-. cbn [fst].
  apply path_tokens_loop_inv in Hb. destruct Hb as [_ ->]. pose proof (build_path_inv _ _ _ _ Hb0) as F.
  rewrite build_path_ok in Hb0 by exact F. injection Hb0 as <-. intro E. apply map_eq_nil in E. apply (f_equal (@rev element)) in E.
  rewrite rev_involutive in E. revert E. apply fold_ne. discriminate.
Qed.

(** ** Removing an absent path from a HOCON document changes nothing *)

Lemma change_absent : forall n cs p cs', p <> [] -> wfs cs = true -> (forall m, hasb m p cs = false) ->
  change_value_n n CONF cs p None = Ok cs' -> cs' = cs.
Proof.
  induction n as [|n IH]; intros cs p cs' Hp Hw Hh H; [discriminate|]. cbn [change_value_n] in H. inv_bind H.
  destruct a as [[after seen] vc]. injection Hk as <-.
  assert (G : forall cs i prev after seen vc, wfs cs = true -> (forall m, hasb m p cs = false) ->
     change_children (change_value_n n CONF) CONF p None i prev cs = Ok (after, seen, vc) -> after = cs /\ vc = None).
  { clear - IH Hp. induction cs as [|c cs IHcs]; intros i prev after seen vc Hw Hh H; cbn [change_children] in H.
    { injection H as <- _ <-. auto. }
    rewrite wfs_cons in Hw. apply andb_true_iff in Hw. destruct Hw as [Hc Hw].
    assert (Hh1 : forall m, hasb m p [c] = false).
    { intro m. specialize (Hh m). rewrite hasb_cons in Hh. apply orb_false_iff in Hh. apply Hh. }
    assert (Hh2 : forall m, hasb m p cs = false).
    { intro m. specialize (Hh m). rewrite hasb_cons in Hh. apply orb_false_iff in Hh. apply Hh. }
    inv_bind H. destruct a as [[after0 seen0] vc0]. destruct (IHcs _ _ _ _ _ Hw Hh2 Hb) as [-> ->].
    destruct c; try (cbn [is_json andb] in Hk; injection Hk as <- _ <-; auto).
    cbn [wf_node] in Hc. apply andb_true_iff in Hc. destruct Hc as [Hf Hcs].
    destruct (field_parts _ Hf) as [toks [ov [E1 [Hne [E2 [E3 E4]]]]]]. rewrite E1 in Hk. cbn [bind] in Hk.
    destruct (relate_ops (key_of children) p Hne Hp) as [O1 [O2 [O3 O4]]]. rewrite O1, O2, O3 in Hk.
    pose proof (Hh1 1%nat) as Hh'. rewrite hasb_field in Hh'. destruct (relate (key_of children) p) as [| |r|] eqn:Er; try discriminate.
    + destruct (O4 r eq_refl) as [O5 [O6 O7]]. cbn [bind andb negb] in Hk. rewrite E2, O5 in Hk. cbn [bind] in Hk.
      destruct ov; try (injection Hk as <- _ <-; auto).
      inv_bind Hk. inv_bind Hk0. injection Hk as <- _ <-. split; [|reflexivity].
      pose proof (value_wf _ _ E3 Hcs) as Hvw. cbn [wf_node] in Hvw. apply andb_true_iff in Hvw. destruct Hvw as [_ Hvw].
      apply IH in Hb0; [|exact O6|exact Hvw|].
      * subst a. rewrite (replace_same _ _ _ Hb1 E3). reflexivity.
      * intro m. specialize (Hh1 (S m)). rewrite hasb_field, Er, E3 in Hh1. exact Hh1.
    + cbn [bind andb negb] in Hk. injection Hk as <- _ <-. auto. }
  exact (proj1 (G _ _ _ _ _ _ Hw Hh Hb)).
Qed.

(** ** The outcome of an edit *)

Definition edit_of (p : path) (ocs ocs' : list node) : Prop :=
  wfs ocs' = true /\ braces ocs' = true /\
  (forall n q, unrelated p q -> hasb n q ocs' = hasb n q ocs) /\ (forall n, others n p ocs' = others n p ocs).

Lemma changed_edit : forall set p ocs ocs', wfs ocs = true -> braces ocs = true -> changed set p ocs ocs' -> edit_of p ocs ocs'.
Proof.
  intros set p ocs ocs' Hw Hb H. unfold edit_of. destruct (changed_braces _ _ _ _ H) as [B1 [B2 B3]].
  refine (conj (changed_wf _ _ _ _ H Hw) (conj (braces_change _ _ B1 B2 B3 Hb) (conj _ _))).
  - intros n q. apply (changed_frame _ _ _ _ H).
  - apply (changed_others _ _ _ _ H).
Qed.

Lemma root_set_split : forall root ps v f root', root_set_value root ps v f = Ok root' ->
  exists pre ocs post ocs' pn, root = pre ++ NObject ocs :: post /\ root' = pre ++ NObject ocs' :: post /\
    Forall (fun c => match c with NObject _ | NArray _ => False | _ => True end) pre /\
    parse_path_node ps f = Ok pn /\
    match v with
    | None => change_value_on_path ocs (fst pn) None f = Ok ocs'
    | Some v => set_value_on_path ocs pn v f = Ok ocs'
    end.
Proof.
  intros root ps v f root' H. unfold root_set_value, rmap in H. inv_bind H. injection Hk as <-. destruct a as [root' ocs'].
  apply on_root_split in Hb. destruct Hb as [pre [ocs [post [-> [H1 [-> H2]]]]]]. inv_bind H1.
  exists pre, ocs, post, ocs', a. repeat (split; [reflexivity || assumption|]). destruct v; exact Hk.
Qed.

Lemma hasb_mono : forall n m p cs, (n <= m)%nat -> hasb n p cs = true -> hasb m p cs = true.
Proof.
  induction n as [|n IH]; intros m p cs Hm H; [discriminate|]. destruct m as [|m]; [lia|]. cbn [hasb] in *.
  apply existsb_exists in H. destruct H as [c [Hc H]]. apply existsb_exists. exists c. split; [exact Hc|]. destruct c; try discriminate.
  destruct (relate (key_of children) p) as [| |r|]; try exact H. destruct (value_of children) as [v|]; try exact H. destruct v; try exact H.
  apply (IH m); [lia|exact H].
Qed.

Lemma set_value_edit : forall ocs pn v f ocs', fst pn <> [] -> wfs ocs = true -> braces ocs = true ->
  wf_node v = true -> is_value_node v = true -> set_value_on_path ocs pn v f = Ok ocs' ->
  edit_of (fst pn) ocs ocs' /\ hasb (List.length (fst pn)) (fst pn) ocs' = true.
Proof.
  intros ocs [p toks] v f ocs' Hp Hw Hb Hv1 Hv2 H. cbn [fst] in *. unfold set_value_on_path in H. cbn [fst] in H. inv_bind H. inv_bind Hk. unfold change_value_on_path in Hb0.
  apply change_value_changed in Hb0; [|exact Hp|exact Hw|split; assumption].
  destruct (changed_edit _ _ _ _ Hw Hb Hb0) as [D1 [D2 [D3 D4]]].
  unfold has_value in Hb1. rewrite has_value_n_spec in Hb1 by (assumption || lia). injection Hb1 as Ha0.
  destruct a0.
  - injection Hk0 as <-. split; [|exact Ha0]. exact (conj D1 (conj D2 (conj D3 D4))).
  - unfold add_value_on_path in Hk0. apply add_value_added in Hk0; try assumption.
    + destruct Hk0 as [A [B _]]. cbn [fst] in A. split; [|eapply added_has; try eassumption; lia].
      refine (conj (added_wf _ _ _ A D1) (conj B (conj _ _))).
      * intros n q Hu. rewrite (added_frame _ _ _ A n q Hu). apply D3. exact Hu.
      * intro n. rewrite (added_others _ _ _ A n). apply D4.
    + intro m. cbn [fst]. destruct (Nat.le_gt_cases (List.length p) m) as [Hm|Hm].
      * rewrite (hasb_fuel m (List.length p)) by (assumption || lia). exact Ha0.
      * destruct (hasb m p a) eqn:E; [|reflexivity]. apply (hasb_mono m (List.length p)) in E; [|lia]. congruence.
Qed.

Lemma document_wf : forall f root, document f root -> wfr root = true.
Proof.
  intros f root H. induction H as [s root H|root p text root' _ IH H|root p root' _ IH H].
  - eapply parse_document_sound, H.
  - unfold with_value_text in H. destruct text; [discriminate|]. inv_bind H. apply parse_value_text_sound in Hb.
    destruct Hb as [v [-> [V1 V2]]]. apply root_set_split in Hk. destruct Hk as [pre [ocs [post [ocs' [pn [E1 [-> [F [E2 E3]]]]]]]]].
    assert (R : rooted root ocs) by (exists pre, post; auto). destruct (root_wf _ _ R IH) as [W1 W2].
    apply set_value_edit in E3; try assumption; [|eapply path_node_nonempty, E2]. destruct E3 as [[D1 [D2 _]] _].
    eapply set_wf; eassumption.
  - unfold without_path in H. apply root_set_split in H. destruct H as [pre [ocs [post [ocs' [pn [E1 [-> [F [E2 E3]]]]]]]]].
    assert (R : rooted root ocs) by (exists pre, post; auto). destruct (root_wf _ _ R IH) as [W1 W2]. pose proof (path_node_nonempty _ _ _ E2) as Hp.
    unfold change_value_on_path in E3. apply change_value_changed in E3; try assumption; [|exact I].
    destruct (changed_edit _ _ _ _ W1 W2 E3) as [D1 [D2 _]]. eapply set_wf; eassumption.
Qed.

Lemma edit_outcome : forall f root ps root', document f root ->
  (exists text, with_value_text f root ps text = Ok root') \/ without_path f root ps = Ok root' ->
  exists pre ocs post ocs' pn, root = pre ++ NObject ocs :: post /\ root' = pre ++ NObject ocs' :: post /\
    Forall (fun c => match c with NObject _ | NArray _ => False | _ => True end) pre /\
    wfr root = true /\ wfr root' = true /\
    parse_path_node ps f = Ok pn /\ fst pn <> [] /\ edit_of (fst pn) ocs ocs'.
Proof.
  intros f root ps root' D H. pose proof (document_wf _ _ D) as W.
  assert (W' : wfr root' = true).
  { destruct H as [[text H]|H]; (eapply document_wf; [|..]); [eapply set_document|eapply removed_document]; eassumption. }
  assert (G : exists v, ok_value v /\ root_set_value root ps v f = Ok root').
  { destruct H as [[text H]|H].
    - unfold with_value_text in H. destruct text; [discriminate|]. inv_bind H. apply parse_value_text_sound in Hb.
      destruct Hb as [v [-> V]]. exists (Some v). auto.
    - exists None. split; [exact I|exact H]. }
  destruct G as [v [Hv G]]. apply root_set_split in G. destruct G as [pre [ocs [post [ocs' [pn [E1 [E0 [F [E2 E3]]]]]]]]].
  assert (R : rooted root ocs) by (exists pre, post; auto). destruct (root_wf _ _ R W) as [W1 W2].
  pose proof (path_node_nonempty _ _ _ E2) as Hp. exists pre, ocs, post, ocs', pn. repeat (split; [assumption|]).
  destruct v as [v|].
  - destruct Hv. eapply set_value_edit; eassumption.
  - unfold change_value_on_path in E3. apply change_value_changed in E3; try assumption. eapply changed_edit; eassumption.
Qed.

Lemma set_then_has : forall f root ps text root' p, document f root -> new_path ps = Ok p ->
  with_value_text f root ps text = Ok root' -> has_path root' ps = Ok true.
Proof.
  intros f root ps text root' p D Hp H. pose proof (document_wf _ _ D) as W.
  assert (W' : wfr root' = true) by (eapply document_wf, set_document; eassumption).
  unfold with_value_text in H. destruct text; [discriminate|]. inv_bind H. apply parse_value_text_sound in Hb.
  destruct Hb as [v [-> [V1 V2]]]. apply root_set_split in Hk. destruct Hk as [pre [ocs [post [ocs' [pn [E1 [E0 [F [E2 E3]]]]]]]]].
  assert (R : rooted root ocs) by (exists pre, post; auto). destruct (root_wf _ _ R W) as [W1 W2].
  pose proof (path_node_nonempty _ _ _ E2) as Hne. apply set_value_edit in E3; try assumption. destruct E3 as [_ E3].
  pose proof (path_node_agrees _ _ _ _ Hp E2) as Ep. destruct pn as [p0 tk]. cbn [fst] in *. subst p0. rewrite (rooted_has root' ocs' p ps); try assumption; [rewrite E3; reflexivity|].
  exists pre, post. auto.
Qed.

Lemma removed_then_not : forall f root ps root' p, document f root -> new_path ps = Ok p ->
  without_path f root ps = Ok root' -> has_path root' ps = Ok false.
Proof.
  intros f root ps root' p D Hp H. pose proof (document_wf _ _ D) as W.
  assert (W' : wfr root' = true) by (eapply document_wf, removed_document; eassumption).
  apply root_set_split in H. destruct H as [pre [ocs [post [ocs' [pn [E1 [E0 [F [E2 E3]]]]]]]]].
  assert (R : rooted root ocs) by (exists pre, post; auto). destruct (root_wf _ _ R W) as [W1 W2].
  pose proof (path_node_nonempty _ _ _ E2) as Hne. unfold change_value_on_path in E3.
  apply change_value_changed in E3; try assumption; [|exact I].
  pose proof (path_node_agrees _ _ _ _ Hp E2) as Ep. destruct pn as [p0 tk]. cbn [fst] in *. subst p0. rewrite (rooted_has root' ocs' p ps); try assumption.
  - rewrite (changed_gone _ _ _ _ E3 eq_refl). reflexivity.
  - exists pre, post. auto.
Qed.

Lemma edit_frame : forall f root ps root' p q s, document f root -> new_path ps = Ok p ->
  (exists text, with_value_text f root ps text = Ok root') \/ without_path f root ps = Ok root' ->
  new_path s = Ok q -> unrelated p q -> has_path root' s = has_path root s.
Proof.
  intros f root ps root' p q s D Hp H Hq Hu.
  destruct (edit_outcome _ _ _ _ D H) as [pre [ocs [post [ocs' [pn [E1 [E0 [F [W [W' [E2 [E4 [_ [_ [E5 _]]]]]]]]]]]]]]].
  pose proof (path_node_agrees _ _ _ _ Hp E2) as Ep. destruct pn as [p0 tk]. cbn [fst] in *. subst p0.
  assert (Hqn : q <> []) by (apply (new_path_empty_keys _ _ Hq)).
  rewrite (rooted_has root' ocs' q s), (rooted_has root ocs q s), E5; try assumption; try reflexivity; exists pre, post; auto.
Qed.

Lemma rooted_outside : forall pre ocs post, Forall (fun c => match c with NObject _ | NArray _ => False | _ => True end) pre ->
  outside (pre ++ NObject ocs :: post) = pre ++ post.
Proof.
  intros pre ocs post H. induction H as [|c pre Hc H IH]; [reflexivity|]. destruct c; try contradiction; cbn; rewrite IH; reflexivity.
Qed.

Lemma edit_others : forall f root ps root' p, document f root -> new_path ps = Ok p ->
  (exists text, with_value_text f root ps text = Ok root') \/ without_path f root ps = Ok root' ->
  (forall n, others n p (root_object root') = others n p (root_object root)) /\ outside root' = outside root.
Proof.
  intros f root ps root' p D Hp H.
  destruct (edit_outcome _ _ _ _ D H) as [pre [ocs [post [ocs' [pn [E1 [E0 [F [W [W' [E2 [E4 [_ [_ [_ E5]]]]]]]]]]]]]]].
  pose proof (path_node_agrees _ _ _ _ Hp E2) as Ep. destruct pn as [p0 tk]. cbn [fst] in *. subst p0.
  assert (R : rooted root ocs) by (exists pre, post; auto). assert (R' : rooted root' ocs') by (exists pre, post; auto).
  rewrite (rooted_object _ _ R), (rooted_object _ _ R'). split; [exact E5|]. subst. rewrite !rooted_outside by exact F. reflexivity.
Qed.

Lemma remove_absent : forall root ps root', document CONF root -> has_path root ps = Ok false ->
  without_path CONF root ps = Ok root' -> root' = root.
Proof.
  intros root ps root' D Hh H. pose proof (document_wf _ _ D) as W.
  apply root_set_split in H. destruct H as [pre [ocs [post [ocs' [pn [E1 [E0 [F [E2 E3]]]]]]]]].
  assert (R : rooted root ocs) by (exists pre, post; auto). destruct (root_wf _ _ R W) as [W1 W2].
  pose proof (path_node_nonempty _ _ _ E2) as Hne. pose proof (path_node_conf _ _ E2) as Hp.
  destruct pn as [p tk]. cbn [fst] in *. rewrite (rooted_has root ocs p ps) in Hh by assumption. injection Hh as Hh.
  unfold change_value_on_path in E3. apply change_absent in E3; try assumption; [congruence|].
  intro m. destruct (Nat.le_gt_cases (List.length p) m) as [Hm|Hm].
  - rewrite (hasb_fuel m (List.length p)) by (assumption || lia). exact Hh.
  - destruct (hasb m p ocs) eqn:E; [|reflexivity]. apply (hasb_mono m (List.length p)) in E; [|lia]. congruence.
Qed.
