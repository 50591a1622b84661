(** Editing a HOCON document and what its nodes mean. *)
From Verif Require Import Base BaseLemmas Util_Model Num_Model Path_Model Path_Spec Path_Lemmas PathParser_Model PathParser_Lemmas PathParser_Lemmas3 Token_Model Doc_Model Edit_Model Edit_Spec Edit_Lemmas Edit_Lemmas2 Edit_Lemmas3 Edit_Lemmas4 Edit_Lemmas5 Value_Model Value_Spec Value_Lemmas Value_Lemmas2 Concat_Model ConfigParser_Model ConfigParser_Spec ConfigParser_Lemmas ConfEdit_Spec ConfEdit_Lemmas ConfEdit_Lemmas2 ConfEdit_Lemmas3 ConfEdit_Lemmas4 ConfEdit_Lemmas5.

(** ** The shape of a document *)
Definition shape (root : list node) : Prop := exists pre x post, root = pre ++ x :: post /\ quiets pre = true /\ quiets post = true /\ match x with NObject _ | NArray _ => True | _ => False end.

Lemma open_value : forall n f e t ts v r, t = TOpenCurly \/ t = TOpenSquare -> Doc_Model.parse_value n f e t ts = Ok (v, r) -> match v with NObject _ | NArray _ => True | _ => False end.
Proof.
  intros [|n] f e t ts v r [-> | ->] H; try discriminate; cbn [Doc_Model.parse_value] in H.
  - destruct (parse_object_sound (Doc_Model.parse_value n f e) f e true ts v r (parse_value_sound n f e) H) as [cs [-> _]]. exact I.
  - unfold parse_array in H. inv_bind H. destruct a as [[ns next] r0]. inv_bind Hk. destruct a as [cs r1]. injection Hk0 as <- _. exact I.
Qed.

Lemma parsed_shape : forall f s root, parse_document f s = Ok root -> shape root.
Proof.
  intros f s root H. unfold parse_document, after_start in H. destruct (delivered _) as [[|t ts] e]; [destruct e; discriminate|].
  unfold parse_root in H. inv_bind H. destruct a as [[ws t1] r]. inv_bind Hk. destruct a as [[mc children] r1]. inv_bind Hk0. destruct a as [[ws2 t2] r2].
  apply collect_quiet in Hb. apply collect_quiet in Hb1. destruct t2; try discriminate. destruct mc; injection Hk as <-.
  - exists [], (NObject (children ++ ws2)), []. auto.
  - assert (D : (t1 = TOpenCurly \/ t1 = TOpenSquare) \/ (t1 <> TOpenCurly /\ t1 <> TOpenSquare)) by (destruct t1; auto; right; split; discriminate).
    destruct D as [D|[D1 D2]].
    + assert (G : exists v r3, Doc_Model.parse_value (S (List.length ts)) f e t1 r = Ok (v, r3) /\ children = ws ++ [v]).
      { destruct D as [-> | ->]; (inv_bind Hb0; destruct a as [v r3]; injection Hk as <- <-; exists v, r3; auto). }
      destruct G as [v [r3 [G ->]]]. exists ws, v, ws2. rewrite <- app_assoc. split; [reflexivity|]. split; [exact Hb|]. split; [exact Hb1|]. eapply open_value; eassumption.
    + exfalso. assert (G : (if is_json f then Throw EParse else
           '(v, r1) <- parse_object (Doc_Model.parse_value (S (List.length ts)) f e) f e false (t1 :: r) ;;
           match v with
           | NObject cs => Ok (true, ws ++ cs, r1)
           | _ => Ok (true, ws ++ [v], r1)
           end) = Ok (false, children, r1)) by (destruct t1; try exact Hb0; congruence).
      destruct (is_json f); [discriminate|]. inv_bind G. destruct a as [v r3]. destruct v; discriminate.
Qed.

Lemma shape_rooted : forall pre ocs post, Forall (fun c => match c with NObject _ | NArray _ => False | _ => True end) pre -> shape (pre ++ NObject ocs :: post) ->
  quiets pre = true /\ quiets post = true.
Proof.
  intros pre ocs post F [pre' [x [post' [E [Q1 [Q2 X]]]]]]. revert pre' E Q1. induction F as [|c pre Hc F IH]; intros pre' E Q1.
  - destruct pre' as [|c' pre']; cbn [app] in E; injection E as E1 E2; [subst; auto|]. subst c'. cbn in Q1. discriminate.
  - destruct pre' as [|c' pre']; cbn [app] in E; injection E as E1 E2; [subst; destruct x; contradiction|]. subst c'. rewrite quiets_cons in *. apply andb_true_iff in Q1.
    destruct Q1 as [Q1 Q3]. destruct (IH _ E2 Q3) as [A B]. rewrite Q1, A, B. auto.
Qed.
Lemma shape_change : forall pre (ocs ocs' : list node) post, quiets pre = true -> quiets post = true -> shape (pre ++ NObject ocs' :: post).
Proof. intros pre ocs ocs' post A B. exists pre, (NObject ocs'), post. auto. Qed.

Lemma document_shape : forall f root, document f root -> shape root.
Proof.
  intros f root H. induction H as [s root H|root p text root' _ IH H|root p root' _ IH H].
  - eapply parsed_shape, H.
  - unfold with_value_text in H. destruct text; [discriminate|]. inv_bind H. apply root_set_split in Hk.
    destruct Hk as [pre [ocs [post [ocs' [pn [-> [-> [F _]]]]]]]]. destruct (shape_rooted _ _ _ F IH) as [A B]. exact (shape_change pre ocs ocs' post A B).
  - apply root_set_split in H. destruct H as [pre [ocs [post [ocs' [pn [-> [-> [F _]]]]]]]]. destruct (shape_rooted _ _ _ F IH) as [A B]. exact (shape_change pre ocs ocs' post A B).
Qed.

(** ** What the root means *)
Lemma root_post : forall inc post v next, quiets post = true -> parse_root_nodes CONF inc (Some v) post next = Ok (Some v, next).
Proof.
  intros inc post v next. induction post as [|c post IH]; intro Q; [reflexivity|]. rewrite quiets_cons in Q. apply andb_true_iff in Q. destruct Q as [Q1 Q2].
  destruct c as [t| | | | | | | |]; try discriminate Q1; cbn [parse_root_nodes]; [|exact (IH Q2)]. destruct t; try reflexivity; exact (IH Q2).
Qed.
Lemma root_pre : forall inc pre ns next, quiets pre = true -> parse_root_nodes CONF inc None (pre ++ ns) next = parse_root_nodes CONF inc None ns next.
Proof.
  intros inc pre ns next. induction pre as [|c pre IH]; intro Q; [reflexivity|]. rewrite quiets_cons in Q. apply andb_true_iff in Q. destruct Q as [Q1 Q2].
  destruct c as [t| | | | | | | |]; try discriminate Q1; cbn [app parse_root_nodes]; [|exact (IH Q2)]. destruct t; exact (IH Q2).
Qed.
Lemma root_means : forall pre ocs post v, quiets pre = true -> quiets post = true -> (conf_nodes (pre ++ NObject ocs :: post) v <-> stands_for (NObject ocs) v).
Proof.
  intros pre ocs post v Q1 Q2. split; intro H.
  - specialize (H no_includes 0%nat). rewrite root_pre in H by exact Q1.
    change (bind (parse_value CONF no_includes (NObject ocs) [] 0 0%nat) (fun x => let '(v0, next') := x in parse_root_nodes CONF no_includes (Some v0) post next') = Ok (Some v, 0%nat)) in H.
    inv_bind H. destruct a as [w n1]. rewrite root_post in Hk by exact Q2. injection Hk as -> ->. exact (proj2 (proj1 (all_steady (NObject ocs)) _ _ _ _ Hb)).
  - intros inc next. rewrite root_pre by exact Q1.
    change (bind (parse_value CONF inc (NObject ocs) [] 0 next) (fun x => let '(v0, next') := x in parse_root_nodes CONF inc (Some v0) post next') = Ok (Some v, next)).
    rewrite H. apply root_post. exact Q2.
Qed.

(** ** Setting *)
Definition means (w : value) (n : node) : Prop := stands_for n w.
Lemma means_indent : forall w t n n', means w n -> indent_text (NTok t) n = Ok n' -> means w n'.
Proof. intros w t n n' H E. exact (indent_stands _ _ _ _ E H). Qed.

Lemma obj_get : forall p F, look p (obj F) = get p (new_object F).
Proof. intros p F. apply look_get. Qed.

Lemma set_meaning : forall ocs pn n w ocs' F, fst pn <> [] -> wfs ocs = true -> braces ocs = true -> wf_node n = true -> is_value_node n = true -> stands_for n w ->
  set_value_on_path ocs pn n CONF = Ok ocs' -> runs ocs [] F ->
  exists F', runs ocs' [] F' /\ (forall q, apart (fst pn) q -> get q (new_object F') = get q (new_object F)) /\
    ((forall u, on_way (fst pn) ocs u -> exists cs, u = NObject cs) -> get (fst pn) (new_object F') = Some w).
Proof.
  intros ocs [p toks] n w ocs' F Hp Hw Hb Hn1 Hn2 Hs H R. cbn [fst] in *. pose proof (set_value_edit ocs (p, toks) n CONF ocs' Hp Hw Hb Hn1 Hn2 H) as [[W' _] Hh]. cbn [fst] in *.
  unfold set_value_on_path in H. cbn [fst] in H. inv_bind H. inv_bind Hk. unfold change_value_on_path in Hb0.
  pose proof (change_value_changed _ _ _ _ (Some n) _ Hp Hw (conj Hn1 Hn2) Hb0) as C. destruct (changed_edit _ _ _ _ Hw Hb C) as [W1 _].
  apply (change_value_edit (means w) (means_indent w)) in Hb0; [|exact Hp|exact Hw|split; assumption].
  assert (E2 : edit (means w) p a ocs' \/ a = ocs').
  { unfold has_value in Hb1. rewrite has_value_n_spec in Hb1 by (assumption || lia). injection Hb1 as Ha0. destruct a0; [injection Hk0 as <-; auto|left].
    unfold add_value_on_path in Hk0. apply (add_value_edit (means w) (means_indent w)) in Hk0; try assumption. intro m. cbn [fst].
    destruct (Nat.le_gt_cases (List.length p) m) as [Hm|Hm].
    * rewrite (hasb_fuel m (List.length p)) by (assumption || lia). exact Ha0.
    * destruct (hasb m p a) eqn:E; [|reflexivity]. apply (hasb_mono m (List.length p)) in E; [|lia]. congruence. }
  destruct (runs_agree (means w) w (fun n H => H) p ocs a Hb0 Hw [] [] F plain_nil plain_nil (agree_refl _ _) R) as [F1 [R1 A1]].
  assert (G : exists F', runs ocs' [] F' /\ agree p (obj F1) (obj F')).
  { destruct E2 as [E2| ->]; [|exists F1; split; [exact R1|apply agree_refl]].
    exact (runs_agree (means w) w (fun n H => H) p a ocs' E2 W1 [] [] F1 plain_nil plain_nil (agree_refl _ _) R1). }
  destruct G as [F' [R2 A2]]. exists F'. split; [exact R2|]. split.
  - intros q Q. rewrite <- !obj_get. symmetry. exact (agree_look p _ _ (agree_trans p _ _ _ A1 A2) q Q).
  - intro Y. assert (S1 : settled (means w) p a) by exact (edit_settled (means w) p ocs a Hb0 Hw Y).
    assert (S2 : settled (means w) p ocs').
    { destruct E2 as [E2| <-]; [|exact S1]. exact (edit_settled (means w) p a ocs' E2 W1 (settled_way (means w) p a S1)). }
    rewrite <- obj_get.
    destruct (settled_runs (means w) w (stands_plain _ _ Hs) (fun n H => H) p ocs' S2 Hp W' [] F' plain_nil (free_obj p)) as [_ [_ L]]; [left; apply look_obj, Hp|exact R2|].
    apply L. right. eexists. exact Hh.
Qed.

Lemma no_indent : forall t n n' , (fun _ : node => False) n -> indent_text (NTok t) n = Ok n' -> (fun _ : node => False) n'.
Proof. auto. Qed.

Lemma remove_meaning : forall ocs p ocs' F, p <> [] -> wfs ocs = true -> braces ocs = true -> change_value_on_path ocs p None CONF = Ok ocs' -> runs ocs [] F ->
  exists F', runs ocs' [] F' /\ (forall q, apart p q -> get q (new_object F') = get q (new_object F)) /\
    ((forall u, on_way p ocs u -> forall cs, u <> NConcat cs) -> get p (new_object F') = None).
Proof.
  intros ocs p ocs' F Hp Hw Hb H R. unfold change_value_on_path in H. pose proof (change_value_changed _ _ _ _ None _ Hp Hw I H) as C. destruct (changed_edit _ _ _ _ Hw Hb C) as [W1 _].
  apply (change_value_edit (fun _ => False) (fun _ _ _ F _ => F)) in H; [|exact Hp|exact Hw|exact I].
  destruct (runs_agree (fun _ => False) (new_object []) (fun n F => False_ind _ F) p ocs ocs' H Hw [] [] F plain_nil plain_nil (agree_refl _ _) R) as [F' [R1 A1]].
  exists F'. split; [exact R1|]. split.
  - intros q Q. rewrite <- !obj_get. symmetry. exact (agree_look p _ _ A1 q Q).
  - intro Y. rewrite <- obj_get. exact (cleared_runs p ocs' (edit_cleared p ocs ocs' H Hw Y) Hp W1 [] F' plain_nil (look_obj p Hp) R1).
Qed.

Lemma has_meaning : forall ocs p F, p <> [] -> wfs ocs = true -> runs ocs [] F -> (forall u, on_way p ocs u -> exists cs, u = NObject cs) ->
  (hasb (List.length p) p ocs = true <-> get p (new_object F) <> None).
Proof.
  intros ocs p F Hp Hw R Y. destruct (has_runs (List.length p) ocs p Hp (le_n _) Hw Y [] F plain_nil (free_obj p) R) as [_ L]. rewrite look_obj in L by exact Hp.
  rewrite obj_get in L. destruct (hasb (List.length p) p ocs).
  - split; [intros _ E; destruct (proj1 L E); discriminate|reflexivity].
  - split; [discriminate|]. intro N. exfalso. apply N, L. auto.
Qed.

(** ** Documents *)
Lemma conf_set : forall root v ps p text n w root', document CONF root -> conf_nodes root v -> new_path ps = Ok p -> parse_value_text CONF text = Ok (Some n) -> stands_for n w ->
  with_value_text CONF root ps text = Ok root' ->
  exists v', conf_nodes root' v' /\ (forall q, apart p q -> get q v' = get q v) /\
    ((forall u, on_way p (root_object root) u -> exists cs, u = NObject cs) -> get p v' = Some w).
Proof.
  intros root v ps p text n w root' D M Hp Hn Hs H. pose proof (document_wf _ _ D) as W. pose proof (document_shape _ _ D) as Sh.
  unfold with_value_text in H. destruct text; [discriminate|]. rewrite Hn in H. cbn [bind] in H.
  destruct (parse_value_text_sound _ _ _ Hn) as [n' [E [V1 V2]]]. injection E as <-.
  apply root_set_split in H. destruct H as [pre [ocs [post [ocs' [pn [E1 [E0 [F [E2 E3]]]]]]]]].
  assert (R : rooted root ocs) by (exists pre, post; auto). destruct (root_wf _ _ R W) as [W1 W2]. rewrite (rooted_object _ _ R).
  pose proof (path_node_nonempty _ _ _ E2) as Hne. pose proof (path_node_agrees _ _ _ _ Hp E2) as Ep. destruct pn as [p0 tk]. cbn [fst] in *. subst p0.
  subst root root'. destruct (shape_rooted _ _ _ F Sh) as [Q1 Q2]. apply root_means in M; try assumption. destruct (stands_runs _ _ M) as [G [-> Rg]].
  destruct (set_meaning ocs (p, tk) n w ocs' G Hne W1 W2 V1 V2 Hs E3 Rg) as [G' [R1 [R2 R3]]]. cbn [fst] in *.
  exists (new_object G'). split; [|auto]. apply root_means; try assumption. exact (runs_stands _ _ R1).
Qed.

Lemma conf_remove : forall root v ps p root', document CONF root -> conf_nodes root v -> new_path ps = Ok p -> Edit_Model.without_path CONF root ps = Ok root' ->
  exists v', conf_nodes root' v' /\ (forall q, apart p q -> get q v' = get q v) /\
    ((forall u, on_way p (root_object root) u -> forall cs, u <> NConcat cs) -> get p v' = None).
Proof.
  intros root v ps p root' D M Hp H. pose proof (document_wf _ _ D) as W. pose proof (document_shape _ _ D) as Sh.
  apply root_set_split in H. destruct H as [pre [ocs [post [ocs' [pn [E1 [E0 [F [E2 E3]]]]]]]]].
  assert (R : rooted root ocs) by (exists pre, post; auto). destruct (root_wf _ _ R W) as [W1 W2]. rewrite (rooted_object _ _ R).
  pose proof (path_node_nonempty _ _ _ E2) as Hne. pose proof (path_node_agrees _ _ _ _ Hp E2) as Ep. destruct pn as [p0 tk]. cbn [fst] in *. subst p0.
  subst root root'. destruct (shape_rooted _ _ _ F Sh) as [Q1 Q2]. apply root_means in M; try assumption. destruct (stands_runs _ _ M) as [G [-> Rg]].
  destruct (remove_meaning ocs p ocs' G Hne W1 W2 E3 Rg) as [G' [R1 [R2 R3]]].
  exists (new_object G'). split; [|auto]. apply root_means; try assumption. exact (runs_stands _ _ R1).
Qed.

Lemma conf_has : forall root v ps p b, document CONF root -> conf_nodes root v -> new_path ps = Ok p -> Edit_Model.has_path root ps = Ok b ->
  (forall u, on_way p (root_object root) u -> exists cs, u = NObject cs) -> (b = true <-> get p v <> None).
Proof.
  intros root v ps p b D M Hp H Y. pose proof (document_wf _ _ D) as W. pose proof (document_shape _ _ D) as Sh.
  destruct (has_path_rooted _ _ _ H) as [p' [ocs [Hp' R]]]. rewrite Hp in Hp'. injection Hp' as <-. destruct (root_wf _ _ R W) as [W1 W2]. rewrite (rooted_object _ _ R) in Y.
  assert (Hne : p <> []) by (apply (new_path_empty_keys _ _ Hp)). rewrite (rooted_has root ocs p ps R W Hne Hp) in H. injection H as <-.
  destruct R as [pre [post [-> F]]]. destruct (shape_rooted _ _ _ F Sh) as [Q1 Q2]. apply root_means in M; try assumption. destruct (stands_runs _ _ M) as [G [-> Rg]].
  exact (has_meaning ocs p G Hne W1 Rg Y).
Qed.
