(** The statements about edited HOCON documents, and edits that go wrong. *)
From Verif Require Import Base BaseLemmas Util_Model Num_Model Path_Model Path_Spec PathParser_Model Token_Model Doc_Model Edit_Model Edit_Spec Value_Model Value_Spec Concat_Model ConfigParser_Model ConfigParser_Lemmas ConfigParser_Lemmas2 Edit_Lemmas4 ConfEdit_Spec ConfEdit_Lemmas6.

(** ** The layout does not matter *)
Definition spare (cs : list node) : list node := flat_map (fun c => if is_layout c then [] else [bones c]) cs.
Lemma spare_cons : forall c cs, spare (c :: cs) = if is_layout c then spare cs else bones c :: spare cs.
Proof. intros c cs. unfold spare. cbn [flat_map]. destruct (is_layout c); reflexivity. Qed.
Lemma bones_value : forall n, is_value_node (bones n) = is_value_node n.
Proof. intros []; reflexivity. Qed.
Lemma layout_value : forall n, is_layout n = true -> is_value_node n = false /\ is_field n = false /\ match n with NInclude _ _ | NPath _ => False | _ => True end.
Proof. intros [t| | | | | | | | ] H; try discriminate H; repeat split. Qed.

Definition boned (n : node) : Prop := forall inc s ac next, parse_value CONF inc (bones n) s ac next = parse_value CONF inc n s ac next.
Definition boned_fields (n : node) : Prop := match n with NField fcs => Forall boned fcs | _ => True end.

Lemma bones_field : forall fc, Forall boned fc ->
  match field_path fc with Ok (p, _) => field_path (spare fc) = Ok (p, []) | r => field_path (spare fc) = match r with Ok _ => Stuck UFuel | Throw e => Throw e | Stuck u => Stuck u end end /\
  is_plus_equals (spare fc) = is_plus_equals fc /\
  forall inc s ac next, parse_field_value (parse_value CONF inc) (spare fc) s ac next = parse_field_value (parse_value CONF inc) fc s ac next.
Proof.
  intros fc F. induction F as [|c fc Hc F [A [B C]]]; [repeat split|]. rewrite spare_cons. destruct (is_layout c) eqn:L.
  - repeat split.
    + destruct c as [[]| | | | | | | | ]; try discriminate L; exact A.
    + destruct c as [[]| | | | | | | | ]; try discriminate L; exact B.
    + intros. cbn [parse_field_value]. rewrite (proj1 (layout_value _ L)). apply C.
  - repeat split.
    + destruct c as [t|t|[p ts]|t|cs|cs k|cs|cs|cs]; cbn [bones field_path]; try exact A; reflexivity.
    + destruct c as [t|t|[p ts]|t|cs|cs k|cs|cs|cs]; cbn [bones is_plus_equals]; try exact B. destruct t; try exact B; reflexivity.
    + intros. cbn [parse_field_value]. rewrite bones_value. destruct (is_value_node c); [apply Hc|apply C].
Qed.
Lemma bones_parse_field : forall fc, Forall boned fc -> forall inc s ac next,
  ConfigParser_Model.parse_field (parse_value CONF inc) (spare fc) s ac next = ConfigParser_Model.parse_field (parse_value CONF inc) fc s ac next.
Proof.
  intros fc F inc s ac next. destruct (bones_field fc F) as [A [B C]]. unfold ConfigParser_Model.parse_field. rewrite B.
  destruct (field_path fc) as [[p ts]|e|u]; rewrite A; cbn [bind]; [|reflexivity..]. rewrite C. reflexivity.
Qed.
Lemma bones_values : forall cs, Forall boned cs -> forall inc s ac next, parse_values (parse_value CONF inc) (spare cs) s ac next = parse_values (parse_value CONF inc) cs s ac next.
Proof.
  intros cs F. induction F as [|c cs Hc F IH]; intros inc s ac next; [reflexivity|]. rewrite spare_cons. destruct (is_layout c) eqn:L.
  - cbn [parse_values]. rewrite (proj1 (layout_value _ L)). apply IH.
  - cbn [parse_values]. rewrite bones_value. destruct (is_value_node c); [|apply IH]. rewrite Hc. apply bind_same. intros [v n1]. rewrite IH. reflexivity.
Qed.
Lemma bones_object : forall cs, Forall boned cs -> Forall boned_fields cs -> forall inc V s ac next,
  parse_object_nodes CONF inc (parse_value CONF inc) (spare cs) V s ac next = parse_object_nodes CONF inc (parse_value CONF inc) cs V s ac next.
Proof.
  intros cs F. induction F as [|c cs Hc F IH]; intros G inc V s ac next; [reflexivity|]. inversion G as [|? ? G1 G2]; subst. rewrite spare_cons. destruct (is_layout c) eqn:L.
  - destruct c as [t| | | | | | | | ]; try discriminate L; cbn [parse_object_nodes]; apply (IH G2).
  - destruct c as [t|t|p|t|fc|fc k|fc|fc|fc]; cbn [bones parse_object_nodes]; try apply (IH G2).
    + change (flat_map (fun c => if is_layout c then [] else [bones c]) fc) with (spare fc). rewrite (bones_parse_field fc G1).
      match goal with |- bind ?x _ = _ => destruct x as [[[q v] n1]|e|u]; cbn [bind]; [|reflexivity..] end.
      destruct (add_field CONF V q v); cbn [bind]; [|reflexivity..]. apply (IH G2).
    + cbn [is_json]. apply bind_same. intros [v n1]. apply (IH G2).
Qed.
Lemma bones_all : forall n, boned n /\ boned_fields n.
Proof.
  intro n. induction n as [t'|t'|p|t'|cs F|cs k F|cs F|cs F|cs F] using node_induction; (split; [|try exact I]); try (intros inc s ac next; reflexivity).
  - cbn [boned_fields]. apply Forall_forall. rewrite Forall_forall in F. intros c Hc. apply F, Hc.
  - intros inc s ac next. cbn [bones parse_value]. change (flat_map (fun c => if is_layout c then [] else [bones c]) cs) with (spare cs).
    rewrite (bones_values cs (Forall_impl _ (fun a H => proj1 H) F)). reflexivity.
  - intros inc s ac next. cbn [bones parse_value]. change (flat_map (fun c => if is_layout c then [] else [bones c]) cs) with (spare cs).
    rewrite (bones_values cs (Forall_impl _ (fun a H => proj1 H) F)). reflexivity.
  - intros inc s ac next. cbn [bones parse_value]. change (flat_map (fun c => if is_layout c then [] else [bones c]) cs) with (spare cs).
    apply (bones_object cs (Forall_impl _ (fun a H => proj1 H) F) (Forall_impl _ (fun a H => proj2 H) F)).
Qed.

Lemma quiet_root : forall pre, quiets pre = true -> root_bones pre = [].
Proof.
  induction pre as [|c pre IH]; intro Q; [reflexivity|]. rewrite quiets_cons in Q. apply andb_true_iff in Q. destruct Q as [Q1 Q2]. destruct c; try discriminate Q1; exact (IH Q2).
Qed.
Lemma root_bones_app : forall a b, root_bones (a ++ b) = root_bones a ++ root_bones b.
Proof. intros. unfold root_bones. apply flat_map_app. Qed.
Lemma root_parses : forall pre x post inc next, quiets pre = true -> quiets post = true -> match x with NObject _ | NArray _ => True | _ => False end ->
  parse_root_nodes CONF inc None (pre ++ x :: post) next = ('(v, next') <- parse_value CONF inc x [] 0 next ;; Ok (Some v, next')).
Proof.
  intros pre x post inc next Q1 Q2 X. rewrite root_pre by exact Q1. destruct x; try contradiction; cbn [parse_root_nodes is_complex];
    (apply bind_same; intros [v n1]; apply root_post; exact Q2).
Qed.
Lemma bones_root : forall a b inc next, shape a -> shape b -> root_bones a = root_bones b -> parse_root_nodes CONF inc None a next = parse_root_nodes CONF inc None b next.
Proof.
  intros a b inc next [pre [x [post [-> [Q1 [Q2 X]]]]]] [pre' [y [post' [-> [R1 [R2 Y]]]]]] E. rewrite !root_parses by assumption.
  rewrite !root_bones_app, !(quiet_root pre), !(quiet_root pre') in E by assumption. cbn [app] in E.
  assert (E' : bones x = bones y) by (destruct x; try contradiction; destruct y; try contradiction; cbn [root_bones flat_map app] in E; injection E as E _; cbn [bones]; congruence).
  rewrite <- (proj1 (bones_all x)), <- (proj1 (bones_all y)), E'. reflexivity.
Qed.

Lemma reread_text : forall ns v, document CONF ns -> reread ns -> (conf_text (render_document ns) v <-> conf_nodes ns v).
Proof.
  intros ns v D [ns' [H E]]. unfold conf_text, conf_nodes, parse_config. rewrite H. cbn [bind]. pose proof (parsed_shape _ _ _ H) as S1. pose proof (document_shape _ _ D) as S2.
  split; intros M inc next; [rewrite <- (bones_root ns' ns inc next S1 S2 E)|rewrite (bones_root ns' ns inc next S1 S2 E)]; apply M.
Qed.

Lemma conf_set_text : forall root v ps p text w root', document CONF root -> conf_nodes root v -> new_path ps = Ok p -> conf_value_text text w ->
  (forall u, on_way p (root_object root) u -> exists cs, u = NObject cs) -> with_value_text CONF root ps text = Ok root' ->
  exists v', conf_nodes root' v' /\ (reread root' -> conf_text (render_document root') v') /\ get p v' = Some w /\ forall q, apart p q -> get q v' = get q v.
Proof.
  intros root v ps p text w root' D M Hp [n [Hn Hs]] Y H. destruct (conf_set root v ps p text n w root' D M Hp Hn Hs H) as [v' [A [B C]]].
  exists v'. split; [exact A|]. split; [intro R; apply reread_text; [eapply set_document; eassumption|assumption..]|]. split; [exact (C Y)|exact B].
Qed.
Lemma conf_remove_text : forall root v ps p root', document CONF root -> conf_nodes root v -> new_path ps = Ok p ->
  (forall u, on_way p (root_object root) u -> forall cs, u <> NConcat cs) -> Edit_Model.without_path CONF root ps = Ok root' ->
  exists v', conf_nodes root' v' /\ (reread root' -> conf_text (render_document root') v') /\ get p v' = None /\ forall q, apart p q -> get q v' = get q v.
Proof.
  intros root v ps p root' D M Hp Y H. destruct (conf_remove root v ps p root' D M Hp H) as [v' [A [B C]]].
  exists v'. split; [exact A|]. split; [intro R; apply reread_text; [eapply removed_document; eassumption|assumption..]|]. split; [exact (C Y)|exact B].
Qed.
Lemma conf_frame : forall root v ps p root', document CONF root -> conf_nodes root v -> new_path ps = Ok p ->
  (exists text w, conf_value_text text w /\ with_value_text CONF root ps text = Ok root') \/ Edit_Model.without_path CONF root ps = Ok root' ->
  exists v', conf_nodes root' v' /\ forall q, apart p q -> get q v' = get q v.
Proof.
  intros root v ps p root' D M Hp [[text [w [[n [Hn Hs]] H]]]|H].
  - destruct (conf_set root v ps p text n w root' D M Hp Hn Hs H) as [v' [A [B _]]]. exists v'. auto.
  - destruct (conf_remove root v ps p root' D M Hp H) as [v' [A [B _]]]. exists v'. auto.
Qed.
Lemma conf_has_text : forall root v ps p b, document CONF root -> conf_nodes root v -> new_path ps = Ok p ->
  (forall u, on_way p (root_object root) u -> exists cs, u = NObject cs) -> Edit_Model.has_path root ps = Ok b -> b = match get p v with Some _ => true | None => false end.
Proof.
  intros root v ps p b D M Hp Y H. destruct (conf_has root v ps p b D M Hp H Y) as [A B]. destruct (get p v) as [u|].
  - apply B. discriminate.
  - destruct b; [|reflexivity]. exfalso. apply A; reflexivity.
Qed.

(** ** Refutations *)
Ltac compute_text := intros inc next; vm_compute; reflexivity.

Lemma conf_comment : exists ns ns' v v', parse_document CONF (lit "a=1 # c") = Ok ns /\ conf_nodes ns v /\ with_value_text CONF ns (lit "b") (lit "2") = Ok ns' /\
  render_document ns' = lit "a=1, # c b : 2" /\ conf_text (render_document ns') v' /\ get [lit "b"] v' = None.
Proof. eexists _, _, _, _. split; [vm_compute; reflexivity|]. split; [compute_text|]. split; [vm_compute; reflexivity|]. split; [vm_compute; reflexivity|]. split; [compute_text|vm_compute; reflexivity]. Qed.

Lemma conf_no_separator : exists ns ns' v, parse_document CONF (lit "a {b=1}") = Ok ns /\ conf_nodes ns v /\ with_value_text CONF ns (lit "a") (lit "2") = Ok ns' /\
  render_document ns' = lit "a 2" /\ forall v', ~ conf_text (render_document ns') v'.
Proof.
  eexists _, _, _. split; [vm_compute; reflexivity|]. split; [compute_text|]. split; [vm_compute; reflexivity|]. split; [vm_compute; reflexivity|].
  intros v' H. specialize (H no_includes 0%nat). vm_compute in H. discriminate H.
Qed.

Lemma conf_hidden : exists ns ns' v v', parse_document CONF (lit "a {b=1}, a=5, a={c=2}") = Ok ns /\ conf_nodes ns v /\ with_value_text CONF ns (lit "a.b") (lit "2") = Ok ns' /\
  render_document ns' = lit "a {b=2}, a=5, a={c=2}" /\ Edit_Model.has_path ns' (lit "a.b") = Ok true /\ conf_text (render_document ns') v' /\ get [lit "a"; lit "b"] v' = None.
Proof.
  eexists _, _, _, _. split; [vm_compute; reflexivity|]. split; [compute_text|]. split; [vm_compute; reflexivity|]. split; [vm_compute; reflexivity|].
  split; [vm_compute; reflexivity|]. split; [compute_text|vm_compute; reflexivity].
Qed.

Lemma conf_concat_kept : exists ns v, parse_document CONF (lit "a={c=1} {d=3}") = Ok ns /\ conf_nodes ns v /\ Edit_Model.without_path CONF ns (lit "a.c") = Ok ns /\
  Edit_Model.has_path ns (lit "a.c") = Ok false /\ conf_text (render_document ns) v /\ get [lit "a"; lit "c"] v = Some (VScalar (SInt 1 (lit "1"))).
Proof.
  eexists _, _. split; [vm_compute; reflexivity|]. split; [compute_text|]. split; [vm_compute; reflexivity|]. split; [vm_compute; reflexivity|]. split; [compute_text|vm_compute; reflexivity].
Qed.

Lemma conf_remove_comma : exists ns ns' v, parse_document CONF (lit "{b=1" ++ [nl] ++ lit ", c=1}") = Ok ns /\ conf_nodes ns v /\ Edit_Model.without_path CONF ns (lit "b") = Ok ns' /\
  render_document ns' = lit "{" ++ [nl] ++ lit ", c=1}" /\ forall v', ~ conf_text (render_document ns') v'.
Proof.
  eexists _, _, _. split; [vm_compute; reflexivity|]. split; [compute_text|]. split; [vm_compute; reflexivity|]. split; [vm_compute; reflexivity|].
  intros v' H. specialize (H no_includes 0%nat). vm_compute in H. discriminate H.
Qed.
