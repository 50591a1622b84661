(** What the parser's nodes look like: one value in a field, at its end. *)
From Verif Require Import Base BaseLemmas Util_Model Num_Model Path_Model Token_Model PathParser_Model Doc_Model Doc_Lemmas Edit_Lemmas Edit_Lemmas2 Edit_Lemmas3 Edit_Lemmas4.

Definition flat (n : node) : bool := match n with NTok _ | NComment _ => true | _ => false end.
Definition valued (n : node) : bool := match n with NSimple _ | NConcat _ | NArray _ | NObject _ => true | _ => false end.
Section Ends.
Variable shaped : node -> bool.
Fixpoint ends (cs : list node) : bool :=
  match cs with
  | [] => false
  | [v] => valued v && shaped v
  | c :: cs' => flat c && ends cs'
  end.
End Ends.
Fixpoint shaped (n : node) : bool :=
  match n with
  | NField (NPath _ :: cs) => ends shaped cs
  | NField _ => false
  | NInclude cs _ => forallb (fun c => match c with NTok _ | NComment _ | NSimple _ => true | _ => false end) cs
  | NConcat cs | NArray cs => forallb (fun c => flat c || valued c && shaped c) cs
  | NObject cs => forallb (fun c => flat c || match c with NField _ | NInclude _ _ => shaped c | _ => false end) cs
  | _ => true
  end.
Definition in_list (c : node) : bool := flat c || valued c && shaped c.
Definition in_object (c : node) : bool := flat c || match c with NField _ | NInclude _ _ => shaped c | _ => false end.
Definition good (v : node) : bool := valued v && shaped v.

Lemma collect_flat : forall f e ts ns t r, collect f e ts = Ok (ns, t, r) -> forallb flat ns = true.
Proof.
  intros f e. induction ts as [|t0 ts IH]; intros ns t r H; cbn [collect] in H; [destruct e; discriminate|].
  destruct (json_forbids f t0); [discriminate|].
  destruct (match t0 with TIgnored _ | TNewline => true | _ => is_unquoted_whitespace t0 end) eqn:E.
  - inv_bind H. destruct a as [[ns' t'] r']. injection Hk as <- <- <-. cbn. exact (IH _ _ _ Hb).
  - destruct t0; try (injection H as <- <- <-; reflexivity). inv_bind H. destruct a as [[ns' t'] r']. injection Hk as <- <- <-. cbn. exact (IH _ _ _ Hb).
Qed.
Lemma separator_flat : forall f e ts ns b r, check_element_separator f e ts = Ok (ns, b, r) -> forallb flat ns = true.
Proof.
  intros [] e ts ns b r H; cbn [check_element_separator] in H.
  - revert H. generalize false as saw. revert ns b r. induction ts as [|t0 ts IH]; intros ns b r saw H; cbn [separator_conf] in H; [destruct e; discriminate|].
    destruct (json_forbids CONF t0); [discriminate|].
    destruct (match t0 with TIgnored _ => true | _ => is_unquoted_whitespace t0 end).
    + inv_bind H. destruct a as [[ns' b'] r']. injection Hk as <- <- <-. cbn. exact (IH _ _ _ _ Hb).
    + destruct t0; try (injection H as <- <- <-; reflexivity); (inv_bind H; destruct a as [[ns' b'] r']; injection Hk as <- <- <-; cbn; exact (IH _ _ _ _ Hb)).
  - inv_bind H. destruct a as [[ws t] r']. apply collect_flat in Hb. destruct t; injection Hk as <- <- <-; rewrite ?forallb_app, Hb; reflexivity.
Qed.

Definition yields (pv : token -> list token -> result (node * list token)) : Prop := forall t ts v r, pv t ts = Ok (v, r) -> good v = true.

Lemma consolidate_loop_shape : forall pv f e, yields pv -> forall k t ts vs c t' r, consolidate_loop pv f e k t ts = Ok (vs, c, t', r) ->
  forallb in_list vs = true.
Proof.
  intros pv f e Hpv. induction k as [|k IH]; intros t ts vs c t' r H; cbn [consolidate_loop] in H; [discriminate|].
  assert (Hv : ('(v, r) <- pv t ts ;; '(t', r') <- next_token f e r ;; '(vs, c, t'', r'') <- consolidate_loop pv f e k t' r' ;; Ok (v :: vs, S c, t'', r'')) = Ok (vs, c, t', r) ->
    forallb in_list vs = true).
  { intro E. inv_bind E. destruct a as [v r1]. apply Hpv in Hb. inv_bind Hk. destruct a as [t1 r2]. inv_bind Hk0. destruct a as [[[vs' c'] t2] r3]. injection Hk as <- <- <- <-.
    cbn [forallb]. rewrite (IH _ _ _ _ _ _ Hb1), andb_true_r. unfold in_list. fold (good v). rewrite Hb. apply orb_true_r. }
  destruct t; cbn [is_value_start] in H; try exact (Hv H); try (injection H as <- <- <- <-; reflexivity).
  inv_bind H. destruct a as [t1 r1]. inv_bind Hk. destruct a as [[[vs' c'] t2] r2]. injection Hk0 as <- <- <- <-. cbn [forallb]. rewrite (IH _ _ _ _ _ _ Hb0). reflexivity.
Qed.
Lemma value_of_list : forall c, is_value_node c = true -> in_list c = true -> good c = true.
Proof. intros [] H1 H2; try discriminate; exact H2. Qed.
Lemma flat_of_list : forall c, is_value_node c = false -> in_list c = true -> flat c = true.
Proof. intros [] H1 H2; try discriminate; exact H2. Qed.
Lemma single_shape : forall values v ts before v' r, single_value v ts values = Ok (before, v', r) -> forallb in_list values = true ->
  (forall x, v = Some x -> good x = true) -> forallb flat before = true /\ (forall x, v' = Some x -> good x = true).
Proof.
  induction values as [|n ns IH]; intros v ts before v' r H Hl Hv; cbn [single_value] in H.
  - injection H as <- <- <-. auto.
  - cbn [forallb] in Hl. apply andb_true_iff in Hl. destruct Hl as [L1 L2]. destruct (is_value_node n) eqn:E.
    + apply IH in H; [exact H|exact L2|]. intros x X. injection X as <-. apply value_of_list; assumption.
    + destruct v as [v|].
      * destruct (node_tokens n); [discriminate|]. apply IH in H; [exact H|exact L2|exact Hv].
      * inv_bind H. destruct a as [[b' v1] r1]. injection Hk as <- <- <-. apply IH in Hb; [|exact L2|exact Hv]. destruct Hb as [B1 B2]. split; [|exact B2].
        cbn [forallb]. rewrite B1, (flat_of_list _ E L1). reflexivity.
Qed.
Lemma put_back_shape : forall values ts vs r, put_back_trailing values ts = (vs, r) -> forallb in_list values = true -> forallb in_list vs = true.
Proof.
  induction values as [|n ns IH]; intros ts vs r H Hl; cbn [put_back_trailing] in H; [injection H as <- <-; exact Hl|].
  pose proof Hl as Hl'. cbn [forallb] in Hl. apply andb_true_iff in Hl. destruct Hl as [L1 L2].
  destruct n; try exact (IH _ _ _ H L2); injection H as <- <-;
  (rewrite forallb_forall in Hl' |- *; intros x X; apply Hl'; apply in_rev; exact X).
Qed.
Lemma consolidate_shape : forall pv f e ts ns v r, yields pv -> consolidate_values pv f e ts = Ok (ns, v, r) ->
  forallb flat ns = true /\ (forall x, v = Some x -> good x = true).
Proof.
  intros pv [] e ts ns v r Hpv H; cbn [consolidate_values] in H.
  - inv_bind H. destruct a as [[nodes t] r1]. inv_bind Hk. destruct a as [[[values count] t'] r2]. apply collect_flat in Hb. apply consolidate_loop_shape in Hb0; [|exact Hpv].
    destruct (count <? 2)%nat.
    + inv_bind Hk0. destruct a as [[before v1] r3]. injection Hk as <- <- <-. apply single_shape in Hb1; [|exact Hb0|discriminate].
      destruct Hb1 as [B1 B2]. split; [rewrite forallb_app, Hb, B1; reflexivity|exact B2].
    + destruct (put_back_trailing _ _) as [vs r3] eqn:E. injection Hk0 as <- <- <-. split; [exact Hb|]. intros x X. injection X as <-.
      apply put_back_shape in E; [exact E|]. rewrite forallb_forall in Hb0 |- *. intros x X. apply Hb0. apply in_rev. exact X.
  - injection H as <- <- <-. split; [reflexivity|discriminate].
Qed.
Lemma ends_app : forall a v, forallb flat a = true -> good v = true -> ends shaped (a ++ [v]) = true.
Proof.
  induction a as [|c a IH]; intros v Ha Hv; [exact Hv|]. cbn [forallb] in Ha. apply andb_true_iff in Ha. destruct Ha as [A1 A2].
  cbn [app ends]. destruct (a ++ [v]) eqn:E; [destruct a; discriminate|]. rewrite A1, <- E. exact (IH v A2 Hv).
Qed.
Lemma parse_field_shape : forall pv f e keys t ts n keys' r, yields pv -> parse_field pv f e keys t ts = Ok (n, keys', r) ->
  in_object n = true.
Proof.
  intros pv f e keys t ts n keys' r Hpv H. unfold parse_field in H. inv_bind H. destruct a as [pn r1]. inv_bind Hk. destruct a as [[ws ak] r2].
  apply collect_flat in Hb0. inv_bind Hk0. destruct a as [nodes r3].
  assert (Hn : ends shaped nodes = true).
  { destruct (negb (is_json f) && match ak with TOpenCurly => true | _ => false end).
    - inv_bind Hb1. destruct a as [v r4]. injection Hk0 as <- <-. apply Hpv in Hb2. apply ends_app; assumption.
    - destruct (negb (is_key_value_separator f ak)); [discriminate|]. inv_bind Hb1. destruct a as [[ns next] r4]. apply consolidate_shape in Hb2; [|exact Hpv]. destruct Hb2 as [N1 N2].
      destruct next as [v|].
      + injection Hk0 as <- <-. change (NTok ak :: ns ++ [v]) with ((NTok ak :: ns) ++ [v]). rewrite app_assoc. apply ends_app; [|apply N2; reflexivity]. rewrite forallb_app, Hb0. exact N1.
      + inv_bind Hk0. destruct a as [[ws' t'] r5]. inv_bind Hk1. destruct a as [v r6]. injection Hk0 as <- <-. apply collect_flat in Hb1. apply Hpv in Hb2.
        replace (ws ++ NTok ak :: ns ++ ws' ++ [v]) with ((ws ++ NTok ak :: ns ++ ws') ++ [v]) by (rewrite <- !app_assoc; cbn [app]; rewrite <- !app_assoc; reflexivity).
        apply ends_app; [|exact Hb2]. rewrite forallb_app, Hb0. cbn [forallb flat]. rewrite forallb_app, N1, Hb1. reflexivity. }
  destruct (fst pn) as [|key [|]]; [discriminate| |]; [destruct (existsb _ _); [destruct (is_json f); [discriminate|]|]|destruct (is_json f); [discriminate|]];
    injection Hk as <- <- <-; exact Hn.
Qed.
Lemma flat_object : forall cs, forallb flat cs = true -> forallb in_object cs = true.
Proof. intros cs H. rewrite forallb_forall in *. intros x X. unfold in_object. rewrite (H x X). reflexivity. Qed.
Lemma flat_list : forall cs, forallb flat cs = true -> forallb in_list cs = true.
Proof. intros cs H. rewrite forallb_forall in *. intros x X. unfold in_list. rewrite (H x X). reflexivity. Qed.
Lemma flat_include : forall cs, forallb flat cs = true -> forallb (fun c => match c with NTok _ | NComment _ | NSimple _ => true | _ => false end) cs = true.
Proof. intros cs H. rewrite forallb_forall in *. intros x X. specialize (H x X). destruct x; try discriminate; reflexivity. Qed.
Lemma parse_include_shape : forall f e t ts n r, parse_include f e t ts = Ok (n, r) -> in_object n = true.
Proof.
  intros f e t ts n r H. unfold parse_include in H. inv_bind H. destruct a as [[ws1 t1] r1]. apply collect_flat in Hb. apply flat_include in Hb.
  assert (Hs : (if is_string_value t1 then Ok (NInclude (NTok t :: ws1 ++ [NSimple t1]) KHeuristic, r1) else Throw EParse) = Ok (n, r) -> in_object n = true).
  { destruct (is_string_value t1); [|discriminate]. intro E. injection E as <- <-. unfold in_object. cbn [flat orb shaped forallb]. rewrite forallb_app, Hb. reflexivity. }
  destruct t1; try exact (Hs Hk). destruct (include_kind_of _); [|discriminate]. inv_bind Hk. destruct a as [[ws2 t2] r2]. destruct (negb (is_string_value t2)); [discriminate|].
  inv_bind Hk0. destruct a as [[ws3 t3] r3]. destruct (negb _); [discriminate|]. injection Hk as <- <-.
  apply collect_flat in Hb0. apply flat_include in Hb0. apply collect_flat in Hb1. apply flat_include in Hb1.
  unfold in_object. cbn [flat orb shaped forallb]. rewrite forallb_app, Hb. cbn [forallb]. rewrite forallb_app, Hb0. cbn [forallb]. rewrite Hb1. reflexivity.
Qed.
Lemma object_loop_shape : forall pv f e, yields pv -> forall k curly after keys ts ns r, object_loop pv f e k curly after keys ts = Ok (ns, r) ->
  forallb in_object ns = true.
Proof.
  intros pv f e Hpv. induction k as [|k IH]; intros curly after keys ts ns r H; cbn [object_loop] in H; [discriminate|].
  inv_bind H. destruct a as [[ws t] r0]. apply collect_flat in Hb. apply flat_object in Hb.
  match type of Hk with context [bind (if negb (is_json f) && is_include_keyword t then _ else _) ?K] => set (item := K) in Hk end.
  assert (Hitem : bind (if negb (is_json f) && is_include_keyword t
             then '(inc, r2) <- parse_include f e t r0;; Ok (inc, keys, r2) else parse_field pv f e keys t r0) item = Ok (ns, r) -> forallb in_object ns = true).
  { intro E. apply bind_ok in E. destruct E as [[[it keys'] r2] [E1 E2]]. subst item. cbv beta iota in E2.
    assert (Hi : in_object it = true).
    { destruct (negb (is_json f) && is_include_keyword t).
      - inv_bind E1. destruct a as [inc r3]. injection Hk0 as <- <- <-. eapply parse_include_shape; eassumption.
      - eapply parse_field_shape; eassumption. }
    inv_bind E2. destruct a as [[sn sep] r3]. apply separator_flat in Hb0. apply flat_object in Hb0. destruct sep.
    - inv_bind Hk0. destruct a as [rest r4]. injection Hk1 as <- <-. apply IH in Hb1. rewrite forallb_app, Hb. cbn [forallb]. rewrite Hi, forallb_app, Hb0, Hb1. reflexivity.
    - inv_bind Hk0. destruct a as [[ws2 t2] r4]. apply collect_flat in Hb1. apply flat_object in Hb1.
      destruct t2; try discriminate; destruct curly; try discriminate; injection Hk1 as <- <-; rewrite forallb_app, Hb; cbn [forallb]; rewrite Hi, !forallb_app, Hb0, Hb1; reflexivity. }
  destruct t; try exact (Hitem Hk).
  - destruct curly; [exact (Hitem Hk)|]. injection Hk as <- <-. exact Hb.
  - destruct (is_json f && after); [discriminate|]. destruct (negb curly); [discriminate|]. injection Hk as <- <-. rewrite forallb_app, Hb. reflexivity.
Qed.
Lemma good_list : forall v, good v = true -> in_list v = true.
Proof. intros v H. unfold in_list. fold (good v). rewrite H. apply orb_true_r. Qed.
Lemma array_loop_shape : forall pv f e, yields pv -> forall k ts ns r, array_loop pv f e k ts = Ok (ns, r) -> forallb in_list ns = true.
Proof.
  intros pv f e Hpv. induction k as [|k IH]; intros ts ns r H; cbn [array_loop] in H; [discriminate|].
  inv_bind H. destruct a as [[sn sep] r0]. apply separator_flat in Hb. apply flat_list in Hb. destruct sep; cbn [negb] in Hk.
  - inv_bind Hk. destruct a as [[cn next] r1]. apply consolidate_shape in Hb0; [|exact Hpv]. destruct Hb0 as [N1 N2]. apply flat_list in N1. destruct next as [v|].
    + inv_bind Hk0. destruct a as [rest r2]. injection Hk as <- <-. apply IH in Hb0. rewrite !forallb_app, Hb, N1. cbn [forallb]. rewrite (good_list v (N2 v eq_refl)), Hb0. reflexivity.
    + inv_bind Hk0. destruct a as [[ws t] r2]. apply collect_flat in Hb0. apply flat_list in Hb0. destruct (is_value_start t).
      * inv_bind Hk. destruct a as [v r3]. inv_bind Hk0. destruct a as [rest r4]. injection Hk as <- <-. apply Hpv in Hb1. apply IH in Hb2.
        rewrite !forallb_app, Hb, N1, Hb0. cbn [forallb]. rewrite (good_list v Hb1), Hb2. reflexivity.
      * destruct (negb (is_json f) && _); [|discriminate]. inv_bind Hk. destruct a as [rest r3]. injection Hk0 as <- <-. apply IH in Hb1.
        rewrite !forallb_app, Hb, N1, Hb0, Hb1. reflexivity.
  - inv_bind Hk. destruct a as [[ws t] r1]. apply collect_flat in Hb0. apply flat_list in Hb0. destruct t; try discriminate. injection Hk0 as <- <-. rewrite !forallb_app, Hb, Hb0. reflexivity.
Qed.
Lemma parse_object_shape : forall pv f e curly ts v r, yields pv -> parse_object pv f e curly ts = Ok (v, r) ->
  exists cs, v = NObject cs /\ forallb in_object cs = true.
Proof.
  intros pv f e curly ts v r Hpv H. unfold parse_object in H. inv_bind H. destruct a as [ns r0]. injection Hk as <- <-. apply object_loop_shape in Hb; [|exact Hpv].
  eexists. split; [reflexivity|]. rewrite forallb_app, Hb. destruct curly; reflexivity.
Qed.
Lemma parse_value_shape : forall n f e, yields (parse_value n f e).
Proof.
  induction n as [|n IH]; intros f e t ts v r H; cbn [parse_value] in H; [discriminate|].
  destruct t; try discriminate; try (injection H as <- <-; reflexivity).
  - destruct (parse_object_shape _ _ _ _ _ _ _ (IH f e) H) as [cs [-> C]]. exact C.
  - unfold parse_array in H. inv_bind H. destruct a as [[ns next] r0]. apply consolidate_shape in Hb; [|apply IH]. destruct Hb as [N1 N2]. apply flat_list in N1.
    inv_bind Hk. destruct a as [cs r1]. injection Hk0 as <- <-. change (forallb in_list cs = true). destruct next as [v|].
    + inv_bind Hb. destruct a as [rest r2]. injection Hk as <- <-. apply array_loop_shape in Hb0; [|apply IH]. rewrite forallb_app, N1. cbn [forallb]. rewrite (good_list v (N2 v eq_refl)), Hb0. reflexivity.
    + inv_bind Hb. destruct a as [[ws t] r2]. apply collect_flat in Hb0. apply flat_list in Hb0.
      assert (Hv : (if is_value_start t then '(v, r2') <- parse_value n f e t r2 ;; '(rest, r3) <- array_loop (parse_value n f e) f e (S (List.length r2')) r2' ;; Ok (ns ++ ws ++ v :: rest, r3) else Throw EParse) = Ok (cs, r1) -> forallb in_list cs = true).
      { destruct (is_value_start t); [|discriminate]. intro E. inv_bind E. destruct a as [v r3]. inv_bind Hk0. destruct a as [rest r4]. injection Hk1 as <- <-. apply IH in Hb. apply array_loop_shape in Hb1; [|apply IH].
        rewrite !forallb_app, N1, Hb0. cbn [forallb]. rewrite (good_list v Hb), Hb1. reflexivity. }
      destruct t; try exact (Hv Hk). injection Hk as <- <-. rewrite !forallb_app, N1, Hb0. reflexivity.
Qed.
Lemma parse_root_shape : forall f e ts root, parse_root f e ts = Ok root ->
  exists ws v ws2, root = ws ++ v :: ws2 /\ forallb flat ws = true /\ forallb flat ws2 = true /\ shaped v = true /\
    match v with NObject _ | NArray _ => True | _ => False end.
Proof.
  intros f e ts root H. unfold parse_root in H. inv_bind H. destruct a as [[ws t] r].
  inv_bind Hk. destruct a as [[mc children] r1]. inv_bind Hk0. destruct a as [[ws2 t2] r2].
  apply collect_flat in Hb. apply collect_flat in Hb1. destruct t2; try discriminate.
  assert (Ho : (if is_json f then Throw EParse else
         '(v, r1) <- parse_object (parse_value (S (List.length ts)) f e) f e false (t :: r) ;;
           match v with
           | NObject cs => Ok (true, ws ++ cs, r1)
           | _ => Ok (true, ws ++ [v], r1)
           end) = Ok (mc, children, r1) -> mc = true /\ forallb in_object children = true).
  { destruct (is_json f); [discriminate|]. intro E. inv_bind E. destruct a as [v r3].
    destruct (parse_object_shape _ _ _ _ _ _ _ (parse_value_shape _ f e) Hb2) as [cs [-> C]]. injection Hk0 as <- <- <-. split; [reflexivity|].
    rewrite forallb_app, (flat_object _ Hb), C. reflexivity. }
  assert (Hmc : mc = true /\ forallb in_object children = true -> exists ws v ws2', root = ws ++ v :: ws2' /\ forallb flat ws = true /\ forallb flat ws2' = true /\ shaped v = true /\
    match v with NObject _ | NArray _ => True | _ => False end).
  { intros [-> Hc]. injection Hk as <-. exists [], (NObject (children ++ ws2)), []. repeat split. change (forallb in_object (children ++ ws2) = true). rewrite forallb_app, Hc. exact (flat_object _ Hb1). }
  destruct t; try exact (Hmc (Ho Hb0)).
  - inv_bind Hb0. destruct a as [v r3]. injection Hk0 as <- <- <-. injection Hk as <-. pose proof Hb2 as P. apply parse_value_shape in Hb2. apply andb_true_iff in Hb2. destruct Hb2 as [V1 V2].
    exists ws, v, ws2. rewrite <- app_assoc. repeat split; try assumption. cbn [parse_value] in P. destruct (parse_object_shape _ _ _ _ _ _ _ (parse_value_shape _ f e) P) as [cs [-> C]]. exact I.
  - inv_bind Hb0. destruct a as [v r3]. injection Hk0 as <- <- <-. injection Hk as <-. pose proof Hb2 as P. apply parse_value_shape in Hb2. apply andb_true_iff in Hb2. destruct Hb2 as [V1 V2].
    exists ws, v, ws2. rewrite <- app_assoc. repeat split; try assumption. cbn [parse_value] in P. unfold parse_array in P. inv_bind P. destruct a as [[]]. inv_bind Hk. destruct a. injection Hk0 as <- <-. exact I.
Qed.
Lemma parse_document_shape : forall f s root, parse_document f s = Ok root ->
  exists ws v ws2, root = ws ++ v :: ws2 /\ forallb flat ws = true /\ forallb flat ws2 = true /\ shaped v = true /\
    match v with NObject _ | NArray _ => True | _ => False end.
Proof.
  intros f s root H. unfold parse_document, after_start in H. destruct (delivered _) as [[|t0 ts] e]; [destruct e; discriminate|]. exact (parse_root_shape _ _ _ _ H).
Qed.
