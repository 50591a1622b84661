(** What the parser produces is well formed, and the editing operations on documents. *)
From Verif Require Import Base BaseLemmas Util_Model Num_Model Path_Model Path_Spec Path_Lemmas Token_Model Token_Spec PathParser_Model
  PathParser_Lemmas PathParser_Lemmas3 Doc_Model Doc_Spec Doc_Lemmas Doc_Lemmas2 Doc_Lemmas3 Edit_Model Edit_Spec Edit_Lemmas Edit_Lemmas2 Edit_Lemmas3.

Definition quiet (n : node) : bool :=
  match n with NTok TOpenCurly => false | NTok _ | NComment _ => true | _ => false end.
Definition quiets (ns : list node) : bool := forallb quiet ns.

Lemma quiets_app : forall a b, quiets (a ++ b) = quiets a && quiets b.
Proof. intros. apply forallb_app. Qed.
Lemma quiets_cons : forall a b, quiets (a :: b) = quiet a && quiets b.
Proof. reflexivity. Qed.
Lemma quiet_wf : forall ns, quiets ns = true -> wfs ns = true /\ existsb is_open_curly ns = false.
Proof.
  induction ns as [|n ns IH]; intro H; [auto|]. cbn in H. apply andb_true_iff in H. destruct H as [H1 H2]. destruct (IH H2) as [I1 I2].
  unfold wfs in *. cbn. rewrite I1, I2. destruct n as [[]| | | | | | | | ]; try discriminate; auto.
Qed.
Lemma quiet_value : forall ns r, quiets ns = true -> value_of (ns ++ r) = value_of r.
Proof.
  induction ns as [|n ns IH]; intros r H; [reflexivity|]. cbn in H. apply andb_true_iff in H. destruct H as [H1 H2].
  destruct n; try discriminate; cbn; apply IH; exact H2.
Qed.
Lemma quiet_ignored : forall t, match t with TIgnored _ | TNewline => true | _ => is_unquoted_whitespace t end = true -> quiet (NTok t) = true.
Proof. intros [] H; try reflexivity; discriminate. Qed.

Lemma collect_quiet : forall f e ts ns t r, collect f e ts = Ok (ns, t, r) -> quiets ns = true.
Proof.
  intros f e. induction ts as [|t0 ts IH]; intros ns t r H; cbn [collect] in H; [destruct e; discriminate|].
  destruct (json_forbids f t0); [discriminate|].
  destruct (match t0 with TIgnored _ | TNewline => true | _ => is_unquoted_whitespace t0 end) eqn:E.
  - inv_bind H. destruct a as [[ns' t'] r']. injection Hk as <- <- <-. rewrite quiets_cons, (quiet_ignored _ E). eapply IH, Hb.
  - destruct t0; try (injection H as <- <- <-; reflexivity). inv_bind H. destruct a as [[ns' t'] r']. injection Hk as <- <- <-.
    cbn. eapply IH, Hb.
Qed.
Lemma separator_conf_quiet : forall f e ts b0 ns b r, separator_conf b0 f e ts = Ok (ns, b, r) -> quiets ns = true.
Proof.
  intros f e. induction ts as [|t0 ts IH]; intros b0 ns b r H; cbn [separator_conf] in H; [destruct e; discriminate|].
  destruct (json_forbids f t0); [discriminate|].
  destruct (match t0 with TIgnored _ => true | _ => is_unquoted_whitespace t0 end) eqn:E.
  - inv_bind H. destruct a as [[ns' t'] r']. injection Hk as <- <- <-. rewrite quiets_cons, quiet_ignored; [eapply IH, Hb|].
    destruct t0; exact E || reflexivity.
  - destruct t0; try (injection H as <- <- <-; reflexivity);
      (inv_bind H; destruct a as [[ns' t'] r']; injection Hk as <- <- <-; cbn; eapply IH, Hb).
Qed.
Lemma separator_quiet : forall f e ts ns b r, check_element_separator f e ts = Ok (ns, b, r) -> quiets ns = true.
Proof.
  intros f e ts ns b r H. unfold check_element_separator in H. destruct f.
  - eapply separator_conf_quiet, H.
  - inv_bind H. destruct a as [[ws t] r']. apply collect_quiet in Hb.
    destruct t; injection Hk as <- <- <-; auto. rewrite quiets_app, Hb. reflexivity.
Qed.

Definition sound_value (pv : token -> list token -> result (node * list token)) : Prop :=
  forall t ts v r, pv t ts = Ok (v, r) -> wf_node v = true /\ is_value_node v = true.

Definition blank_or_value (n : node) : bool := quiet n || (is_value_node n && wf_node n).

Lemma consolidate_loop_sound : forall pv f e k t ts vs c t' r, sound_value pv ->
  consolidate_loop pv f e k t ts = Ok (vs, c, t', r) -> forallb blank_or_value vs = true.
Proof.
  intros pv f e. induction k as [|k IH]; intros t ts vs c t' r Hpv H; cbn [consolidate_loop] in H; [discriminate|].
  assert (Hval : is_value_start t = true ->
    ('(v, r0) <- pv t ts ;; '(t1, r') <- next_token f e r0 ;;
     '(vs, c, t'', r'') <- consolidate_loop pv f e k t1 r' ;; Ok (v :: vs, S c, t'', r'')) = Ok (vs, c, t', r) ->
    forallb blank_or_value vs = true).
  { intros _ E. inv_bind E. destruct a as [v r0]. inv_bind Hk. destruct a as [t1 r1]. inv_bind Hk0.
    destruct a as [[[vs' c'] t2] r2]. injection Hk as <- <- <- <-. apply Hpv in Hb. destruct Hb as [H1 H2].
    cbn. unfold blank_or_value at 1. rewrite H1, H2, orb_true_r. eapply IH; eassumption. }
  destruct t; try exact (Hval eq_refl H); try (injection H as <- <- <- <-; reflexivity).
  inv_bind H. destruct a as [t1 r1]. inv_bind Hk. destruct a as [[[vs' c'] t2] r2]. injection Hk0 as <- <- <- <-.
  cbn. eapply IH; eassumption.
Qed.

Lemma single_value_sound : forall vs v0 ts before v r, forallb blank_or_value vs = true ->
  match v0 with Some n => wf_node n = true /\ is_value_node n = true | None => True end ->
  single_value v0 ts vs = Ok (before, v, r) ->
  quiets before = true /\ match v with Some n => wf_node n = true /\ is_value_node n = true | None => True end.
Proof.
  induction vs as [|n vs IH]; intros v0 ts before v r Hq Hv H; cbn [single_value] in H.
  { injection H as <- <- <-. auto. }
  cbn in Hq. apply andb_true_iff in Hq. destruct Hq as [Hn Hq]. destruct (is_value_node n) eqn:En.
  - apply IH in H; auto. unfold blank_or_value in Hn. rewrite En in Hn. destruct n; try discriminate; cbn in Hn; auto.
  - destruct v0 as [v1|].
    + destruct (node_tokens n); [discriminate|]. exact (IH (Some v1) _ _ _ _ Hq Hv H).
    + inv_bind H. destruct a as [[b' v'] ts']. injection Hk as <- <- <-. apply IH in Hb; auto. destruct Hb as [H1 H2]. split; [|exact H2].
      rewrite quiets_cons, H1. unfold blank_or_value in Hn. rewrite En, orb_false_r in Hn. rewrite Hn. reflexivity.
Qed.

Lemma put_back_sound : forall vs ts vs' r, put_back_trailing vs ts = (vs', r) -> forallb blank_or_value vs = true -> wfs vs' = true.
Proof.
  assert (G : forall vs, forallb blank_or_value vs = true -> wfs (rev vs) = true).
  { intros vs H. unfold wfs. rewrite forallb_forall in *. intros x Hx. apply in_rev in Hx. specialize (H x Hx). unfold blank_or_value in H.
    apply orb_true_iff in H. destruct H as [H|H]; [destruct x; try discriminate; reflexivity|]. apply andb_true_iff in H. apply H. }
  induction vs as [|n vs IH]; intros ts vs' r H Hq; [injection H as <- <-; reflexivity|].
  destruct n; cbn [put_back_trailing] in H; try (apply (f_equal fst) in H; cbn [fst] in H; subst vs'; apply G; exact Hq);
    (apply IH in H; [exact H|]; cbn [forallb] in Hq; apply andb_true_iff in Hq; apply Hq).
Qed.

Lemma consolidate_sound : forall pv f e ts ns v r, sound_value pv -> consolidate_values pv f e ts = Ok (ns, v, r) ->
  quiets ns = true /\ match v with Some n => wf_node n = true /\ is_value_node n = true | None => True end.
Proof.
  intros pv f e ts ns v r Hpv H. unfold consolidate_values in H. destruct f; [|injection H as <- <- <-; auto].
  inv_bind H. destruct a as [[nodes t] r0]. apply collect_quiet in Hb. inv_bind Hk. destruct a as [[[values count] t'] r1].
  apply consolidate_loop_sound in Hb0; [|exact Hpv]. destruct (count <? 2)%nat.
  - inv_bind Hk0. destruct a as [[before v'] r2]. injection Hk as <- <- <-. apply single_value_sound in Hb1; auto.
    destruct Hb1 as [H1 H2]. rewrite quiets_app, Hb, H1. auto.
  - destruct (put_back_trailing (rev values) (t' :: r1)) as [values' r''] eqn:E. injection Hk0 as <- <- <-. split; [exact Hb|].
    split; [|reflexivity]. cbn [wf_node]. eapply put_back_sound; [exact E|]. rewrite forallb_forall in *. intros x Hx. apply Hb0, in_rev, Hx.
Qed.

Lemma parse_include_sound : forall f e t ts n r, parse_include f e t ts = Ok (n, r) -> wf_node n = true /\ is_open_curly n = false.
Proof.
  intros f e t ts n r H. unfold parse_include in H. inv_bind H. destruct a as [[ws1 t1] r1]. apply collect_quiet in Hb.
  apply quiet_wf in Hb. destruct Hb as [Hb _].
  assert (G : forall b : bool, (if b then Ok (NInclude (NTok t :: ws1 ++ [NSimple t1]) KHeuristic, r1) else Throw EParse) = Ok (n, r) ->
    wf_node n = true /\ is_open_curly n = false).
  { intros [] E; [|discriminate]. injection E as <- <-. split; [|reflexivity]. cbn. rewrite forallb_app. unfold wfs in Hb. rewrite Hb. reflexivity. }
  destruct t1; try (match type of Hk with (if ?b then _ else _) = _ => exact (G b Hk) end); try exact (G false Hk).
  match type of Hk with context [include_kind_of ?s] => destruct (include_kind_of s); [|discriminate] end. inv_bind Hk. destruct a as [[ws2 t2] r2].
  apply collect_quiet in Hb0. apply quiet_wf in Hb0. destruct Hb0 as [Hb0 _].
  destruct (negb (is_string_value t2)); [discriminate|]. inv_bind Hk0. destruct a as [[ws3 t3] r3]. apply collect_quiet in Hb1. apply quiet_wf in Hb1. destruct Hb1 as [Hb1 _].
  destruct (negb _) in Hk; [discriminate|]. injection Hk as <- <-. split; [|reflexivity]. cbn. unfold wfs in *. rewrite forallb_app, Hb. cbn.
  rewrite forallb_app, Hb0. cbn. exact Hb1.
Qed.

Lemma parse_field_sound : forall pv f e keys t ts n keys' r, sound_value pv ->
  parse_field pv f e keys t ts = Ok (n, keys', r) -> wf_node n = true /\ is_open_curly n = false.
Proof.
  intros pv f e keys t ts n keys' r Hpv H. unfold parse_field in H.
  inv_bind H. destruct a as [pn r1]. inv_bind Hk. destruct a as [[ws ak] r2]. inv_bind Hk0. destruct a as [nodes r3].
  apply collect_quiet in Hb0.
  assert (Hn : exists pre v, nodes = pre ++ [v] /\ quiets pre = true /\ wf_node v = true /\ is_value_node v = true).
  { destruct (negb (is_json f) && _).
    - inv_bind Hb1. destruct a as [v r4]. injection Hk0 as <- <-. apply Hpv in Hb2. exists ws, v. auto.
    - destruct (is_key_value_separator f ak) eqn:Es; [|discriminate]. cbn [negb] in Hb1.
      assert (Hak : quiet (NTok ak) = true) by (destruct ak; try discriminate; reflexivity).
      inv_bind Hb1. destruct a as [[ns next] r4]. apply consolidate_sound in Hb2; [|exact Hpv]. destruct Hb2 as [Hq Hv].
      destruct next as [v|].
      + injection Hk0 as <- <-. exists (ws ++ NTok ak :: ns), v. rewrite <- app_assoc. split; [reflexivity|]. split; [|exact Hv].
        unfold quiets in *. rewrite forallb_app, Hb0. cbn [forallb]. rewrite Hak, Hq. reflexivity.
      + inv_bind Hk0. destruct a as [[ws' t'] r5]. inv_bind Hk1. destruct a as [v r6]. injection Hk0 as <- <-.
        apply collect_quiet in Hb1. apply Hpv in Hb2. exists (ws ++ NTok ak :: ns ++ ws'), v. split.
        { rewrite <- app_assoc. cbn. rewrite <- app_assoc. reflexivity. }
        split; [|exact Hb2]. unfold quiets in *. rewrite forallb_app, Hb0. cbn [forallb]. rewrite Hak, forallb_app, Hq, Hb1. reflexivity. }
  destruct Hn as [pre [v [-> [Hq [Hw Hv]]]]].
  assert (Hf : fst pn <> [] -> wf_node (NField (NPath pn :: pre ++ [v])) = true /\ is_open_curly (NField (NPath pn :: pre ++ [v])) = false).
  { intro Hp. split; [|reflexivity]. cbn [wf_node]. unfold wf_field. cbn [key_of value_of]. rewrite quiet_value by exact Hq.
    destruct (fst pn); [congruence|]. assert (E : value_of [v] = Some v) by (destruct v; try discriminate; reflexivity). rewrite E. cbn [andb forallb wf_node].
    rewrite forallb_app. destruct (quiet_wf _ Hq) as [Hq1 _]. unfold wfs in Hq1. rewrite Hq1. cbn. rewrite Hw. reflexivity. }
  destruct (fst pn) as [|key [|]]; [discriminate| |].
  - destruct (existsb (str_eqb key) keys); [destruct (is_json f); [discriminate|]|]; injection Hk as <- _ <-; apply Hf; discriminate.
  - destruct (is_json f); [discriminate|]. injection Hk as <- _ <-. apply Hf. discriminate.
Qed.

Lemma wfs_app : forall a b, wfs (a ++ b) = wfs a && wfs b.
Proof. intros. apply forallb_app. Qed.
Lemma wfs_cons : forall a b, wfs (a :: b) = wf_node a && wfs b.
Proof. reflexivity. Qed.

Lemma object_loop_sound : forall pv f e k had after keys ts ns r, sound_value pv ->
  object_loop pv f e k had after keys ts = Ok (ns, r) ->
  wfs ns = true /\ existsb is_open_curly ns = false /\ (had = true -> ends_close ns = true).
Proof.
  intros pv f e. induction k as [|k IH]; intros had after keys ts ns r Hpv H; cbn [object_loop] in H; [discriminate|].
  inv_bind H. destruct a as [[ws t] r0]. apply collect_quiet in Hb. destruct (quiet_wf _ Hb) as [Q1 Q2].
  assert (Hclose : forall l x, is_close_curly x = true -> ends_close (l ++ [x]) = true).
  { intros l x Hx. rewrite ends_close_app by discriminate. exact Hx. }
  assert (Hitem :
    ('(item, keys', r2) <-
        (if negb (is_json f) && is_include_keyword t then
           '(inc, r2) <- parse_include f e t r0 ;; Ok (inc, keys, r2)
         else parse_field pv f e keys t r0) ;;
      '(sn, separated, r3) <- check_element_separator f e r2 ;;
      if separated then
        '(rest, r4) <- object_loop pv f e k had true keys' r3 ;;
        Ok (ws ++ item :: sn ++ rest, r4)
      else
        '(ws2, t2, r4) <- collect f e r3 ;;
        match t2, had with
        | TCloseCurly, true => Ok (ws ++ item :: sn ++ ws2 ++ [NTok t2], r4)
        | TEnd, false => Ok (ws ++ item :: sn ++ ws2, t2 :: r4)
        | _, _ => Throw EParse
        end) = Ok (ns, r) -> wfs ns = true /\ existsb is_open_curly ns = false /\ (had = true -> ends_close ns = true)).
  { intro E. inv_bind E. destruct a as [[item keys'] r2]. inv_bind Hk0. destruct a as [[sn sep] r3].
    assert (Hi : wf_node item = true /\ is_open_curly item = false).
    { destruct (negb (is_json f) && is_include_keyword t).
      - inv_bind Hb0. destruct a as [inc r4]. injection Hk0 as <- <- <-. eapply parse_include_sound, Hb2.
      - eapply parse_field_sound; eassumption. }
    destruct Hi as [I1 I2]. apply separator_quiet in Hb1. destruct (quiet_wf _ Hb1) as [S1 S2].
    destruct sep.
    - inv_bind Hk1. destruct a as [rest r4]. injection Hk0 as <- <-. apply IH in Hb2; [|exact Hpv]. destruct Hb2 as [R1 [R2 R3]].
      rewrite wfs_app, wfs_cons, wfs_app, Q1, I1, S1, R1. rewrite existsb_app. cbn [existsb]. rewrite existsb_app, Q2, I2, S2, R2.
      split; [reflexivity|]. split; [reflexivity|]. intro Hh. specialize (R3 Hh).
      rewrite app_comm_cons, app_assoc, ends_close_app; [exact R3|]. destruct rest; discriminate.
    - inv_bind Hk1. destruct a as [[ws2 t2] r4]. apply collect_quiet in Hb2. destruct (quiet_wf _ Hb2) as [T1 T2].
      destruct t2, had; try discriminate; injection Hk0 as <- <-;
        rewrite ?wfs_app, ?wfs_cons, ?wfs_app, Q1, I1, S1, T1; rewrite existsb_app; cbn [existsb]; rewrite !existsb_app, Q2, I2, S2, T2;
        (split; [reflexivity|split; [reflexivity|try discriminate]]).
      intros _. rewrite app_assoc, app_comm_cons, app_assoc. apply Hclose. reflexivity. }
  destruct t, had; try exact (Hitem Hk).
  - injection Hk as <- <-. split; [exact Q1|]. split; [exact Q2|discriminate].
  - destruct (is_json f && after); [discriminate|]. cbn [negb] in Hk. injection Hk as <- <-.
    rewrite wfs_app, existsb_app, Q1, Q2. split; [reflexivity|]. split; [reflexivity|]. intros _. apply Hclose. reflexivity.
  - destruct (is_json f && after); discriminate.
Qed.

Lemma array_loop_sound : forall pv f e k ts ns r, sound_value pv -> array_loop pv f e k ts = Ok (ns, r) -> wfs ns = true.
Proof.
  intros pv f e. induction k as [|k IH]; intros ts ns r Hpv H; cbn [array_loop] in H; [discriminate|].
  inv_bind H. destruct a as [[sn sep] r0]. apply separator_quiet in Hb. destruct (quiet_wf _ Hb) as [S1 _].
  destruct sep; cbn [negb] in Hk.
  - inv_bind Hk. destruct a as [[nn next] r1]. apply consolidate_sound in Hb0; [|exact Hpv].
    destruct Hb0 as [N1 N2]. apply quiet_wf in N1. destruct N1 as [N1 _].
    destruct next as [v|].
    + inv_bind Hk0. destruct a as [rest r2]. injection Hk as <- <-. apply IH in Hb0; [|exact Hpv].
      rewrite !wfs_app, wfs_cons, S1, N1, (proj1 N2), Hb0. reflexivity.
    + inv_bind Hk0. destruct a as [[ws t] r2]. apply collect_quiet in Hb0. apply quiet_wf in Hb0. destruct Hb0 as [W1 _].
      destruct (is_value_start t).
      * inv_bind Hk. destruct a as [v r3]. inv_bind Hk0. destruct a as [rest r4]. injection Hk as <- <-.
        apply Hpv in Hb0. apply IH in Hb1; [|exact Hpv]. rewrite !wfs_app, wfs_cons, S1, N1, W1, (proj1 Hb0), Hb1. reflexivity.
      * destruct (negb (is_json f) && _); [|discriminate]. inv_bind Hk. destruct a as [rest r3]. injection Hk0 as <- <-.
        apply IH in Hb0; [|exact Hpv]. rewrite !wfs_app, S1, N1, W1, Hb0. reflexivity.
  - inv_bind Hk. destruct a as [[ws t] r1]. apply collect_quiet in Hb0. apply quiet_wf in Hb0. destruct Hb0 as [W1 _].
    destruct t; try discriminate. injection Hk0 as <- <-. rewrite !wfs_app, S1, W1. reflexivity.
Qed.

Lemma parse_object_sound : forall pv f e had ts v r, sound_value pv -> parse_object pv f e had ts = Ok (v, r) ->
  exists cs, v = NObject cs /\ (had = true -> wf_node v = true) /\ wfs cs = true /\ (had = false -> existsb is_open_curly cs = false).
Proof.
  intros pv f e had ts v r Hpv H. unfold parse_object in H. inv_bind H. destruct a as [ns r0]. injection Hk as <- <-.
  apply object_loop_sound in Hb; [|exact Hpv]. destruct Hb as [H1 [H2 H3]]. eexists. split; [reflexivity|]. destruct had; cbn [app].
  - split; [|split; [exact H1|discriminate]]. intros _. cbn [wf_node forallb]. unfold wfs in H1. rewrite H1. unfold braces. cbn [existsb]. specialize (H3 eq_refl).
    destruct ns as [|x ns]; [discriminate|]. cbn [starts_open]. cbn in *. rewrite H3. reflexivity.
  - split; [discriminate|]. split; [exact H1|]. intros _. exact H2.
Qed.

Lemma parse_array_sound : forall pv f e ts v r, sound_value pv -> parse_array pv f e ts = Ok (v, r) -> wf_node v = true /\ is_value_node v = true.
Proof.
  intros pv f e ts v r Hpv H. unfold parse_array in H. inv_bind H. destruct a as [[ns next] r0].
  inv_bind Hk. destruct a as [cs r1]. injection Hk0 as <- <-. split; [|reflexivity]. cbn. change (wfs cs = true).
  apply consolidate_sound in Hb; [|exact Hpv]. destruct Hb as [N1 N2]. apply quiet_wf in N1. destruct N1 as [N1 _].
  destruct next as [v|].
  - inv_bind Hb0. destruct a as [rest r2]. injection Hk as <- <-. apply array_loop_sound in Hb; [|exact Hpv].
    rewrite wfs_app, wfs_cons, N1, (proj1 N2), Hb. reflexivity.
  - inv_bind Hb0. destruct a as [[ws t] r2]. apply collect_quiet in Hb. apply quiet_wf in Hb. destruct Hb as [W1 _].
    assert (Hv : ('(v, r3) <- pv t r2 ;; '(rest, r4) <- array_loop pv f e (S (List.length r3)) r3 ;; Ok (ns ++ ws ++ v :: rest, r4)) = Ok (cs, r1) ->
      wfs cs = true).
    { intro E. inv_bind E. destruct a as [v r3]. inv_bind Hk0. destruct a as [rest r4]. injection Hk1 as <- <-.
      apply Hpv in Hb. apply array_loop_sound in Hb0; [|exact Hpv]. rewrite !wfs_app, wfs_cons, N1, W1, (proj1 Hb), Hb0. reflexivity. }
    destruct t; try discriminate; try exact (Hv Hk).
    injection Hk as <- <-. rewrite !wfs_app, N1, W1. reflexivity.
Qed.

Lemma parse_value_sound : forall n f e, sound_value (parse_value n f e).
Proof.
  induction n as [|n IH]; intros f e t ts v r H; cbn [parse_value] in H; [discriminate|].
  destruct t; try discriminate; try (injection H as <- <-; split; reflexivity).
  - apply parse_object_sound in H; [|apply IH]. destruct H as [cs [-> [H _]]]. split; [exact (H eq_refl)|reflexivity].
  - apply parse_array_sound in H; [exact H|apply IH].
Qed.

Lemma wfs_wfr : forall ns, wfs ns = true -> wfr ns = true.
Proof.
  intros ns H. unfold wfs, wfr in *. rewrite forallb_forall in *. intros n I. specialize (H n I). destruct n; try exact H.
  cbn [wf_node wf_top] in *. apply andb_true_iff in H. destruct H as [H1 H2]. apply andb_true_iff in H1. destruct H1 as [H1 _]. unfold wfs. rewrite H1, H2. reflexivity.
Qed.
Lemma wfr_app : forall a b, wfr (a ++ b) = wfr a && wfr b.
Proof. intros a b. unfold wfr. apply forallb_app. Qed.
Lemma wfr_cons : forall a b, wfr (a :: b) = wf_top a && wfr b.
Proof. reflexivity. Qed.

Lemma parse_root_sound : forall f e ts ns, parse_root f e ts = Ok ns -> wfr ns = true.
Proof.
  intros f e ts ns H. unfold parse_root in H. inv_bind H. destruct a as [[ws t] r].
  inv_bind Hk. destruct a as [[mc children] r1]. inv_bind Hk0. destruct a as [[ws2 t2] r2].
  apply collect_quiet in Hb. apply quiet_wf in Hb. destruct Hb as [W1 W2]. apply collect_quiet in Hb1. apply quiet_wf in Hb1. destruct Hb1 as [V1 V2].
  assert (Hc : wfs children = true /\ (mc = true -> existsb is_open_curly children = false)).
  { assert (Ho : (if is_json f then Throw EParse else
         '(v, r1) <- parse_object (parse_value (S (List.length ts)) f e) f e false (t :: r) ;;
           match v with
           | NObject cs => Ok (true, ws ++ cs, r1)
           | _ => Ok (true, ws ++ [v], r1)
           end) = Ok (mc, children, r1) -> wfs children = true /\ (mc = true -> existsb is_open_curly children = false)).
    { destruct (is_json f); [discriminate|]. intro E. inv_bind E. destruct a as [v r3].
      apply parse_object_sound in Hb; [|apply parse_value_sound]. destruct Hb as [cs [-> [_ [H1 H2]]]].
      injection Hk0 as <- <- <-.
      rewrite wfs_app, existsb_app, W1, W2, H2 by reflexivity. rewrite H1. auto. }
    destruct t; try exact (Ho Hb0);
      (inv_bind Hb0; destruct a as [v r3]; injection Hk0 as <- <- <-; apply parse_value_sound in Hb; rewrite wfs_app, wfs_cons, W1, (proj1 Hb);
       split; [reflexivity|discriminate]). }
  destruct Hc as [C1 C2]. destruct t2; try discriminate. destruct mc; injection Hk as <-.
  - cbn [wfr forallb wf_top]. rewrite andb_true_r. unfold braces. rewrite existsb_app, V2, C2 by reflexivity. cbn [orb andb].
    rewrite wfs_app, C1, V1. reflexivity.
  - apply wfs_wfr. rewrite wfs_app, C1, V1. reflexivity.
Qed.

Lemma parse_document_sound : forall f s root, parse_document f s = Ok root -> wfr root = true.
Proof.
  intros f s root H. unfold parse_document, after_start in H. destruct (delivered _) as [[|t ts] e]; [destruct e; discriminate|].
  eapply parse_root_sound, H.
Qed.

Lemma single_value_some : forall vs v0 ts b v r, single_value (Some v0) ts vs = Ok (b, v, r) -> v <> None.
Proof.
  induction vs as [|n vs IH]; intros v0 ts b v r H; cbn [single_value] in H; [injection H as <- <- <-; discriminate|].
  destruct (is_value_node n); [exact (IH _ _ _ _ _ H)|]. destruct (node_tokens n); [discriminate|]. exact (IH _ _ _ _ _ H).
Qed.

Lemma consolidate_some : forall pv f e t r ns v r1 t1 r2, sound_value pv ->
  match t with TIgnored _ | TNewline | TComment _ _ => true | _ => is_unquoted_whitespace t end = false -> t <> TEnd -> is_json f = false ->
  consolidate_values pv f e (t :: r) = Ok (ns, v, r1) -> next_token f e r1 = Ok (t1, r2) -> t1 = TEnd -> v <> None.
Proof.
  intros pv f e t r ns v r1 t1 r2 Hpv Hq Hne Hj H Hn -> ->. destruct f; [|discriminate]. cbn [consolidate_values] in H.
  assert (Hc : collect CONF e (t :: r) = Ok ([], t, r)).
  { cbn [collect]. change (json_forbids CONF t) with false. destruct t; try reflexivity; try discriminate. cbn in Hq |- *. rewrite Hq. reflexivity. }
  rewrite Hc in H. cbn [bind] in H. inv_bind H. destruct a as [[[values count] t'] r'].
  assert (Hcase : (t' = t /\ values = [] /\ count = O) \/ (exists v0 vs c, is_value_node v0 = true /\ values = v0 :: vs /\ count = S c)).
  { cbn [consolidate_loop] in Hb.
    destruct t; try discriminate; try congruence; cbn [is_value_start] in Hb; try (injection Hb as <- <- <- <-; auto);
      (inv_bind Hb; destruct a as [v0 r0]; inv_bind Hk0; destruct a as [t2 r3]; inv_bind Hk1; destruct a as [[[vs c] t4] r4];
       injection Hk0 as <- <- <- <-; right; apply Hpv in Hb0; destruct Hb0; exists v0, vs, c; auto). }
  destruct Hcase as [[-> [-> ->]]|[v0 [vs [c [Hv0 [-> ->]]]]]].
  - cbn in Hk. injection Hk as <- <-. cbn in Hn. injection Hn as -> _. congruence.
  - destruct (S c <? 2)%nat; [|destruct (put_back_trailing _ _); discriminate].
    inv_bind Hk. destruct a as [[b v1] r3]. injection Hk0 as <- -> <-.
    cbn [single_value] in Hb0. rewrite Hv0 in Hb0. exact (single_value_some _ _ _ _ _ _ Hb0 eq_refl).
Qed.

Lemma parse_value_text_sound : forall f s v, parse_value_text f s = Ok v ->
  exists n, v = Some n /\ wf_node n = true /\ is_value_node n = true.
Proof.
  intros f s v H. unfold parse_value_text, after_start in H. destruct (delivered _) as [[|t0 ts] e]; [destruct e; discriminate|].
  unfold parse_single_value in H. inv_bind H. destruct a as [t r].
  destruct (match t with TIgnored _ | TNewline | TComment _ _ => true | _ => is_unquoted_whitespace t end) eqn:Eq; [discriminate|].
  assert (G : t <> TEnd -> (if is_json f then
             '(v, r1) <- parse_value (S (List.length ts)) f e t r ;;
             '(t1, _) <- next_token f e r1 ;;
             match t1 with TEnd => Ok (Some v) | _ => Throw EParse end
           else
             '(_, v, r1) <- consolidate_values (parse_value (S (List.length ts)) f e) f e (t :: r) ;;
             '(t1, _) <- next_token f e r1 ;;
             match t1 with TEnd => Ok v | _ => Throw EParse end) = Ok v -> exists n, v = Some n /\ wf_node n = true /\ is_value_node n = true).
  { intros Hne E. destruct (is_json f) eqn:Ej.
    - inv_bind E. destruct a as [n r1]. inv_bind Hk0. destruct a as [t1 r2]. destruct t1; try discriminate. injection Hk1 as <-.
      apply parse_value_sound in Hb0. exists n. auto.
    - inv_bind E. destruct a as [[ns v1] r1]. inv_bind Hk0. destruct a as [t1 r2]. destruct t1; try discriminate. injection Hk1 as <-.
      pose proof (consolidate_some _ _ _ _ _ _ _ _ _ _ (parse_value_sound _ f e) Eq Hne Ej Hb0 Hb1 eq_refl) as Hs.
      apply consolidate_sound in Hb0; [|apply parse_value_sound]. destruct v1 as [n|]; [|congruence]. exists n. split; [reflexivity|apply Hb0]. }
  destruct t; try discriminate; refine (G _ Hk); discriminate.
Qed.

(** ** Editing a document *)

Definition rooted (root : list node) (ocs : list node) : Prop :=
  exists pre post, root = pre ++ NObject ocs :: post /\
    Forall (fun c => match c with NObject _ | NArray _ => False | _ => True end) pre.

Lemma rooted_object : forall root ocs, rooted root ocs -> root_object root = ocs.
Proof.
  intros root ocs [pre [post [-> H]]]. induction H as [|c pre Hc H IH]; [reflexivity|]. destruct c; try contradiction; exact IH.
Qed.

Lemma on_root_split : forall {A} (g : list node -> result A) rebuild root root' a,
  on_root g rebuild root = Ok (root', a) ->
  exists pre ocs post, root = pre ++ NObject ocs :: post /\ g ocs = Ok a /\ root' = pre ++ rebuild (NObject ocs) a post /\
    Forall (fun c => match c with NObject _ | NArray _ => False | _ => True end) pre.
Proof.
  intros A g rebuild. induction root as [|c root IH]; intros root' a H; cbn [on_root] in H; [discriminate|].
  assert (Hskip : match c with NObject _ | NArray _ => False | _ => True end ->
    ('(r, a0) <- on_root g rebuild root ;; Ok (c :: r, a0)) = Ok (root', a) ->
    exists pre ocs post, c :: root = pre ++ NObject ocs :: post /\ g ocs = Ok a /\ root' = pre ++ rebuild (NObject ocs) a post /\
      Forall (fun c => match c with NObject _ | NArray _ => False | _ => True end) pre).
  { intros Hc E. inv_bind E. destruct a0 as [r a0]. injection Hk as <- <-. destruct (IH _ _ Hb) as [pre [ocs [post [-> [H1 [-> H2]]]]]].
    exists (c :: pre), ocs, post. repeat (split; [reflexivity || assumption|]). constructor; assumption. }
  destruct c; try exact (Hskip I H); try discriminate.
  inv_bind H. injection Hk as <- <-. exists [], children, root. repeat (split; [reflexivity || assumption|]). constructor.
Qed.

Lemma rooted_has : forall root ocs p q, rooted root ocs -> wfr root = true -> p <> [] -> new_path q = Ok p ->
  has_path root q = Ok (hasb (List.length p) p ocs).
Proof.
  intros root ocs p q [pre [post [-> H]]] Hw Hp Hq. unfold has_path, root_has_value. rewrite Hq. cbn [bind].
  rewrite wfr_app, wfr_cons in Hw. apply andb_true_iff in Hw. destruct Hw as [_ Hw]. apply andb_true_iff in Hw. destruct Hw as [Hw _].
  cbn [wf_top] in Hw. apply andb_true_iff in Hw. destruct Hw as [_ Hw].
  assert (G : exists r, on_root (fun ocs => has_value ocs p) (fun n _ rest => n :: rest) (pre ++ NObject ocs :: post) =
                Ok (r, hasb (List.length p) p ocs)).
  { induction H as [|c pre Hc H IH].
    - cbn [app on_root]. unfold has_value. rewrite has_value_n_spec by (assumption || lia). eexists. reflexivity.
    - destruct IH as [r IH]. destruct c; try contradiction; cbn [app on_root]; rewrite IH; eexists; reflexivity. }
  destruct G as [r ->]. reflexivity.
Qed.

Lemma has_path_rooted : forall root q b, has_path root q = Ok b -> exists p ocs, new_path q = Ok p /\ rooted root ocs.
Proof.
  intros root q b H. unfold has_path, root_has_value in H. inv_bind H. unfold rmap in Hk. inv_bind Hk.
  destruct a0 as [r a0]. apply on_root_split in Hb0. destruct Hb0 as [pre [ocs [post [-> [_ [_ H1]]]]]].
  exists a, ocs. split; [exact Hb|]. exists pre, post. auto.
Qed.

Lemma set_wf : forall root pre ocs post ocs', root = pre ++ NObject ocs :: post -> wfr root = true ->
  wfs ocs' = true -> braces ocs' = true -> wfr (pre ++ NObject ocs' :: post) = true.
Proof.
  intros root pre ocs post ocs' -> Hw H1 H2. rewrite wfr_app, wfr_cons in *. apply andb_true_iff in Hw. destruct Hw as [W1 Hw].
  apply andb_true_iff in Hw. destruct Hw as [_ W2]. rewrite W1, W2. cbn [wf_top]. rewrite H1, H2. reflexivity.
Qed.

Lemma root_wf : forall root ocs, rooted root ocs -> wfr root = true -> wfs ocs = true /\ braces ocs = true.
Proof.
  intros root ocs [pre [post [-> _]]] Hw. rewrite wfr_app, wfr_cons in Hw. apply andb_true_iff in Hw. destruct Hw as [_ Hw].
  apply andb_true_iff in Hw. destruct Hw as [Hw _]. cbn [wf_top] in Hw. apply andb_true_iff in Hw. destruct Hw; auto.
Qed.

(** ** The two path parsers agree *)

Lemma unquoted_comments : forall s res t r, pull_unquoted_text true res s = (t, r) ->
  pull_unquoted_text false res s = (t, r) \/ exists c r', r = c :: r' /\ start_of_comment true c r' = true.
Proof.
  induction s as [|c s IH]; intros res t r H; [auto|]. cbn [pull_unquoted_text] in *.
  change (start_of_comment false c s) with false. rewrite orb_false_r.
  destruct (mem c not_in_unquoted_text || is_whitespace c); cbn [orb] in H; [auto|].
  destruct (start_of_comment true c s) eqn:Ec; [injection H as <- <-; right; eauto|].
  destruct (str_eqb (res ++ [c]) (lit "true")); [auto|]. destruct (str_eqb (res ++ [c]) (lit "null")); [auto|].
  destruct (str_eqb (res ++ [c]) (lit "false")); [auto|]. apply IH. exact H.
Qed.

Definition no_comment (t : token) : Prop := match t with TComment _ _ | TSubst _ _ => False | _ => True end.

Lemma comment_next : forall n sv c r t sv' r', start_of_comment true c r = true ->
  pull_next_token n true sv (c :: r) = Ok (t, sv', r') -> ~ no_comment t.
Proof.
  intros n [ws ls] c r t sv' r' Hc H. destruct n as [|n]; [discriminate|]. cbn [pull_next_token] in H.
  assert (Hw : is_whitespace_not_newline c = false /\ Ascii.eqb c nl = false).
  { unfold start_of_comment in Hc. cbn [andb] in Hc. apply orb_true_iff in Hc. destruct Hc as [Hc|Hc].
    - apply Ascii.eqb_eq in Hc. subst c. split; reflexivity.
    - apply andb_true_iff in Hc. destruct Hc as [Hc _]. apply Ascii.eqb_eq in Hc. subst c. split; reflexivity. }
  destruct Hw as [Hw1 Hw2]. cbn [next_char_after_whitespace] in H. rewrite Hw1, Hw2, Hc in H.
  inv_bind H. destruct a as [t0 r0]. injection Hk as <- _ _. unfold pull_comment in Hb.
  destruct (Ascii.eqb c "/").
  - destruct r as [|c' r]; [discriminate|]. destruct (Ascii.eqb c' "/"); [|discriminate]. destruct (comment_text r). injection Hb as <- _. auto.
  - destruct (comment_text r). injection Hb as <- _. auto.
Qed.

Lemma pull_comments : forall n sv s t sv' r, pull_next_token n true sv s = Ok (t, sv', r) -> no_comment t ->
  pull_next_token n false sv s = Ok (t, sv', r) \/ (t <> TEnd /\ exists c r', r = c :: r' /\ start_of_comment true c r' = true).
Proof.
  intros n [ws ls] s t sv' r H Ht. destruct n as [|n]; [discriminate|]. cbn [pull_next_token] in *.
  destruct (next_char_after_whitespace ws s) as [ws' [[c s']|]]; [|auto]. destruct (Ascii.eqb c nl); [auto|].
  change (start_of_comment false c s') with false. cbv iota.
  destruct (start_of_comment true c s').
  { exfalso. inv_bind H. destruct a as [t0 r0]. injection Hk as <- _ _. unfold pull_comment in Hb.
    destruct (Ascii.eqb c "/").
    - destruct s' as [|c' s']; [discriminate|]. destruct (Ascii.eqb c' "/"); [|discriminate]. destruct (comment_text s'). injection Hb as <- _. auto.
    - destruct (comment_text s'). injection Hb as <- _. auto. }
  destruct (Ascii.eqb c (ch 34)); [auto|]. destruct (Ascii.eqb c "$").
  { exfalso. inv_bind H. destruct a as [t0 r0]. injection Hk as <- _ _. inv_bind Hb. destruct a as [opt s2].
    assert (G : forall k e sv0 s0, pull_substitution k true opt sv0 e s0 = Ok (t0, r0) -> ~ no_comment t0).
    { induction k as [|k IH]; intros e sv0 s0 E; cbn [pull_substitution] in E; [discriminate|]. inv_bind E. destruct a as [[t1 sv1] r1].
      destruct t1; try (destruct (saver_check sv1 _); eapply IH; eassumption); try discriminate.
      injection Hk0 as <- _. auto. }
    exact (G _ _ _ _ Hk Ht). }
  repeat match type of H with bind (if ?b then _ else _) _ = _ => destruct b; [auto; fail|] end.
  cbn [bind] in *. destruct (pull_unquoted_text true [] (c :: s')) as [t0 r0] eqn:Eu. injection H as <- <- <-.
  destruct (unquoted_comments _ _ _ _ Eu) as [-> |He]; [auto|]. right. split; [|exact He].
  assert (Hn : forall s res t r, pull_unquoted_text true res s = (t, r) -> t <> TEnd).
  { clear. induction s as [|c s IH]; intros res t r H; cbn [pull_unquoted_text] in H; [injection H as <- _; discriminate|].
    destruct (_ || _ || _); [injection H as <- _; discriminate|].
    destruct (str_eqb _ _); [injection H as <- _; discriminate|]. destruct (str_eqb _ _); [injection H as <- _; discriminate|].
    destruct (str_eqb _ _); [injection H as <- _; discriminate|]. exact (IH _ _ _ H). }
  exact (Hn _ _ _ _ Eu).
Qed.

Lemma lex_comments : forall n sv s ts, lex_loop n true sv s = (ts, LEnd) -> Forall no_comment ts -> lex_loop n false sv s = (ts, LEnd).
Proof.
  induction n as [|n IH]; intros sv s ts H Hf; cbn [lex_loop] in *; [discriminate|].
  destruct (pull_next_token (S (List.length s)) true sv s) as [[[t sv'] r]| |] eqn:Ep; try discriminate.
  destruct (saver_check sv' t) as [w sv''] eqn:Es.
  assert (Hts : t = TEnd \/ exists ts', ts = (match w with Some wt => [wt] | None => [] end ++ [t]) ++ ts' /\ lex_loop n true sv'' r = (ts', LEnd)).
  { destruct t; auto; right; (destruct (lex_loop n true sv'' r) as [ts' e] eqn:El; injection H as <- ->; exists ts'; split; reflexivity). }
  assert (Ht : no_comment t).
  { destruct Hts as [-> |[ts' [-> _]]]; [exact I|]. rewrite !Forall_app in Hf. destruct Hf as [[_ Hf] _]. inversion Hf; assumption. }
  destruct (pull_comments _ _ _ _ _ _ Ep Ht) as [E|[Hne [c [r' [-> Hc]]]]].
  - rewrite E, Es. destruct Hts as [-> |[ts' [-> Hl]]]; [exact H|]. rewrite Forall_app in Hf. destruct Hf as [_ Hf].
    pose proof (IH _ _ _ Hl Hf) as Hl'. rewrite Hl'. rewrite Hl in H. destruct t; try exact H; reflexivity.
  - exfalso. destruct Hts as [-> |[ts' [-> Hl]]]; [congruence|]. destruct n as [|n]; [discriminate|]. cbn [lex_loop] in Hl.
    destruct (pull_next_token (S (List.length (c :: r'))) true sv'' (c :: r')) as [[[t2 sv2] r2]| |] eqn:Ep2; try discriminate.
    apply comment_next in Ep2; [|exact Hc]. apply Ep2. rewrite Forall_app in Hf. destruct Hf as [_ Hf].
    destruct (saver_check sv2 t2) as [w2 sv3].
    assert (In t2 ts').
    { destruct t2; try (injection Hl as <-; apply in_or_app; right; left; reflexivity);
        (destruct (lex_loop n true sv3 r2) as [ts2 e2]; injection Hl as <- _; apply in_or_app; left; apply in_or_app; right; left; reflexivity). }
    rewrite Forall_forall in Hf. apply Hf. assumption.
Qed.

(** The fast path parser trims newlines; the tokens of such a text include a newline. *)
Lemma split_newline : forall w, spaces w -> In nl w -> exists b w', w = b ++ nl :: w' /\ Forall blank b.
Proof.
  induction w as [|c w IH]; intros H Hi; [contradiction|]. inversion H as [|? ? Hc Hw]; subst.
  destruct (Ascii.eqb_spec c nl) as [-> |Hn]; [exists [], w; split; [reflexivity|constructor]|].
  destruct Hi as [Hi|Hi]; [congruence|]. destruct (IH Hw Hi) as [b [w' [-> Hb]]]. exists (c :: b), w'. split; [reflexivity|].
  constructor; [|exact Hb]. assert (F : Forall blank [c]).
  { apply spaces_blank; [repeat constructor; exact Hc|]. intros [K|[]]. congruence. }
  inversion F; assumption.
Qed.

Lemma lex_newline : forall n ac ws ls b r ts e, Forall blank b -> lex_loop (S n) ac (ws, ls) (b ++ nl :: r) = (ts, e) -> In TNewline ts.
Proof.
  intros n ac ws ls b r ts e Hb H. cbn [lex_loop] in H.
  match type of H with context [pull_next_token ?a ac ?c ?d] =>
    assert (E : pull_next_token a ac c d = Ok (TNewline, (ws ++ b, ls), r)) end.
  { rewrite pull_blanks by exact Hb. cbn [pull_next_token next_char_after_whitespace]. reflexivity. }
  rewrite E in H. destruct (saver_check (ws ++ b, ls) TNewline) as [w sv]. destruct (lex_loop n ac sv r) as [ts' e']. injection H as <- _.
  apply in_or_app. left. apply in_or_app. right. left. reflexivity.
Qed.

Lemma fast_newline_token : forall s p ac ts, In nl s -> speculative_fast_parse_path s = Ok p -> p <> [] ->
  lex_loop (S (List.length s)) ac saver_init s = (ts, LEnd) -> In TNewline ts.
Proof.
  intros s p ac ts Hn H Hp Hl. apply fast_parse_spec in H; [|exact Hp]. destruct H as [Hs _].
  destruct (trim_spec s) as [w1 [w2 [H1 [H2 Hw]]]]. apply looks_safe in Hs. destruct Hs as [Hne [Hsc _]].
  assert (Hu : Forall (fun c => Uc c = true) (trim s)) by (eapply Forall_impl; [|exact Hsc]; intros c Hc; apply Sc_Uc, Hc).
  destruct (in_dec ascii_dec nl w1) as [I1|I1].
  { destruct (split_newline _ H1 I1) as [b [w' [-> Hb]]]. rewrite Hw, <- app_assoc in Hl. cbn [app] in Hl.
    unfold saver_init in Hl. eapply lex_newline; [exact Hb|exact Hl]. }
  assert (I2 : In nl w2).
  { rewrite Hw in Hn. rewrite !in_app_iff in Hn. destruct Hn as [Hn|[Hn|Hn]]; [contradiction| |exact Hn].
    rewrite Forall_forall in Hu. apply Hu in Hn. discriminate Hn. }
  pose proof (spaces_blank _ H1 I1) as B1. destruct (split_newline _ H2 I2) as [b [w' [-> Hb]]]. clear Hn.
  rewrite Hw in Hl. destruct (trim s) as [|c u]; [contradiction|]. cbn [lex_loop] in Hl. unfold saver_init in Hl.
  rewrite pull_blanks in Hl by exact B1. cbn [app] in Hl.
  assert (Hst : stop (b ++ nl :: w')).
  { destruct b as [|x b]; [right; left; reflexivity|]. inversion Hb; subst. right; right; assumption. }
  match type of Hl with context [pull_next_token ?a ac ?c ?d] => destruct (pull_next_token a ac c d) as [[[t sv'] r]|e|e] eqn:Ep end;
    [|discriminate|discriminate].
  apply pull_U_eq in Ep; [|exact Hu|exact Hst].
  destruct Ep as [-> [Ht [Htn [u2 [Hx ->]]]]].
  assert (Hu2 : Forall (fun c => Uc c = true) u2) by (rewrite Hx in Hu; apply Forall_app in Hu; tauto).
  cbn [app] in Hl. destruct (saver_check (w1, false) t) as [w sv] eqn:Es.
  assert (Hsv : sv = ([], true)).
  { unfold saver_check in Es. cbn [app] in Es. rewrite (textual_simple t Ht) in Es. injection Es as _ <-. reflexivity. }
  subst sv.
  match type of Hl with context [lex_loop ?n ac ?a ?b] => destruct (lex_U n ac true u2 _ Hu2 Hst) as [[k [ls' [ts1 [G1 [_ [_ [_ G4]]]]]]]|[ts1 [_ [_ G3]]]] end.
  - apply (f_equal (@List.length ascii)) in Hx. rewrite !app_length in *. cbn in Hx |- *. rewrite !app_length. cbn.
    destruct (token_text t); [contradiction|]. cbn in Hx. lia.
  - rewrite G4 in Hl. destruct k as [|k]; [lia|]. destruct (lex_loop (S k) ac ([], ls') (b ++ nl :: w')) as [ts2 e2] eqn:E2.
    apply lex_newline in E2; [|exact Hb]. cbn [fst snd] in Hl.
    assert (Hts : exists l, ts = l ++ ts1 ++ ts2).
    { destruct t; try contradiction; injection Hl as <- _; eexists; reflexivity. }
    destruct Hts as [l ->]. apply in_or_app. right. apply in_or_app. right. exact E2.
  - rewrite G3 in Hl. destruct t; try contradiction; discriminate.
Qed.

(** A path text accepted by both ways of reading it is read in the same way. *)
Lemma path_node_agrees : forall f s p pn, new_path s = Ok p -> parse_path_node s f = Ok pn -> fst pn = p.
Proof.
  intros f s p pn Hp H.
  assert (Hpt : exists ts, lex_loop (S (List.length s)) (match f with JSON => false | CONF => true end) saver_init s = (ts, LEnd) /\
     Forall path_token ts).
  { unfold parse_path_node, lex in H. destruct (lex_loop _ _ saver_init s) as [ts e] eqn:El.
    destruct e; cbn [delivered] in H.
    - exists ts. split; [reflexivity|]. unfold parse_path_expression in H. destruct ts as [|t ts]; [discriminate|]. inv_bind H. destruct a as [b acc].
      apply path_tokens_loop_inv in Hb. apply Hb.
    - destruct (removelast (TStart :: ts)) as [|t0 ts']; [discriminate|]. unfold parse_path_expression in H. destruct ts'; inv_bind H; destruct a; discriminate.
    - destruct (removelast (TStart :: ts)) as [|t0 ts']; [discriminate|]. unfold parse_path_expression in H. destruct ts'; inv_bind H; destruct a; discriminate. }
  destruct Hpt as [ts0 [Hts0 Hpt]].
  assert (Hfull : full_parse_path s = Ok p).
  { destruct (in_dec ascii_dec nl s) as [Hn|Hn]; [|rewrite new_path_full in Hp by exact Hn; exact Hp].
    unfold new_path, parse_path in Hp. destruct (fast_parse_total s) as [q Hq]. rewrite Hq in Hp. cbn [bind] in Hp.
    rewrite path_eq_nil in Hp. destruct q as [|k q]; [exact Hp|]. exfalso.
    pose proof (fast_newline_token _ _ _ _ Hn Hq ltac:(discriminate) Hts0) as Hin. rewrite Forall_forall in Hpt. exact (Hpt _ Hin). }
  clear Hp. apply full_parse_inv in Hfull.
  destruct Hfull as [ts [H1 [H2 [H3 _]]]]. unfold tokenize, lex in H1.
  destruct (lex_loop (S (List.length s)) true saver_init s) as [ts1 e] eqn:El. destruct e; try discriminate. injection H1 as ->.
  assert (Hl : lex_loop (S (List.length s)) (match f with JSON => false | CONF => true end) saver_init s = (ts, LEnd)).
  { destruct f; [exact El|]. apply lex_comments; [exact El|]. eapply Forall_impl; [|exact H2]. intros [] X; try contradiction; exact I. }
  unfold parse_path_node, lex in H. rewrite Hl in H. cbn [delivered] in H. unfold parse_path_expression in H.
  assert (H' : ('(buff, acc) <- path_tokens_loop true f [([], false)] [] ts ;;
      raise_end LEnd (p <- build_path true (rev buff) [] ;; Ok (p, acc))) = Ok pn) by (destruct ts; [discriminate|exact H]).
  clear H. inv_bind H'. destruct a as [b acc]. cbn [raise_end] in Hk. inv_bind Hk. injection Hk0 as <-. cbn [fst].
  apply path_tokens_loop_inv in Hb. destruct Hb as [_ ->]. pose proof (build_path_inv _ _ _ _ Hb0) as F.
  rewrite build_path_ok in Hb0 by exact F. injection Hb0 as <-. symmetry. exact H3.
Qed.

(** In HOCON the path text of a successful edit is accepted by has_path. *)
Lemma path_node_conf : forall s pn, parse_path_node s CONF = Ok pn -> new_path s = Ok (fst pn).
Proof.
  intros s pn H. assert (F : full_parse_path s = Ok (fst pn)).
  { unfold full_parse_path. unfold parse_path_node in H.
    destruct (delivered (lex true s)) as [[|t ts] e]; [destruct e; discriminate|]. rewrite H. reflexivity. }
  destruct (in_dec ascii_dec nl s) as [Hn|Hn]; [|rewrite new_path_full by exact Hn; exact F].
  unfold new_path, parse_path. destruct (fast_parse_total s) as [q Hq]. rewrite Hq. cbn [bind].
  rewrite path_eq_nil. destruct q as [|k q]; [exact F|]. exfalso. apply full_parse_inv in F. destruct F as [ts [H1 [H2 _]]].
  unfold tokenize, lex in H1. destruct (lex_loop (S (List.length s)) true saver_init s) as [ts1 e] eqn:El. destruct e; try discriminate. injection H1 as ->.
  pose proof (fast_newline_token _ _ _ _ Hn Hq ltac:(discriminate) El) as Hin. rewrite Forall_forall in H2. exact (H2 _ Hin).
Qed.
