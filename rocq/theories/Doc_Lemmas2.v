(** The document parser keeps the text: the parser functions. *)
From Verif Require Import Base BaseLemmas Util_Model Num_Model Path_Model Token_Model Token_Spec Token_Lemmas Token_Lemmas2
  PathParser_Model PathParser_Spec PathParser_Lemmas PathParser_Lemmas2 PathParser_Lemmas3 Doc_Model Doc_Spec Doc_Lemmas.

(** [r] is what is left of [ts] after the text [x]. *)
Definition takes (ts : list token) (x : str) (r : list token) : Prop :=
  exists pre, ts = pre ++ r /\ render_tokens pre = x.

Lemma takes_nil : forall ts, takes ts [] ts.
Proof. intro ts. exists []. auto. Qed.
Lemma takes_one : forall t ts, takes (t :: ts) (token_text t) ts.
Proof. intros t ts. exists [t]. split; [reflexivity|]. unfold render_tokens. cbn. apply app_nil_r. Qed.
Lemma takes_app : forall a x b y c, takes a x b -> takes b y c -> takes a (x ++ y) c.
Proof.
  intros a x b y c [p [-> <-]] [q [-> <-]]. exists (p ++ q). rewrite render_tokens_app, app_assoc. auto.
Qed.
Lemma takes_cons : forall t ts x r, takes ts x r -> takes (t :: ts) (token_text t ++ x) r.
Proof. intros t ts x r H. eapply takes_app; [apply takes_one|exact H]. Qed.

(** A good token source. *)
Definition good (ts : list token) : Prop := Forall faithful ts /\ no_double_blank ts.
Lemma good_suffix : forall a b, good (a ++ b) -> good b.
Proof. intros a b [H1 H2]. split; [apply Forall_app in H1; tauto|eapply ndb_suffix, H2]. Qed.
Lemma good_tl : forall t b, good (t :: b) -> good b.
Proof. intros t b. apply (good_suffix [t]). Qed.
Lemma takes_good : forall a x b, takes a x b -> good a -> good b.
Proof. intros a x b [p [-> _]]. apply good_suffix. Qed.

Lemma collect_takes : forall ts f e ns t r, collect f e ts = Ok (ns, t, r) -> takes ts (full_texts ns) (t :: r).
Proof.
  induction ts as [|t0 ts IH]; intros f e ns t r H; cbn [collect] in H.
  { destruct e; discriminate. }
  destruct (json_forbids f t0); [discriminate|].
  assert (G : forall n, full_text n = token_text t0 ->
    ('(ns, t', r') <- collect f e ts ;; Ok (n :: ns, t', r')) = Ok (ns, t, r) -> takes (t0 :: ts) (full_texts ns) (t :: r)).
  { intros n Hn Hb. inv_bind Hb. destruct a as [[ns' t'] r']. injection Hk as <- <- <-. apply IH in Hb0.
    rewrite full_texts_cons, Hn. apply takes_cons. exact Hb0. }
  destruct (match t0 with TIgnored _ | TNewline => true | _ => is_unquoted_whitespace t0 end).
  { eapply G; [|exact H]. reflexivity. }
  destruct t0; try (injection H as <- <- <-; apply takes_nil). eapply G; [|exact H]. reflexivity.
Qed.

Lemma separator_takes : forall ts b0 f e ns b r, separator_conf b0 f e ts = Ok (ns, b, r) -> takes ts (full_texts ns) r.
Proof.
  induction ts as [|t0 ts IH]; intros b0 f e ns b r H; cbn [separator_conf] in H.
  { destruct e; discriminate. }
  destruct (json_forbids f t0); [discriminate|].
  assert (G : forall b1 n, full_text n = token_text t0 ->
    ('(ns, b, r') <- separator_conf b1 f e ts ;; Ok (n :: ns, b, r')) = Ok (ns, b, r) -> takes (t0 :: ts) (full_texts ns) r).
  { intros b1 n Hn Hb. inv_bind Hb. destruct a as [[ns' b'] r']. injection Hk as <- <- <-. apply IH in Hb0.
    rewrite full_texts_cons, Hn. apply takes_cons. exact Hb0. }
  destruct (match t0 with TIgnored _ => true | _ => is_unquoted_whitespace t0 end).
  { eapply G; [|exact H]. reflexivity. }
  destruct t0; try (injection H as <- <- <-; apply takes_nil); try (eapply G; [|exact H]; reflexivity).
  injection H as <- <- <-. rewrite full_texts_cons. apply takes_cons. apply takes_nil.
Qed.

Lemma check_separator_takes : forall f e ts ns b r, check_element_separator f e ts = Ok (ns, b, r) -> takes ts (full_texts ns) r.
Proof.
  intros f e ts ns b r H. unfold check_element_separator in H. destruct f; [eapply separator_takes, H|].
  inv_bind H. destruct a as [[ns' t] r']. apply collect_takes in Hb.
  destruct t; injection Hk as <- <- <-; try exact Hb.
  rewrite full_texts_app. eapply takes_app; [exact Hb|]. rewrite full_texts_cons. apply takes_cons, takes_nil.
Qed.

Lemma next_token_takes : forall f e ts t r, next_token f e ts = Ok (t, r) -> ts = t :: r.
Proof.
  intros f e [|t0 ts] t r H; cbn in H; [destruct e; discriminate|]. destruct (json_forbids f t0); [discriminate|].
  injection H as <- <-. reflexivity.
Qed.

Lemma key_tokens_split : forall ts f e t ks r, key_tokens f e t ts = Ok (ks, r) -> t :: ts = ks ++ r.
Proof.
  induction ts as [|t' ts IH]; intros f e t ks r H; cbn [key_tokens] in H.
  - destruct t; try (injection H as <- <-; reflexivity); destruct e; discriminate.
  - destruct t; try (injection H as <- <-; reflexivity);
      (destruct (json_forbids f t'); [discriminate|]; inv_bind H; destruct a as [ks' r']; injection Hk as <- <-;
       apply IH in Hb; cbn; f_equal; exact Hb).
Qed.

Lemma parse_key_takes : forall f e t ts pn r, good (t :: ts) -> parse_key f e t ts = Ok (pn, r) ->
  takes (t :: ts) (full_text (NPath pn)) r /\ fst pn <> [].
Proof.
  intros f e t ts [p acc] r [Hf _] H. unfold parse_key in H. destruct f.
  - inv_bind H. destruct a as [ks r']. apply key_tokens_split in Hb. destruct ks as [|k ks]; [discriminate|].
    apply bind_ok in Hk. destruct Hk as [[p0 acc0] [Hk1 Hk2]]. injection Hk2 as -> -> ->.
    apply parse_path_text in Hk1.
    + destruct Hk1 as [Hk1 Hk2]. split; [|exact Hk2]. cbn [full_text]. rewrite Hk1. exists (k :: ks). auto.
    + rewrite Hb in Hf. apply Forall_app in Hf. tauto.
  - destruct (is_string_value t); [|discriminate]. apply bind_ok in H. destruct H as [[p0 acc0] [H1 H2]].
    injection H2 as -> -> ->. apply parse_path_text in H1.
    + destruct H1 as [H1 H2]. split; [|exact H2]. cbn [full_text]. rewrite H1. exists [t]. auto.
    + inversion Hf; subst. auto.
Qed.

Lemma parse_include_takes : forall f e t ts n r, parse_include f e t ts = Ok (n, r) -> takes (t :: ts) (full_text n) r.
Proof.
  intros f e t ts n r H. unfold parse_include in H. inv_bind H. destruct a as [[ws1 t1] r1]. apply collect_takes in Hb.
  assert (G : is_string_value t1 = true -> Ok (NInclude (NTok t :: ws1 ++ [NSimple t1]) KHeuristic, r1) = Ok (n, r) ->
    takes (t :: ts) (full_text n) r).
  { intros _ E. injection E as <- <-. cbn [full_text].
    change (takes (t :: ts) (full_texts (NTok t :: ws1 ++ [NSimple t1])) r1).
    rewrite full_texts_cons, full_texts_app. apply takes_cons. eapply takes_app; [exact Hb|].
    rewrite full_texts_cons. apply takes_cons, takes_nil. }
  destruct t1; try (destruct (is_string_value _) eqn:Es in Hk; [exact (G Es Hk)|discriminate]).
  destruct (include_kind_of text) as [kind|] eqn:Ek; [|discriminate].
  inv_bind Hk. destruct a as [[ws2 t2] r2]. apply collect_takes in Hb0.
  destruct (negb (is_string_value t2)); [discriminate|]. inv_bind Hk0. destruct a as [[ws3 t3] r3]. apply collect_takes in Hb1.
  destruct (str_eqb (token_text t3) (lit ")")) eqn:Ep; [|discriminate]. injection Hk as <- <-.
  assert (Hfull : full_text (NInclude (NTok t :: ws1 ++ NTok (TUnquoted text) :: ws2 ++ NSimple t2 :: ws3) kind) =
    full_texts (NTok t :: ws1 ++ NTok (TUnquoted text) :: ws2 ++ NSimple t2 :: ws3) ++ lit ")").
  { unfold include_kind_of in Ek. repeat match type of Ek with (if ?b then _ else _) = _ => destruct b end;
      try discriminate; injection Ek as <-; reflexivity. }
  rewrite Hfull. rewrite full_texts_cons, full_texts_app, full_texts_cons, full_texts_app, full_texts_cons.
  rewrite <- !app_assoc. apply takes_cons. eapply takes_app; [exact Hb|]. rewrite <- ?app_assoc. apply takes_cons.
  eapply takes_app; [exact Hb0|]. rewrite <- ?app_assoc. apply takes_cons. eapply takes_app; [exact Hb1|].
  apply str_eqb_eq in Ep. rewrite <- Ep. apply takes_one.
Qed.

(** ** Values *)

Definition keeps (pv : token -> list token -> result (node * list token)) : Prop :=
  forall t ts v r, good (t :: ts) -> pv t ts = Ok (v, r) ->
    takes (t :: ts) (full_text v) r /\ is_value_node v = true.

(** The values collected by consolidate_values together with the tokens they came from. *)
Inductive vals : list node -> list token -> nat -> Prop :=
| V_nil : vals [] [] 0
| V_ws : forall s vs pre c, vals vs pre c -> vals (NTok (TIgnored s) :: vs) (TIgnored s :: pre) c
| V_val : forall v p vs pre c, is_value_node v = true -> render_tokens p = full_text v -> vals vs pre c ->
    vals (v :: vs) (p ++ pre) (S c).

Lemma vals_text : forall vs pre c, vals vs pre c -> render_tokens pre = full_texts vs.
Proof.
  intros vs pre c H. induction H; [reflexivity| |].
  - rewrite render_tokens_cons, full_texts_cons, IHvals. reflexivity.
  - rewrite render_tokens_app, full_texts_cons, IHvals, H0. reflexivity.
Qed.

Lemma consolidate_loop_vals : forall pv f e k t ts vs c t' r, keeps pv -> good (t :: ts) ->
  consolidate_loop pv f e k t ts = Ok (vs, c, t', r) ->
  exists pre, t :: ts = pre ++ t' :: r /\ vals vs pre c.
Proof.
  intros pv f e. induction k as [|k IH]; intros t ts vs c t' r Hpv Hg H; cbn [consolidate_loop] in H; [discriminate|].
  assert (Hval : is_value_start t = true ->
    ('(v, r0) <- pv t ts ;; '(t1, r') <- next_token f e r0 ;;
     '(vs, c, t'', r'') <- consolidate_loop pv f e k t1 r' ;; Ok (v :: vs, S c, t'', r'')) = Ok (vs, c, t', r) ->
    exists pre, t :: ts = pre ++ t' :: r /\ vals vs pre c).
  { intros _ E. inv_bind E. destruct a as [v r0]. inv_bind Hk. destruct a as [t1 r1]. inv_bind Hk0.
    destruct a as [[[vs' c'] t2] r2]. injection Hk as <- <- <- <-.
    apply next_token_takes in Hb0. subst r0. apply Hpv in Hb; [|exact Hg]. destruct Hb as [Hb Hv].
    pose proof (takes_good _ _ _ Hb Hg) as Hg1. apply IH in Hb1; [|exact Hpv|exact Hg1].
    destruct Hb1 as [pre [E1 E2]]. destruct Hb as [p [E3 E4]]. exists (p ++ pre).
    rewrite E3, E1, app_assoc. split; [reflexivity|]. constructor; assumption. }
  destruct t; try exact (Hval eq_refl H);
    try (injection H as <- <- <- <-; exists []; split; [reflexivity|constructor]).
  inv_bind H. destruct a as [t1 r1]. inv_bind Hk. destruct a as [[[vs' c'] t2] r2]. injection Hk0 as <- <- <- <-.
  apply next_token_takes in Hb. subst ts. apply IH in Hb0; [|exact Hpv|eapply good_tl, Hg].
  destruct Hb0 as [pre [E1 E2]]. exists (TIgnored text :: pre). rewrite E1. split; [reflexivity|]. constructor. exact E2.
Qed.

Lemma vals_none : forall vs pre, vals vs pre 0 -> vs = map NTok pre /\ Forall (fun t => exists s, t = TIgnored s) pre.
Proof.
  intros vs pre H. remember 0%nat as c eqn:E. induction H.
  - split; [reflexivity|constructor].
  - destruct IHvals as [-> H1]; [exact E|]. split; [reflexivity|]. constructor; eauto.
  - discriminate.
Qed.

Lemma single_value_after : forall ws v ts, Forall (fun t => exists s, t = TIgnored s) ws ->
  single_value (Some v) ts (map NTok ws) = Ok ([], Some v, rev ws ++ ts).
Proof.
  induction ws as [|w ws IH]; intros v ts H; [reflexivity|]. inversion H as [|? ? [s ->] H']; subst.
  cbn [map single_value is_value_node node_tokens]. rewrite IH by exact H'. cbn. rewrite <- app_assoc. reflexivity.
Qed.

Lemma single_value_takes : forall vs pre c, vals vs pre c -> (c < 2)%nat -> no_double_blank pre ->
  forall ts before v r, single_value None ts vs = Ok (before, v, r) ->
  takes (pre ++ ts) (full_texts before ++ match v with Some n => full_text n | None => [] end) r /\
  match v with Some n => is_value_node n = true | None => True end.
Proof.
  intros vs pre c H. induction H; intros Hc Hd ts before v0 r0 E.
  - cbn in E. injection E as <- <- <-. split; [apply takes_nil|exact I].
  - cbn [single_value is_value_node] in E. inv_bind E. destruct a as [[b' v'] r']. injection Hk as <- <- <-.
    apply IHvals in Hb; [|exact Hc|eapply ndb_tl, Hd]. destruct Hb as [Hb Hv]. split; [|exact Hv].
    rewrite full_texts_cons, <- app_assoc. cbn [app]. apply takes_cons. exact Hb.
  - assert (c = 0%nat) by lia. subst c. apply vals_none in H1. destruct H1 as [-> Hw].
    cbn [single_value] in E. rewrite H in E. rewrite single_value_after in E by exact Hw. injection E as <- <- <-.
    split; [|exact H]. cbn [full_texts map concat app]. exists p. split; [|exact H0]. rewrite <- app_assoc. f_equal.
    assert (Hr : rev pre = pre).
    { destruct pre as [|a [|b pre]]; [reflexivity|reflexivity|]. exfalso.
      inversion Hw as [|? ? [x ->] Hw']; subst. inversion Hw' as [|? ? [y ->] _]; subst. exact (Hd p x y pre eq_refl). }
    rewrite Hr. reflexivity.
Qed.

Lemma vals_snoc : forall vs x pre c, vals (vs ++ [x]) pre c ->
  exists pre1 p c1 c2, pre = pre1 ++ p /\ vals vs pre1 c1 /\ vals [x] p c2.
Proof.
  induction vs as [|v vs IH]; intros x pre c H.
  - exists [], pre, 0%nat, c. split; [reflexivity|]. split; [constructor|exact H].
  - cbn in H. inversion H; subst.
    + match goal with K : vals (vs ++ [x]) _ _ |- _ => apply IH in K; destruct K as [p1 [p [c1 [c2 [-> [K1 K2]]]]]] end.
      exists (TIgnored s :: p1), p, c1, c2. split; [reflexivity|]. split; [constructor; exact K1|exact K2].
    + match goal with K : vals (vs ++ [x]) _ _ |- _ => apply IH in K; destruct K as [p1 [p' [c1 [c2 [-> [K1 K2]]]]]] end.
      exists (p ++ p1), p', (S c1), c2. rewrite app_assoc. split; [reflexivity|]. split; [constructor; assumption|exact K2].
Qed.

Lemma put_back_takes : forall vs pre c, vals vs pre c -> forall ts vs' r,
  put_back_trailing (rev vs) ts = (vs', r) -> takes (pre ++ ts) (full_texts vs') r.
Proof.
  induction vs as [|x vs IH] using rev_ind; intros pre c H ts vs' r E.
  - inversion H; subst. cbn in E. injection E as <- <-. apply takes_nil.
  - assert (Hstop : takes (pre ++ ts) (full_texts (vs ++ [x])) ts).
    { exists pre. split; [reflexivity|]. eapply vals_text, H. }
    rewrite rev_unit in E. apply vals_snoc in H. destruct H as [p1 [p [c1 [c2 [-> [H1 H2]]]]]].
    destruct x; cbn [put_back_trailing] in E;
      try (injection E as <- <-; cbn [rev]; rewrite rev_involutive; exact Hstop).
    + inversion H2 as [|? ? ? ? K|? ? ? ? ? K]; subst; [|discriminate K]. inversion K; subst.
      rewrite <- app_assoc. eapply IH; eassumption.
    + inversion H2 as [|? ? ? ? K|? ? ? ? ? K]; subst; discriminate K.
Qed.

Lemma consolidate_takes : forall pv f e ts ns v r, keeps pv -> good ts ->
  consolidate_values pv f e ts = Ok (ns, v, r) ->
  takes ts (full_texts ns ++ match v with Some n => full_text n | None => [] end) r /\
  match v with Some n => is_value_node n = true | None => True end.
Proof.
  intros pv f e ts ns v r Hpv Hg H. unfold consolidate_values in H. destruct f.
  2:{ injection H as <- <- <-. split; [apply takes_nil|exact I]. }
  inv_bind H. destruct a as [[nodes t] r0]. inv_bind Hk. destruct a as [[[values count] t'] r1].
  apply collect_takes in Hb. pose proof (takes_good _ _ _ Hb Hg) as Hg1.
  apply consolidate_loop_vals in Hb0; [|exact Hpv|exact Hg1]. destruct Hb0 as [pre [E1 E2]].
  destruct (Nat.ltb_spec count 2) as [Hlt|_].
  - inv_bind Hk0. destruct a as [[before v'] r2]. injection Hk as <- <- <-.
    eapply single_value_takes in Hb0; [|exact E2|exact Hlt|rewrite E1 in Hg1; eapply ndb_prefix, (proj2 Hg1)].
    destruct Hb0 as [Hb0 Hv]. split; [|exact Hv]. rewrite full_texts_app, <- app_assoc.
    eapply takes_app; [exact Hb|]. rewrite E1. exact Hb0.
  - destruct (put_back_trailing (rev values) (t' :: r1)) as [values' r2] eqn:E3. injection Hk0 as <- <- <-.
    split; [|reflexivity]. eapply takes_app; [exact Hb|]. cbn [full_text]. rewrite E1. eapply put_back_takes; eassumption.
Qed.

Lemma parse_field_takes : forall pv f e keys t ts n keys' r, keeps pv -> good (t :: ts) ->
  parse_field pv f e keys t ts = Ok (n, keys', r) -> takes (t :: ts) (full_text n) r.
Proof.
  intros pv f e keys t ts n keys' r Hpv Hg H. unfold parse_field in H.
  inv_bind H. destruct a as [pn r1]. inv_bind Hk. destruct a as [[ws ak] r2]. inv_bind Hk0. destruct a as [nodes r3].
  apply parse_key_takes in Hb; [|exact Hg]. destruct Hb as [Hb _]. pose proof (takes_good _ _ _ Hb Hg) as Hg1.
  apply collect_takes in Hb0. pose proof (takes_good _ _ _ Hb0 Hg1) as Hg2.
  assert (Hn : takes r1 (full_texts nodes) r3).
  { destruct (negb (is_json f) && _).
    - inv_bind Hb1. destruct a as [v r4]. injection Hk0 as <- <-. apply Hpv in Hb2; [|exact Hg2].
      rewrite full_texts_app. eapply takes_app; [exact Hb0|]. cbn [full_texts map concat]. rewrite app_nil_r. apply Hb2.
    - destruct (negb (is_key_value_separator f ak)); [discriminate|].
      inv_bind Hb1. destruct a as [[ns next] r4]. apply consolidate_takes in Hb2; [|exact Hpv|eapply good_tl, Hg2].
      destruct Hb2 as [Hb2 _].
      assert (Hg4 : good r4) by (eapply takes_good; [exact Hb2|eapply good_tl, Hg2]).
      destruct next as [v|].
      + injection Hk0 as <- <-. rewrite full_texts_app, full_texts_cons, full_texts_app. eapply takes_app; [exact Hb0|].
        apply takes_cons. cbn [full_texts map concat]. rewrite app_nil_r. exact Hb2.
      + inv_bind Hk0. destruct a as [[ws' t'] r5]. inv_bind Hk1. destruct a as [v r6]. injection Hk0 as <- <-.
        apply collect_takes in Hb1. pose proof (takes_good _ _ _ Hb1 Hg4) as Hg5. apply Hpv in Hb3; [|exact Hg5].
        rewrite full_texts_app, full_texts_cons, !full_texts_app. eapply takes_app; [exact Hb0|]. apply takes_cons.
        rewrite app_nil_r in Hb2. eapply takes_app; [exact Hb2|]. eapply takes_app; [exact Hb1|].
        cbn [full_texts map concat]. rewrite app_nil_r. apply Hb3. }
  assert (Hf : takes (t :: ts) (full_text (NField (NPath pn :: nodes))) r3).
  { cbn [full_text]. change (takes (t :: ts) (full_texts (NPath pn :: nodes)) r3). rewrite full_texts_cons.
    eapply takes_app; [exact Hb|exact Hn]. }
  destruct (fst pn) as [|key [|]]; [discriminate| |].
  - destruct (existsb (str_eqb key) keys); [destruct (is_json f); [discriminate|]|]; injection Hk as <- _ <-; exact Hf.
  - destruct (is_json f); [discriminate|]. injection Hk as <- _ <-. exact Hf.
Qed.

Lemma object_loop_takes : forall pv f e k had after keys ts ns r, keeps pv -> good ts ->
  object_loop pv f e k had after keys ts = Ok (ns, r) -> takes ts (full_texts ns) r.
Proof.
  intros pv f e. induction k as [|k IH]; intros had after keys ts ns r Hpv Hg H; cbn [object_loop] in H; [discriminate|].
  inv_bind H. destruct a as [[ws t] r0]. apply collect_takes in Hb. pose proof (takes_good _ _ _ Hb Hg) as Hg0.
  assert (Hitem :
    ('(item, keys', r2) <-
        (if negb (is_json f) && is_include_keyword t then
           '(inc, r2) <- parse_include f e t r0 ;; Ok (inc, keys, r2)
         else parse_field pv f e keys t r0) ;;
      '(sn, separated, r3) <- check_element_separator f e r2 ;;
      if separated then
        '(rest, r4) <- object_loop pv f e k had true keys' r3 ;;
        Ok (ws ++ item :: sn ++ rest, r4)
      else
        '(ws2, t2, r4) <- collect f e r3 ;;
        match t2, had with
        | TCloseCurly, true => Ok (ws ++ item :: sn ++ ws2 ++ [NTok t2], r4)
        | TEnd, false => Ok (ws ++ item :: sn ++ ws2, t2 :: r4)
        | _, _ => Throw EParse
        end) = Ok (ns, r) -> takes ts (full_texts ns) r).
  { intro E. inv_bind E. destruct a as [[item keys'] r2]. inv_bind Hk0. destruct a as [[sn sep] r3].
    assert (Hi : takes (t :: r0) (full_text item) r2).
    { destruct (negb (is_json f) && is_include_keyword t).
      - inv_bind Hb0. destruct a as [inc r4]. injection Hk0 as <- <- <-. eapply parse_include_takes, Hb2.
      - eapply parse_field_takes; eassumption. }
    pose proof (takes_good _ _ _ Hi Hg0) as Hg2. apply check_separator_takes in Hb1.
    pose proof (takes_good _ _ _ Hb1 Hg2) as Hg3.
    assert (Hpre : takes ts (full_texts ws ++ full_text item ++ full_texts sn) r3).
    { eapply takes_app; [exact Hb|]. eapply takes_app; [exact Hi|exact Hb1]. }
    destruct sep.
    - inv_bind Hk1. destruct a as [rest r4]. injection Hk0 as <- <-. apply IH in Hb2; [|exact Hpv|exact Hg3].
      rewrite full_texts_app, full_texts_cons, full_texts_app.
      pose proof (takes_app _ _ _ _ _ Hpre Hb2) as Ht. rewrite <- !app_assoc in Ht. exact Ht.
    - inv_bind Hk1. destruct a as [[ws2 t2] r4]. apply collect_takes in Hb2.
      pose proof (takes_app _ _ _ _ _ Hpre Hb2) as Ht. rewrite <- !app_assoc in Ht.
      destruct t2, had; try discriminate; injection Hk0 as <- <-;
        rewrite full_texts_app, full_texts_cons, !full_texts_app; [exact Ht|].
      pose proof (takes_app _ _ _ _ _ Ht (takes_one _ _)) as Ht'. rewrite <- !app_assoc in Ht'. exact Ht'. }
  destruct t, had; try exact (Hitem Hk).
  - injection Hk as <- <-. exact Hb.
  - destruct (is_json f && after); [discriminate|]. cbn [negb] in Hk. injection Hk as <- <-.
    rewrite full_texts_app. eapply takes_app; [exact Hb|]. rewrite full_texts_cons. apply takes_cons, takes_nil.
  - destruct (is_json f && after); discriminate.
Qed.

Lemma array_loop_takes : forall pv f e k ts ns r, keeps pv -> good ts ->
  array_loop pv f e k ts = Ok (ns, r) -> takes ts (full_texts ns) r.
Proof.
  intros pv f e. induction k as [|k IH]; intros ts ns r Hpv Hg H; cbn [array_loop] in H; [discriminate|].
  inv_bind H. destruct a as [[sn sep] r0]. apply check_separator_takes in Hb. pose proof (takes_good _ _ _ Hb Hg) as Hg0.
  destruct sep; cbn [negb] in Hk.
  - inv_bind Hk. destruct a as [[nn next] r1]. apply consolidate_takes in Hb0; [|exact Hpv|exact Hg0].
    destruct Hb0 as [Hb0 _]. pose proof (takes_good _ _ _ Hb0 Hg0) as Hg1.
    pose proof (takes_app _ _ _ _ _ Hb Hb0) as Hpre.
    destruct next as [v|].
    + inv_bind Hk0. destruct a as [rest r2]. injection Hk as <- <-. apply IH in Hb1; [|exact Hpv|exact Hg1].
      rewrite !full_texts_app, full_texts_cons. pose proof (takes_app _ _ _ _ _ Hpre Hb1) as Ht.
      rewrite <- !app_assoc in Ht. exact Ht.
    + inv_bind Hk0. destruct a as [[ws t] r2]. apply collect_takes in Hb1. pose proof (takes_good _ _ _ Hb1 Hg1) as Hg2.
      rewrite app_nil_r in Hpre. pose proof (takes_app _ _ _ _ _ Hpre Hb1) as Hpre1.
      destruct (is_value_start t).
      * inv_bind Hk. destruct a as [v r3]. inv_bind Hk0. destruct a as [rest r4]. injection Hk as <- <-.
        apply Hpv in Hb2; [|exact Hg2]. destruct Hb2 as [Hb2 _]. pose proof (takes_good _ _ _ Hb2 Hg2) as Hg3.
        apply IH in Hb3; [|exact Hpv|exact Hg3]. rewrite !full_texts_app, full_texts_cons.
        pose proof (takes_app _ _ _ _ _ Hpre1 (takes_app _ _ _ _ _ Hb2 Hb3)) as Ht. rewrite <- !app_assoc in Ht. exact Ht.
      * destruct (negb (is_json f) && _); [|discriminate]. inv_bind Hk. destruct a as [rest r3]. injection Hk0 as <- <-.
        apply IH in Hb2; [|exact Hpv|exact Hg2]. rewrite !full_texts_app.
        pose proof (takes_app _ _ _ _ _ Hpre1 Hb2) as Ht. rewrite <- !app_assoc in Ht. exact Ht.
  - inv_bind Hk. destruct a as [[ws t] r1]. apply collect_takes in Hb0.
    destruct t; try discriminate. injection Hk0 as <- <-. rewrite !full_texts_app.
    eapply takes_app; [exact Hb|]. eapply takes_app; [exact Hb0|]. rewrite full_texts_cons. apply takes_cons, takes_nil.
Qed.

Lemma parse_object_takes : forall pv f e had ts v r, keeps pv -> good ts ->
  parse_object pv f e had ts = Ok (v, r) ->
  exists cs, v = NObject cs /\ takes (if had then TOpenCurly :: ts else ts) (full_texts cs) r.
Proof.
  intros pv f e had ts v r Hpv Hg H. unfold parse_object in H. inv_bind H. destruct a as [ns r0]. injection Hk as <- <-.
  apply object_loop_takes in Hb; [|exact Hpv|exact Hg]. eexists. split; [reflexivity|].
  destruct had; cbn [app]; [|exact Hb]. rewrite full_texts_cons. apply takes_cons. exact Hb.
Qed.

Lemma parse_array_takes : forall pv f e ts v r, keeps pv -> good ts ->
  parse_array pv f e ts = Ok (v, r) ->
  exists cs, v = NArray cs /\ takes (TOpenSquare :: ts) (full_texts cs) r.
Proof.
  intros pv f e ts v r Hpv Hg H. unfold parse_array in H. inv_bind H. destruct a as [[ns next] r0].
  inv_bind Hk. destruct a as [cs r1]. injection Hk0 as <- <-. eexists. split; [reflexivity|].
  rewrite full_texts_cons. apply takes_cons.
  apply consolidate_takes in Hb; [|exact Hpv|exact Hg]. destruct Hb as [Hb _]. pose proof (takes_good _ _ _ Hb Hg) as Hg0.
  destruct next as [v|].
  - inv_bind Hb0. destruct a as [rest r2]. injection Hk as <- <-. apply array_loop_takes in Hb1; [|exact Hpv|exact Hg0].
    rewrite full_texts_app, full_texts_cons. pose proof (takes_app _ _ _ _ _ Hb Hb1) as Ht. rewrite <- !app_assoc in Ht. exact Ht.
  - inv_bind Hb0. destruct a as [[ws t] r2]. apply collect_takes in Hb1. pose proof (takes_good _ _ _ Hb1 Hg0) as Hg1.
    rewrite app_nil_r in Hb. pose proof (takes_app _ _ _ _ _ Hb Hb1) as Hpre.
    assert (Hv : ('(v, r3) <- pv t r2 ;; '(rest, r4) <- array_loop pv f e (S (List.length r3)) r3 ;; Ok (ns ++ ws ++ v :: rest, r4)) = Ok (cs, r1) ->
      takes ts (full_texts cs) r1).
    { intro E. inv_bind E. destruct a as [v r3]. inv_bind Hk0. destruct a as [rest r4]. injection Hk1 as <- <-.
      apply Hpv in Hb0; [|exact Hg1]. destruct Hb0 as [Hb0 _]. pose proof (takes_good _ _ _ Hb0 Hg1) as Hg2.
      apply array_loop_takes in Hb2; [|exact Hpv|exact Hg2]. rewrite !full_texts_app, full_texts_cons.
      pose proof (takes_app _ _ _ _ _ Hpre (takes_app _ _ _ _ _ Hb0 Hb2)) as Ht. rewrite <- !app_assoc in Ht. exact Ht. }
    destruct t; try discriminate; try exact (Hv Hk).
    injection Hk as <- <-. rewrite !full_texts_app.
    pose proof (takes_app _ _ _ _ _ Hpre (takes_one _ _)) as Ht. rewrite <- !app_assoc in Ht.
    cbn [full_texts map concat full_text]. rewrite app_nil_r. exact Ht.
Qed.

Lemma parse_value_keeps : forall n f e, keeps (parse_value n f e).
Proof.
  induction n as [|n IH]; intros f e t ts v r Hg H; cbn [parse_value] in H; [discriminate|].
  destruct t; try discriminate; try (injection H as <- <-; split; [apply takes_one|reflexivity]).
  - apply parse_object_takes in H; [|apply IH|eapply good_tl, Hg]. destruct H as [cs [-> H]]. split; [exact H|reflexivity].
  - apply parse_array_takes in H; [|apply IH|eapply good_tl, Hg]. destruct H as [cs [-> H]]. split; [exact H|reflexivity].
Qed.

Lemma parse_root_text : forall f e ts ns, good ts -> (exists body, ts = body ++ [TEnd] /\ ~ In TEnd body) ->
  parse_root f e ts = Ok ns -> full_texts ns = render_tokens ts.
Proof.
  intros f e ts ns Hg [body [Hend Hni]] H. unfold parse_root in H. inv_bind H. destruct a as [[ws t] r].
  inv_bind Hk. destruct a as [[mc children] r1]. inv_bind Hk0. destruct a as [[ws2 t2] r2].
  apply collect_takes in Hb. pose proof (takes_good _ _ _ Hb Hg) as Hg0. apply collect_takes in Hb1.
  assert (Hc : takes ts (full_texts children) r1).
  { assert (Hpv : forall v, parse_value (S (List.length ts)) f e t r = Ok (v, r1) -> takes ts (full_texts (ws ++ [v])) r1).
    { intros v E. apply parse_value_keeps in E; [|exact Hg0]. rewrite full_texts_app. eapply takes_app; [exact Hb|].
      cbn [full_texts map concat]. rewrite app_nil_r. apply E. }
    assert (Ho : (if is_json f then Throw EParse else
         '(v, r1) <- parse_object (parse_value (S (List.length ts)) f e) f e false (t :: r) ;;
           match v with
           | NObject cs => Ok (true, ws ++ cs, r1)
           | _ => Ok (true, ws ++ [v], r1)
           end) = Ok (mc, children, r1) -> takes ts (full_texts children) r1).
    { destruct (is_json f); [discriminate|]. intro E. inv_bind E. destruct a as [v r3].
      apply parse_object_takes in Hb2; [|apply parse_value_keeps|exact Hg0]. destruct Hb2 as [cs [-> Hb2]].
      injection Hk0 as <- <- <-. rewrite full_texts_app. eapply takes_app; [exact Hb|exact Hb2]. }
    destruct t; try exact (Ho Hb0);
      (inv_bind Hb0; destruct a as [v r3]; injection Hk0 as <- <- <-; apply Hpv; exact Hb2). }
  destruct t2; try discriminate.
  assert (Hall : takes ts (full_texts (children ++ ws2)) (TEnd :: r2)).
  { rewrite full_texts_app. eapply takes_app; eassumption. }
  assert (Hr : full_texts (children ++ ws2) = render_tokens ts).
  { destruct Hall as [pre [E1 E2]]. rewrite Hend in E1.
    assert (Hr2 : r2 = []).
    { destruct r2 as [|x r2] using rev_ind; [reflexivity|]. exfalso.
      rewrite app_comm_cons, app_assoc in E1. apply app_inj_tail in E1. destruct E1 as [E1 _]. apply Hni. rewrite E1.
      apply in_app_iff. right. left. reflexivity. }
    subst r2. rewrite Hend, E1, render_tokens_app, E2. cbn. rewrite app_nil_r. reflexivity. }
  destruct mc; injection Hk as <-; [|exact Hr]. cbn [full_texts map concat full_text]. rewrite app_nil_r. exact Hr.
Qed.
