(** The document parser is total. *)
From Verif Require Import Base BaseLemmas Util_Model Num_Model Path_Model Token_Model Token_Spec Token_Lemmas Token_Lemmas2
  PathParser_Model PathParser_Spec PathParser_Lemmas PathParser_Lemmas2 PathParser_Lemmas3 Doc_Model Doc_Spec Doc_Lemmas
  Doc_Lemmas2.

Definition ends (ts : list token) : Prop := exists body, ts = body ++ [TEnd] /\ ~ In TEnd body.
Definition live (e : lex_end) (ts : list token) : Prop := e = LEnd -> ends ts.

Definition fine {A} (e : lex_end) (Q : A -> Prop) (m : result A) : Prop :=
  match m with
  | Ok a => Q a
  | Throw x => x = EParse \/ x = EConfig \/ e = LThrow x
  | Stuck u => u = UNullDeref \/ e = LStuck u
  end.

Lemma fine_bind : forall A B e (P : A -> Prop) (Q : B -> Prop) m f,
  fine e P m -> (forall a, m = Ok a -> P a -> fine e Q (f a)) -> fine e Q (bind m f).
Proof. intros A B e P Q [a|x|u] f H Hf; cbn in *; auto. Qed.
Lemma fine_weaken : forall A e (P Q : A -> Prop) m, fine e P m -> (forall a, m = Ok a -> P a -> Q a) -> fine e Q m.
Proof. intros A e P Q [a|x|u] H Hf; cbn in *; auto. Qed.

Lemma live_tl : forall e t r, live e (t :: r) -> t <> TEnd -> live e r.
Proof.
  intros e t r H Ht E. destruct (H E) as [[|b body] [E1 E2]].
  - injection E1 as -> _. congruence.
  - injection E1 as -> ->. exists body. split; [reflexivity|]. intro K. apply E2. right. exact K.
Qed.
Lemma live_nil : forall e, live e [] -> forall A (k : result A) Q, fine e Q (raise_end e k).
Proof.
  intros [| |] H A k Q; cbn; auto. destruct (H eq_refl) as [[|? ?] [E _]]; discriminate.
Qed.
Lemma live_suffix : forall e ts x r, takes ts x r -> r <> [] -> live e ts -> live e r.
Proof.
  intros e ts x r [pre [-> _]] Hr H E. destruct (H E) as [body [E1 E2]].
  destruct (exists_last Hr) as [r' [l Hl]]. subst r. rewrite app_assoc in E1. apply app_inj_tail in E1.
  destruct E1 as [E1 ->]. exists r'. split; [reflexivity|]. intro K. apply E2. rewrite <- E1. apply in_app_iff. auto.
Qed.
Lemma takes_len : forall ts x r, takes ts x r -> (List.length r <= List.length ts)%nat.
Proof. intros ts x r [pre [-> _]]. rewrite app_length. lia. Qed.

Lemma live_ne : forall e r, live e r -> e <> LEnd \/ r <> [].
Proof.
  intros [] r H; try (left; discriminate). right. intros ->. destruct (H eq_refl) as [[|? ?] [E _]]; discriminate.
Qed.

Lemma collect_fine : forall e f ts, live e ts ->
  fine e (fun a => live e (snd (fst a) :: snd a) /\ (List.length (snd a) < List.length ts)%nat) (collect f e ts).
Proof.
  intros e f. induction ts as [|t ts IH]; intro H; cbn [collect]; [apply live_nil; exact H|].
  destruct (json_forbids f t); [left; reflexivity|].
  assert (G : t <> TEnd -> forall n, fine e (fun a : list node * token * list token => live e (snd (fst a) :: snd a) /\ (List.length (snd a) < List.length (t :: ts))%nat)
    ('(ns, t', r') <- collect f e ts ;; Ok (n :: ns, t', r'))).
  { intros Ht n. eapply fine_bind; [apply IH; eapply live_tl; eassumption|].
    intros [[ns t'] r'] _ [H1 H2]. cbn in *. split; [exact H1|lia]. }
  destruct (match t with TIgnored _ | TNewline => true | _ => is_unquoted_whitespace t end) eqn:Eb.
  { apply G. intros ->. discriminate. }
  destruct t; try (cbn; split; [exact H|lia]). apply G. discriminate.
Qed.

Lemma separator_fine : forall e f ts b0, live e ts ->
  fine e (fun a : list node * bool * list token => live e (snd a) /\ (List.length (snd a) <= List.length ts)%nat /\
    (snd (fst a) = true -> b0 = false -> (List.length (snd a) < List.length ts)%nat)) (separator_conf b0 f e ts).
Proof.
  intros e f. induction ts as [|t ts IH]; intros b0 H; cbn [separator_conf]; [apply live_nil; exact H|].
  destruct (json_forbids f t); [left; reflexivity|].
  assert (G : t <> TEnd -> forall b1 n, fine e (fun a : list node * bool * list token => live e (snd a) /\ (List.length (snd a) <= List.length (t :: ts))%nat /\
    (snd (fst a) = true -> b0 = false -> (List.length (snd a) < List.length (t :: ts))%nat))
    ('(ns, b, r') <- separator_conf b1 f e ts ;; Ok (n :: ns, b, r'))).
  { intros Ht b1 n. eapply fine_bind; [apply IH; eapply live_tl; eassumption|].
    intros [[ns t'] r'] _ [H1 [H2 _]]. cbn in *. split; [exact H1|]. lia. }
  destruct (match t with TIgnored _ => true | _ => is_unquoted_whitespace t end) eqn:Eb.
  { apply G. intros ->. discriminate. }
  destruct t; try (cbn; split; [exact H|split; [lia|congruence]]); try (apply G; discriminate).
  cbn. split; [eapply live_tl; [exact H|discriminate]|lia].
Qed.

Lemma check_separator_fine : forall e f ts, live e ts ->
  fine e (fun a : list node * bool * list token => live e (snd a) /\ (List.length (snd a) <= List.length ts)%nat /\
    (snd (fst a) = true -> (List.length (snd a) < List.length ts)%nat)) (check_element_separator f e ts).
Proof.
  intros e f ts H. unfold check_element_separator. destruct f.
  - eapply fine_weaken; [apply separator_fine, H|]. intros a _ [H1 [H2 H3]]. auto.
  - eapply fine_bind; [apply collect_fine, H|]. intros [[ns t] r] _ [H1 H2]. cbn [fst snd] in *.
    destruct t; cbn; (split; [|lia || (split; [lia|discriminate])]); try exact H1. eapply live_tl; [exact H1|discriminate].
Qed.

Lemma next_token_fine : forall e f ts, live e ts ->
  fine e (fun a => ts = fst a :: snd a /\ live e (fst a :: snd a)) (next_token f e ts).
Proof.
  intros e f [|t ts] H; cbn [next_token]; [apply live_nil; exact H|]. destruct (json_forbids f t); [left; reflexivity|].
  cbn. auto.
Qed.

Lemma key_tokens_fine : forall e f ts t, live e (t :: ts) ->
  fine e (fun a : list token * list token => live e (snd a) /\ List.length (t :: ts) = (List.length (fst a) + List.length (snd a))%nat /\
     Forall (fun t => match t with TValue _ _ | TUnquoted _ => True | _ => False end) (fst a))
    (key_tokens f e t ts).
Proof.
  intros e f. induction ts as [|t' ts IH]; intros t H; cbn [key_tokens].
  - destruct t; try (cbn; split; [exact H|split; [reflexivity|constructor]]); apply live_nil; eapply live_tl; try exact H; discriminate.
  - assert (G : match t with TValue _ _ | TUnquoted _ => True | _ => False end ->
      fine e (fun a : list token * list token => live e (snd a) /\ List.length (t :: t' :: ts) = (List.length (fst a) + List.length (snd a))%nat /\
        Forall (fun t => match t with TValue _ _ | TUnquoted _ => True | _ => False end) (fst a))
      (if json_forbids f t' then Throw EParse else '(ks, r') <- key_tokens f e t' ts ;; Ok (t :: ks, r'))).
    { intros Ht. destruct (json_forbids f t'); [left; reflexivity|]. eapply fine_bind; [apply IH; eapply live_tl; [exact H|]|].
      { intros ->. exact Ht. }
      intros [ks r] _ [H1 [H2 H3]]. cbn [fst snd] in *. cbn. split; [exact H1|]. cbn in H2. split; [lia|]. constructor; assumption. }
    destruct t; try (cbn; split; [exact H|split; [reflexivity|constructor]]); apply G; exact I.
Qed.

Lemma path_loop_null : forall ts b acc,
  (exists r, path_tokens_loop false CONF b acc ts = Ok r) \/ path_tokens_loop false CONF b acc ts = Stuck UNullDeref.
Proof.
  induction ts as [|t ts IH]; intros b acc; cbn [path_tokens_loop]; [eauto|].
  destruct t; try (right; reflexivity); try apply IH. destruct v; apply IH.
Qed.
Lemma build_path_null : forall es b, (exists p, build_path false es b = Ok p) \/ build_path false es b = Stuck UNullDeref.
Proof.
  induction es as [|[v e] es IH]; intros b; cbn [build_path]; [eauto|].
  destruct v; [destruct e; [apply IH|right; reflexivity]|apply IH].
Qed.
Lemma parse_path_null : forall ts e, fine e (fun _ => True) (parse_path_expression false CONF ts LEnd).
Proof.
  intros ts e. unfold parse_path_expression. destruct ts as [|t ts]; [left; reflexivity|].
  destruct (path_loop_null (t :: ts) [([], false)] []) as [[[b acc] ->]| ->]; [|left; reflexivity].
  cbn [bind raise_end]. destruct (build_path_null (rev b) []) as [[p ->]| ->]; [exact I|left; reflexivity].
Qed.

Lemma parse_key_fine : forall e f t ts, live e (t :: ts) ->
  fine e (fun a : path_node * list token => live e (snd a) /\ (List.length (snd a) <= List.length ts)%nat) (parse_key f e t ts).
Proof.
  intros e f t ts H. unfold parse_key. destruct f.
  - eapply fine_bind; [apply key_tokens_fine, H|]. intros [ks r] _ [H1 [H2 _]]. cbn [fst snd] in *.
    destruct ks as [|k ks]; [left; reflexivity|]. eapply fine_bind; [apply parse_path_null|].
    intros p _ _. cbn in *. split; [exact H1|lia].
  - destruct (is_string_value t) eqn:Et; [|left; reflexivity]. eapply fine_bind; [apply parse_path_null|].
    intros p _ _. cbn in *. split; [|lia]. eapply live_tl; [exact H|]. intros ->. discriminate.
Qed.

Lemma parse_include_fine : forall e f t ts, live e ts ->
  fine e (fun a : node * list token => live e (snd a) /\ (List.length (snd a) <= List.length ts)%nat) (parse_include f e t ts).
Proof.
  intros e f t ts H. unfold parse_include. eapply fine_bind; [apply collect_fine, H|].
  intros [[ws1 t1] r1] _ [H1 H2]. cbn [fst snd] in *.
  assert (G : fine e (fun a : node * list token => live e (snd a) /\ (List.length (snd a) <= List.length ts)%nat)
    (if is_string_value t1 then Ok (NInclude (NTok t :: ws1 ++ [NSimple t1]) KHeuristic, r1) else Throw EParse)).
  { destruct (is_string_value t1) eqn:Et; [|left; reflexivity]. cbn. split; [|lia]. eapply live_tl; [exact H1|].
    intros ->. discriminate. }
  destruct t1; try exact G. destruct (include_kind_of text); [|left; reflexivity].
  assert (H3 : live e r1) by (eapply live_tl; [exact H1|discriminate]).
  eapply fine_bind; [apply collect_fine, H3|]. intros [[ws2 t2] r2] _ [H4 H5]. cbn [fst snd] in *.
  destruct (is_string_value t2) eqn:Et; [|left; reflexivity]. cbn [negb].
  assert (H6 : live e r2) by (eapply live_tl; [exact H4|intros ->; discriminate]).
  eapply fine_bind; [apply collect_fine, H6|]. intros [[ws3 t3] r3] _ [H7 H8]. cbn [fst snd] in *.
  destruct (str_eqb (token_text t3) (lit ")")) eqn:Ep; [|left; reflexivity]. cbn. split; [|lia].
  eapply live_tl; [exact H7|intros ->; discriminate].
Qed.

Definition total_value (e : lex_end) (m : nat) (pv : token -> list token -> result (node * list token)) : Prop :=
  forall t ts, (List.length ts < m)%nat -> good (t :: ts) -> live e (t :: ts) ->
    fine e (fun a => live e (snd a) /\ (List.length (snd a) <= List.length ts)%nat) (pv t ts).

Lemma consolidate_loop_fine : forall e f m pv, total_value e m pv -> keeps pv -> forall k t ts,
  (List.length ts < k)%nat -> (List.length ts < m)%nat -> good (t :: ts) -> live e (t :: ts) ->
  fine e (fun a : list node * nat * token * list token =>
     live e (snd (fst a) :: snd a) /\ (List.length (snd a) <= List.length ts)%nat) (consolidate_loop pv f e k t ts).
Proof.
  intros e f m pv Hpv Hk. induction k as [|k IH]; intros t ts Hl Hm Hg H; [lia|]. cbn [consolidate_loop].
  assert (Hval : fine e (fun a : list node * nat * token * list token =>
     live e (snd (fst a) :: snd a) /\ (List.length (snd a) <= List.length ts)%nat)
    ('(v, r0) <- pv t ts ;; '(t1, r') <- next_token f e r0 ;;
     '(vs, c, t'', r'') <- consolidate_loop pv f e k t1 r' ;; Ok (v :: vs, S c, t'', r''))).
  { eapply fine_bind; [apply Hpv; assumption|]. intros [v r0] E1 [H1 H2]. cbn [fst snd] in *.
    eapply fine_bind; [apply next_token_fine, H1|]. intros [t1 r1] _ [H3 H4]. cbn [fst snd] in *. subst r0. cbn in H2.
    apply Hk in E1; [|exact Hg]. destruct E1 as [E1 _]. pose proof (takes_good _ _ _ E1 Hg) as Hg1.
    eapply fine_bind; [apply IH; try assumption; lia|]. intros [[[vs c] t2] r2] _ [H5 H6]. cbn in *. split; [exact H5|lia]. }
  destruct t; try exact Hval; try (cbn; split; [exact H|lia]).
  eapply fine_bind; [apply next_token_fine; eapply live_tl; [exact H|discriminate]|].
  intros [t1 r1] _ [H3 H4]. cbn [fst snd] in *. subst ts. cbn in Hl, Hm.
  eapply fine_bind; [apply IH; try lia; [eapply good_tl, Hg|exact H4]|].
  intros [[[vs c] t2] r2] _ [H5 H6]. cbn in *. split; [exact H5|lia].
Qed.

(** After single_value, the remaining tokens are a suffix or end with the old rest. *)
Lemma single_value_ok : forall vs pre c, vals vs pre c -> (c < 2)%nat -> forall ts,
  exists a, single_value None ts vs = Ok a /\ (ts <> [] -> snd a <> []) .
Proof.
  intros vs pre c H. induction H; intros Hc ts.
  - cbn. eauto.
  - cbn [single_value is_value_node]. destruct (IHvals Hc ts) as [[[b v] r] [-> E]]. cbn. eexists. split; [reflexivity|exact E].
  - assert (c = 0%nat) by lia. subst c. apply vals_none in H1. destruct H1 as [-> Hw]. cbn [single_value]. rewrite H.
    rewrite single_value_after by exact Hw. eexists. split; [reflexivity|]. cbn. intros Ht E. apply app_eq_nil in E. tauto.
Qed.
Lemma put_back_ne : forall vs ts vs' r, ts <> [] -> put_back_trailing vs ts = (vs', r) -> r <> [].
Proof.
  induction vs as [|v vs IH]; intros ts vs' r H E; cbn in E.
  - injection E as <- <-. exact H.
  - destruct v; try (injection E as <- <-; exact H); eapply IH; try exact E; discriminate.
Qed.

Lemma consolidate_fine : forall e f m pv, total_value e m pv -> keeps pv -> forall ts,
  (List.length ts <= m)%nat -> good ts -> live e ts ->
  fine e (fun a : list node * option node * list token => live e (snd a) /\ (List.length (snd a) <= List.length ts)%nat)
    (consolidate_values pv f e ts).
Proof.
  intros e f m pv Hpv Hk ts Hm Hg H.
  assert (G : fine e (fun a : list node * option node * list token => e = LEnd -> snd a <> []) (consolidate_values pv f e ts)).
  { unfold consolidate_values. destruct f.
    2:{ cbn. intro E. destruct (live_ne _ _ H); congruence. }
    eapply fine_bind; [apply collect_fine, H|]. intros [[nodes t] r] E1 [H1 H2]. cbn [fst snd] in *.
    apply collect_takes in E1. pose proof (takes_good _ _ _ E1 Hg) as Hg1.
    eapply fine_bind; [eapply consolidate_loop_fine; try eassumption; lia|].
    intros [[[values count] t'] r'] E2 [H3 H4]. cbn [fst snd] in *.
    apply consolidate_loop_vals in E2; [|exact Hk|exact Hg1]. destruct E2 as [pre [E3 E4]].
    destruct (Nat.ltb_spec count 2) as [Hlt|_].
    - destruct (single_value_ok _ _ _ E4 Hlt (t' :: r')) as [[[before v] r2] [-> E5]]. cbn. intros _. apply E5. discriminate.
    - destruct (put_back_trailing (rev values) (t' :: r')) as [values' r2] eqn:E5. cbn. intros _.
      eapply put_back_ne; [|exact E5]. discriminate. }
  eapply fine_weaken; [exact G|]. intros [[ns v] r] E1 Hne. cbn [fst snd] in *.
  apply consolidate_takes in E1; [|exact Hk|exact Hg]. destruct E1 as [E1 _]. split; [|eapply takes_len, E1].
  intro Ee. eapply live_suffix; eauto.
Qed.

Lemma parse_field_fine : forall e f m pv, total_value e m pv -> keeps pv -> forall keys t ts,
  (List.length ts < m)%nat -> good (t :: ts) -> live e (t :: ts) ->
  fine e (fun a : node * list str * list token => live e (snd a) /\ (List.length (snd a) <= List.length ts)%nat)
    (parse_field pv f e keys t ts).
Proof.
  intros e f m pv Hpv Hk keys t ts Hm Hg H. unfold parse_field.
  eapply fine_bind; [apply parse_key_fine, H|]. intros [pn r1] E1 [H1 H2]. cbn [fst snd] in *.
  apply parse_key_takes in E1; [|exact Hg]. destruct E1 as [E1 Hne]. pose proof (takes_good _ _ _ E1 Hg) as Hg1.
  eapply fine_bind; [apply collect_fine, H1|]. intros [[ws ak] r2] E2 [H3 H4]. cbn [fst snd] in *.
  apply collect_takes in E2. pose proof (takes_good _ _ _ E2 Hg1) as Hg2.
  eapply (fine_bind _ _ _ (fun a : list node * list token => live e (snd a) /\ (List.length (snd a) <= List.length ts)%nat)).
  - destruct (negb (is_json f) && _).
    + eapply fine_bind; [apply Hpv; try assumption; lia|]. intros [v r3] _ [H5 H6]. cbn in *. split; [exact H5|lia].
    + destruct (is_key_value_separator f ak) eqn:Es; [|left; reflexivity]. cbn [negb].
      assert (H5 : live e r2) by (eapply live_tl; [exact H3|intros ->; discriminate]).
      assert (Hg3 : good r2) by (eapply good_tl, Hg2).
      eapply fine_bind; [eapply consolidate_fine; try eassumption; lia|]. intros [[ns next] r3] E3 [H6 H7]. cbn [fst snd] in *.
      apply consolidate_takes in E3; [|exact Hk|exact Hg3]. destruct E3 as [E3 _]. pose proof (takes_good _ _ _ E3 Hg3) as Hg4.
      destruct next as [v|]; [cbn; split; [exact H6|lia]|].
      eapply fine_bind; [apply collect_fine, H6|]. intros [[ws' t'] r4] E4 [H8 H9]. cbn [fst snd] in *.
      apply collect_takes in E4. pose proof (takes_good _ _ _ E4 Hg4) as Hg5.
      eapply fine_bind; [apply Hpv; try assumption; lia|]. intros [v r5] _ [H10 H11]. cbn in *. split; [exact H10|lia].
  - intros [nodes r3] _ [H5 H6]. cbn [fst snd] in *. destruct (fst pn) as [|key [|]]; [congruence| |].
    + destruct (existsb (str_eqb key) keys); [destruct (is_json f); [left; reflexivity|]|]; cbn; auto.
    + destruct (is_json f); [right; left; reflexivity|]. cbn. auto.
Qed.

Lemma token_eq_end_or_close : forall t, (t = TEnd \/ t = TCloseCurly) \/ (t <> TEnd /\ t <> TCloseCurly).
Proof. intros []; try (right; split; discriminate); left; auto. Qed.

Lemma object_loop_fine : forall e f m pv, total_value e m pv -> keeps pv -> forall k had after keys ts,
  (List.length ts < k)%nat -> (List.length ts <= m)%nat -> good ts -> live e ts ->
  fine e (fun a : list node * list token => live e (snd a) /\ (List.length (snd a) <= List.length ts)%nat)
    (object_loop pv f e k had after keys ts).
Proof.
  intros e f m pv Hpv Hk. induction k as [|k IH]; intros had after keys ts Hl Hm Hg H; [lia|]. cbn [object_loop].
  eapply fine_bind; [apply collect_fine, H|]. intros [[ws t] r] E1 [H1 H2]. cbn [fst snd] in *.
  apply collect_takes in E1. pose proof (takes_good _ _ _ E1 Hg) as Hg1.
  set (item_code := bind _ _).
  assert (Hitem : t <> TEnd -> t <> TCloseCurly -> fine e (fun a : list node * list token => live e (snd a) /\ (List.length (snd a) <= List.length ts)%nat) item_code).
  { intros Ht _. unfold item_code.
    eapply (fine_bind _ _ _ (fun a : node * list str * list token => live e (snd a) /\ (List.length (snd a) <= List.length r)%nat)).
    - destruct (negb (is_json f) && is_include_keyword t).
      + eapply fine_bind; [apply parse_include_fine; eapply live_tl; eassumption|]. intros [n r2] _ H3. exact H3.
      + eapply parse_field_fine; try eassumption. lia.
    - intros [[item keys'] r2] E2 [H3 H4]. cbn [fst snd] in *.
      assert (Hg2 : good r2).
      { destruct (negb (is_json f) && is_include_keyword t).
        - inv_bind E2. destruct a as [n r3]. injection Hk0 as <- <- <-. apply parse_include_takes in Hb. eapply takes_good; eassumption.
        - apply parse_field_takes in E2; [|exact Hk|exact Hg1]. eapply takes_good; eassumption. }
      eapply fine_bind; [apply check_separator_fine, H3|]. intros [[sn sep] r3] E3 [H5 [H6 H7]]. cbn [fst snd] in *.
      apply check_separator_takes in E3. pose proof (takes_good _ _ _ E3 Hg2) as Hg3.
      destruct sep.
      + eapply fine_bind; [apply IH; try assumption; lia|]. intros [rest r4] _ [H8 H9]. cbn in *. split; [exact H8|lia].
      + eapply fine_bind; [apply collect_fine, H5|]. intros [[ws2 t2] r4] E4 [H8 H9]. cbn [fst snd] in *.
        destruct t2, had; try (left; reflexivity); cbn; (split; [|lia]); [exact H8|]. eapply live_tl; [exact H8|discriminate]. }
  destruct (token_eq_end_or_close t) as [[-> | ->] | [Ht1 Ht2]].
  - destruct had; cbn; [|split; [exact H1|lia]].
    (* END inside braces is no key *)
    unfold item_code.
    assert (Hf : exists x, (if negb (is_json f) && is_include_keyword TEnd then '(inc, r2) <- parse_include f e TEnd r ;; Ok (inc, keys, r2)
      else parse_field pv f e keys TEnd r) = Throw x /\ x = EParse).
    { exists EParse. split; [|reflexivity]. rewrite andb_false_r. unfold parse_field, parse_key. destruct f; [|reflexivity].
      destruct r; reflexivity. }
    destruct Hf as [x [Hf ->]]. rewrite Hf. left. reflexivity.
  - destruct (is_json f && after); [left; reflexivity|]. destruct had; cbn; [|left; reflexivity].
    split; [|lia]. eapply live_tl; [exact H1|discriminate].
  - pose proof (Hitem Ht1 Ht2) as G. destruct t, had; try exact G; congruence.
Qed.

Lemma array_loop_fine : forall e f m pv, total_value e m pv -> keeps pv -> forall k ts,
  (List.length ts < k)%nat -> (List.length ts <= m)%nat -> good ts -> live e ts ->
  fine e (fun a : list node * list token => live e (snd a) /\ (List.length (snd a) <= List.length ts)%nat)
    (array_loop pv f e k ts).
Proof.
  intros e f m pv Hpv Hk. induction k as [|k IH]; intros ts Hl Hm Hg H; [lia|]. cbn [array_loop].
  eapply fine_bind; [apply check_separator_fine, H|]. intros [[sn sep] r] E1 [H1 [H2 H3]]. cbn [fst snd] in *.
  apply check_separator_takes in E1. pose proof (takes_good _ _ _ E1 Hg) as Hg1.
  destruct sep; cbn [negb].
  - specialize (H3 eq_refl).
    eapply fine_bind; [eapply consolidate_fine; try eassumption; lia|]. intros [[ns next] r1] E2 [H4 H5]. cbn [fst snd] in *.
    apply consolidate_takes in E2; [|exact Hk|exact Hg1]. destruct E2 as [E2 _]. pose proof (takes_good _ _ _ E2 Hg1) as Hg2.
    destruct next as [v|].
    + eapply fine_bind; [apply IH; try assumption; lia|]. intros [rest r2] _ [H6 H7]. cbn in *. split; [exact H6|lia].
    + eapply fine_bind; [apply collect_fine, H4|]. intros [[ws t] r2] E3 [H6 H7]. cbn [fst snd] in *.
      apply collect_takes in E3. pose proof (takes_good _ _ _ E3 Hg2) as Hg3.
      destruct (is_value_start t).
      * eapply fine_bind; [apply Hpv; try assumption; lia|]. intros [v r3] E4 [H8 H9]. cbn [fst snd] in *.
        apply Hk in E4; [|exact Hg3]. destruct E4 as [E4 _]. pose proof (takes_good _ _ _ E4 Hg3) as Hg4.
        eapply fine_bind; [apply IH; try assumption; lia|]. intros [rest r4] _ [H10 H11]. cbn in *. split; [exact H10|lia].
      * destruct (negb (is_json f) && _); [|left; reflexivity].
        eapply fine_bind; [apply IH; try assumption; cbn; lia|]. intros [rest r4] _ [H10 H11]. cbn in *. split; [exact H10|lia].
  - eapply fine_bind; [apply collect_fine, H1|]. intros [[ws t] r1] _ [H4 H5]. cbn [fst snd] in *.
    destruct t; try (left; reflexivity). cbn. split; [|lia]. eapply live_tl; [exact H4|discriminate].
Qed.

Lemma parse_array_fine : forall e f m pv, total_value e m pv -> keeps pv -> forall ts,
  (List.length ts <= m)%nat -> good ts -> live e ts ->
  fine e (fun a : node * list token => live e (snd a) /\ (List.length (snd a) <= List.length ts)%nat) (parse_array pv f e ts).
Proof.
  intros e f m pv Hpv Hk ts Hm Hg H. unfold parse_array.
  eapply fine_bind; [eapply consolidate_fine; eassumption|]. intros [[ns next] r] E1 [H1 H2]. cbn [fst snd] in *.
  apply consolidate_takes in E1; [|exact Hk|exact Hg]. destruct E1 as [E1 _]. pose proof (takes_good _ _ _ E1 Hg) as Hg1.
  eapply (fine_bind _ _ _ (fun a : list node * list token => live e (snd a) /\ (List.length (snd a) <= List.length ts)%nat)).
  - destruct next as [v|].
    + eapply fine_bind; [eapply array_loop_fine; try eassumption; lia|]. intros [rest r1] _ [H3 H4]. cbn in *. split; [exact H3|lia].
    + eapply fine_bind; [apply collect_fine, H1|]. intros [[ws t] r1] E2 [H3 H4]. cbn [fst snd] in *.
      apply collect_takes in E2. pose proof (takes_good _ _ _ E2 Hg1) as Hg2.
      assert (G : fine e (fun a : list node * list token => live e (snd a) /\ (List.length (snd a) <= List.length ts)%nat)
        ('(v, r2) <- pv t r1 ;; '(rest, r3) <- array_loop pv f e (S (List.length r2)) r2 ;; Ok (ns ++ ws ++ v :: rest, r3))).
      { eapply fine_bind; [apply Hpv; try assumption; lia|]. intros [v r2] E3 [H5 H6]. cbn [fst snd] in *.
        apply Hk in E3; [|exact Hg2]. destruct E3 as [E3 _]. pose proof (takes_good _ _ _ E3 Hg2) as Hg3.
        eapply fine_bind; [eapply array_loop_fine; try eassumption; lia|]. intros [rest r3] _ [H7 H8]. cbn in *. split; [exact H7|lia]. }
      destruct t; try exact G; try (left; reflexivity). cbn. split; [|lia]. eapply live_tl; [exact H3|discriminate].
  - intros [cs r1] _ H3. exact H3.
Qed.

Lemma parse_value_total : forall e f n, total_value e n (parse_value n f e).
Proof.
  intros e f. induction n as [|n IH]; intros t ts Hl Hg H; [lia|]. cbn [parse_value].
  assert (Hs : t <> TEnd -> fine e (fun a : node * list token => live e (snd a) /\ (List.length (snd a) <= List.length ts)%nat) (Ok (NSimple t, ts))).
  { intro Ht. cbn. split; [eapply live_tl; eassumption|lia]. }
  destruct t; try (left; reflexivity); try (apply Hs; discriminate).
  - unfold parse_object. eapply fine_bind.
    + eapply object_loop_fine; [exact IH|apply parse_value_keeps|lia|lia|eapply good_tl, Hg|eapply live_tl; [exact H|discriminate]].
    + intros [ns r] _ H1. exact H1.
  - eapply parse_array_fine; [exact IH|apply parse_value_keeps|lia|eapply good_tl, Hg|eapply live_tl; [exact H|discriminate]].
Qed.

Lemma parse_root_fine : forall e f ts, good ts -> live e ts -> fine e (fun _ => True) (parse_root f e ts).
Proof.
  intros e f ts Hg H. unfold parse_root.
  eapply fine_bind; [apply collect_fine, H|]. intros [[ws t] r] E1 [H1 H2]. cbn [fst snd] in *.
  apply collect_takes in E1. pose proof (takes_good _ _ _ E1 Hg) as Hg1.
  eapply (fine_bind _ _ _ (fun a : bool * list node * list token => live e (snd a))).
  - assert (Hpv : fine e (fun a : bool * list node * list token => live e (snd a))
      ('(v, r1) <- parse_value (S (List.length ts)) f e t r ;; Ok (false, ws ++ [v], r1))).
    { eapply fine_bind; [apply parse_value_total; try assumption; lia|]. intros [v r1] _ [H3 _]. exact H3. }
    assert (Ho : fine e (fun a : bool * list node * list token => live e (snd a)) (if is_json f then Throw EParse else
         '(v, r1) <- parse_object (parse_value (S (List.length ts)) f e) f e false (t :: r) ;;
           match v with
           | NObject cs => Ok (true, ws ++ cs, r1)
           | _ => Ok (true, ws ++ [v], r1)
           end)).
    { destruct (is_json f); [left; reflexivity|]. unfold parse_object.
      eapply (fine_bind _ _ _ (fun a : node * list token => live e (snd a))).
      - eapply fine_bind.
        + eapply object_loop_fine; [apply parse_value_total|apply parse_value_keeps|cbn; lia|cbn; lia|exact Hg1|exact H1].
        + intros [ns r1] _ [H3 _]. exact H3.
      - intros [v r1] _ H3. cbn [fst snd] in *. destruct v; exact H3. }
    destruct t; try exact Ho; exact Hpv.
  - intros [[mc cs] r1] _ H3. cbn [fst snd] in *. eapply fine_bind; [apply collect_fine, H3|].
    intros [[ws2 t2] r2] _ _. destruct t2; try (left; reflexivity). destruct mc; exact I.
Qed.

Lemma parse_single_fine : forall e f ts, good ts -> live e ts -> fine e (fun _ => True) (parse_single_value f e ts).
Proof.
  intros e f ts Hg H. unfold parse_single_value.
  eapply fine_bind; [apply next_token_fine, H|]. intros [t r] _ [H1 H2]. cbn [fst snd] in *. subst ts.
  destruct (match t with TIgnored _ | TNewline | TComment _ _ => true | _ => is_unquoted_whitespace t end); [left; reflexivity|].
  set (rest := if is_json f then _ else _).
  assert (G : fine e (fun _ => True) rest).
  { unfold rest. destruct (is_json f).
    - eapply fine_bind; [apply parse_value_total; try assumption; cbn; lia|]. intros [v r1] _ [H3 _]. cbn [fst snd] in *.
      eapply fine_bind; [apply next_token_fine, H3|]. intros [t1 r2] _ _. destruct t1; try (left; reflexivity). exact I.
    - eapply fine_bind; [eapply consolidate_fine; [apply parse_value_total|apply parse_value_keeps| |exact Hg|exact H]; cbn; lia|].
      intros [[ns v] r1] _ [H3 _]. cbn [fst snd] in *.
      eapply fine_bind; [apply next_token_fine, H3|]. intros [t1 r2] _ _. destruct t1; try (left; reflexivity). exact I. }
  destruct t; try exact G. left. reflexivity.
Qed.

(** ** Whole documents *)

Lemma good_removelast : forall ts, good ts -> good (removelast ts).
Proof.
  intros ts [H1 H2]. destruct ts as [|t ts]; [split; assumption|].
  rewrite (app_removelast_last TEnd (l := t :: ts)) in H1, H2 by discriminate.
  split; [apply Forall_app in H1; tauto|eapply ndb_prefix, H2].
Qed.

Lemma after_start_fine : forall A f s (k : lex_end -> list token -> result A),
  (forall e ts, good ts -> live e ts -> fine e (fun _ => True) (k e ts)) ->
  match after_start f s k with
  | Ok _ => True
  | Throw x => x = EParse \/ x = EConfig
  | Stuck u => u = UNullDeref \/ stuck_cause s u
  end.
Proof.
  intros A f s k Hk. unfold after_start, lex.
  destruct (lex_loop (S (List.length s)) (negb (is_json f)) saver_init s) as [ts e] eqn:El.
  pose proof (lex_loop_stream _ _ _ _ _ _ El) as Hg. pose proof (lex_loop_shape _ _ _ _ _ _ (le_n _) El) as [_ [Hs _]].
  assert (G : match (match delivered (TStart :: ts, e) with (_ :: ts, e) => k e ts | ([], e) => raise_end e (Stuck UOutOfBounds) end) with
     | Ok _ => True | Throw x => x = EParse \/ x = EConfig \/ e = LThrow x | Stuck u => u = UNullDeref \/ e = LStuck u end).
  { assert (Hd : forall e0, e0 = e -> e <> LEnd -> match (match (removelast (TStart :: ts), e0) with (_ :: ts, e) => k e ts | ([], e) => raise_end e (Stuck UOutOfBounds) end) with
       | Ok _ => True | Throw x => x = EParse \/ x = EConfig \/ e = LThrow x | Stuck u => u = UNullDeref \/ e = LStuck u end).
    { intros e0 -> He. destruct ts as [|t ts]; [destruct e; cbn; auto; congruence|]. cbn [removelast].
      apply Hk; [exact (good_removelast _ Hg)|]. intro E. congruence. }
    destruct e; cbn [delivered].
    - apply Hk; [exact Hg|]. intros _. destruct (Hs eq_refl) as [body [E1 [E2 _]]]. exists body. auto.
    - apply Hd; congruence.
    - apply Hd; congruence. }
  match type of G with match ?m with _ => _ end => change (match m with
    | Ok _ => True | Throw x => x = EParse \/ x = EConfig | Stuck u => u = UNullDeref \/ stuck_cause s u end);
    destruct m as [a|x|u] end; [exact I| |].
  - destruct G as [G|[G|G]]; auto. subst e. apply lex_loop_throw in El. auto.
  - destruct G as [G|G]; auto. subst e. apply lex_loop_cause in El; [auto|lia].
Qed.

Lemma document_total : forall f s,
  match parse_document f s with
  | Ok _ => True
  | Throw x => x = EParse \/ x = EConfig
  | Stuck u => u = UNullDeref \/ stuck_cause s u
  end.
Proof. intros f s. apply after_start_fine. intros e ts. apply parse_root_fine. Qed.

Lemma value_text_total : forall f s,
  match parse_value_text f s with
  | Ok _ => True
  | Throw x => x = EParse \/ x = EConfig
  | Stuck u => u = UNullDeref \/ stuck_cause s u
  end.
Proof. intros f s. apply after_start_fine. intros e ts. apply parse_single_fine. Qed.

Lemma parse_root_end : forall f e ts ns, good ts -> live e ts -> parse_root f e ts = Ok ns -> In TEnd ts.
Proof.
  intros f e ts ns Hg H E. unfold parse_root in E. inv_bind E. destruct a as [[ws t] r].
  apply collect_takes in Hb. pose proof (takes_good _ _ _ Hb Hg) as Hg1.
  inv_bind Hk. destruct a as [[mc cs] r1]. inv_bind Hk0. destruct a as [[ws2 t2] r2]. apply collect_takes in Hb1.
  destruct t2; try discriminate.
  assert (Hs : exists p, t :: r = p ++ r1).
  { assert (Ho : (if is_json f then Throw EParse else
         '(v, r1) <- parse_object (parse_value (S (List.length ts)) f e) f e false (t :: r) ;;
           match v with
           | NObject cs => Ok (true, ws ++ cs, r1)
           | _ => Ok (true, ws ++ [v], r1)
           end) = Ok (mc, cs, r1) -> exists p, t :: r = p ++ r1).
    { destruct (is_json f); [discriminate|]. intro E. inv_bind E. destruct a as [v r3].
      apply parse_object_takes in Hb2; [|apply parse_value_keeps|exact Hg1]. destruct Hb2 as [cs' [-> [p [Hp _]]]].
      injection Hk0 as <- <- <-. eauto. }
    destruct t; try exact (Ho Hb0);
      (inv_bind Hb0; destruct a as [v r3]; injection Hk0 as <- <- <-; apply parse_value_keeps in Hb2; [|exact Hg1];
       destruct Hb2 as [[p [Hp _]] _]; eauto). }
  destruct Hb as [p1 [-> _]]. destruct Hs as [p2 ->]. destruct Hb1 as [p3 [-> _]].
  rewrite !in_app_iff. right. right. right. left. reflexivity.
Qed.

Lemma document_full : forall f s root, parse_document f s = Ok root ->
  exists ts, tokenize (negb (is_json f)) s = Ok ts /\ full_texts root = render_tokens ts.
Proof.
  intros f s root H. unfold parse_document, after_start, lex in H. unfold tokenize, lex.
  destruct (lex_loop (S (List.length s)) (negb (is_json f)) saver_init s) as [ts e] eqn:El.
  pose proof (lex_loop_stream _ _ _ _ _ _ El) as Hg. pose proof (lex_loop_shape _ _ _ _ _ _ (le_n _) El) as [_ [Hs Hn]].
  assert (Hbad : e <> LEnd -> forall e0, e0 = e -> match (removelast (TStart :: ts), e0) with (_ :: ts, e) => parse_root f e ts | ([], e) => raise_end e (Stuck UOutOfBounds) end = Ok root -> False).
  { intros He e0 ->. destruct ts as [|t ts]; [destruct e; try discriminate; congruence|]. cbn [removelast]. intro E.
    apply parse_root_end in E; [|exact (good_removelast _ Hg)|intro K; congruence].
    apply (Hn He). rewrite (app_removelast_last TEnd (l := t :: ts)) by discriminate. apply in_app_iff. left. exact E. }
  destruct e; cbn [delivered] in H.
  - exists (TStart :: ts). split; [reflexivity|]. destruct (Hs eq_refl) as [body [E1 [E2 _]]].
    rewrite render_tokens_cons. cbn [token_text app]. eapply parse_root_text; eauto.
  - exfalso. eapply Hbad; [|reflexivity|exact H]. discriminate.
  - exfalso. eapply Hbad; [|reflexivity|exact H]. discriminate.
Qed.

Lemma document_lossless : forall f s root, ~ In (ch 0) s -> parse_document f s = Ok root ->
  lost_blanks s (full_texts root) /\
  ((~ In "$"%char s \/ no_blank_before_close s) -> full_texts root = s) /\
  (forallb paren_free root = true -> render_nodes root = full_texts root).
Proof.
  intros f s root Hn H. split; [|split; [|apply paren_free_renders]]; apply document_full in H;
    destruct H as [ts [H ->]]; apply lossless_all in H; try exact Hn; apply H.
Qed.

Lemma document_lossless_bad : exists s root, ~ In (ch 0) s /\ ~ In "$"%char s /\
  parse_document CONF s = Ok root /\ render_nodes root <> s.
Proof.
  exists (lit "include file(""x"")"). eexists. split; [|split; [|split; [vm_compute; reflexivity|]]].
  - vm_compute. intuition discriminate.
  - vm_compute. intuition discriminate.
  - vm_compute. discriminate.
Qed.

Lemma document_null : exists s, parse_document CONF s = Stuck UNullDeref /\
  exists c, s = c :: lit "a=1" /\ c = "."%char.
Proof. exists (lit ".a=1"). split; [vm_compute; reflexivity|]. exists "."%char. split; reflexivity. Qed.
