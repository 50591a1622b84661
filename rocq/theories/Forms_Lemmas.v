(** The forms of an include statement. *)
From Verif Require Import Base BaseLemmas Util_Model Num_Model Path_Model Path_Spec Path_Lemmas Token_Model Token_Spec Token_Lemmas Token_Lemmas2 PathParser_Model PathParser_Spec PathParser_Lemmas PathParser_Lemmas2 PathParser_Lemmas3 Doc_Model Doc_Lemmas Edit_Model
  Value_Model Value_Spec Value_Lemmas Concat_Model ConfigParser_Model Json_Lemmas2 Render_Lemmas3 JsonEdit_Lemmas JsonEdit_Lemmas2 JsonEdit_Lemmas7 JsonEdit_Spec ConfEdit_Spec ConfEdit_Lemmas6 ConfEdit_Lemmas7 ConfText_Spec ConfText_Lemmas ConfText_Lemmas2 ConfText_Lemmas3 ConfText_Lemmas4 ConfText_Lemmas5 ConfText_Lemmas6
  ConfText_Lemmas7 ConfText_Lemmas8 ConfText_Lemmas11 ConfText_Lemmas12 RenderConf_Lemmas RenderConf_Lemmas2 RenderConf_Lemmas3 Escape_Spec Round_Spec Rfc_Spec Rfc_Spec3 Rfc_Lemmas Rfc_Lemmas2 Rfc_Lemmas6 Rfc_Lemmas7 Rfc_Lemmas8 Hocon_Spec Hocon_Lemmas Hocon_Lemmas2 Forms_Spec.

Definition ends_any (r : str) : Prop := match r with [] => True | c :: _ => mem c not_in_unquoted_text || is_whitespace c = true end.
Lemma literal_word : forall u, In u [lit "include"; lit "file("; lit "url("; lit "classpath("; lit ")"] -> forall r, ends_any r -> reads' (TUnquoted u) r.
Proof.
  intros u I r E. apply reads_fuel. split; [intro Z; cbn in Z; subst u; cbn in I; intuition discriminate|]. split; [discriminate|]. intros n ws ls. cbn [token_text].
  assert (S : forall res, pull_unquoted_text true res r = (TUnquoted res, r)).
  { intro res. destruct r as [|c r]; [reflexivity|]. cbn [pull_unquoted_text]. cbn [ends_any] in E. rewrite E. reflexivity. }
  clear E. cbn in I. destruct I as [<-|[<-|[<-|[<-|[<-|[]]]]]];
    match goal with |- _ = Ok (TUnquoted ?u, _, _) => transitivity (bind (Ok (pull_unquoted_text true u r)) (fun '(t, r0) => Ok (t, (ws, ls), r0))); [reflexivity|rewrite S; reflexivity] end.
Qed.

(** ** The tokens of a statement *)
Definition gap (g : str) : list token := match g with [] => [] | _ => [TUnquoted g] end.
Lemma gap_text : forall g, maybe_blank g -> render_tokens (gap g) = g.
Proof. intros [|c g] _; [reflexivity|]. unfold render_tokens. cbn. rewrite app_nil_r. reflexivity. Qed.
Lemma gap_spelt : forall g t ts r, maybe_blank g -> is_simple_value t = true -> reads' t (render_tokens ts ++ r) -> spelt true ts r -> spelt true (gap g ++ t :: ts) r.
Proof.
  intros g t ts r [->|G] S R H; [cbn [gap app]; apply sp_tok; [exact R|rewrite S; exact H]|]. apply blank_text_spec in G. destruct g as [|c g]; [destruct G; congruence|]. cbn [gap app]. apply sp_word; assumption.
Qed.
Lemma gap_ends : forall g c s, maybe_blank g -> mem c not_in_unquoted_text || is_whitespace c = true -> ends_any (g ++ c :: s).
Proof.
  intros g c s [->|G] H; [exact H|]. apply blank_text_spec in G. destruct g as [|d g]; [destruct G; congruence|]. destruct G as [_ F]. inversion F as [|? ? D]; subst.
  unfold is_whitespace_not_newline in D. apply andb_true_iff in D. cbn [app ends_any]. rewrite (proj2 D). apply orb_true_r.
Qed.
Lemma gap_not_quote : forall g s, maybe_blank g -> not_quote (g ++ lit ")" ++ s).
Proof.
  intros g s [->|G]; [discriminate|]. apply blank_text_spec in G. destruct g as [|d g]; [destruct G; congruence|]. destruct G as [_ F]. inversion F as [|? ? D]; subst. cbn. intros ->. discriminate D.
Qed.
Lemma gap_collect : forall g t r, maybe_blank g -> is_unquoted_whitespace t = false -> (match t with TUnquoted _ | TValue _ _ => True | _ => False end) ->
  collect CONF LEnd (gap g ++ t :: r) = Ok (map NTok (gap g), t, r).
Proof.
  intros g t r G W T. assert (C : collect CONF LEnd (t :: r) = Ok ([], t, r)) by (destruct t; try contradiction; [|reflexivity]; cbn [collect]; rewrite W; reflexivity).
  destruct G as [->|G]; [exact C|]. pose proof (blank_word g G) as B. destruct g as [|c g]; [discriminate G|]. cbn [gap app map]. set (x := t :: r) in *. clearbody x. cbn [collect]. change (json_forbids CONF (TUnquoted (c :: g))) with false. cbv iota. rewrite B, C. reflexivity.
Qed.

(** ** What is parsed *)
Lemma statement_parsed : forall ts cs kind, Doc_Model.parse_include CONF LEnd (TUnquoted (lit "include")) (ts ++ [TEnd]) = Ok (NInclude cs kind, [TEnd]) ->
  parse_root CONF LEnd (TUnquoted (lit "include") :: ts ++ [TEnd]) = Ok [NObject [NInclude cs kind]].
Proof.
  intros ts cs kind P. unfold parse_root. cbn [List.length]. set (fuel := S (S (List.length (ts ++ [TEnd])))).
  assert (C : forall x, collect CONF LEnd (TUnquoted (lit "include") :: x) = Ok ([], TUnquoted (lit "include"), x)) by reflexivity. rewrite C. cbn [bind is_json]. unfold parse_object. cbn [List.length object_loop]. rewrite C. cbn [bind is_json negb].
  change (is_include_keyword (TUnquoted (lit "include"))) with true. cbn [andb]. rewrite P. reflexivity.
Qed.
Lemma statement_refused : forall ts e, Doc_Model.parse_include CONF LEnd (TUnquoted (lit "include")) (ts ++ [TEnd]) = Throw e ->
  parse_root CONF LEnd (TUnquoted (lit "include") :: ts ++ [TEnd]) = Throw e.
Proof.
  intros ts e P. unfold parse_root. cbn [List.length]. set (fuel := S (S (List.length (ts ++ [TEnd])))).
  assert (C : forall x, collect CONF LEnd (TUnquoted (lit "include") :: x) = Ok ([], TUnquoted (lit "include"), x)) by reflexivity. rewrite C. cbn [bind is_json]. unfold parse_object. cbn [List.length object_loop]. rewrite C. cbn [bind is_json negb].
  change (is_include_keyword (TUnquoted (lit "include"))) with true. cbn [andb]. rewrite P. reflexivity.
Qed.
Lemma all_included : forall m values, NoDup (map fst (values ++ m)) -> add_included values m = Ok (values ++ m).
Proof.
  induction m as [|[k v] m IH]; intros values N; [rewrite app_nil_r; reflexivity|]. cbn [add_included].
  assert (F : find_key k values = None).
  { destruct (find_key k values) as [x|] eqn:F; [|reflexivity]. exfalso. rewrite map_app in N. cbn [map fst] in N. apply NoDup_remove_2 in N. apply N, in_or_app. left. exact (find_in _ _ _ F). }
  rewrite F, IH; rewrite <- app_assoc; [reflexivity|exact N].
Qed.
Lemma name_found : forall pre w named post, Forall (fun n => match n with NTok _ => True | _ => False end) pre -> include_name (pre ++ NSimple (string_token w named) :: post) = Ok named.
Proof. intros pre w named post F. induction F as [|n pre H F IH]; [reflexivity|]. destruct n; try contradiction. exact IH. Qed.
Lemma included_root : forall inc cs kind named next, include_name cs = Ok named ->
  parse_root_nodes CONF inc None [NObject [NInclude cs kind]] next =
    ('(obj, next1) <- (match kind with KFile | KHeuristic => inc kind named next | _ => Throw EConfig end) ;;
     match obj with
     | VObj _ _ m => values <- add_included [] m ;; Ok (Some (new_object values), next1)
     | VMergeObj _ => Throw ENotResolved
     | _ => Stuck UNullDeref
     end).
Proof.
  intros inc cs kind named next N. cbn [parse_root_nodes is_complex ConfigParser_Model.parse_value parse_object_nodes is_json]. unfold ConfigParser_Model.parse_include. rewrite N. cbn [bind below_path].
  destruct kind; cbn [bind]; try reflexivity; (destruct (inc _ named next) as [[obj n1]| |]; [|reflexivity|reflexivity]); cbn [bind]; change (0 <? 0) with false; cbn [andb]; destruct obj; try reflexivity; cbn [bind];
    match goal with |- context [add_included [] ?m] => destruct (add_included [] m) end; reflexivity.
Qed.

Definition kind_named (f : str) (kind : include_kind) : Prop := In (f, kind) [(lit "file", KFile); (lit "url", KUrl); (lit "classpath", KClasspath)].
Lemma string_kind : forall w named, is_unquoted_whitespace (string_token w named) = false /\ is_string_value (string_token w named) = true /\ is_simple_value (string_token w named) = true.
Proof. repeat split. Qed.
Definition inner (g1 w g2 named : str) : list token := gap g1 ++ string_token w named :: gap g2 ++ [TUnquoted (lit ")")].
Lemma called_lexed : forall f g g1 w g2 named, (forall r, ends_any r -> reads' (TUnquoted (f ++ lit "(")) r) -> blank_text g = true -> maybe_blank g1 -> maybe_blank g2 -> Escape_Spec.stands_for w named ->
  parse_document CONF (called_include f g g1 w g2) = parse_root CONF LEnd (TUnquoted (lit "include") :: (TUnquoted g :: TUnquoted (f ++ lit "(") :: inner g1 w g2 named) ++ [TEnd]).
Proof.
  intros f g g1 w g2 named K G G1 G2 W. set (call := f ++ lit "(") in *. set (ts := TUnquoted g :: TUnquoted call :: inner g1 w g2 named).
  assert (Ti : render_tokens (inner g1 w g2 named) = g1 ++ between_quotes w ++ g2 ++ lit ")").
  { unfold inner. rewrite render_app', gap_text by exact G1. rewrite render_cons', render_app', gap_text by exact G2. reflexivity. }
  assert (T : called_include f g g1 w g2 = render_tokens (TUnquoted (lit "include") :: ts)).
  { unfold ts, called_include. rewrite !render_cons', Ti. cbn [token_text]. unfold call. rewrite <- !app_assoc. reflexivity. }
  assert (Sp : spelt false (TUnquoted (lit "include") :: ts) []).
  { pose proof (blank_text_spec _ G) as B. apply sp_tok.
    - apply literal_word; [left; reflexivity|]. unfold ts. rewrite render_cons', app_nil_r. cbn [token_text]. destruct g as [|c g]; [discriminate G|]. destruct B as [_ F]. inversion F as [|? ? D]; subst.
      unfold is_whitespace_not_newline in D. apply andb_true_iff in D. cbn [app ends_any]. rewrite (proj2 D). apply orb_true_r.
    - unfold ts. apply sp_word; [exact B|reflexivity| |].
      + apply K. rewrite Ti, app_nil_r. unfold between_quotes. cbn [app]. apply gap_ends; [exact G1|reflexivity].
      + unfold inner. apply gap_spelt; [exact G1|reflexivity| |].
        * apply reads_fuel, reads_escaped; [exact W|]. rewrite render_app', gap_text, app_nil_r by exact G2. apply (gap_not_quote g2 [] G2).
        * apply gap_spelt; [exact G2|reflexivity|apply literal_word; [cbn; auto 6|exact I]|constructor]. }
  pose proof (spelt_lexes _ _ _ Sp eq_refl) as Lx. rewrite T. exact (parse_lexed _ _ Lx).
Qed.
Lemma called_parsed : forall f kind g g1 w g2 named, kind_named f kind -> blank_text g = true -> maybe_blank g1 -> maybe_blank g2 -> Escape_Spec.stands_for w named ->
  exists cs, parse_document CONF (called_include f g g1 w g2) = Ok [NObject [NInclude cs kind]] /\ include_name cs = Ok named.
Proof.
  intros f kind g g1 w g2 named K G G1 G2 W. rewrite (called_lexed f g g1 w g2 named); [|apply literal_word; destruct K as [K|[K|[K|[]]]]; injection K as <- <-; cbn; auto|assumption..].
  set (call := f ++ lit "(").
  assert (Kk : include_kind_of call = Some kind) by (unfold call; destruct K as [K|[K|[K|[]]]]; injection K as <- <-; reflexivity).
  assert (Kw : is_unquoted_whitespace (TUnquoted call) = false) by (unfold call; destruct K as [K|[K|[K|[]]]]; injection K as <- <-; reflexivity).
  eexists. split.
  - apply statement_parsed. unfold Doc_Model.parse_include.
    assert (C1 : collect CONF LEnd ((TUnquoted g :: TUnquoted call :: inner g1 w g2 named) ++ [TEnd]) = Ok ([NTok (TUnquoted g)], TUnquoted call, inner g1 w g2 named ++ [TEnd])).
    { pose proof (gap_collect g (TUnquoted call) (inner g1 w g2 named ++ [TEnd]) (or_intror G) Kw I) as C. destruct g; [discriminate G|]. exact C. }
    rewrite C1. cbn [bind]. rewrite Kk. unfold inner. rewrite <- app_assoc. cbn [app]. rewrite gap_collect by (exact G1 || reflexivity || exact I). cbn [bind]. change (is_string_value (string_token w named)) with true. cbn [negb].
    rewrite <- app_assoc. cbn [app]. rewrite gap_collect by (exact G2 || reflexivity || exact I). cbn [bind token_text]. change (str_eqb (lit ")") (lit ")")) with true. cbn [negb]. reflexivity.
  - cbn [app]. change (include_name (map NTok (gap g1) ++ NSimple (string_token w named) :: map NTok (gap g2)) = Ok named). apply name_found. apply Forall_forall. intros n In1. apply in_map_iff in In1. destruct In1 as [t [<- _]]. exact I.
Qed.
Lemma plain_parsed : forall g w named, blank_text g = true -> Escape_Spec.stands_for w named ->
  exists cs, parse_document CONF (plain_include g w) = Ok [NObject [NInclude cs KHeuristic]] /\ include_name cs = Ok named.
Proof.
  intros g w named G W. set (ts := [TUnquoted g; string_token w named]).
  assert (T : plain_include g w = render_tokens (TUnquoted (lit "include") :: ts)).
  { unfold ts, plain_include. rewrite !render_cons'. unfold render_tokens. cbn [map concat token_text string_token]. rewrite !app_nil_r. reflexivity. }
  assert (Sp : spelt false (TUnquoted (lit "include") :: ts) []).
  { pose proof (blank_text_spec _ G) as B. apply sp_tok.
    - apply literal_word; [left; reflexivity|]. unfold ts. rewrite render_cons', app_nil_r. cbn [token_text]. destruct g as [|c g]; [discriminate G|]. destruct B as [_ F]. inversion F as [|? ? D]; subst.
      unfold is_whitespace_not_newline in D. apply andb_true_iff in D. cbn [app ends_any]. rewrite (proj2 D). apply orb_true_r.
    - unfold ts. apply sp_word; [exact B|reflexivity| |constructor]. apply reads_fuel, reads_escaped; [exact W|exact I]. }
  pose proof (spelt_lexes _ _ _ Sp eq_refl) as Lx. rewrite T, (parse_lexed _ _ Lx). clear Sp Lx T.
  eexists. split.
  - apply statement_parsed. unfold Doc_Model.parse_include, ts.
    assert (C1 : collect CONF LEnd ([TUnquoted g; string_token w named] ++ [TEnd]) = Ok ([NTok (TUnquoted g)], string_token w named, [TEnd])).
    { pose proof (gap_collect g (string_token w named) [TEnd] (or_intror G) eq_refl I) as C. destruct g; [discriminate G|]. exact C. }
    rewrite C1. reflexivity.
  - reflexivity.
Qed.
Lemma parsed_asks : forall kind named text cs, kind = KFile \/ kind = KHeuristic -> parse_document CONF text = Ok [NObject [NInclude cs kind]] -> include_name cs = Ok named -> asks kind named text.
Proof.
  intros kind named text cs K P N inc next. unfold parse_config. rewrite P. cbn [bind]. rewrite (included_root inc cs kind named next N).
  assert (E : match kind with KFile | KHeuristic => inc kind named next | _ => Throw EConfig end = inc kind named next) by (destruct K as [->| ->]; reflexivity). rewrite E. split.
  - intros r i m next' F Nd. rewrite F. cbn [bind]. rewrite (all_included m [] Nd). cbn [bind app]. eexists. reflexivity.
  - intros e F. rewrite F. reflexivity.
Qed.
Theorem forms : forall g g1 w g2 named, blank_text g = true -> maybe_blank g1 -> maybe_blank g2 -> Escape_Spec.stands_for w named ->
  asks KHeuristic named (plain_include g w) /\ asks KFile named (called_include (lit "file") g g1 w g2) /\
  (forall inc next, parse_config CONF inc (called_include (lit "url") g g1 w g2) next = Throw EConfig) /\
  (forall inc next, parse_config CONF inc (called_include (lit "classpath") g g1 w g2) next = Throw EConfig).
Proof.
  intros g g1 w g2 named G G1 G2 W. split; [|split; [|split]].
  - destruct (plain_parsed g w named G W) as [cs [P N]]. eapply parsed_asks; eauto.
  - destruct (called_parsed (lit "file") KFile g g1 w g2 named ltac:(left; reflexivity) G G1 G2 W) as [cs [P N]]. eapply parsed_asks; eauto.
  - intros inc next. destruct (called_parsed (lit "url") KUrl g g1 w g2 named ltac:(right; left; reflexivity) G G1 G2 W) as [cs [P N]]. unfold parse_config. rewrite P. cbn [bind]. rewrite (included_root inc cs KUrl named next N). reflexivity.
  - intros inc next. destruct (called_parsed (lit "classpath") KClasspath g g1 w g2 named ltac:(right; right; left; reflexivity) G G1 G2 W) as [cs [P N]]. unfold parse_config. rewrite P. cbn [bind]. rewrite (included_root inc cs KClasspath named next N). reflexivity.
Qed.

(** ** Other names than these *)
Definition inside (c : ascii) : Prop := mem c not_in_unquoted_text = false /\ is_whitespace c = false /\ forall s, start_of_comment true c s = false.
Lemma word_pulled : forall u res r, Forall inside u -> ends_any r -> (forall x a b, In x [lit "true"; lit "null"; lit "false"] -> a ++ b = u -> res ++ a = x -> a = []) -> pull_unquoted_text true res (u ++ r) = (TUnquoted (res ++ u), r).
Proof.
  induction u as [|c u IH]; intros res r F E N.
  - rewrite app_nil_r. cbn [app]. destruct r as [|c r]; [reflexivity|]. cbn [pull_unquoted_text]. cbn [ends_any] in E. rewrite E. reflexivity.
  - inversion F as [|? ? [I1 [I2 I3]] F']; subst. cbn [app pull_unquoted_text]. rewrite I1, I2, I3. cbn [orb].
    assert (X : forall x, In x [lit "true"; lit "null"; lit "false"] -> str_eqb (res ++ [c]) x = false).
    { intros x Ix. destruct (str_eqb (res ++ [c]) x) eqn:Eq; [|reflexivity]. apply str_eqb_eq in Eq. discriminate (N x [c] u Ix eq_refl Eq). }
    rewrite !X by (cbn; auto). rewrite IH; [rewrite <- app_assoc; reflexivity|exact F'|exact E|].
    intros x a b Ix Ea Er. destruct a as [|d a]; [reflexivity|]. exfalso. rewrite <- app_assoc in Er. cbn [app] in Er. specialize (N x (c :: d :: a) b Ix (f_equal (cons c) Ea) Er). discriminate N.
Qed.
Lemma letters_inside : forall c, isalpha c = true -> inside c.
Proof.
  intros c H. pose proof (forall_byte (fun c => implb (isalpha c) (negb (mem c not_in_unquoted_text) && negb (is_whitespace c) && negb (Ascii.eqb c "/") && negb (Ascii.eqb c "#"))) ltac:(vm_compute; reflexivity) c) as K. cbv beta in K. rewrite H in K. cbn [implb] in K.
  repeat (apply andb_true_iff in K; destruct K as [K ?]). repeat match goal with X : negb _ = true |- _ => apply negb_true_iff in X end. repeat split; try assumption.
  intro s. unfold start_of_comment. destruct (Ascii.eqb c "#") eqn:?; [congruence|]. destruct (Ascii.eqb c "/") eqn:?; [congruence|]. destruct s; reflexivity.
Qed.
Lemma call_read : forall f, f <> [] -> Forall (fun c => isalpha c = true) f -> (forall x b, In x [lit "true"; lit "null"; lit "false"] -> f <> x ++ b) -> forall r, ends_any r -> reads' (TUnquoted (f ++ lit "(")) r.
Proof.
  intros f N F Kw r E. apply reads_fuel. destruct f as [|c f]; [congruence|]. split; [discriminate|]. split; [discriminate|]. intros n ws ls. cbn [token_text].
  assert (Fi : Forall inside ((c :: f) ++ lit "(")).
  { apply Forall_app. split; [eapply Forall_impl; [|exact F]; exact letters_inside|]. constructor; [|constructor]. repeat split. }
  assert (P : pull_unquoted_text true [] (((c :: f) ++ lit "(") ++ r) = (TUnquoted ((c :: f) ++ lit "("), r)).
  { apply (word_pulled _ [] r Fi E). intros x a b Ix Ea Er. cbn [app] in Er. subst a. exfalso.
    destruct (List.rev b) as [|d b'] eqn:Rb.
    - apply (f_equal (@List.rev ascii)) in Rb. rewrite rev_involutive in Rb. subst b. rewrite app_nil_r in Ea. assert (X : In "("%char x) by (rewrite Ea; apply in_or_app; right; left; reflexivity). cbn in Ix. destruct Ix as [<-|[<-|[<-|[]]]]; cbn in X; intuition discriminate.
    - apply (f_equal (@List.rev ascii)) in Rb. rewrite rev_involutive in Rb. cbn [List.rev] in Rb. subst b. rewrite app_assoc in Ea. change (lit "(") with ["("%char] in Ea. apply app_inj_tail in Ea. destruct Ea as [Ea _]. exact (Kw x _ Ix (eq_sym Ea)). }
  inversion F as [|? ? Hc F']; subst. clear F. pose proof (letters_inside c Hc) as [I1 [I2 I3]].
  pose proof (forall_byte (fun c => implb (isalpha c) (negb (is_whitespace_not_newline c) && negb (Ascii.eqb c nl) && negb (mem c first_number_chars))) ltac:(vm_compute; reflexivity) c) as K. cbv beta in K. rewrite Hc in K. cbn [implb] in K.
  repeat (apply andb_true_iff in K; destruct K as [K ?]). repeat match goal with X : negb _ = true |- _ => apply negb_true_iff in X end.
  cbn [app] in P |- *. cbn [pull_next_token next_char_after_whitespace]. rewrite K. cbv iota. rewrite H0, I3. rewrite !(not_in_unquoted_eqb c) by (try exact I1; reflexivity). rewrite H, I1. rewrite P. reflexivity.
Qed.
Lemma other_form : forall f g g1 w g2 named inc next, f <> [] -> Forall (fun c => isalpha c = true) f -> (forall x b, In x [lit "true"; lit "null"; lit "false"] -> f <> x ++ b) -> ~ In f [lit "file"; lit "url"; lit "classpath"] ->
  blank_text g = true -> maybe_blank g1 -> maybe_blank g2 -> Escape_Spec.stands_for w named -> parse_config CONF inc (called_include f g g1 w g2) next = Throw EParse.
Proof.
  intros f g g1 w g2 named inc next N F Kw O G G1 G2 W. unfold parse_config. rewrite (called_lexed f g g1 w g2 named (call_read f N F Kw) G G1 G2 W).
  assert (Nk : include_kind_of (f ++ lit "(") = None).
  { unfold include_kind_of. assert (X : forall y, In y [lit "file"; lit "url"; lit "classpath"] -> str_eqb (f ++ lit "(") (y ++ lit "(") = false). { intros y Iy. apply str_eqb_neq. intro Z. change (lit "(") with ["("%char] in Z. apply app_inj_tail in Z. destruct Z as [-> _]. exact (O Iy). }
    change (lit "url(") with (lit "url" ++ lit "("). change (lit "file(") with (lit "file" ++ lit "("). change (lit "classpath(") with (lit "classpath" ++ lit "("). rewrite !X by (cbn; auto). reflexivity. }
  rewrite (statement_refused _ EParse); [reflexivity|]. unfold Doc_Model.parse_include.
  assert (Wf : is_unquoted_whitespace (TUnquoted (f ++ lit "(")) = false). { destruct f as [|c f]; [congruence|]. inversion F as [|? ? Hc _]; subst. cbn [app is_unquoted_whitespace forallb]. destruct (letters_inside c Hc) as [_ [-> _]]. reflexivity. }
  pose proof (gap_collect g (TUnquoted (f ++ lit "(")) (inner g1 w g2 named ++ [TEnd]) (or_intror G) Wf I) as C. destruct g as [|c g]; [discriminate G|]. cbn [gap app] in C |- *. rewrite C. cbn [bind]. rewrite Nk. reflexivity.
Qed.
