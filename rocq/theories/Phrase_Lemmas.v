(** Several words, strings and numbers on a line are read as one string. *)
From Verif Require Import Base BaseLemmas Util_Model Num_Model Path_Model Path_Spec Path_Lemmas Token_Model Token_Spec Token_Lemmas Token_Lemmas2 PathParser_Model PathParser_Spec PathParser_Lemmas PathParser_Lemmas2 PathParser_Lemmas3 Doc_Model Doc_Lemmas Edit_Model
  Value_Model Value_Spec Value_Lemmas Concat_Model ConfigParser_Model Json_Lemmas2 Render_Lemmas3 JsonEdit_Lemmas JsonEdit_Lemmas2 JsonEdit_Lemmas7 JsonEdit_Spec ConfEdit_Spec ConfEdit_Lemmas6 ConfEdit_Lemmas7 ConfText_Spec ConfText_Lemmas ConfText_Lemmas2 ConfText_Lemmas3 ConfText_Lemmas4 ConfText_Lemmas5 ConfText_Lemmas6
  ConfText_Lemmas7 ConfText_Lemmas8 ConfText_Lemmas11 ConfText_Lemmas12 RenderConf_Lemmas RenderConf_Lemmas2 RenderConf_Lemmas3 Escape_Spec Round_Spec Rfc_Spec Rfc_Spec3 Rfc_Lemmas Rfc_Lemmas2 Rfc_Lemmas6 Rfc_Lemmas7 Rfc_Lemmas8 Hocon_Spec Hocon_Lemmas.
From Verif Require Rfc_Lemmas5.

(** ** Values of one token *)
Lemma escaped_no_nul : forall w s, Escape_Spec.stands_for w s -> no_nul w.
Proof.
  assert (Hx : forall c d, hex_digit c d -> c <> ch 0).
  { intros c d [[H _]|[H _]] ->; apply nth_error_In in H; cbn in H; intuition discriminate. }
  intros w s H. induction H as [|c w v B Q1 Q2 H IH|e c w v I H IH|c1 c2 c3 c4 d1 d2 d3 d4 bs w v H1 H2 H3 H4 z Z1 Z2 E H IH]; intro K.
  - exact K.
  - destruct K as [K|K]; [subst c; vm_compute in B; destruct B; congruence|exact (IH K)].
  - destruct K as [K|[K|K]]; [discriminate| |exact (IH K)]. subst e. cbn in I. intuition discriminate.
  - destruct K as [K|[K|[K|[K|[K|[K|K]]]]]]; try discriminate; try (exact (IH K)); first [exact (Hx _ _ H1 K)|exact (Hx _ _ H2 K)|exact (Hx _ _ H3 K)|exact (Hx _ _ H4 K)].
Qed.
Lemma quotes_no_nul : forall w s, Escape_Spec.stands_for w s -> no_nul (between_quotes w).
Proof. intros w s H. unfold no_nul, between_quotes. cbn [app]. intros [K|K]; [discriminate|]. apply in_app_or in K. destruct K as [K|[K|[]]]; [exact (escaped_no_nul w s H K)|discriminate]. Qed.
(** ** Simple tokens *)
Definition simply (t : token) : Prop := match t with TUnquoted _ | TValue _ _ => True | _ => False end.
Lemma simply_loop : forall ts, Forall simply ts -> forall fuel k g x r', ConfText_Lemmas3.gap g -> fin x = true -> (List.length (ts ++ g) < k)%nat ->
  loop_list (Doc_Model.parse_value (S fuel) CONF LEnd) k (ts ++ g ++ x :: r') = Ok (map NSimple ts ++ map NTok g, List.length ts, x, r').
Proof.
  intros ts F. induction F as [|t ts H F IH]; intros fuel k g x r' G Fx Lk.
  - apply loop_base; assumption.
  - cbn [app List.length] in Lk. destruct k as [|k]; [lia|]. specialize (IH fuel k g x r' G Fx ltac:(lia)).
    cbn [app map List.length]. cbn [loop_list consolidate_loop].
    assert (Q : ('(v, r) <- Doc_Model.parse_value (S fuel) CONF LEnd t (ts ++ g ++ x :: r') ;; '(t', r') <- next_token CONF LEnd r ;; '(vs, c, t'', r'') <- consolidate_loop (Doc_Model.parse_value (S fuel) CONF LEnd) CONF LEnd k t' r' ;; Ok (v :: vs, S c, t'', r'')) = Ok (NSimple t :: map NSimple ts ++ map NTok g, S (List.length ts), x, r')).
    { assert (P : Doc_Model.parse_value (S fuel) CONF LEnd t (ts ++ g ++ x :: r') = Ok (NSimple t, ts ++ g ++ x :: r')) by (destruct t; try contradiction; reflexivity).
      rewrite P. cbn [bind]. unfold loop_list in IH. destruct (ts ++ g ++ x :: r') as [|y z]; [discriminate|]. rewrite next_conf. cbn [bind]. rewrite IH. reflexivity. }
    destruct t; try contradiction; exact Q.
Qed.
Lemma simply_text : forall ts, render_tokens ts = render_node (NConcat (map NSimple ts)).
Proof. intro ts. unfold render_node. cbn [node_tokens]. f_equal. induction ts as [|t ts IH]; [reflexivity|]. cbn [map flat_map]. rewrite <- IH. reflexivity. Qed.
Lemma simply_value : forall ts, (2 <= List.length ts)%nat -> Forall simply ts -> (forall k r, neutral r -> spelt k ts r) -> solid (hd TEnd ts) = true -> solid (List.last ts TEnd) = true -> value_ok (NConcat (map NSimple ts)) ts.
Proof.
  intros ts L F Sp S1 S2. split; [apply simply_text|]. destruct ts as [|t ts]; [cbn in L; lia|]. cbn [hd] in S1.
  assert (La : is_comment (List.last (t :: ts) TEnd) = false).
  { destruct (exists_last (l := t :: ts) ltac:(discriminate)) as [init [z El]]. rewrite El in *. apply Forall_app in F. destruct F as [_ Fl]. inversion Fl; subst. rewrite last_last. destruct z; try contradiction; reflexivity. }
  inversion F as [|? ? Ht F']; subst. split; [|split; [destruct t; try contradiction; reflexivity|split; [destruct t; try contradiction; discriminate|]]].
  - split; [exact Sp|]. split; [discriminate|]. split; [exact S1|split; assumption].
  - intros fuel r St Lf. destruct fuel as [|fuel]; [cbn in Lf; lia|]. destruct (stop_inv _ St) as [g [x [r' [-> [G Fx]]]]]. exists (NConcat (map NSimple (t :: ts))). split; [|split; reflexivity].
    unfold consolidate_values. cbn [app]. rewrite (collect_solid t) by (try exact S1; destruct t; try contradiction; reflexivity || discriminate). cbn [bind].
    pose proof (simply_loop (t :: ts) F fuel (S (List.length (ts ++ g ++ x :: r'))) g x r' G Fx ltac:(cbn [app List.length]; rewrite !app_length; cbn [List.length]; lia)) as E. cbn [app loop_list] in E. rewrite E. cbn [bind].
    assert (Lt : (List.length (t :: ts) <? 2)%nat = false) by (apply Nat.ltb_ge; exact L). rewrite Lt.
    destruct (exists_last (l := map NSimple (t :: ts)) ltac:(discriminate)) as [core [v Ev]]. rewrite Ev.
    assert (V : is_value_node v = true). { assert (I : In v (map NSimple (t :: ts))) by (rewrite Ev; apply in_or_app; right; left; reflexivity). apply in_map_iff in I. destruct I as [y [<- _]]. reflexivity. }
    rewrite put_back_gap by assumption. reflexivity.
Qed.

(** ** Parts *)
Lemma leaf_chunk : forall j t, leaf_token j t -> value_ok (NSimple t) [t].
Proof.
  intros j t L. pose proof (reads_leaf true j t [] L) as R. assert (D : delimited []) by (split; exact I). specialize (R D). clear D.
  apply token_ok; [exact R| | | |intros ->; inversion L|intros ->; inversion L]; destruct L as [|b|w s F|v c more n x Dn F M T]; try reflexivity.
  - intro E. cbn in E. intuition discriminate.
  - intro E. destruct b; cbn in E; intuition discriminate.
  - exact (quotes_no_nul w s F).
  - apply number_no_nul; assumption.
Qed.
Lemma bare_facts : forall c, bare_char c -> is_whitespace_not_newline c = false /\ is_whitespace c = false /\ Ascii.eqb c nl = false /\ mem c not_in_unquoted_text = false /\ c <> ch 0.
Proof.
  intros c [[H1 H2] H3].
  pose proof (forall_byte (fun c => implb ((33 <=? N_of_ascii c)%N && negb (mem c not_in_unquoted_text)) (negb (is_whitespace_not_newline c) && negb (is_whitespace c) && negb (Ascii.eqb c nl) && negb (Ascii.eqb c (ch 0)))
    || (127 <=? N_of_ascii c)%N) ltac:(vm_compute; reflexivity) c) as F. cbv beta in F.
  assert (M : mem c not_in_unquoted_text = false).
  { apply not_true_iff_false. intro K. apply H3. apply existsb_exists in K. destruct K as [x [Ix Ex]]. apply Ascii.eqb_eq in Ex. subst x. cbn in Ix |- *. tauto. }
  rewrite M in F. assert (A : (33 <=? N_of_ascii c)%N = true) by (apply N.leb_le; exact H1). assert (B : (127 <=? N_of_ascii c)%N = false) by (apply N.leb_gt; lia). rewrite A, B in F. cbn [andb negb implb orb] in F. rewrite orb_false_r in F.
  rewrite !andb_true_iff, !negb_true_iff in F. destruct F as [[[F1 F2] F3] F4]. repeat (split; [assumption|]). apply Ascii.eqb_neq, F4.
Qed.
Lemma bare_comment : forall c u, bare_char c -> (forall a b, c :: u <> a ++ lit "//" ++ b) -> start_of_comment true c u = false.
Proof.
  intros c u H N. destruct (bare_facts c H) as [_ [_ [_ [M _]]]]. unfold start_of_comment. rewrite (not_in_unquoted_eqb c "#") by (try exact M; reflexivity). cbn [andb orb].
  destruct (Ascii.eqb_spec c "/") as [->|]; [|reflexivity]. destruct u as [|d u]; [reflexivity|]. destruct (Ascii.eqb_spec d "/") as [->|]; [|reflexivity]. exfalso. apply (N [] u). reflexivity.
Qed.
Lemma pull_bare : forall u res, Forall bare_char u -> (forall a b, u <> a ++ lit "//" ++ b) ->
  (forall a x, In x [lit "true"; lit "false"; lit "null"] -> a <> [] -> (exists b, u = a ++ b) -> res ++ a <> x) -> pull_unquoted_text true res u = (TUnquoted (res ++ u), []).
Proof.
  induction u as [|c u IH]; intros res F N L; [cbn; rewrite app_nil_r; reflexivity|]. inversion F as [|? ? Hc F']; subst. cbn [pull_unquoted_text].
  destruct (bare_facts c Hc) as [_ [Hw [_ [Hm _]]]]. rewrite Hm, Hw, bare_comment by assumption. cbn [orb].
  assert (Hn : forall x, In x [lit "true"; lit "false"; lit "null"] -> str_eqb (res ++ [c]) x = false) by (intros x Hx; apply str_eqb_neq, L; [exact Hx|discriminate|exists u; reflexivity]).
  rewrite !Hn by (cbn; tauto). rewrite IH; [rewrite <- app_assoc; reflexivity|exact F'| |].
  - intros a b E. apply (N (c :: a) b). rewrite E. reflexivity.
  - intros a x Hx Ha [b ->]. rewrite <- app_assoc. apply L; [exact Hx|discriminate|exists b; reflexivity].
Qed.
Lemma bare_ok : forall s, bare_word s -> value_ok (NSimple (TUnquoted s)) [TUnquoted s].
Proof.
  intros s [N [F [C [D K]]]]. apply token_ok; try reflexivity; try discriminate.
  - split; [exact N|]. split; [discriminate|]. intros n ws ls. cbn [token_text]. rewrite app_nil_r. destruct s as [|c u]; [congruence|]. inversion F as [|? ? Hc _]; subst. cbn [hd] in D.
    destruct (bare_facts c Hc) as [Hwn [_ [Hnl [Hm _]]]]. cbn [pull_next_token next_char_after_whitespace]. rewrite Hwn. cbv iota. rewrite Hnl, bare_comment by assumption. rewrite !(not_in_unquoted_eqb c) by (try exact Hm; reflexivity).
    assert (Fd : mem c first_number_chars = false). { apply not_true_iff_false. intro X. apply D. apply existsb_exists in X. destruct X as [x [Ix Ex]]. apply Ascii.eqb_eq in Ex. subst x. exact Ix. }
    rewrite Fd, Hm. rewrite (pull_bare (c :: u) [] F C); [reflexivity|]. intros a x Hx _ [b E] Ea. cbn [app] in Ea. subst a. exact (K x b Hx E).
  - intro I. rewrite Forall_forall in F. apply F in I. destruct (bare_facts _ I) as [_ [_ [_ [_ X]]]]. apply X. reflexivity.
Qed.
(** ** Strings in three quotes *)
Lemma ends_three : forall p : str, (exists a, p = a ++ three_quotes) -> firstn (List.length p - 3) p ++ three_quotes = p.
Proof.
  intros p [a ->]. rewrite app_length. cbn [three_quotes List.length]. replace (List.length a + 3 - 3)%nat with (List.length a) by lia. rewrite firstn_app, Nat.sub_diag, firstn_all. cbn [firstn]. rewrite app_nil_r. reflexivity.
Qed.
Lemma triple_read : forall x q p o, (exists a, p = a ++ repeat (ch 34) q) -> Rfc_Lemmas5.at_most q p -> Rfc_Lemmas5.tidy (p ++ x) -> (exists a, p ++ x = a ++ three_quotes) ->
  append_triple_quoted_string q p o x = Ok (firstn (List.length (p ++ x) - 3) (p ++ x), o ++ x, []).
Proof.
  induction x as [|c x IH]; intros q p o [a A] Am T E; cbn [append_triple_quoted_string].
  - rewrite !app_nil_r in *. destruct E as [b E]. assert (Q : (3 <=? q)%nat = true) by (apply Nat.leb_le, (Am 3%nat b); exact E). rewrite Q. reflexivity.
  - replace (p ++ c :: x) with ((p ++ [c]) ++ x) in * by (rewrite <- app_assoc; reflexivity). replace (o ++ c :: x) with ((o ++ [c]) ++ x) by (rewrite <- app_assoc; reflexivity).
    destruct (Ascii.eqb_spec c (ch 34)) as [->|N].
    + apply IH; [exists a; rewrite A, <- app_assoc, <- repeat_cons; reflexivity|apply Rfc_Lemmas5.at_most_quote, Am|exact T|exact E].
    + destruct (3 <=? q)%nat eqn:Q.
      * exfalso. apply N. apply Nat.leb_le in Q. apply (T (a ++ repeat (ch 34) (q - 3)) c x). rewrite A. replace q with (q - 3 + 3)%nat at 1 by lia. rewrite repeat_app, <- !app_assoc. reflexivity.
      * apply IH; [exists (p ++ [c]); rewrite app_nil_r; reflexivity|apply Rfc_Lemmas5.at_most_other, N|exact T|exact E].
Qed.
Lemma raw_ok : forall t s, raw_string t s -> value_ok (NSimple (TValue (SStr s true) t)) [TValue (SStr s true) t].
Proof.
  intros t s [-> [Nn T]]. apply token_ok; try reflexivity; try discriminate.
  - split; [discriminate|]. split; [discriminate|]. intros n ws ls. cbn [token_text]. rewrite app_nil_r. change (three_quotes ++ s ++ three_quotes) with (ch 34 :: ch 34 :: ch 34 :: s ++ three_quotes) at 1.
    cbn [pull_next_token next_char_after_whitespace]. change (is_whitespace_not_newline (ch 34)) with false. cbv iota. change (Ascii.eqb (ch 34) nl) with false. cbv iota. change (start_of_comment true (ch 34) (ch 34 :: ch 34 :: s ++ three_quotes)) with false. cbv iota. rewrite Ascii.eqb_refl.
    assert (P : pull_quoted_string (ch 34 :: ch 34 :: s ++ three_quotes) = Ok (TValue (SStr s true) (three_quotes ++ s ++ three_quotes), [])).
    { unfold pull_quoted_string. cbn [quoted_loop]. change (Ascii.eqb (ch 34) (ch 92)) with false. cbv iota. rewrite Ascii.eqb_refl. cbn [bind]. rewrite Ascii.eqb_refl.
      rewrite (triple_read (s ++ three_quotes) 0 []) by (try (exists []; reflexivity); try (exists s; reflexivity); try (intros [|k] a E; [lia|destruct a; discriminate E]); exact T).
      cbn [bind app]. assert (F : firstn (List.length (s ++ three_quotes) - 3) (s ++ three_quotes) = s). { apply (app_inv_tail three_quotes). apply ends_three. exists s. reflexivity. } rewrite F. reflexivity. }
    rewrite P. reflexivity.
  - intro I. cbn [token_text] in I. rewrite !in_app_iff in I. cbn in I. intuition discriminate.
Qed.
(** A token that says [s]. *)
Definition says (t : token) (v : scalar) : Prop := simply t /\ is_simple_value t = true /\ (forall next, token_value t next = Ok (VScalar v, next)) /\ scalar_text v <> [].
Lemma part_read : forall t s, part t s -> exists k v, token_text k = t /\ says k v /\ scalar_text v = s /\ chunk [k].
Proof.
  intros t s H. destruct H as [s P|t n x N|t I|t s J Ns|t s J Ns].
  - destruct (bare_ok s P) as [_ [C _]]. exists (TUnquoted s), (SStr s false). split; [reflexivity|]. split; [split; [exact I|split; [reflexivity|split; [reflexivity|apply P]]]|]. split; [reflexivity|exact C].
  - destruct N as [c more n' x' Nm C B]. destruct (number_leaf c more n' x' Nm C B) as [v L]. destruct (leaf_chunk _ _ L) as [_ [Ch _]]. inversion L as [| | |? ? ? ? ? D]; subst. inversion D as [| |? ? ? ? X1 Tx X2 X3| | |]; subst.
    exists (TValue v (c :: more)), v. split; [reflexivity|]. split; [split; [exact I|split; [reflexivity|split; [reflexivity|rewrite Tx; discriminate]]]|]. split; [exact Tx|exact Ch].
  - assert (X : exists v, leaf_token (match v with SNull => JNull | SBool b => JBool b | _ => JNull end) (value_token v) /\ scalar_text v = t /\ (v = SNull \/ exists b, v = SBool b)).
    { destruct I as [<-|[<-|[<-|[]]]]; [exists (SBool true)|exists (SBool false)|exists SNull]; (split; [constructor|split; [reflexivity|eauto]]). }
    destruct X as [v [L [Tx Vv]]]. destruct (leaf_chunk _ _ L) as [_ [Ch _]]. exists (value_token v), v. split; [|split; [|split; [exact Tx|exact Ch]]]; [|].
    + rewrite <- Tx. destruct Vv as [->|[[] ->]]; reflexivity.
    + destruct Vv as [->|[[] ->]]; (split; [exact I0 || exact Logic.I|split; [reflexivity|split; [reflexivity|discriminate]]]).
  - destruct J as [w s S]. pose proof (leaf_string w s S) as L. destruct (leaf_chunk _ _ L) as [_ [Ch _]]. exists (string_token w s), (SStr s true). split; [reflexivity|]. split; [split; [exact I|split; [reflexivity|split; [reflexivity|exact Ns]]]|]. split; [reflexivity|exact Ch].
  - destruct (raw_ok t s J) as [_ [Ch _]]. exists (TValue (SStr s true) t), (SStr s true). split; [reflexivity|]. split; [split; [exact I|split; [reflexivity|split; [reflexivity|exact Ns]]]|]. split; [reflexivity|exact Ch].
Qed.
(** ** Phrases *)
Definition phrased (t s : str) (ts : list token) (vs : list scalar) : Prop :=
  render_tokens ts = t /\ Forall2 says ts vs /\ concat (map scalar_text vs) = s /\ ts <> [] /\ solid (hd TEnd ts) = true /\ solid (List.last ts TEnd) = true /\ forall k r, neutral r -> spelt k ts r.
Lemma part_phrased : forall t s, part t s -> exists k v, phrased t s [k] [v].
Proof.
  intros t s H. destruct (part_read t s H) as [k [v [T [Sy [Sc C]]]]]. exists k, v. pose proof C as [Sp [_ [S1 [S2 _]]]]. split; [unfold render_tokens; cbn; rewrite app_nil_r; exact T|]. split; [constructor; [exact Sy|constructor]|]. split; [cbn; rewrite app_nil_r; exact Sc|]. split; [discriminate|]. split; [exact S1|]. split; [exact S2|exact Sp].
Qed.
Lemma more_phrased : forall t s g t' s' ts vs, part t s -> blank_text g = true -> phrased t' s' ts vs -> exists k v, phrased (t ++ g ++ t') (s ++ g ++ s') (k :: TUnquoted g :: ts) (v :: SStr g false :: vs).
Proof.
  intros t s g t' s' ts vs P G [T [F [Sc [Nn [S1 [S2 Sp]]]]]]. destruct (part_read t s P) as [k [v [Tk [Sy [Sk C]]]]]. exists k, v. pose proof C as [Spk [_ [Sdk _]]]. cbn [hd] in Sdk. pose proof (blank_text_spec _ G) as B.
  split; [rewrite !render_cons', T, Tk; reflexivity|]. split; [constructor; [exact Sy|constructor; [|exact F]]|].
  { split; [exact I|]. split; [reflexivity|]. split; [reflexivity|]. destruct B as [B _]. exact B. }
  split; [cbn [map concat scalar_text]; rewrite Sk, Sc; reflexivity|]. split; [discriminate|]. split; [exact Sdk|]. split; [destruct ts as [|k2 ts]; [congruence|exact S2]|].
  intros q r Nr. apply sp_tok.
  - assert (Ng : neutral (render_tokens (TUnquoted g :: ts) ++ r)) by (rewrite render_cons', <- app_assoc; apply blank_ender, B).
    specialize (Spk q _ Ng). inversion Spk as [|? ? ? ? Rd _| | |]; subst; [exact Rd| discriminate Sdk].
  - destruct Sy as [_ [-> _]]. destruct ts as [|k2 ts]; [congruence|]. cbn [hd] in S1. inversion F as [|? ? ? ? [Sm2 [Sv2 _]] _]; subst. specialize (Sp true r Nr).
    inversion Sp as [|? ? ? ? Rd Re|? ? ? ? ? ? ? ? ?|? ? ? ? W ? ? ?|]; subst; [rewrite Sv2 in Re; apply sp_word; assumption|destruct Sm2| |destruct Sm2].
    exfalso. destruct W as [_ W]. cbn [solid] in S1. apply negb_true_iff in S1. cbn [is_unquoted_whitespace] in S1. rewrite <- not_true_iff_false in S1. apply S1. apply forallb_forall. rewrite Forall_forall in W. intros c Ic. specialize (W c Ic). unfold is_whitespace_not_newline in W. apply andb_true_iff in W. apply W.
Qed.
Lemma bare_before_quote : forall s r, bare_word s -> reads' (TUnquoted s) (ch 34 :: r).
Proof.
  intros s r [N [F [C [D K]]]]. apply reads_fuel. split; [exact N|]. split; [discriminate|]. intros n ws ls. cbn [token_text]. destruct s as [|c u]; [congruence|]. inversion F as [|? ? Hc _]; subst. cbn [hd] in D.
  assert (Cm : forall d v, bare_char d -> (forall a b, d :: v <> a ++ lit "//" ++ b) -> start_of_comment true d (v ++ ch 34 :: r) = false).
  { intros d v Hd Nd. pose proof (bare_comment d v Hd Nd) as X. unfold start_of_comment in *. destruct v as [|e v]; [|exact X]. cbn [app]. cbn [andb] in *. apply orb_false_iff in X. destruct X as [-> _]. change (Ascii.eqb (ch 34) "/") with false. rewrite andb_false_r. reflexivity. }
  destruct (bare_facts c Hc) as [Hwn [_ [Hnl [Hm _]]]]. cbn [app pull_next_token next_char_after_whitespace]. rewrite Hwn. cbv iota. rewrite Hnl, Cm by assumption. rewrite !(not_in_unquoted_eqb c) by (try exact Hm; reflexivity).
  assert (Fd : mem c first_number_chars = false). { apply not_true_iff_false. intro X. apply D. apply existsb_exists in X. destruct X as [x [Ix Ex]]. apply Ascii.eqb_eq in Ex. subst x. exact Ix. }
  rewrite Fd, Hm. 
  assert (G : forall v res, Forall bare_char v -> (forall a b, v <> a ++ lit "//" ++ b) -> (forall a x, In x [lit "true"; lit "false"; lit "null"] -> a <> [] -> (exists b, v = a ++ b) -> res ++ a <> x) ->
    pull_unquoted_text true res (v ++ ch 34 :: r) = (TUnquoted (res ++ v), ch 34 :: r)).
  { clear -Cm. induction v as [|c u IH]; intros res F N L; [cbn; rewrite app_nil_r; reflexivity|]. inversion F as [|? ? Hc F']; subst. cbn [app pull_unquoted_text].
    destruct (bare_facts c Hc) as [_ [Hw [_ [Hm _]]]]. rewrite Hm, Hw, Cm by assumption. cbn [orb].
    assert (Hn : forall x, In x [lit "true"; lit "false"; lit "null"] -> str_eqb (res ++ [c]) x = false) by (intros x Hx; apply str_eqb_neq, L; [exact Hx|discriminate|exists u; reflexivity]).
    rewrite !Hn by (cbn; tauto). rewrite IH; [rewrite <- app_assoc; reflexivity|exact F'| |].
    - intros a b E. apply (N (c :: a) b). rewrite E. reflexivity.
    - intros a x Hx Ha [b ->]. rewrite <- app_assoc. apply L; [exact Hx|discriminate|exists b; reflexivity]. }
  change (c :: u ++ ch 34 :: r) with ((c :: u) ++ ch 34 :: r). rewrite (G (c :: u) [] F C); [reflexivity|]. intros a x Hx _ [b E] Ea. cbn [app] in Ea. subst a. exact (K x b Hx E).
Qed.
Lemma letter_delimits : forall c r, isalpha c = true -> ~ In c (lit "eE") -> delimited (c :: r).
Proof.
  intros c r A E. split.
  - cbn. pose proof (forall_byte (fun c => implb (isalpha c && negb (Ascii.eqb c "e") && negb (Ascii.eqb c "E")) (negb (mem c number_chars))) ltac:(vm_compute; reflexivity) c) as F. cbv beta in F. rewrite A in F.
    destruct (Ascii.eqb_spec c "e") as [->|_]; [exfalso; apply E; left; reflexivity|]. destruct (Ascii.eqb_spec c "E") as [->|_]; [exfalso; apply E; right; left; reflexivity|]. cbn [negb andb implb] in F. apply negb_true_iff in F. exact F.
  - cbn. intros ->. discriminate A.
Qed.
Lemma touch_phrased : forall k v t' s' ts vs, says k v -> solid k = true -> (forall r, reads' k (t' ++ r)) -> phrased t' s' ts vs -> phrased (token_text k ++ t') (scalar_text v ++ s') (k :: ts) (v :: vs).
Proof.
  intros k v t' s' ts vs Sy Sd R [T [F [Sc [Nn [S1 [S2 Sp]]]]]]. split; [rewrite render_cons', T; reflexivity|]. split; [constructor; assumption|]. split; [cbn [map concat]; rewrite Sc; reflexivity|]. split; [discriminate|]. split; [exact Sd|].
  split; [destruct ts as [|k2 ts]; [congruence|exact S2]|]. intros q r Nr. apply sp_tok; [rewrite T; apply R|]. apply Sp, Nr.
Qed.
Lemma lead_phrased : forall t s t' s' ts vs, lead t s t' -> phrased t' s' ts vs -> exists k v ts0 vs0, phrased (t ++ t') (s ++ s') (k :: ts0) (v :: vs0) /\ ts0 <> [].
Proof.
  intros t s t' s' ts vs L Ph. assert (Nn : ts <> []) by apply Ph. destruct L as [t s g next P G|t n x next N [c [r [-> [A E]]]]|t s next J Ns [c [r [-> [A E]]]]|t r B].
  - destruct (more_phrased t s g next s' ts vs P G Ph) as [k [v K]]. rewrite <- !app_assoc. exists k, v, (TUnquoted g :: ts), (SStr g false :: vs). split; [exact K|discriminate].
  - destruct N as [c0 more n' x' Nm C0 B]. destruct (number_leaf c0 more n' x' Nm C0 B) as [v L]. pose proof (fun r' => reads_leaf true _ _ ((c :: r) ++ r') L (letter_delimits c (r ++ r') A E)) as R. inversion L as [| | |? ? ? ? ? D]; subst. inversion D as [| |? ? ? ? X1 Tx X2 X3| | |]; subst.
    assert (Sy : says (TValue v (c0 :: more)) v) by (split; [exact I|split; [reflexivity|split; [reflexivity|rewrite Tx; discriminate]]]).
    pose proof (touch_phrased (TValue v (c0 :: more)) v (c :: r) s' ts vs Sy eq_refl (fun r' => reads_fuel _ _ (R r')) Ph) as K. rewrite Tx in K. exists (TValue v (c0 :: more)), v, ts, vs. split; [exact K|exact Nn].
  - destruct J as [w s S]. assert (Sy : says (string_token w s) (SStr s true)) by (split; [exact I|split; [reflexivity|split; [reflexivity|exact Ns]]]).
    exists (string_token w s), (SStr s true), ts, vs. split; [|exact Nn]. apply (touch_phrased (string_token w s) (SStr s true) (c :: r) s' ts vs Sy eq_refl); [|exact Ph].
    intro r'. apply reads_fuel, reads_escaped; [exact S|]. apply (letter_delimits c (r ++ r') A E).
  - assert (Sy : says (TUnquoted t) (SStr t false)) by (split; [exact I|split; [reflexivity|split; [reflexivity|apply B]]]).
    exists (TUnquoted t), (SStr t false), ts, vs. split; [|exact Nn]. apply (touch_phrased (TUnquoted t) (SStr t false) (ch 34 :: r) s' ts vs Sy); [|intro r'; apply (bare_before_quote t (r ++ r') B)|exact Ph].
    destruct (bare_ok t B) as [_ [[_ [_ [Sd _]]] _]]. exact Sd.
Qed.
Lemma phrase_phrased : forall t s, phrase t s -> exists ts vs, phrased t s ts vs.
Proof.
  intros t s H. induction H as [t s P|t s t' s' L H [ts [vs IH]]]; [destruct (part_phrased t s P) as [k [v K]]; eauto|]. destruct (lead_phrased t s t' s' ts vs L IH) as [k [v [ts0 [vs0 [K _]]]]]. eauto.
Qed.
(** ** Their value *)
Lemma join_scalars : forall a b, scalar_text a <> [] -> scalar_text b <> [] -> join_values (VScalar a) (VScalar b) = Ok (Some (VScalar (SStr (scalar_text a ++ scalar_text b) true))).
Proof.
  intros a b A B. unfold join_values. cbn [is_object is_list andb bind is_concat is_unmergeable orb transform_to_string]. destruct (scalar_text a); [congruence|]. destruct (scalar_text b); [congruence|]. reflexivity.
Qed.
Lemma join_phrase : forall vs a, scalar_text a <> [] -> Forall (fun v => scalar_text v <> []) vs -> vs <> [] -> join_all [VScalar a] (map VScalar vs) = Ok [VScalar (SStr (scalar_text a ++ concat (map scalar_text vs)) true)].
Proof.
  induction vs as [|v vs IH]; intros a A F N; [congruence|]. inversion F as [|? ? V F']; subst. cbn [map join_all]. rewrite join_scalars by assumption. cbn [bind].
  destruct vs as [|v2 vs]; [cbn; rewrite app_nil_r; reflexivity|]. rewrite IH; [cbn [scalar_text map concat]; rewrite <- app_assoc; reflexivity| |exact F'|discriminate].
  cbn [scalar_text]. destruct (scalar_text a); [congruence|discriminate].
Qed.
Lemma says_values : forall inc ts vs, Forall2 says ts vs -> forall st ac next, parse_values (ConfigParser_Model.parse_value CONF inc) (map NSimple ts) st ac next = Ok (map VScalar vs, next).
Proof.
  intros inc ts vs F. induction F as [|t v ts vs [_ [_ [V _]]] F IH]; intros st ac next; [reflexivity|]. cbn [map parse_values is_value_node ConfigParser_Model.parse_value]. rewrite V. cbn [bind]. rewrite IH. reflexivity.
Qed.
Lemma flat_scalars : forall vs, flattened (map VScalar vs) = map VScalar vs.
Proof. intro vs. unfold flattened. induction vs as [|v vs IH]; [reflexivity|]. cbn [map flat_map app]. rewrite IH. reflexivity. Qed.
Lemma phrase_value : forall t s t' s' inc, lead t s t' -> phrase t' s' -> exists n ts, value_ok n ts /\ render_tokens ts = t ++ t' /\ is_value_node n = true /\
  forall st ac next, ConfigParser_Model.parse_value CONF inc n st ac next = Ok (VScalar (SStr (s ++ s') true), next).
Proof.
  intros t s t' s' inc P H. destruct (phrase_phrased t' s' H) as [ts' [vs' Ph]]. destruct (lead_phrased t s t' s' ts' vs' P Ph) as [k [v [ts0 [vs0 [K Nt]]]]]. clear Ph. set (ts := k :: ts0) in *. set (vs := v :: vs0) in *.
  destruct K as [T [F [Sc [_ [S1 [S2 Sp]]]]]]. exists (NConcat (map NSimple ts)), ts. split; [|split; [exact T|split; [reflexivity|]]].
  - apply simply_value; [destruct ts0; [congruence|cbn; lia]| |exact Sp|exact S1|exact S2]. clear -F. induction F as [|a b la lb [X _] F IH]; constructor; assumption.
  - intros st ac next. cbn [ConfigParser_Model.parse_value]. rewrite (says_values inc ts vs F st ac next). cbn [bind].
    assert (Nn : Forall (fun v => scalar_text v <> []) vs) by (clear -F; induction F as [|a b la lb [_ [_ [_ X]]] F IH]; constructor; assumption).
    assert (Nv0 : vs0 <> []) by (unfold ts, vs in F; inversion F as [|? ? ? ? _ F0]; subst; inversion F0; subst; congruence).
    unfold concatenate, consolidate. rewrite flat_scalars. unfold vs in *.
    inversion Nn as [|? ? Nv Nn']; subst. change (join_all [] (map VScalar (v :: vs0))) with (join_all [VScalar v] (map VScalar vs0)). rewrite join_phrase by assumption. cbn [bind].
    change (scalar_text v ++ concat (map scalar_text vs0)) with (concat (map scalar_text (v :: vs0))). rewrite Sc. destruct vs0; [congruence|reflexivity].
Qed.
