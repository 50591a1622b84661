(** Path texts of edits of HOCON documents. *)
From Verif Require Import Base BaseLemmas Util_Model Num_Model Path_Model Path_Spec Path_Lemmas Token_Model Token_Spec Token_Lemmas Token_Lemmas2 PathParser_Model PathParser_Spec PathParser_Lemmas PathParser_Lemmas2 PathParser_Lemmas3 Doc_Model Doc_Lemmas Edit_Model Value_Model Value_Spec Value_Lemmas Concat_Model ConfigParser_Model Json_Lemmas2 Render_Lemmas3 JsonEdit_Lemmas JsonEdit_Lemmas2 JsonEdit_Lemmas5 JsonEdit_Lemmas6 JsonEdit_Lemmas7 JsonEdit_Spec ConfEdit_Spec ConfText_Spec ConfText_Lemmas ConfText_Lemmas2 ConfText_Lemmas3 ConfText_Lemmas5 ConfText_Lemmas7 ConfText_Lemmas11.

(** ** Keys in quotes *)
Lemma reads_dot' : forall r, Render_Lemmas3.reads true dot_token (ch 34 :: r).
Proof. intro r. split; [discriminate|]. split; [discriminate|]. intros n ws ls. reflexivity. Qed.
Lemma quoted_lexes' : forall p ls, p <> [] -> Forall (Forall quotable) p -> Render_Lemmas3.lexes true ls (quoted_path p) (key_tokens quoted_key p).
Proof.
  induction p as [|k p IH]; intros ls N Q; [congruence|]. inversion Q as [|? ? Qk Qp]; subst. cbn [quoted_path key_tokens]. unfold quoted_key at 1.
  change (render_json_string k) with (token_text (TValue (SStr k true) (render_json_string k))) at 1. destruct p as [|k2 p].
  - apply lex_one; [apply reads_string; [exact Qk|exact I]|apply lexes_nil].
  - apply lex_one; [apply reads_string; [exact Qk|cbn; discriminate]|]. change (lit ".") with (token_text dot_token). apply lex_one; [|apply IH; [discriminate|exact Qp]]. cbn [quoted_path render_json_string app]. apply reads_dot'.
Qed.
Lemma quoted_buff' : forall p b acc, p <> [] -> path_tokens_loop true CONF (([], false) :: b) acc (key_tokens quoted_key p) = Ok (rev (map (fun k => (k, match k with [] => true | _ => false end)) p) ++ b, acc ++ key_tokens quoted_key p).
Proof.
  induction p as [|k p IH]; intros b acc N; [congruence|]. cbn [key_tokens quoted_key path_tokens_loop add_path_text app map rev]. destruct p as [|k2 p].
  - cbn [path_tokens_loop map rev app]. rewrite <- app_assoc. reflexivity.
  - cbn [path_tokens_loop dot_token]. change (add_path_text ((k, false || match k with [] => true | _ => false end) :: b) false (lit ".")) with (([], false) :: (k ++ [], false || match k with [] => true | _ => false end) :: b).
    rewrite IH by discriminate. rewrite app_nil_r. cbn [orb]. rewrite <- !app_assoc. cbn [app]. reflexivity.
Qed.
Lemma quoted_parse' : forall (p : path), p <> [] -> Forall (Forall quotable) p -> parse_path_node (quoted_path p) CONF = Ok (key_node quoted_key p).
Proof.
  intros p N Q. unfold parse_path_node, lex. change saver_init with (@nil ascii, false). rewrite (quoted_lexes' p false N Q) by lia. cbn [delivered]. unfold parse_path_expression.
  assert (X : key_tokens quoted_key p <> []) by (destruct p; [congruence|discriminate]). destruct (key_tokens quoted_key p) eqn:E; [congruence|]. rewrite <- E. rewrite quoted_buff' by exact N. cbn [bind raise_end]. rewrite app_nil_r, rev_involutive, quoted_build. cbn [bind app].
  rewrite builder_result_spec, fold_append_key, app_nil_r, rev_involutive. reflexivity.
Qed.
(** A key of one token. *)
Lemma one_chunk : forall t, Render_Lemmas3.reads true t [] -> no_nul (token_text t) -> is_comment t = false -> chunk [t].
Proof.
  intros t R0 N C. pose proof (reads_fuel _ _ R0) as R. pose proof (reads_solid _ _ R) as S. split; [|split; [discriminate|split; [exact S|split; [exact S|exact C]]]].
  intros k r Nr. apply (spelt_moved k [t] [] (sp_tok k t [] [] R (sp_nil _ _)) [] t r eq_refl S C); [|exact Nr]. cbn. rewrite !app_nil_r. exact N.
Qed.
Lemma quoted_text : forall k, Forall quotable k -> no_nul (render_json_string k).
Proof.
  assert (C : forall c, quotable c -> no_nul (render_json_char c)).
  { intros c Q. apply quotable_b_spec in Q. pose proof (forall_byte (fun c => implb (quotable_b c) (forallb (fun x => negb (Ascii.eqb x (ch 0))) (render_json_char c))) ltac:(vm_compute; reflexivity) c) as K. cbv beta in K. rewrite Q in K. cbn [implb] in K.
    intro I. rewrite forallb_forall in K. specialize (K _ I). discriminate K. }
  intros k F I. unfold render_json_string in I. apply in_app_or in I. destruct I as [[I|[]]|I]; [discriminate|]. apply in_app_or in I. destruct I as [I|[I|[]]]; [|discriminate]. induction F as [|c k Q F IH]; [destruct I|]. cbn [map concat] in I. apply in_app_or in I. destruct I as [I|I]; [exact (C _ Q I)|exact (IH I)].
Qed.
Lemma render_end : forall t tl, tl = [] \/ tl = [TEnd] -> render_tokens [t] = render_tokens (t :: tl).
Proof. intros t tl [-> | ->]; [reflexivity|]. cbn. reflexivity. Qed.
Lemma quoted_sure : forall k, Forall quotable k -> sure quoted_key k.
Proof.
  intros k Q. split; [reflexivity|]. intros tl T. exists [quoted_key k], ([k], [quoted_key k]). split; [apply render_end, T|]. split; [|split; [repeat constructor|split; [reflexivity|]]].
  - apply one_chunk; try reflexivity; [apply reads_string; [exact Q|exact I]|apply quoted_text, Q].
  - split; [|split; [reflexivity|discriminate]]. unfold parse_path_expression, quoted_key. cbn [path_tokens_loop add_path_text app bind rev]. destruct k; reflexivity.
Qed.

(** ** Keys without quotes *)
Lemma reads_word' : forall c u, Forall (fun c => Uc c = true) (c :: u) -> word_run (c :: u) -> Render_Lemmas3.reads true (TUnquoted (c :: u)) [].
Proof.
  intros c u Hu Hw. split; [discriminate|]. split; [discriminate|]. intros n ws ls. cbn [token_text]. rewrite app_nil_r.
  inversion Hu as [|x y Hc Hu']; subst. pose proof (Uc_facts c Hc) as [Hwn [Hww [Hnl [_ [_ Hm]]]]].
  cbn [pull_next_token next_char_after_whitespace]. rewrite Hwn. cbv iota. rewrite Hnl, Uc_comment by exact Hc. rewrite !(not_in_unquoted_eqb c) by (try exact Hm; reflexivity).
  destruct Hw as [Hf Hl]. rewrite Hf, Hm. rewrite <- (app_nil_r (c :: u)) at 1. rewrite pull_unquoted_all; [reflexivity|exact Hu|exact I|].
  intros a x Hx Ha [b Hb] Hax. cbn [app] in Hax. subst a. eapply Hl; eassumption.
Qed.
Lemma plain_split' : forall p c u, p <> [] -> Forall plain_key p -> dotted p = c :: u -> c <> "."%char -> split_token_on_period (TUnquoted (dotted p)) CONF ++ [TEnd] = key_tokens TUnquoted p.
Proof.
  intros p c u N F E Nc. unfold split_token_on_period. cbn [token_text].
  assert (X : str_eqb (dotted p) (lit ".") = false). { apply str_eqb_neq. rewrite E. intro K. injection K as K _. exact (Nc K). }
  rewrite X. destruct (dotted_last p N F) as [s [l [El Nl]]].
  assert (Y : trim_right_dots (dotted p) = dotted p) by (rewrite El; apply trim_right_dots_last, Nl). rewrite Y.
  assert (Z : ends_in_dot (dotted p) = false). { unfold ends_in_dot. rewrite El, rev_unit. apply Ascii.eqb_neq, Nl. }
  rewrite Z, split_dots_dotted; [apply (plain_pieces TUnquoted), N|exact N|]. eapply Forall_impl; [|exact F]. intros k [_ Pk]. apply PathParser_Lemmas3.plain_dotless, Pk.
Qed.
Lemma plain_parse' : forall k (p : path), Forall plain_key (k :: p) -> word_key k -> parse_path_node (dotted (k :: p)) CONF = Ok (key_node TUnquoted (k :: p)).
Proof.
  intros k p F W. pose proof (word_dotted k p F W) as Wr.
  assert (U : Forall (fun c => Uc c = true) (dotted (k :: p))) by (apply Uc_dotted; eapply Forall_impl; [|exact F]; intros x [_ X]; exact X).
  assert (Sp : split_dots (dotted (k :: p)) = k :: p). { apply split_dots_dotted; [discriminate|]. eapply Forall_impl; [|exact F]. intros x [_ Px]. apply PathParser_Lemmas3.plain_dotless, Px. }
  assert (Pieces : exists c u, dotted (k :: p) = c :: u /\ c <> "."%char).
  { inversion F as [|? ? [Nk Pk] _]; subst. destruct k as [|c k]; [congruence|]. inversion Pk as [|? ? Pc _]; subst. exists c. destruct p; eexists; (split; [reflexivity|]); intros ->; destruct Pc as [X|[X|X]]; discriminate X. }
  destruct Pieces as [c [u [E Nc]]]. pose proof (plain_split' (k :: p) c u ltac:(discriminate) F E Nc) as Toks.
  assert (L : Render_Lemmas3.lexes true false (dotted (k :: p)) [TUnquoted (dotted (k :: p)); TEnd]).
  { rewrite E in *. rewrite <- (app_nil_r (c :: u)) at 1. change (c :: u) with (token_text (TUnquoted (c :: u))) at 1. apply lex_one; [apply reads_word'; assumption|apply lexes_nil]. }
  unfold parse_path_node, lex. change saver_init with (@nil ascii, false). rewrite (L (S (List.length (dotted (k :: p))))) by lia. cbn [delivered]. unfold parse_path_expression. cbn [path_tokens_loop app].
  rewrite Toks. unfold add_path_text. rewrite Sp. cbn [app]. rewrite keep_keys. cbn [bind raise_end].
  change (rev (map (fun k0 => (k0, false)) p) ++ [(k, false)]) with (rev (map (fun k0 : str => (k0, false)) (k :: p))). rewrite rev_involutive, plain_build by exact F. cbn [bind].
  rewrite builder_result_spec, fold_append_key, app_nil_r, rev_involutive. reflexivity.
Qed.
Lemma plain_sure : forall k, plain_key k -> word_key k -> k <> lit "include" -> sure TUnquoted k.
Proof.
  intros k Pk W Ni. pose proof (word_dotted k [] (Forall_cons _ Pk (Forall_nil _)) W) as Wr. cbn [dotted] in Wr. pose proof Pk as [Nk Pc].
  assert (U : Forall (fun c => Uc c = true) k) by (pose proof (Uc_dotted [k] (Forall_cons _ Pc (Forall_nil _))) as X; exact X).
  assert (Nn : no_nul k).
  { intro I. rewrite Forall_forall in Pc. destruct (Pc _ I) as [X|[X|X]]; discriminate X. }
  assert (Sp : split_dots k = [k]) by (apply (split_dots_dotted [k]); [discriminate|constructor; [apply PathParser_Lemmas3.plain_dotless, Pc|constructor]]).
  destruct k as [|c k]; [congruence|].
  split.
  - unfold undotted. apply str_eqb_neq. intros E. inversion Pc as [|? ? X _]; subst. injection E as -> _. destruct X as [X|[X|X]]; discriminate X.
  - intros tl T. exists [TUnquoted (c :: k)], ([c :: k], split_token_on_period (TUnquoted (c :: k)) CONF). split; [apply render_end, T|]. split; [|split; [repeat constructor|split]].
    + apply one_chunk; try reflexivity; [apply reads_word'; assumption|exact Nn].
    + cbn [hd is_include_keyword]. apply str_eqb_neq. exact Ni.
    + split; [|split; [reflexivity|discriminate]]. unfold parse_path_expression. cbn [path_tokens_loop]. unfold add_path_text. rewrite Sp. reflexivity.
Qed.

(** ** Both *)
Lemma conf_path_parse : forall ps p, conf_path_text ps p -> p <> [] /\ exists tk, Forall (sure tk) p /\ parse_path_node ps CONF = Ok (key_node tk p).
Proof.
  intros ps p H. destruct H as [p N Q|k p F].
  - split; [exact N|]. exists quoted_key. split; [eapply Forall_impl; [|exact Q]; exact quoted_sure|apply quoted_parse'; assumption].
  - split; [discriminate|]. exists TUnquoted. assert (F' : Forall plain_key (k :: p)) by (eapply Forall_impl; [|exact F]; intros x [X _]; exact X).
    split; [|apply plain_parse'; [exact F'|]]; [eapply Forall_impl; [|exact F]; intros x [X [Y Z]]; apply plain_sure; assumption|]. inversion F as [|? ? [_ [X _]] _]; exact X.
Qed.
