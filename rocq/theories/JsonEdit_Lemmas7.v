(** Path texts of edits. *)
From Verif Require Import Base BaseLemmas Util_Model Num_Model Path_Model Path_Spec Path_Lemmas Token_Model Token_Spec Token_Lemmas Token_Lemmas2 PathParser_Model PathParser_Spec PathParser_Lemmas PathParser_Lemmas2 PathParser_Lemmas3 Doc_Model Doc_Lemmas Edit_Model Value_Model Value_Spec Value_Lemmas Concat_Model ConfigParser_Model Json_Lemmas2 Render_Lemmas3 JsonEdit_Lemmas JsonEdit_Lemmas2 JsonEdit_Lemmas5 JsonEdit_Lemmas6 JsonEdit_Spec.

(** ** Keys in quotes *)
Definition quoted_key (k : str) : token := TValue (SStr k true) (render_json_string k).
Notation quoted_tokens := (key_tokens quoted_key).
Lemma reads_dot : forall r, Render_Lemmas3.reads false dot_token (ch 34 :: r).
Proof. intro r. split; [discriminate|]. split; [discriminate|]. intros n ws ls. reflexivity. Qed.
Lemma quoted_lexes : forall p ls, p <> [] -> Forall (Forall quotable) p -> Render_Lemmas3.lexes false ls (quoted_path p) (quoted_tokens p).
Proof.
  induction p as [|k p IH]; intros ls N Q; [congruence|]. inversion Q as [|? ? Qk Qp]; subst. cbn [quoted_path key_tokens]. unfold quoted_key at 1.
  change (render_json_string k) with (token_text (TValue (SStr k true) (render_json_string k))) at 1. destruct p as [|k2 p].
  - apply lex_one; [apply reads_string; [exact Qk|exact I]|apply lexes_nil].
  - apply lex_one; [apply reads_string; [exact Qk|cbn; discriminate]|]. change (lit ".") with (token_text dot_token). apply lex_one; [|apply IH; [discriminate|exact Qp]]. cbn [quoted_path render_json_string app]. apply reads_dot.
Qed.
Lemma quoted_buff : forall p b acc, p <> [] -> path_tokens_loop true JSON (([], false) :: b) acc (quoted_tokens p) = Ok (rev (map (fun k => (k, match k with [] => true | _ => false end)) p) ++ b, acc ++ quoted_tokens p).
Proof.
  induction p as [|k p IH]; intros b acc N; [congruence|]. cbn [key_tokens quoted_key path_tokens_loop add_path_text app map rev]. destruct p as [|k2 p].
  - cbn [path_tokens_loop map rev app]. rewrite <- app_assoc. reflexivity.
  - cbn [path_tokens_loop dot_token]. change (add_path_text ((k, false || match k with [] => true | _ => false end) :: b) false (lit ".")) with (([], false) :: (k ++ [], false || match k with [] => true | _ => false end) :: b).
    rewrite IH by discriminate. rewrite app_nil_r. cbn [orb]. rewrite <- !app_assoc. cbn [app]. reflexivity.
Qed.
Lemma quoted_build : forall p b, build_path true (map (fun k => (k, match k with [] => true | _ => false end)) p) b = Ok (builder_result (fold_left append_key p b)).
Proof.
  induction p as [|k p IH]; intro b; [reflexivity|]. cbn [map build_path fold_left]. destruct k; apply IH.
Qed.
Lemma quoted_parse : forall (p : path), p <> [] -> Forall (Forall quotable) p -> parse_path_node (quoted_path p) JSON = Ok (key_node quoted_key p).
Proof.
  intros p N Q. unfold parse_path_node, lex. change saver_init with (@nil ascii, false). rewrite (quoted_lexes p false N Q) by lia. cbn [delivered]. unfold parse_path_expression.
  assert (X : quoted_tokens p <> []) by (destruct p; [congruence|discriminate]). destruct (quoted_tokens p) eqn:E; [congruence|]. rewrite <- E. rewrite quoted_buff by exact N. cbn [bind raise_end]. rewrite app_nil_r, rev_involutive, quoted_build. cbn [bind app].
  rewrite builder_result_spec, fold_append_key, app_nil_r, rev_involutive. reflexivity.
Qed.
Lemma quoted_fine : forall k, Forall quotable k -> fine_key quoted_key k.
Proof. intros k Q. split; [unfold quoted_key; eauto|]. intros r [_ D]. apply reads_string; assumption. Qed.

(** ** Keys without quotes *)
Definition plain_token (k : str) : token := piece_token JSON k.
Lemma plain_json : forall k, Forall plain_char k -> render_json_string k = [ch 34] ++ k ++ [ch 34] /\ Forall quotable k.
Proof.
  assert (C : forall c, plain_char c -> render_json_char c = [c] /\ quotable c).
  { intros c H. assert (X : isalnum c || Ascii.eqb c "-" || Ascii.eqb c "_" = true) by (destruct H as [H|[-> | ->]]; [rewrite H|..]; reflexivity).
    pose proof (forall_byte (fun c => implb (isalnum c || Ascii.eqb c "-" || Ascii.eqb c "_") (str_eqb (render_json_char c) [c] && quotable_b c)) ltac:(vm_compute; reflexivity) c) as K.
    cbv beta in K. rewrite X in K. cbn [implb] in K. apply andb_true_iff in K. destruct K as [K1 K2]. apply str_eqb_eq in K1. split; [exact K1|]. apply quotable_b_spec. exact K2. }
  intros k F. split.
  - unfold render_json_string. f_equal. f_equal. induction F as [|c k Hc F IH]; [reflexivity|]. cbn [map concat]. rewrite (proj1 (C c Hc)), IH. reflexivity.
  - eapply Forall_impl; [|exact F]. intros c Hc. apply (C c Hc).
Qed.
Lemma plain_fine : forall k, plain_key k -> fine_key plain_token k.
Proof.
  intros k [_ F]. destruct (plain_json k F) as [E Q]. split; [unfold plain_token, piece_token, value_token; eauto|]. unfold plain_token, piece_token, value_token. cbn [token_text scalar_text]. rewrite <- E.
  intros r [_ D]. apply reads_string; assumption.
Qed.
Lemma reads_word : forall c u, Forall (fun c => Uc c = true) (c :: u) -> word_run (c :: u) -> Render_Lemmas3.reads false (TUnquoted (c :: u)) [].
Proof.
  intros c u Hu Hw. split; [discriminate|]. split; [discriminate|]. intros n ws ls. cbn [token_text]. rewrite app_nil_r.
  inversion Hu as [|x y Hc Hu']; subst. pose proof (Uc_facts c Hc) as [Hwn [Hww [Hnl [_ [_ Hm]]]]].
  cbn [pull_next_token next_char_after_whitespace]. rewrite Hwn. cbv iota. rewrite Hnl, Uc_comment by exact Hc. rewrite !(not_in_unquoted_eqb c) by (try exact Hm; reflexivity).
  destruct Hw as [Hf Hl]. rewrite Hf, Hm. rewrite <- (app_nil_r (c :: u)) at 1. rewrite pull_unquoted_all; [reflexivity|exact Hu|exact I|].
  intros a x Hx Ha [b Hb] Hax. cbn [app] in Hax. subst a. eapply Hl; eassumption.
Qed.
Lemma before_dot : forall x k r b, dotless x -> k ++ "."%char :: r = x ++ b -> exists b', k = x ++ b'.
Proof.
  induction x as [|c x IH]; intros k r b D E; [exists k; reflexivity|]. destruct k as [|d k]; cbn [app] in E.
  - injection E as <- _. destruct D. left. reflexivity.
  - injection E as -> E. destruct (IH k r b) as [b' ->]; [intro K; apply D; right; exact K|exact E|]. exists b'. reflexivity.
Qed.
Lemma word_dotted : forall k p, Forall plain_key (k :: p) -> word_key k -> word_run (dotted (k :: p)).
Proof.
  intros k p F W. inversion F as [|? ? Pk Fp]; subst. destruct W as [W|W]; [destruct (W Pk)|]. destruct k as [|c k]; [destruct W|]. destruct W as [Wc [W1 [W2 W3]]].
  assert (Hf : mem c first_number_chars = false).
  { assert (X : isalpha c || Ascii.eqb c "_" = true) by (destruct Wc as [Wc | ->]; [rewrite Wc|]; reflexivity).
    pose proof (forall_byte (fun c => implb (isalpha c || Ascii.eqb c "_") (negb (mem c first_number_chars))) ltac:(vm_compute; reflexivity) c) as K. cbv beta in K. rewrite X in K. cbn [implb] in K. apply negb_true_iff in K. exact K. }
  assert (X : forall x b, In x [lit "true"; lit "null"; lit "false"] -> c :: k <> x ++ b). { intros x b [<-|[<-|[<-|[]]]]; auto. }
  destruct p as [|k2 p]; [split; assumption|]. split; [exact Hf|]. intros x b Hx E.
  assert (D : dotless x) by (intro K; destruct Hx as [<-|[<-|[<-|[]]]]; vm_compute in K; intuition discriminate).
  destruct (before_dot x (c :: k) (dotted (k2 :: p)) b D E) as [b' K]. exact (X x b' Hx K).
Qed.
Lemma dotted_last : forall p, p <> [] -> Forall plain_key p -> exists s c, dotted p = s ++ [c] /\ c <> "."%char.
Proof.
  induction p as [|k p IH]; intros N F; [congruence|]. inversion F as [|? ? [Nk Pk] Fp]; subst. destruct p as [|k2 p].
  - destruct (exists_last Nk) as [s [c ->]]. exists s, c. split; [reflexivity|]. intros ->. apply Forall_app in Pk. destruct Pk as [_ Pk]. inversion Pk as [|? ? X _]; subst. destruct X as [X|[X|X]]; discriminate X.
  - destruct (IH ltac:(discriminate) Fp) as [s [c [E Nc]]]. exists (k ++ "."%char :: s), c. split; [|exact Nc]. change (dotted (k :: k2 :: p)) with (k ++ "."%char :: dotted (k2 :: p)). rewrite E, <- app_assoc. reflexivity.
Qed.
Lemma plain_pieces : forall tk p, p <> [] -> removelast (flat_map (fun s => [tk s; dot_token]) p) ++ [TEnd] = key_tokens tk p.
Proof.
  intro tk. induction p as [|k p IH]; intro N; [congruence|]. destruct p as [|k2 p]; [reflexivity|]. cbn [key_tokens]. fold (key_tokens tk). change (match p with [] => [TEnd] | _ :: _ => dot_token :: key_tokens tk p end) with (match p with [] => [TEnd] | _ :: _ => dot_token :: key_tokens tk p end).
  change (flat_map (fun s => [tk s; dot_token]) (k :: k2 :: p)) with (tk k :: dot_token :: flat_map (fun s => [tk s; dot_token]) (k2 :: p)).
  specialize (IH ltac:(discriminate)). change (flat_map (fun s => [tk s; dot_token]) (k2 :: p)) with (tk k2 :: dot_token :: flat_map (fun s => [tk s; dot_token]) p) in *.
  cbn [removelast] in *. cbn [app] in *. rewrite IH. reflexivity.
Qed.
Lemma plain_split : forall p c u, p <> [] -> Forall plain_key p -> dotted p = c :: u -> c <> "."%char -> split_token_on_period (TUnquoted (dotted p)) JSON ++ [TEnd] = key_tokens plain_token p.
Proof.
  intros p c u N F E Nc. unfold split_token_on_period. cbn [token_text].
  assert (X : str_eqb (dotted p) (lit ".") = false). { apply str_eqb_neq. rewrite E. intro K. injection K as K _. exact (Nc K). }
  rewrite X. destruct (dotted_last p N F) as [s [l [El Nl]]].
  assert (Y : trim_right_dots (dotted p) = dotted p) by (rewrite El; apply trim_right_dots_last, Nl). rewrite Y.
  assert (Z : ends_in_dot (dotted p) = false). { unfold ends_in_dot. rewrite El, rev_unit. apply Ascii.eqb_neq, Nl. }
  rewrite Z, split_dots_dotted; [apply plain_pieces, N|exact N|]. eapply Forall_impl; [|exact F]. intros k [_ Pk]. apply PathParser_Lemmas3.plain_dotless, Pk.
Qed.
Lemma keep_keys : forall (p : path) b, fold_left (fun (b : list element) q => (q, false) :: b) p b = rev (map (fun k => (k, false)) p) ++ b.
Proof. induction p as [|k p IH]; intro b; [reflexivity|]. cbn [fold_left map rev]. rewrite IH, <- app_assoc. reflexivity. Qed.
Lemma plain_build : forall p b, Forall plain_key p -> build_path true (map (fun k => (k, false)) p) b = Ok (builder_result (fold_left append_key p b)).
Proof.
  induction p as [|k p IH]; intros b F; [reflexivity|]. inversion F as [|? ? [N _] Fp]; subst. cbn [map build_path fold_left]. destruct k; [congruence|]. apply IH, Fp.
Qed.
Lemma plain_parse : forall k (p : path), Forall plain_key (k :: p) -> word_key k -> parse_path_node (dotted (k :: p)) JSON = Ok (key_node plain_token (k :: p)).
Proof.
  intros k p F W. pose proof (word_dotted k p F W) as Wr.
  assert (U : Forall (fun c => Uc c = true) (dotted (k :: p))) by (apply Uc_dotted; eapply Forall_impl; [|exact F]; intros x [_ X]; exact X).
  assert (Sp : split_dots (dotted (k :: p)) = k :: p). { apply split_dots_dotted; [discriminate|]. eapply Forall_impl; [|exact F]. intros x [_ Px]. apply PathParser_Lemmas3.plain_dotless, Px. }
  assert (Pieces : exists c u, dotted (k :: p) = c :: u /\ c <> "."%char).
  { inversion F as [|? ? [Nk Pk] _]; subst. destruct k as [|c k]; [congruence|]. inversion Pk as [|? ? Pc _]; subst. exists c. destruct p; eexists; (split; [reflexivity|]); intros ->; destruct Pc as [X|[X|X]]; discriminate X. }
  destruct Pieces as [c [u [E Nc]]]. pose proof (plain_split (k :: p) c u ltac:(discriminate) F E Nc) as Toks.
  assert (L : Render_Lemmas3.lexes false false (dotted (k :: p)) [TUnquoted (dotted (k :: p)); TEnd]).
  { rewrite E in *. rewrite <- (app_nil_r (c :: u)) at 1. change (c :: u) with (token_text (TUnquoted (c :: u))) at 1. apply lex_one; [apply reads_word; assumption|apply lexes_nil]. }
  unfold parse_path_node, lex. change saver_init with (@nil ascii, false). rewrite (L (S (List.length (dotted (k :: p))))) by lia. cbn [delivered]. unfold parse_path_expression. cbn [path_tokens_loop app].
  rewrite Toks. unfold add_path_text. rewrite Sp. cbn [app]. rewrite keep_keys. cbn [bind raise_end]. 
  change (rev (map (fun k0 => (k0, false)) p) ++ [(k, false)]) with (rev (map (fun k0 : str => (k0, false)) (k :: p))). rewrite rev_involutive, plain_build by exact F. cbn [bind].
  rewrite builder_result_spec, fold_append_key, app_nil_r, rev_involutive. reflexivity.
Qed.

(** ** Both *)
Lemma text_parse : forall ps p, path_text ps p -> p <> [] /\ exists tk, Forall (fine_key tk) p /\ parse_path_node ps JSON = Ok (key_node tk p).
Proof.
  intros ps p H. destruct H as [p N Q|k p F W].
  - split; [exact N|]. exists quoted_key. split; [eapply Forall_impl; [|exact Q]; exact quoted_fine|apply quoted_parse; assumption].
  - split; [discriminate|]. exists plain_token. split; [eapply Forall_impl; [|exact F]; exact plain_fine|apply plain_parse; assumption].
Qed.
