(** References and concatenations as they are rendered are read back. *)
From Verif Require Import Base BaseLemmas Util_Model Num_Model Path_Model Path_Spec Path_Lemmas Token_Model Token_Spec Token_Lemmas Token_Lemmas2 PathParser_Model PathParser_Spec PathParser_Lemmas PathParser_Lemmas2 PathParser_Lemmas3 Doc_Model Doc_Lemmas Edit_Model Value_Model Value_Spec Value_Lemmas Concat_Model ConfigParser_Model Json_Lemmas2 Render_Model Render_Spec Render_Lemmas Render_Lemmas3 JsonEdit_Lemmas ConfEdit_Spec ConfText_Spec ConfText_Lemmas ConfText_Lemmas2 ConfText_Lemmas3 ConfText_Lemmas5 ConfText_Lemmas7 ConfText_Lemmas12 RenderConf_Lemmas RenderConf_Lemmas2 RenderRef_Spec.

(** ** The tokens of a rendered path *)
Definition run_toks (u : str) : list token := match u with [] => [] | _ => [TUnquoted u] end.
Fixpoint path_toks (u : str) (p : path) : list token :=
  match p with
  | [] => run_toks u
  | k :: r =>
      if has_funky_chars k || match k with [] => true | _ => false end
      then run_toks u ++ TValue (SStr k true) (render_json_string k) :: path_toks (dot_rest r) r
      else path_toks (u ++ k ++ dot_rest r) r
  end.
Lemma run_toks_text : forall u, render_tokens (run_toks u) = u.
Proof. intros [|c u]; [reflexivity|]. cbn. rewrite app_nil_r. reflexivity. Qed.
Lemma path_toks_text : forall p u, render_tokens (path_toks u p) = u ++ render_path p.
Proof.
  induction p as [|k r IH]; intro u; [cbn [path_toks render_path]; rewrite app_nil_r; apply run_toks_text|].
  rewrite render_path_cons. cbn [path_toks]. unfold render_key. destruct (has_funky_chars k || match k with [] => true | _ => false end).
  - rewrite render_app', run_toks_text, render_cons', IH. reflexivity.
  - rewrite IH, <- !app_assoc. reflexivity.
Qed.
Lemma run_toks_fold : forall u b, b <> [] -> fold_left tok_buff (run_toks u) b = add_path_text b false u.
Proof. intros [|c u] b N; [|reflexivity]. cbn [run_toks fold_left]. rewrite add_path_text_fold by exact N. reflexivity. Qed.
Lemma path_toks_fold : forall p u b, b <> [] -> fold_left tok_buff (path_toks u p) b = add_keys (add_path_text b false u) p.
Proof.
  induction p as [|k r IH]; intros u b N; [apply run_toks_fold, N|]. cbn [path_toks]. rewrite add_keys_cons by (apply add_path_text_ne, N). unfold add_key.
  destruct (has_funky_chars k || match k with [] => true | _ => false end).
  - rewrite fold_left_app, run_toks_fold by exact N. cbn [fold_left tok_buff]. apply IH. apply add_path_text_ne, add_path_text_ne, N.
  - rewrite IH by exact N. rewrite <- (add_path_text_app u) by exact N. rewrite <- add_path_text_app by (apply add_path_text_ne, N). reflexivity.
Qed.
Lemma path_toks_path : forall p u, Forall path_token (path_toks u p).
Proof.
  assert (R : forall u, Forall path_token (run_toks u)) by (intros [|c u]; repeat constructor).
  induction p as [|k r IH]; intro u; [apply R|]. cbn [path_toks]. destruct (_ || _); [|apply IH]. apply Forall_app. split; [apply R|]. constructor; [exact I|apply IH].
Qed.
Lemma path_toks_closed : forall p u, inner (path_toks u p).
Proof.
  assert (R : forall u, inner (run_toks u)) by (intros [|c u]; split; repeat constructor; discriminate).
  induction p as [|k r IH]; intro u; [apply R|]. cbn [path_toks]. destruct (_ || _); [|apply IH]. destruct (IH (dot_rest r)) as [A B]. split.
  - unfold open_end in *. rewrite last_app by discriminate. destruct (path_toks (dot_rest r) r); [reflexivity|exact A].
  - apply Forall_app. split; [apply R|]. constructor; [discriminate|exact B].
Qed.
Lemma path_toks_parse : forall p, p <> [] -> exists ts, parse_path_expression true CONF (path_toks [] p) LEnd = Ok (p, ts).
Proof.
  intros p N. unfold parse_path_expression.
  assert (X : path_toks [] p <> []).
  { intro E. pose proof (path_toks_text p []) as T. rewrite E in T. cbn [app] in T. destruct p as [|k r]; [congruence|]. rewrite render_path_cons in T. unfold render_key in T.
    destruct (has_funky_chars k || match k with [] => true | _ => false end) eqn:F; [discriminate T|]. destruct k; [rewrite orb_true_r in F; discriminate|discriminate T]. }
  destruct (path_toks [] p) as [|t ts] eqn:E; [congruence|]. rewrite <- E.
  destruct (path_tokens_loop_ok (path_toks [] p) true CONF [([], false)] [] (path_toks_path p [])) as [acc ->]. cbn [bind raise_end].
  rewrite path_toks_fold by discriminate. pose proof (finish_keys p N) as F. unfold finish in F.
  assert (Z : add_path_text [([], false)] false [] = [([], false)]) by reflexivity. rewrite Z, F. eexists. reflexivity.
Qed.
(** The text of the path, before the closing brace. *)
Definition closes (rest : str) : Prop := match rest with c :: _ => c = "}"%char \/ c = ch 34 | [] => False end.
Lemma reads_run : forall c u r, Forall (fun c => Uc c = true) (c :: u) -> word_run (c :: u) -> closes r -> reads' (TUnquoted (c :: u)) r.
Proof.
  intros c u r Hu Hw Hr. split; [discriminate|]. split; [discriminate|]. intros n ws ls _. cbn [token_text].
  inversion Hu as [|x y Hc Hu']; subst. pose proof (Uc_facts c Hc) as [Hwn [Hww [Hnl [_ [_ Hm]]]]].
  cbn [app pull_next_token next_char_after_whitespace]. rewrite Hwn. cbv iota. rewrite Hnl, Uc_comment by exact Hc. rewrite !(not_in_unquoted_eqb c) by (try exact Hm; reflexivity).
  destruct Hw as [Hf Hl]. rewrite Hf, Hm.
  assert (L : forall a x, In x [lit "true"; lit "null"; lit "false"] -> a <> [] -> (exists b, c :: u = a ++ b) -> [] ++ a <> x) by (intros a x Hx Ha [b Hb] Hax; cbn [app] in Hax; subst a; eapply Hl; eassumption).
  assert (G : forall v res, Forall (fun c => Uc c = true) v -> (forall a x, In x [lit "true"; lit "null"; lit "false"] -> a <> [] -> (exists b, v = a ++ b) -> res ++ a <> x) ->
    pull_unquoted_text true res (v ++ r) = (TUnquoted (res ++ v), r)).
  { clear -Hr. induction v as [|d v IH]; intros res Hu Hl.
    - cbn [app]. rewrite app_nil_r. destruct r as [|d r]; [destruct Hr|]. cbn [pull_unquoted_text]. destruct Hr as [-> | ->]; reflexivity.
    - inversion Hu as [|x y Hc Hu']; subst. cbn [app pull_unquoted_text]. pose proof (Uc_facts d Hc) as [_ [Hw [_ [_ [_ Hm]]]]]. rewrite Hm, Hw, Uc_comment by exact Hc. cbn [orb].
      assert (Hn : forall x, In x [lit "true"; lit "null"; lit "false"] -> str_eqb (res ++ [d]) x = false) by (intros x Hx; apply str_eqb_neq, Hl; [exact Hx|discriminate|exists v; reflexivity]).
      rewrite !Hn by (cbn; tauto). rewrite IH; [rewrite <- app_assoc; reflexivity|exact Hu'|]. intros a x Hx Ha [b ->]. rewrite <- app_assoc. apply Hl; [exact Hx|discriminate|]. exists b. reflexivity. }
  change (c :: u ++ r) with ((c :: u) ++ r). rewrite (G (c :: u) [] Hu L). reflexivity.
Qed.
Lemma run_spelt : forall u X r k, Forall (fun c => Uc c = true) u -> word_run u -> closes (render_tokens X ++ r) -> (forall k, spelt k X r) -> spelt k (run_toks u ++ X) r.
Proof. intros [|c u] X r k U W Cl S; [apply S|]. cbn [run_toks app]. apply sp_tok; [apply reads_run; assumption|apply S]. Qed.
Lemma path_spelt : forall p u r k, Forall (Forall quotable) p -> Forall (fun c => Uc c = true) u ->
  (u <> [] /\ word_run u /\ (p = [] \/ In "."%char u) \/ u = [] /\ (p = [] \/ exists k r, p = k :: r /\ ~ plain_key k)) -> spelt k (path_toks u p) ("}"%char :: r).
Proof.
  induction p as [|q p IH]; intros u r k Hq Hu Hw.
  - cbn [path_toks]. rewrite <- (app_nil_r (run_toks u)). apply run_spelt; [exact Hu| |left; reflexivity|intro; constructor]. destruct Hw as [[_ [Hw _]]|[-> _]]; [exact Hw|exact I].
  - inversion Hq as [|x y Hk Hr]; subst. cbn [path_toks]. destruct (has_funky_chars q || match q with [] => true | _ => false end) eqn:E.
    + assert (Hwu : word_run u) by (destruct Hw as [[_ [Hw _]]|[-> _]]; [exact Hw|exact I]).
      apply run_spelt; [exact Hu|exact Hwu|right; reflexivity|]. intro j. apply sp_tok.
      * apply reads_fuel. apply reads_string; [exact Hk|]. rewrite path_toks_text. destruct p; cbn; discriminate.
      * cbn [is_simple_value]. apply IH; [exact Hr|destruct p; repeat constructor|]. destruct p as [|k' p]; [right; auto|]. left. cbn. split; [discriminate|]. split; [split; [reflexivity|]|right; left; reflexivity].
        intros x b [<-|[<-|[<-|[]]]]; discriminate.
    + apply plain_key_dec in E. apply IH; [exact Hr| |].
      { rewrite !Forall_app. repeat split; [exact Hu|apply plain_Uc, E|]. destruct p; repeat constructor. }
      left. destruct Hw as [[W1 [W2 W3]]|[-> [W|[k0 [r0 [W W']]]]]]; [|discriminate|injection W as <- <-; contradiction]. destruct W3 as [W3|W3]; [discriminate|].
      split; [destruct u; [contradiction|discriminate]|]. split; [apply word_run_app; assumption|]. right. apply in_app_iff. left. exact W3.
Qed.
Lemma reference_spelt : forall p r, p <> [] -> Forall (Forall quotable) p -> word_key (hd [] p) -> spelt false (path_toks [] p) ("}"%char :: r).
Proof.
  intros [|k p] r N Q W; [congruence|]. cbn [hd] in W. destruct (word_key_cases k W) as [NP|[P [Kn Wr]]].
  - apply path_spelt; [exact Q|constructor|]. right. split; [reflexivity|]. right. eauto.
  - cbn [path_toks]. pose proof (proj2 (plain_key_dec k) P) as E. rewrite E. cbn [app]. inversion Q; subst. apply path_spelt; [assumption| |].
    + apply Forall_app. split; [apply plain_Uc, P|]. destruct p; repeat constructor.
    + left. split; [destruct k; [contradiction|discriminate]|]. split; [apply Wr|]. destruct p; [left; reflexivity|right]. apply in_app_iff. right. left. reflexivity.
Qed.
Definition reference_token (p : path) (o : bool) : token := TSubst o (path_toks [] p).
Lemma reference_text : forall p o, token_text (reference_token p o) = lit "${" ++ (if o then lit "?" else []) ++ render_path p ++ lit "}".
Proof.
  intros p o. pose proof (path_toks_text p []) as T. cbn [app] in T. rewrite <- T. destruct o; reflexivity.
Qed.
