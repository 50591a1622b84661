From Verif Require Import Base BaseLemmas Util_Model Num_Model Token_Model Token_Spec.
From Coq Require Import ZifyBool.

Ltac byte_solve f := let H := fresh in
  pose proof (forall_byte f ltac:(vm_compute; reflexivity)) as H.

(** ** Character facts *)

Lemma blank_iff : forall c, is_whitespace_not_newline c = true <-> blank c.
Proof.
  intro c. unfold blank.
  pose proof (forall_byte (fun c => Bool.eqb (is_whitespace_not_newline c)
    (Ascii.eqb c " " || Ascii.eqb c (ch 9) || Ascii.eqb c (ch 11) || Ascii.eqb c (ch 12) || Ascii.eqb c (ch 13)))
    ltac:(vm_compute; reflexivity) c) as H.
  cbn beta in H. apply eqb_prop in H. rewrite H, !orb_true_iff, !Ascii.eqb_eq. tauto.
Qed.

(** ** Losslessness *)

Definition no_nul (s : str) : Prop := ~ In (ch 0) s.
Definition no_dollar (s : str) : Prop := ~ In "$"%char s.

Lemma lost_blanks_refl : forall s, lost_blanks s s.
Proof. induction s; constructor; auto. Qed.

Lemma lost_blanks_app : forall a a' b b', lost_blanks a a' -> lost_blanks b b' -> lost_blanks (a ++ b) (a' ++ b').
Proof.
  intros a a' b b' H. induction H; intro Hb; cbn.
  - exact Hb.
  - constructor. auto.
  - rewrite <- app_assoc. cbn. constructor; auto.
Qed.

Lemma lost_blanks_close : forall b x t, Forall blank b -> lost_blanks x ("}"%char :: t) ->
  lost_blanks (b ++ x) ("}"%char :: t).
Proof.
  intros b x t Hb H. inversion H as [|c s0 t0 H0 E1 E2|w0 s0 t0 Hb0 H0 E1 E2]; subst.
  - constructor; auto.
  - rewrite app_assoc. constructor; auto. apply Forall_app. auto.
Qed.

Lemma lost_blanks_exact : forall s t, no_blank_before_close s -> lost_blanks s t -> s = t.
Proof.
  intros s t Hn H. induction H.
  - reflexivity.
  - f_equal. apply IHlost_blanks. intros a w b E. apply (Hn (c :: a) w b). rewrite E. reflexivity.
  - destruct w as [|w0 w] using rev_ind.
    + cbn. apply IHlost_blanks. exact Hn.
    + exfalso. apply (Hn w w0 s).
      * rewrite <- app_assoc. reflexivity.
      * apply Forall_app in H. destruct H as [_ H]. inversion H. assumption.
Qed.

Lemma next_char_spec : forall s ws ws' n, next_char_after_whitespace ws s = (ws', n) ->
  exists w, ws' = ws ++ w /\ Forall blank w /\
    match n with
    | None => s = w
    | Some (c, s') => s = w ++ c :: s' /\ is_whitespace_not_newline c = false
    end.
Proof.
  induction s as [|c s IH]; intros ws ws' n H; cbn [next_char_after_whitespace] in H.
  - injection H as <- <-. exists []. rewrite app_nil_r. auto.
  - destruct (is_whitespace_not_newline c) eqn:E.
    + apply IH in H. destruct H as [w [H1 [H2 H3]]]. exists (c :: w). split.
      { rewrite H1, <- app_assoc. reflexivity. }
      split. { constructor; auto. apply blank_iff. exact E. }
      destruct n as [[c' s']|].
      * destruct H3 as [-> H3]. auto.
      * congruence.
    + injection H as <- <-. exists []. rewrite app_nil_r. auto.
Qed.

Lemma comment_text_spec : forall s t r, comment_text s = (t, r) -> s = t ++ r.
Proof.
  induction s as [|c s IH]; intros t r H; cbn [comment_text] in H.
  - injection H as <- <-. reflexivity.
  - destruct (Ascii.eqb c nl).
    + injection H as <- <-. reflexivity.
    + destruct (comment_text s) as [t' r'] eqn:E. injection H as <- <-. cbn. f_equal. apply IH. reflexivity.
Qed.

Lemma pull_comment_spec : forall ac c s t r, start_of_comment ac c s = true ->
  pull_comment c s = Ok (t, r) -> c :: s = token_text t ++ r.
Proof.
  intros ac c s t r Hc H. unfold pull_comment in H.
  destruct (Ascii.eqb_spec c "/").
  - subst. destruct s as [|c' s]; [discriminate|]. destruct (Ascii.eqb_spec c' "/"); [|discriminate]. subst.
    destruct (comment_text s) as [t' r'] eqn:E. injection H as <- <-. cbn. do 2 f_equal. apply comment_text_spec. exact E.
  - unfold start_of_comment in Hc. apply andb_true_iff in Hc. destruct Hc as [_ Hc].
    apply orb_true_iff in Hc. destruct Hc as [Hc|Hc].
    + apply Ascii.eqb_eq in Hc. subst. destruct (comment_text s) as [t' r'] eqn:E. injection H as <- <-.
      cbn. f_equal. apply comment_text_spec. exact E.
    + apply andb_true_iff in Hc. destruct Hc as [Hc _]. apply Ascii.eqb_eq in Hc. congruence.
Qed.

Lemma pull_unquoted_spec : forall ac s res t r, pull_unquoted_text ac res s = (t, r) ->
  res ++ s = token_text t ++ r.
Proof.
  induction s as [|c s IH]; intros res t r H; cbn [pull_unquoted_text] in H.
  - injection H as <- <-. reflexivity.
  - destruct (mem c not_in_unquoted_text || is_whitespace c || start_of_comment ac c s).
    + injection H as <- <-. reflexivity.
    + destruct (str_eqb_spec (res ++ [c]) (lit "true")) as [e|_].
      { injection H as <- <-. cbn [value_token token_text scalar_text]. rewrite <- e, <- app_assoc. reflexivity. }
      destruct (str_eqb_spec (res ++ [c]) (lit "null")) as [e|_].
      { injection H as <- <-. cbn [value_token token_text scalar_text]. rewrite <- e, <- app_assoc. reflexivity. }
      destruct (str_eqb_spec (res ++ [c]) (lit "false")) as [e|_].
      { injection H as <- <-. cbn [value_token token_text scalar_text]. rewrite <- e, <- app_assoc. reflexivity. }
      apply IH in H. rewrite <- H, <- app_assoc. reflexivity.
Qed.

(** The rest after an unquoted token is no longer than the input. *)
Lemma span_number_spec : forall s t r, span_number s = (t, r) -> s = t ++ r.
Proof.
  induction s as [|c s IH]; intros t r H; cbn [span_number] in H.
  - injection H as <- <-. reflexivity.
  - destruct (mem c number_chars).
    + destruct (span_number s) as [t' r'] eqn:E. injection H as <- <-. cbn. f_equal. apply IH. reflexivity.
    + injection H as <- <-. reflexivity.
Qed.

Lemma number_fallback_spec : forall text t, number_fallback text = Ok t -> t = TUnquoted text.
Proof. intros text t H. unfold number_fallback in H. destruct (existsb _ text); congruence. Qed.

Lemma new_number_int_text : forall z c s, scalar_text (new_number_int z (c :: s)) = c :: s.
Proof. intros. unfold new_number_int. destruct (in_int z); reflexivity. Qed.

Lemma new_number_double_text : forall d c s v, new_number_double d (c :: s) = Ok v -> scalar_text v = c :: s.
Proof.
  intros d c s v H. unfold new_number_double in H. inv_bind H. injection Hk as <-.
  destruct (SFeqb _ _); [apply new_number_int_text|reflexivity].
Qed.

Lemma number_token_text : forall more c s t, number_token more (c :: s) = Ok t -> token_text t = c :: s.
Proof.
  intros more c s t H. unfold number_token in H.
  destruct (has_decimal_or_e more).
  - destruct (lexical_cast_double (c :: s)).
    + inv_bind H. injection Hk as <-. cbn. eapply new_number_double_text. exact Hb.
    + apply number_fallback_spec in H. subst. reflexivity.
  - destruct (lexical_cast_int64 (c :: s)).
    + injection H as <-. cbn. apply new_number_int_text.
    + apply number_fallback_spec in H. subst. reflexivity.
Qed.

Lemma pull_number_spec : forall c s t r, pull_number c s = Ok (t, r) -> c :: s = token_text t ++ r.
Proof.
  intros c s t r H. unfold pull_number in H. destruct (span_number s) as [more r'] eqn:E.
  inv_bind H. injection Hk as <- <-. apply number_token_text in Hb. rewrite Hb. cbn. f_equal.
  apply span_number_spec. exact E.
Qed.

Lemma c_string_no_nul : forall s, no_nul s -> c_string s = s.
Proof.
  induction s as [|c s IH]; intro H; [reflexivity|]. cbn.
  destruct (Ascii.eqb_spec c (ch 0)).
  - exfalso. apply H. left. auto.
  - f_equal. apply IH. intro Hi. apply H. right. exact Hi.
Qed.

Lemma no_nul_app : forall a b, no_nul (a ++ b) <-> no_nul a /\ no_nul b.
Proof. intros. unfold no_nul. rewrite in_app_iff. tauto. Qed.

Lemma no_nul_cons : forall c b, no_nul (c :: b) <-> c <> ch 0 /\ no_nul b.
Proof. intros. unfold no_nul. cbn. intuition congruence. Qed.

Lemma no_dollar_app : forall a b, no_dollar (a ++ b) <-> no_dollar a /\ no_dollar b.
Proof. intros. unfold no_dollar. rewrite in_app_iff. tauto. Qed.

Lemma pull_escape_spec : forall s p o r, no_nul s -> pull_escape_sequence s = Ok (p, o, r) ->
  ch 92 :: s = o ++ r /\ (List.length r < List.length s)%nat.
Proof.
  intros s p o r Hn H. destruct s as [|e s]; [discriminate|]. cbn [pull_escape_sequence] in H.
  assert (Hs : forall c, Ok ([c], [ch 92; e], s) = Ok (p, o, r) ->
    ch 92 :: e :: s = o ++ r /\ (List.length r < List.length (e :: s))%nat).
  { intros c Hc. injection Hc as <- <- <-. split; [reflexivity|cbn; lia]. }
  repeat match type of H with (if ?b then _ else _) = _ =>
    destruct b; [solve [eapply Hs; exact H]|] end.
  destruct (Ascii.eqb e "u"); [|discriminate].
  destruct s as [|u1 [|u2 [|u3 [|u4 s]]]]; try discriminate.
  - destruct (sscanf_hx [u1; u2; u3; ch 255]); discriminate.
  - inv_bind H. inv_bind Hk. remember (c_string [u1; u2; u3; u4]) as cs eqn:Ecs.
    injection Hk0 as <- <- <-. subst cs.
    change (e :: u1 :: u2 :: u3 :: u4 :: s) with ([e] ++ [u1; u2; u3; u4] ++ s) in Hn.
    apply no_nul_app in Hn. destruct Hn as [_ Hn]. apply no_nul_app in Hn. destruct Hn as [Hn _].
    rewrite c_string_no_nul by exact Hn. split; [reflexivity|cbn; lia].
Qed.

Lemma append_triple_spec : forall s q p o p' o' r,
  append_triple_quoted_string q p o s = Ok (p', o', r) -> o ++ s = o' ++ r.
Proof.
  induction s as [|c s IH]; intros q p o p' o' r H; cbn [append_triple_quoted_string] in H.
  - destruct (3 <=? q)%nat; [|discriminate]. injection H as <- <- <-. reflexivity.
  - destruct (Ascii.eqb c (ch 34)).
    + apply IH in H. rewrite <- H, <- app_assoc. reflexivity.
    + destruct (3 <=? q)%nat.
      * injection H as <- <- <-. reflexivity.
      * apply IH in H. rewrite <- H, <- app_assoc. reflexivity.
Qed.

Lemma quoted_loop_spec : forall n s p o p' o' r, no_nul s ->
  quoted_loop n p o s = Ok (p', o', r) -> o ++ s = o' ++ r.
Proof.
  induction n as [|n IH]; intros s p o p' o' r Hn H; cbn [quoted_loop] in H; [discriminate|].
  destruct s as [|c s]; [discriminate|].
  apply no_nul_cons in Hn. destruct Hn as [Hc Hn].
  destruct (Ascii.eqb_spec c (ch 92)).
  - subst. inv_bind H. destruct a as [[p1 o1] r1]. pose proof Hb as Hb'. apply pull_escape_spec in Hb; [|exact Hn].
    destruct Hb as [Hb _]. apply IH in Hk.
    + rewrite <- app_assoc, <- Hb in Hk. exact Hk.
    + change (ch 92 :: s) with ([ch 92] ++ s) in Hb.
      assert (no_nul ([ch 92] ++ s)) as H2.
      { apply no_nul_app. split; [|exact Hn]. unfold no_nul. cbn. intuition discriminate. }
      rewrite Hb in H2. apply no_nul_app in H2. tauto.
  - destruct (Ascii.eqb c (ch 34)).
    + injection H as <- <- <-. rewrite <- app_assoc. reflexivity.
    + destruct (is_C0_control c); [discriminate|]. apply IH in H; [|exact Hn].
      rewrite <- H, <- app_assoc. reflexivity.
Qed.

Lemma pull_quoted_spec : forall s t r, no_nul s -> pull_quoted_string s = Ok (t, r) ->
  ch 34 :: s = token_text t ++ r.
Proof.
  intros s t r Hn H. unfold pull_quoted_string in H. inv_bind H. destruct a as [[p o] r1].
  apply quoted_loop_spec in Hb; [|exact Hn]. inv_bind Hk. destruct a as [[p' o'] r'].
  injection Hk0 as <- <-. cbn [token_text].
  change (ch 34 :: s) with ([ch 34] ++ s). rewrite Hb.
  destruct p as [|p0 p].
  - destruct r1 as [|c r2].
    + injection Hb0 as <- <- <-. reflexivity.
    + destruct (Ascii.eqb c (ch 34)).
      * apply append_triple_spec in Hb0. rewrite <- Hb0, <- app_assoc. reflexivity.
      * injection Hb0 as <- <- <-. reflexivity.
  - injection Hb0 as <- <- <-. reflexivity.
Qed.

Lemma subst_open_spec : forall s o r, subst_open s = Ok (o, r) ->
  s = lit "{" ++ (if o then lit "?" else []) ++ r.
Proof.
  intros [|c s] o r H; cbn [subst_open] in H; [discriminate|].
  destruct (Ascii.eqb_spec c "{"); [|discriminate]. subst.
  destruct s as [|q s].
  - injection H as <- <-. reflexivity.
  - destruct (Ascii.eqb_spec q "?"); injection H as <- <-; subst; reflexivity.
Qed.

Lemma saver_check_shape : forall ws ls t, exists w ls',
  saver_check (ws, ls) t = (w, ([], ls')) /\
  render_tokens (match w with Some wt => [wt] | None => [] end) = ws.
Proof.
  intros ws ls t. unfold saver_check. destruct (is_simple_value t).
  - exists (create_whitespace_token (ws, ls)), true. split; [reflexivity|].
    destruct ws; cbn; [reflexivity|]. destruct ls; cbn; rewrite app_nil_r; reflexivity.
  - exists (create_whitespace_token (ws, false)), false. split; [reflexivity|].
    destruct ws; cbn; [reflexivity|]. rewrite app_nil_r; reflexivity.
Qed.

Lemma render_tokens_app : forall a b, render_tokens (a ++ b) = render_tokens a ++ render_tokens b.
Proof. intros. unfold render_tokens. rewrite map_app, concat_app. reflexivity. Qed.

Lemma render_tokens_one : forall t, render_tokens [t] = token_text t.
Proof. intro t. unfold render_tokens. cbn. apply app_nil_r. Qed.

(** What one pull consumes, and what its token says. *)
Definition pull_post (ac : bool) (ws : str) (ls : bool) (s : str) (t : token) (sv' : saver) (r : str) : Prop :=
  exists w x, sv' = (ws ++ w, ls) /\ Forall blank w /\ s = w ++ x ++ r /\
    lost_blanks x (token_text t) /\ (no_dollar s -> token_text t = x) /\
    (t = TEnd -> x = [] /\ r = []) /\ (t <> TEnd -> x <> []).

Definition subst_post (o : bool) (ws : str) (expr : list token) (s : str) (t : token) (r : str) : Prop :=
  exists e x, t = TSubst o (expr ++ e) /\ s = x ++ r /\
    lost_blanks (ws ++ x) (render_tokens e ++ lit "}") /\ x <> [].

Lemma pull_unquoted_end : forall ac s res t r, pull_unquoted_text ac res s = (t, r) -> t <> TEnd.
Proof.
  induction s as [|c s IH]; intros res t r H; cbn [pull_unquoted_text] in H.
  - injection H as <- <-. discriminate.
  - repeat match type of H with (if ?b then _ else _) = _ => destruct b;
      [injection H as <- <-; discriminate|] end.
    eapply IH. exact H.
Qed.

Lemma number_token_simple : forall m s t, number_token m s = Ok t -> is_simple_value t = true.
Proof.
  intros m s t H. unfold number_token, number_fallback in H.
  destruct (has_decimal_or_e m).
  - destruct (lexical_cast_double s).
    + inv_bind H. injection Hk as <-. reflexivity.
    + destruct (existsb _ s); [discriminate|]. injection H as <-. reflexivity.
  - destruct (lexical_cast_int64 s).
    + injection H as <-. reflexivity.
    + destruct (existsb _ s); [discriminate|]. injection H as <-. reflexivity.
Qed.

Lemma quoted_loop_prefix : forall k pp oo s p o r,
  quoted_loop k pp oo s = Ok (p, o, r) -> exists z, o = oo ++ z.
Proof.
  induction k; intros pp oo s p o r H; cbn [quoted_loop] in H; [discriminate|].
  destruct s; [discriminate|].
  destruct (Ascii.eqb a (ch 92)).
  - inv_bind H. destruct a0 as [[? ?] ?]. apply IHk in Hk. destruct Hk as [z ->].
    rewrite <- app_assoc. eauto.
  - destruct (Ascii.eqb a (ch 34)).
    + injection H as <- <- <-. eauto.
    + destruct (is_C0_control a); [discriminate|]. apply IHk in H. destruct H as [z ->].
      rewrite <- app_assoc. eauto.
Qed.

Lemma append_triple_prefix : forall s q p o p' o' r,
  append_triple_quoted_string q p o s = Ok (p', o', r) -> exists z, o' = o ++ z.
Proof.
  induction s; intros q p o p' o' r H; cbn [append_triple_quoted_string] in H.
  - destruct (3 <=? q)%nat; [|discriminate]. injection H as <- <- <-. exists []. rewrite app_nil_r. reflexivity.
  - destruct (Ascii.eqb a (ch 34)).
    + apply IHs in H. destruct H as [z ->]. rewrite <- app_assoc. eauto.
    + destruct (3 <=? q)%nat.
      * injection H as <- <- <-. exists []. rewrite app_nil_r. reflexivity.
      * apply IHs in H. destruct H as [z ->]. rewrite <- app_assoc. eauto.
Qed.

Lemma pull_quoted_text_nonempty : forall s t r, pull_quoted_string s = Ok (t, r) ->
  exists v z, t = TValue v (ch 34 :: z).
Proof.
  intros s t r H. unfold pull_quoted_string in H. inv_bind H. destruct a as [[p o] r1].
  apply quoted_loop_prefix in Hb. destruct Hb as [z ->]. inv_bind Hk. destruct a as [[p' o'] r2].
  injection Hk0 as <- <-. exists (SStr p' true).
  destruct p as [|p0 p].
  - destruct r1 as [|c r2'].
    + injection Hb as <- <- <-. exists z. reflexivity.
    + destruct (Ascii.eqb c (ch 34)).
      * apply append_triple_prefix in Hb. destruct Hb as [z' ->]. cbn. eauto.
      * injection Hb as <- <- <-. exists z. reflexivity.
  - injection Hb as <- <- <-. exists z. reflexivity.
Qed.

Lemma pull_unquoted_nonempty : forall ac s res t r,
  pull_unquoted_text ac res s = (t, r) -> res <> [] -> token_text t <> [].
Proof.
  induction s as [|a s IH]; intros res t r H Hr; cbn [pull_unquoted_text] in H.
  - injection H as <- <-. exact Hr.
  - destruct (mem a not_in_unquoted_text || is_whitespace a || start_of_comment ac a s).
    + injection H as <- <-. exact Hr.
    + destruct (str_eqb _ _). { injection H as <- <-. discriminate. }
      destruct (str_eqb _ _). { injection H as <- <-. discriminate. }
      destruct (str_eqb _ _). { injection H as <- <-. discriminate. }
      apply IH in H; [exact H|]. destruct res; discriminate.
Qed.

Lemma pull_spec : forall n,
  (forall ac ws ls s t sv' r, no_nul s -> pull_next_token n ac (ws, ls) s = Ok (t, sv', r) ->
     pull_post ac ws ls s t sv' r) /\
  (forall ac o ws ls expr s t r, no_nul s -> Forall blank ws ->
     pull_substitution n ac o (ws, ls) expr s = Ok (t, r) -> subst_post o ws expr s t r).
Proof.
  induction n as [|n [IHp IHs]]; split.
  - intros ac ws ls s t sv' r _ H; cbn in H; discriminate.
  - intros ac o ws ls expr s t r _ _ H; cbn in H; discriminate.
  - intros ac ws ls s t sv' r Hn H. cbn [pull_next_token] in H.
    destruct (next_char_after_whitespace ws s) as [ws' nx] eqn:E.
    apply next_char_spec in E. destruct E as [w [-> [Hw E]]].
    destruct nx as [[c s']|].
    2:{ injection H as <- <- <-. exists w, []. subst s. cbn. rewrite app_nil_r.
        repeat split; auto; try constructor; try congruence. }
    destruct E as [-> Hc].
    assert (Hn' : no_nul s') by (apply no_nul_app in Hn; destruct Hn as [_ Hn]; apply no_nul_cons in Hn; tauto).
    destruct (Ascii.eqb_spec c nl) as [->|Hnl].
    { injection H as <- <- <-. exists w, [nl]. repeat split; auto.
      - apply lost_blanks_refl.
      - discriminate.
      - discriminate.
      - discriminate. }
    inv_bind H. destruct a as [t' r']. injection Hk as <- <- <-.
    (* exact tokens: the text is what was read *)
    assert (Hexact : c :: s' = token_text t' ++ r' -> t' <> TEnd -> token_text t' <> [] ->
              pull_post ac ws ls (w ++ c :: s') t' (ws ++ w, ls) r').
    { intros Heq Hte Htt. exists w, (token_text t').
      refine (conj eq_refl (conj Hw (conj _ (conj (lost_blanks_refl _) (conj (fun _ => eq_refl) (conj _ (fun _ => Htt))))))).
      - rewrite Heq. reflexivity.
      - intro; contradiction. }
    destruct (start_of_comment ac c s') eqn:Ec.
    { pose proof (pull_comment_spec _ _ _ _ _ Ec Hb) as Hx.
      unfold pull_comment in Hb.
      assert (exists b tx, t' = TComment b tx) as [b [tx ->]].
      { destruct (Ascii.eqb c "/").
        - destruct s' as [|c' s'']; [discriminate|]. destruct (Ascii.eqb c' "/"); [|discriminate].
          destruct (comment_text s''). injection Hb as <- <-. eauto.
        - destruct (comment_text s'). injection Hb as <- <-. eauto. }
      apply Hexact; [exact Hx|discriminate|]. destruct b; cbn; discriminate. }
    destruct (Ascii.eqb_spec c (ch 34)) as [->|H34].
    { pose proof (pull_quoted_spec _ _ _ Hn' Hb) as Hx.
      apply pull_quoted_text_nonempty in Hb. destruct Hb as [v [z ->]].
      apply Hexact; [exact Hx|discriminate|discriminate]. }
    destruct (Ascii.eqb_spec c "$") as [->|Hd].
    { inv_bind Hb. destruct a as [o s2]. apply subst_open_spec in Hb0.
      assert (Hn2 : no_nul s2).
      { rewrite Hb0 in Hn'. apply no_nul_app in Hn'. destruct Hn' as [_ Hn']. apply no_nul_app in Hn'. tauto. }
      apply IHs in Hk; [|exact Hn2|constructor].
      destruct Hk as [e [x [-> [Hx [Hlb Hne]]]]]. cbn [app] in *.
      exists w, (lit "${" ++ (if o then lit "?" else []) ++ x).
      split; [reflexivity|]. split; [exact Hw|]. split.
      { rewrite Hb0, Hx. rewrite <- !app_assoc. reflexivity. }
      split.
      { cbn [token_text]. apply lost_blanks_app; [apply lost_blanks_refl|].
        apply lost_blanks_app; [apply lost_blanks_refl|]. exact Hlb. }
      split.
      { intro Hnd. exfalso. apply Hnd. apply in_app_iff. right. left. reflexivity. }
      split; [discriminate|]. intros _. discriminate. }
    repeat match type of Hb with (if Ascii.eqb c ?k then _ else _) = _ =>
      destruct (Ascii.eqb_spec c k) as [->|?];
      [ first [ injection Hb as <- <-; apply Hexact; [reflexivity|discriminate|discriminate]
              | (unfold pull_plus_equals in Hb; destruct s' as [|c' s'']; [discriminate|];
                 destruct (Ascii.eqb_spec c' "=") as [->|?]; [|discriminate];
                 injection Hb as <- <-; apply Hexact; [reflexivity|discriminate|discriminate]) ] | ] end.
    destruct (mem c first_number_chars).
    { pose proof (pull_number_spec _ _ _ _ Hb) as Hx. unfold pull_number in Hb.
      destruct (span_number s') as [m r1]. inv_bind Hb. injection Hk as <- <-.
      apply Hexact; [exact Hx| |].
      - intros ->. apply number_token_simple in Hb0. discriminate.
      - apply number_token_text in Hb0. rewrite Hb0. discriminate. }
    destruct (mem c not_in_unquoted_text) eqn:Em; [discriminate|].
    apply Ok_inj in Hb.
    pose proof (pull_unquoted_spec _ _ _ _ _ Hb) as Hx. cbn [app] in Hx.
    apply Hexact; [exact Hx|eapply pull_unquoted_end; exact Hb|].
    assert (Hws : is_whitespace c = false).
    { unfold is_whitespace_not_newline in Hc. destruct (Ascii.eqb_spec c nl); [contradiction|]. exact Hc. }
    cbn [pull_unquoted_text] in Hb. rewrite Em, Hws, Ec in Hb. cbn [orb] in Hb.
    repeat match type of Hb with (if ?b then _ else _) = _ =>
      destruct b; [injection Hb as <- <-; discriminate|] end.
    eapply pull_unquoted_nonempty; [exact Hb|discriminate].
  - intros ac o ws ls expr s t r Hn Hws H. cbn [pull_substitution] in H.
    inv_bind H. destruct a as [[t' sv'] r']. pose proof Hb as Hpull. apply IHp in Hb; [|exact Hn].
    destruct Hb as [w [x [-> [Hw [-> [Hlb [_ [Hend Hnend]]]]]]]].
    assert (Hn' : no_nul r') by (apply no_nul_app in Hn; destruct Hn as [_ Hn]; apply no_nul_app in Hn; tauto).
    assert (Hcont : forall wt sv'', t' <> TEnd ->
      saver_check (ws ++ w, ls) t' = (wt, sv'') ->
      pull_substitution n ac o sv'' (expr ++ match wt with Some wt0 => [wt0] | None => [] end ++ [t']) r'
        = Ok (t, r) ->
      subst_post o ws expr (w ++ x ++ r') t r).
    { intros wt sv'' Hte Hsc Hr'. destruct (saver_check_shape (ws ++ w) ls t') as [wt' [ls' [Hc Hr]]].
      assert (Heq : (wt, sv'') = (wt', ([], ls'))) by (rewrite <- Hsc, <- Hc; reflexivity).
      injection Heq as -> ->. apply IHs in Hr'; [|exact Hn'|constructor].
      destruct Hr' as [e [x' [-> [-> [Hlb' Hne]]]]]. cbn [app] in Hlb'.
      exists ((match wt' with Some wt0 => [wt0] | None => [] end ++ [t']) ++ e), (w ++ x ++ x').
      split; [rewrite <- !app_assoc; reflexivity|].
      split; [rewrite <- !app_assoc; reflexivity|].
      split.
      - rewrite !render_tokens_app, Hr, render_tokens_one.
        replace (ws ++ w ++ x ++ x') with ((ws ++ w) ++ x ++ x') by (rewrite <- !app_assoc; reflexivity).
        rewrite <- !app_assoc, (app_assoc ws w), (app_assoc ws w).
        apply lost_blanks_app; [apply lost_blanks_refl|].
        apply lost_blanks_app; [exact Hlb|exact Hlb'].
      - intro He. apply (Hnend Hte). destruct w; [|discriminate]. destruct x; [reflexivity|discriminate]. }
    destruct t';
      try (destruct (saver_check (ws ++ w, ls) _) as [wt sv''] eqn:Esc;
           eapply Hcont; [discriminate|reflexivity|exact Hk]).
    + (* END *) discriminate.
    + (* close *) injection Hk as <- <-.
      exists [], (w ++ x). rewrite app_nil_r. split; [reflexivity|]. split; [rewrite app_assoc; reflexivity|].
      split.
      * cbn [render_tokens map concat app]. rewrite app_assoc. apply lost_blanks_close; [|exact Hlb].
        apply Forall_app. auto.
      * destruct w; [|discriminate]. destruct x; [|discriminate]. exfalso. apply Hnend; [discriminate|reflexivity].
Qed.

(** ** The whole token stream is lossless *)

Lemma lex_loop_lossless : forall n ac ws ls s ts, no_nul s -> Forall blank ws ->
  lex_loop n ac (ws, ls) s = (ts, LEnd) ->
  lost_blanks (ws ++ s) (render_tokens ts) /\ (no_dollar s -> ws ++ s = render_tokens ts).
Proof.
  induction n as [|n IH]; intros ac ws ls s ts Hn Hws H; cbn [lex_loop] in H; [discriminate|].
  destruct (pull_next_token (S (List.length s)) ac (ws, ls) s) as [[[t sv'] r]| |] eqn:E; try discriminate.
  apply (proj1 (pull_spec _)) in E; [|exact Hn].
  destruct E as [w [x [-> [Hw [-> [Hlb [Hx [Hend Hnend]]]]]]]].
  destruct (saver_check_shape (ws ++ w) ls t) as [wt [ls' [Hc Hr]]].
  destruct (saver_check (ws ++ w, ls) t) as [wt0 sv0] eqn:Hsc.
  assert (Heq : (wt0, sv0) = (wt, ([], ls'))) by (rewrite <- Hsc, <- Hc; reflexivity).
  injection Heq as -> ->.
  assert (Hn' : no_nul r) by (apply no_nul_app in Hn; destruct Hn as [_ Hn]; apply no_nul_app in Hn; tauto).
  assert (Hcont : forall ts' e, lex_loop n ac ([], ls') r = (ts', e) ->
     ((match wt with Some wt0 => [wt0] | None => [] end ++ [t]) ++ ts', e) = (ts, LEnd) ->
     lost_blanks (ws ++ w ++ x ++ r) (render_tokens ts) /\
     (no_dollar (w ++ x ++ r) -> ws ++ w ++ x ++ r = render_tokens ts)).
  { intros ts' e Hl He. injection He as <- ->. apply IH in Hl; [|exact Hn'|constructor].
    cbn [app] in Hl. destruct Hl as [Hl1 Hl2].
    rewrite !render_tokens_app, Hr, render_tokens_one, <- !app_assoc.
    split.
    - apply lost_blanks_app; [apply lost_blanks_refl|].
      apply lost_blanks_app; [apply lost_blanks_refl|].
      apply lost_blanks_app; assumption.
    - intro Hd. rewrite Hx by exact Hd. do 3 f_equal. apply Hl2.
      apply no_dollar_app in Hd. destruct Hd as [_ Hd]. apply no_dollar_app in Hd. tauto. }
  destruct (lex_loop n ac ([], ls') r) as [ts' e] eqn:El.
  destruct t; try (eapply Hcont; [reflexivity|exact H]).
  destruct (Hend eq_refl) as [-> ->]. injection H as <-.
  rewrite render_tokens_app, Hr. cbn. rewrite !app_nil_r. split; [apply lost_blanks_refl|reflexivity].
Qed.

Lemma tokenize_lossless : forall ac s ts, no_nul s -> tokenize ac s = Ok ts ->
  lost_blanks s (render_tokens ts) /\ (no_dollar s -> render_tokens ts = s).
Proof.
  intros ac s ts Hn H. unfold tokenize, lex in H.
  destruct (lex_loop (S (List.length s)) ac saver_init s) as [ts' e] eqn:E.
  destruct e; try discriminate. injection H as <-.
  apply lex_loop_lossless in E; [|exact Hn|constructor]. cbn [app] in E. destruct E as [E1 E2].
  change (TStart :: ts') with ([TStart] ++ ts'). rewrite render_tokens_app. cbn [render_tokens map concat token_text app].
  split; [exact E1|]. intro Hd. symmetry. apply E2. exact Hd.
Qed.

(** ** Consumption, fuel *)

Lemma append_triple_len : forall s q p o p' o' r,
  append_triple_quoted_string q p o s = Ok (p', o', r) -> (List.length r <= List.length s)%nat.
Proof.
  induction s as [|c s IH]; intros q p o p' o' r H; cbn [append_triple_quoted_string] in H.
  - destruct (3 <=? q)%nat; [|discriminate]. injection H as <- <- <-. lia.
  - destruct (Ascii.eqb c (ch 34)).
    + apply IH in H. cbn. lia.
    + destruct (3 <=? q)%nat.
      * injection H as <- <- <-. lia.
      * apply IH in H. cbn. lia.
Qed.

Lemma pull_escape_len : forall s p o r, pull_escape_sequence s = Ok (p, o, r) ->
  (List.length r < List.length s)%nat.
Proof.
  intros s p o r H. destruct s as [|e s]; [discriminate|]. cbn [pull_escape_sequence] in H.
  assert (Hs : forall c, Ok ([c], [ch 92; e], s) = Ok (p, o, r) -> (List.length r < List.length (e :: s))%nat).
  { intros c Hc. injection Hc as <- <- <-. cbn; lia. }
  repeat match type of H with (if ?b then _ else _) = _ =>
    destruct b; [solve [eapply Hs; exact H]|] end.
  destruct (Ascii.eqb e "u"); [|discriminate].
  destruct s as [|u1 [|u2 [|u3 [|u4 s]]]]; try discriminate.
  - destruct (sscanf_hx [u1; u2; u3; ch 255]); discriminate.
  - inv_bind H. inv_bind Hk. apply Ok_inj in Hk0. assert (s = r) as <- by congruence. cbn; lia.
Qed.

Lemma quoted_loop_len : forall n s p o p' o' r,
  quoted_loop n p o s = Ok (p', o', r) -> (List.length r < List.length s)%nat.
Proof.
  induction n as [|n IH]; intros s p o p' o' r H; cbn [quoted_loop] in H; [discriminate|].
  destruct s as [|c s]; [discriminate|].
  destruct (Ascii.eqb c (ch 92)).
  - inv_bind H. destruct a as [[p1 o1] r1]. apply pull_escape_len in Hb. apply IH in Hk. cbn. lia.
  - destruct (Ascii.eqb c (ch 34)).
    + injection H as <- <- <-. cbn. lia.
    + destruct (is_C0_control c); [discriminate|]. apply IH in H. cbn. lia.
Qed.

Lemma pull_quoted_len : forall s t r, pull_quoted_string s = Ok (t, r) -> (List.length r < List.length s)%nat.
Proof.
  intros s t r H. unfold pull_quoted_string in H. inv_bind H. destruct a as [[p o] r1].
  apply quoted_loop_len in Hb. inv_bind Hk. destruct a as [[p' o'] r2]. injection Hk0 as <- <-.
  destruct p as [|p0 p].
  - destruct r1 as [|c r2'].
    + injection Hb0 as <- <- <-. lia.
    + destruct (Ascii.eqb c (ch 34)).
      * apply append_triple_len in Hb0. cbn in Hb. lia.
      * injection Hb0 as <- <- <-. lia.
  - injection Hb0 as <- <- <-. lia.
Qed.

Lemma pull_len : forall n,
  (forall ac sv s t sv' r, pull_next_token n ac sv s = Ok (t, sv', r) ->
     (List.length r <= List.length s)%nat /\ (t <> TEnd -> (List.length r < List.length s)%nat)
     /\ (t = TEnd -> r = [])) /\
  (forall ac o sv expr s t r, pull_substitution n ac o sv expr s = Ok (t, r) ->
     (List.length r < List.length s)%nat /\ exists e, t = TSubst o e).
Proof.
  induction n as [|n [IHp IHs]]; split.
  - intros ac sv s t sv' r H; cbn in H; discriminate.
  - intros ac o sv expr s t r H; cbn in H; discriminate.
  - intros ac [ws ls] s t sv' r H. cbn [pull_next_token] in H.
    destruct (next_char_after_whitespace ws s) as [ws' nx] eqn:E.
    apply next_char_spec in E. destruct E as [w [-> [Hw E]]].
    destruct nx as [[c s']|].
    2:{ injection H as <- <- <-. cbn. split; [lia|]. split; [congruence|reflexivity]. }
    destruct E as [-> Hc]. rewrite app_length. cbn [List.length].
    destruct (Ascii.eqb_spec c nl) as [->|Hnl].
    { injection H as <- <- <-. split; [lia|]. split; [lia|discriminate]. }
    inv_bind H. destruct a as [t' r']. injection Hk as <- <- <-.
    assert (Hlt : (List.length r' <= List.length s')%nat -> t' <> TEnd ->
      (List.length r' <= List.length w + S (List.length s'))%nat /\
      (t' <> TEnd -> (List.length r' < List.length w + S (List.length s'))%nat) /\ (t' = TEnd -> r' = [])).
    { intros Hl Ht. split; [lia|]. split; [lia|]. intro; contradiction. }
    destruct (start_of_comment ac c s') eqn:Ec.
    { unfold pull_comment in Hb. destruct (Ascii.eqb c "/").
      - destruct s' as [|c' s'']; [discriminate|]. destruct (Ascii.eqb c' "/"); [|discriminate].
        destruct (comment_text s'') eqn:Ect. injection Hb as <- <-. apply comment_text_spec in Ect. subst s''.
        apply Hlt; [cbn; rewrite app_length; lia|discriminate].
      - destruct (comment_text s') eqn:Ect. injection Hb as <- <-. apply comment_text_spec in Ect. subst s'.
        apply Hlt; [rewrite app_length; lia|discriminate]. }
    destruct (Ascii.eqb c (ch 34)).
    { pose proof (pull_quoted_text_nonempty _ _ _ Hb) as [v [z ->]]. apply pull_quoted_len in Hb.
      apply Hlt; [lia|discriminate]. }
    destruct (Ascii.eqb c "$").
    { inv_bind Hb. destruct a as [o s2]. apply subst_open_spec in Hb0. apply IHs in Hk.
      destruct Hk as [Hl [e ->]]. apply Hlt; [|discriminate]. rewrite Hb0, !app_length. lia. }
    repeat match type of Hb with (if Ascii.eqb c ?k then _ else _) = _ =>
      destruct (Ascii.eqb c k);
      [ first [ injection Hb as <- <-; apply Hlt; [lia|discriminate]
              | (unfold pull_plus_equals in Hb; destruct s' as [|c' s'']; [discriminate|];
                 destruct (Ascii.eqb c' "="); [|discriminate];
                 injection Hb as <- <-; apply Hlt; [cbn; lia|discriminate]) ] | ] end.
    destruct (mem c first_number_chars).
    { unfold pull_number in Hb. destruct (span_number s') as [m r1] eqn:Es. apply span_number_spec in Es.
      inv_bind Hb. injection Hk as <- <-. apply Hlt; [subst s'; rewrite app_length; lia|].
      intros ->. apply number_token_simple in Hb0. discriminate. }
    destruct (mem c not_in_unquoted_text) eqn:Em; [discriminate|].
    apply Ok_inj in Hb.
    pose proof (pull_unquoted_spec _ _ _ _ _ Hb) as Hx. cbn [app] in Hx.
    pose proof (pull_unquoted_end _ _ _ _ _ Hb) as Hte.
    assert (Hws : is_whitespace c = false).
    { unfold is_whitespace_not_newline in Hc. destruct (Ascii.eqb_spec c nl); [contradiction|]. exact Hc. }
    apply Hlt; [|exact Hte].
    cbn [pull_unquoted_text] in Hb. rewrite Em, Hws, Ec in Hb. cbn [orb] in Hb.
    assert (Hne : token_text t' <> []).
    { repeat match type of Hb with (if ?b then _ else _) = _ =>
        destruct b; [injection Hb as <- <-; discriminate|] end.
      eapply pull_unquoted_nonempty; [exact Hb|discriminate]. }
    apply (f_equal (@List.length ascii)) in Hx. rewrite app_length in Hx. cbn in Hx.
    destruct (token_text t'); [congruence|cbn in Hx; lia].
  - intros ac o sv expr s t r H. cbn [pull_substitution] in H.
    inv_bind H. destruct a as [[t' sv'] r']. apply IHp in Hb. destruct Hb as [Hl1 [Hl2 Hl3]].
    assert (Hcont : forall wt sv'', t' <> TEnd ->
      pull_substitution n ac o sv'' (expr ++ match wt with Some wt0 => [wt0] | None => [] end ++ [t']) r'
        = Ok (t, r) -> (List.length r < List.length s)%nat /\ exists e, t = TSubst o e).
    { intros wt sv'' Hte H. apply IHs in H. destruct H as [H1 H2]. split; [lia|exact H2]. }
    destruct t';
      try (destruct (saver_check sv' _) as [wt sv'']; eapply Hcont; [discriminate|exact Hk]).
    + discriminate.
    + injection Hk as <- <-. split; [apply Hl2; discriminate|eauto].
Qed.

(** ** Fuel always suffices, and which kinds of undefined behaviour are possible *)

Definition lexer_ub (u : ub) : Prop := u = UUninit \/ u = UUnspecified \/ u = UFloatCast.

Lemma sscanf_hx_stuck : forall s u, sscanf_hx s = Stuck u -> u = UUninit \/ u = UUnspecified.
Proof.
  intros s u H. unfold sscanf_hx in H. destruct (take_sign (skip_space (c_string s))) as [neg s1].
  apply bind_stuck in H. destruct H as [H|[a [_ H]]]; [|discriminate].
  destruct s1 as [|c0 [|x s2]].
  - cbn in H. left. congruence.
  - destruct (span_xdigits [c0]); [left|]; congruence.
  - destruct (Ascii.eqb c0 "0" && (Ascii.eqb x "x" || Ascii.eqb x "X")).
    + destruct (span_xdigits s2); [right; congruence|discriminate].
    + destruct (span_xdigits (c0 :: x :: s2)); [left; congruence|discriminate].
Qed.

Lemma utf8_stuck : forall z u, utf8 z = Stuck u -> u = UUnspecified.
Proof.
  intros z u H. unfold utf8 in H.
  repeat match type of H with (if ?b then _ else _) = _ => destruct b; try discriminate end.
  congruence.
Qed.

Lemma pull_escape_stuck : forall s u, pull_escape_sequence s = Stuck u -> u = UUninit \/ u = UUnspecified.
Proof.
  intros s u H. destruct s as [|e s]; [discriminate|]. cbn [pull_escape_sequence] in H.
  repeat match type of H with (if Ascii.eqb e ?k then Ok _ else _) = _ =>
    destruct (Ascii.eqb e k); [discriminate|] end.
  destruct (Ascii.eqb e "u"); [|discriminate].
  destruct s as [|u1 [|u2 [|u3 [|u4 s]]]]; try discriminate.
  - apply bind_stuck in H. destruct H as [H|[a [_ H]]]; [|discriminate]. apply sscanf_hx_stuck in H. exact H.
  - apply bind_stuck in H. destruct H as [H|[a [_ H]]]; [apply sscanf_hx_stuck in H; exact H|].
    apply bind_stuck in H. destruct H as [H|[a' [_ H]]]; [apply utf8_stuck in H; auto|discriminate].
Qed.

Lemma quoted_loop_stuck : forall n s p o u, (List.length s < n)%nat ->
  quoted_loop n p o s = Stuck u -> u = UUninit \/ u = UUnspecified.
Proof.
  induction n as [|n IH]; intros s p o u Hn H; [lia|]. cbn [quoted_loop] in H.
  destruct s as [|c s]; [discriminate|]. cbn in Hn.
  destruct (Ascii.eqb c (ch 92)).
  - apply bind_stuck in H. destruct H as [H|[[[p1 o1] r1] [Hb H]]].
    + apply pull_escape_stuck in H. exact H.
    + apply pull_escape_len in Hb. apply IH in H; [exact H|lia].
  - destruct (Ascii.eqb c (ch 34)); [discriminate|].
    destruct (is_C0_control c); [discriminate|]. apply IH in H; [exact H|lia].
Qed.

Lemma append_triple_stuck : forall s q p o u, append_triple_quoted_string q p o s <> Stuck u.
Proof.
  induction s as [|c s IH]; intros q p o u; cbn [append_triple_quoted_string].
  - destruct (3 <=? q)%nat; discriminate.
  - destruct (Ascii.eqb c (ch 34)); [apply IH|].
    destruct (3 <=? q)%nat; [discriminate|apply IH].
Qed.

Lemma pull_quoted_stuck : forall s u, pull_quoted_string s = Stuck u -> u = UUninit \/ u = UUnspecified.
Proof.
  intros s u H. unfold pull_quoted_string in H. apply bind_stuck in H.
  destruct H as [H|[[[p o] r] [_ H]]].
  - apply quoted_loop_stuck in H; [exact H|lia].
  - apply bind_stuck in H. destruct H as [H|[[[p' o'] r'] [_ H]]]; [|discriminate].
    destruct p as [|p0 p]; [|discriminate]. destruct r as [|c r]; [discriminate|].
    destruct (Ascii.eqb c (ch 34)); [|discriminate]. apply append_triple_stuck in H. contradiction.
Qed.

Lemma number_token_stuck : forall m s u, number_token m s = Stuck u -> u = UFloatCast.
Proof.
  intros m s u H. unfold number_token, number_fallback in H.
  destruct (has_decimal_or_e m).
  - destruct (lexical_cast_double s).
    + apply bind_stuck in H. destruct H as [H|[a [_ H]]]; [|discriminate].
      unfold new_number_double in H. apply bind_stuck in H. destruct H as [H|[a [_ H]]]; [|discriminate].
      unfold cast_int64 in H. destruct (double_trunc d); [|congruence]. destruct (in_int64 z); congruence.
    + destruct (existsb _ s); discriminate.
  - destruct (lexical_cast_int64 s); [discriminate|]. destruct (existsb _ s); discriminate.
Qed.

Lemma pull_stuck : forall n,
  (forall ac sv s u, (List.length s < n)%nat -> pull_next_token n ac sv s = Stuck u -> lexer_ub u) /\
  (forall ac o sv expr s u, (S (List.length s) < n)%nat -> pull_substitution n ac o sv expr s = Stuck u -> lexer_ub u).
Proof.
  unfold lexer_ub. induction n as [|n [IHp IHs]]; split.
  - intros; lia.
  - intros; lia.
  - intros ac [ws ls] s u Hn H. cbn [pull_next_token] in H.
    destruct (next_char_after_whitespace ws s) as [ws' nx] eqn:E.
    apply next_char_spec in E. destruct E as [w [-> [Hw E]]].
    destruct nx as [[c s']|]; [|discriminate].
    destruct E as [-> Hc]. rewrite app_length in Hn. cbn in Hn.
    destruct (Ascii.eqb c nl); [discriminate|].
    apply bind_stuck in H. destruct H as [H|[[t r] [_ H]]]; [|discriminate].
    destruct (start_of_comment ac c s').
    { unfold pull_comment in H. destruct (Ascii.eqb c "/").
      - destruct s' as [|c' s'']; [discriminate|]. destruct (Ascii.eqb c' "/"); [|discriminate].
        destruct (comment_text s''); discriminate.
      - destruct (comment_text s'); discriminate. }
    destruct (Ascii.eqb c (ch 34)).
    { apply pull_quoted_stuck in H. tauto. }
    destruct (Ascii.eqb c "$").
    { apply bind_stuck in H. destruct H as [H|[[o s2] [Hb H]]].
      - unfold subst_open in H. destruct s' as [|c1 s1]; [discriminate|].
        destruct (Ascii.eqb c1 "{"); [|discriminate]. destruct s1 as [|q s2]; [discriminate|].
        destruct (Ascii.eqb q "?"); discriminate.
      - apply subst_open_spec in Hb. apply IHs in H; [exact H|].
        rewrite Hb, !app_length in Hn. cbn in Hn. lia. }
    repeat match type of H with (if Ascii.eqb c ?k then _ else _) = _ =>
      destruct (Ascii.eqb c k);
      [ first [ discriminate
              | (unfold pull_plus_equals in H; destruct s' as [|c' s'']; [discriminate|];
                 destruct (Ascii.eqb c' "="); discriminate) ] | ] end.
    destruct (mem c first_number_chars).
    { unfold pull_number in H. destruct (span_number s') as [m r1]. apply bind_stuck in H.
      destruct H as [H|[t [_ H]]]; [|discriminate]. apply number_token_stuck in H. tauto. }
    destruct (mem c not_in_unquoted_text); discriminate.
  - intros ac o sv expr s u Hn H. cbn [pull_substitution] in H.
    apply bind_stuck in H. destruct H as [H|[[[t sv'] r] [Hb H]]].
    + apply IHp in H; [exact H|lia].
    + apply (proj1 (pull_len _)) in Hb. destruct Hb as [Hl1 [Hl2 _]].
      destruct t; try discriminate;
        (destruct (saver_check sv' _) as [wt sv'']; eapply IHs; [|exact H];
         specialize (Hl2 ltac:(discriminate)); lia).
Qed.

Lemma lex_loop_stuck : forall n ac sv s ts u, (List.length s < n)%nat ->
  lex_loop n ac sv s = (ts, LStuck u) -> lexer_ub u.
Proof.
  induction n as [|n IH]; intros ac sv s ts u Hn H; [lia|]. cbn [lex_loop] in H.
  destruct (pull_next_token (S (List.length s)) ac sv s) as [[[t sv'] r]|e|u'] eqn:E.
  - apply (proj1 (pull_len _)) in E. destruct E as [Hl1 [Hl2 _]].
    assert (Hcont : forall sv'' h, t <> TEnd ->
      (let '(ts, e) := lex_loop n ac sv'' r in (h ++ ts, e)) = (ts, LStuck u) -> lexer_ub u).
    { intros sv'' h Ht Hl. destruct (lex_loop n ac sv'' r) as [ts' e] eqn:El. injection Hl as _ ->.
      apply IH in El; [exact El|]. specialize (Hl2 Ht). lia. }
    destruct (saver_check sv' t) as [wt sv''].
    destruct t; try (eapply Hcont; [discriminate|exact H]). discriminate.
  - discriminate.
  - injection H as <- <-. apply (proj1 (pull_stuck _)) in E; [exact E|lia].
Qed.

Lemma lex_stuck : forall ac s ts u, lex ac s = (ts, LStuck u) -> lexer_ub u.
Proof.
  intros ac s ts u H. unfold lex in H.
  destruct (lex_loop (S (List.length s)) ac saver_init s) as [ts' e] eqn:E. injection H as <- ->.
  apply lex_loop_stuck in E; [exact E|lia].
Qed.
