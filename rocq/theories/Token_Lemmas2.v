(** More lemmas about the tokenizer: what makes it stuck, the shape of the token stream, whitespace
    classification and quoting. *)
From Verif Require Import Base BaseLemmas Util_Model Num_Model Token_Model Token_Spec Token_Lemmas.

(** ** The rest of the input after a token is made of bytes of the input *)

Lemma append_triple_incl : forall s q p o p' o' r,
  append_triple_quoted_string q p o s = Ok (p', o', r) -> incl r s.
Proof.
  induction s as [|c s IH]; intros q p o p' o' r H; cbn [append_triple_quoted_string] in H.
  - destruct (3 <=? q)%nat; [|discriminate]. injection H as <- <- <-. apply incl_refl.
  - destruct (Ascii.eqb c (ch 34)).
    + apply IH in H. apply incl_tl, H.
    + destruct (3 <=? q)%nat.
      * injection H as <- <- <-. apply incl_refl.
      * apply IH in H. apply incl_tl, H.
Qed.

Lemma pull_escape_incl : forall s p o r, pull_escape_sequence s = Ok (p, o, r) -> incl r s.
Proof.
  intros s p o r H. destruct s as [|e s]; [discriminate|]. cbn [pull_escape_sequence] in H.
  assert (Hs : forall c, Ok ([c], [ch 92; e], s) = Ok (p, o, r) -> incl r (e :: s)).
  { intros c Hc. injection Hc as <- <- <-. apply incl_tl, incl_refl. }
  repeat match type of H with (if ?b then _ else _) = _ =>
    destruct b; [solve [eapply Hs; exact H]|] end.
  destruct (Ascii.eqb e "u"); [|discriminate].
  destruct s as [|u1 [|u2 [|u3 [|u4 s]]]]; try discriminate.
  - destruct (sscanf_hx [u1; u2; u3; ch 255]); discriminate.
  - inv_bind H. inv_bind Hk. apply Ok_inj in Hk0. assert (s = r) as <- by congruence.
    do 5 apply incl_tl. apply incl_refl.
Qed.

Lemma quoted_loop_incl : forall n s p o p' o' r,
  quoted_loop n p o s = Ok (p', o', r) -> incl r s.
Proof.
  induction n as [|n IH]; intros s p o p' o' r H; cbn [quoted_loop] in H; [discriminate|].
  destruct s as [|c s]; [discriminate|].
  destruct (Ascii.eqb c (ch 92)).
  - inv_bind H. destruct a as [[p1 o1] r1]. apply pull_escape_incl in Hb. apply IH in Hk.
    apply incl_tl. eapply incl_tran; eassumption.
  - destruct (Ascii.eqb c (ch 34)).
    + injection H as <- <- <-. apply incl_tl, incl_refl.
    + destruct (is_C0_control c); [discriminate|]. apply IH in H. apply incl_tl, H.
Qed.

Lemma pull_quoted_incl : forall s t r, pull_quoted_string s = Ok (t, r) -> incl r s.
Proof.
  intros s t r H. unfold pull_quoted_string in H. inv_bind H. destruct a as [[p o] r1].
  apply quoted_loop_incl in Hb. inv_bind Hk. destruct a as [[p' o'] r2]. injection Hk0 as <- <-.
  destruct p as [|p0 p].
  - destruct r1 as [|c r2'].
    + injection Hb0 as <- <- <-. exact Hb.
    + destruct (Ascii.eqb c (ch 34)).
      * apply append_triple_incl in Hb0. eapply incl_tran; [exact Hb0|].
        eapply incl_tran; [|exact Hb]. apply incl_tl, incl_refl.
      * injection Hb0 as <- <- <-. exact Hb.
  - injection Hb0 as <- <- <-. exact Hb.
Qed.

Lemma subst_open_incl : forall s o r, subst_open s = Ok (o, r) -> incl r s.
Proof.
  intros s o r H. apply subst_open_spec in H. rewrite H. intros x Hx. rewrite !in_app_iff. tauto.
Qed.

Lemma pull_incl : forall n,
  (forall ac sv s t sv' r, pull_next_token n ac sv s = Ok (t, sv', r) -> incl r s) /\
  (forall ac o sv expr s t r, pull_substitution n ac o sv expr s = Ok (t, r) -> incl r s).
Proof.
  induction n as [|n [IHp IHs]]; split.
  - intros ac sv s t sv' r H; cbn in H; discriminate.
  - intros ac o sv expr s t r H; cbn in H; discriminate.
  - intros ac [ws ls] s t sv' r H. cbn [pull_next_token] in H.
    destruct (next_char_after_whitespace ws s) as [ws' nx] eqn:E.
    apply next_char_spec in E. destruct E as [w [-> [Hw E]]].
    destruct nx as [[c s']|].
    2:{ injection H as <- <- <-. apply incl_nil_l. }
    destruct E as [-> Hc].
    destruct (Ascii.eqb c nl).
    { injection H as <- <- <-. apply incl_appr, incl_tl, incl_refl. }
    inv_bind H. destruct a as [t' r']. injection Hk as <- <- <-. apply incl_appr.
    destruct (start_of_comment ac c s') eqn:Ec.
    { apply incl_tl. unfold pull_comment in Hb. destruct (Ascii.eqb c "/").
      - destruct s' as [|c' s'']; [discriminate|]. destruct (Ascii.eqb c' "/"); [|discriminate].
        destruct (comment_text s'') eqn:Ect. injection Hb as <- <-. apply comment_text_spec in Ect. subst s''.
        apply incl_tl, incl_appr, incl_refl.
      - destruct (comment_text s') eqn:Ect. injection Hb as <- <-. apply comment_text_spec in Ect. subst s'.
        apply incl_appr, incl_refl. }
    destruct (Ascii.eqb c (ch 34)).
    { apply pull_quoted_incl in Hb. apply incl_tl, Hb. }
    destruct (Ascii.eqb c "$").
    { inv_bind Hb. destruct a as [o s2]. apply subst_open_incl in Hb0. apply IHs in Hk.
      apply incl_tl. eapply incl_tran; eassumption. }
    repeat match type of Hb with (if Ascii.eqb c ?k then _ else _) = _ =>
      destruct (Ascii.eqb c k);
      [ first [ injection Hb as <- <-; apply incl_tl, incl_refl
              | (unfold pull_plus_equals in Hb; destruct s' as [|c' s'']; [discriminate|];
                 destruct (Ascii.eqb c' "="); [|discriminate];
                 injection Hb as <- <-; apply incl_tl, incl_tl, incl_refl) ] | ] end.
    destruct (mem c first_number_chars).
    { unfold pull_number in Hb. destruct (span_number s') as [m r1] eqn:Es. apply span_number_spec in Es.
      inv_bind Hb. injection Hk as <- <-. subst s'. apply incl_tl, incl_appr, incl_refl. }
    destruct (mem c not_in_unquoted_text) eqn:Em; [discriminate|].
    apply Ok_inj in Hb.
    pose proof (pull_unquoted_spec _ _ _ _ _ Hb) as Hx. cbn [app] in Hx. rewrite Hx.
    apply incl_appr, incl_refl.
  - intros ac o sv expr s t r H. cbn [pull_substitution] in H.
    inv_bind H. destruct a as [[t' sv'] r']. apply IHp in Hb.
    destruct t'; try discriminate;
      try (destruct (saver_check sv' _) as [wt sv'']; apply IHs in Hk; eapply incl_tran; eassumption).
    injection Hk as <- <-. exact Hb.
Qed.

(** ** Undefined behaviour needs a backslash or a digit *)

Lemma stuck_cause_incl : forall a b u, incl a b -> stuck_cause a u -> stuck_cause b u.
Proof. intros a b u Hi [[H1 H2]|[[c [H1 H1']] H2]]; [left|right]; eauto. Qed.

Lemma quoted_loop_cause : forall n s p o u, (List.length s < n)%nat ->
  quoted_loop n p o s = Stuck u -> In (ch 92) s.
Proof.
  induction n as [|n IH]; intros s p o u Hn H; [lia|]. cbn [quoted_loop] in H.
  destruct s as [|c s]; [discriminate|]. cbn in Hn.
  destruct (Ascii.eqb_spec c (ch 92)) as [->|_].
  - left; reflexivity.
  - destruct (Ascii.eqb c (ch 34)); [discriminate|].
    destruct (is_C0_control c); [discriminate|]. right. eapply IH; [|exact H]. lia.
Qed.

Lemma pull_quoted_cause : forall s u, pull_quoted_string s = Stuck u -> stuck_cause s u.
Proof.
  intros s u H. left. split; [|apply pull_quoted_stuck in H; exact H].
  unfold pull_quoted_string in H. apply bind_stuck in H.
  destruct H as [H|[[[p o] r] [_ H]]].
  - eapply quoted_loop_cause; [|exact H]. lia.
  - apply bind_stuck in H. destruct H as [H|[[[p' o'] r'] [_ H]]]; [|discriminate].
    destruct p as [|p0 p]; [|discriminate]. destruct r as [|c r]; [discriminate|].
    destruct (Ascii.eqb c (ch 34)); [|discriminate]. apply append_triple_stuck in H. contradiction.
Qed.

Lemma span_digits_spec : forall s d r, span_digits s = (d, r) ->
  s = d ++ r /\ forallb isdigit d = true /\ match r with c :: _ => isdigit c = false | [] => True end.
Proof.
  induction s as [|c s IH]; intros d r H; cbn [span_digits] in H.
  - injection H as <- <-. auto.
  - destruct (isdigit c) eqn:E.
    + destruct (span_digits s) as [d' r']. injection H as <- <-.
      destruct (IH _ _ eq_refl) as [-> [H1 H2]]. cbn. rewrite E. auto.
    + injection H as <- <-. auto.
Qed.

Lemma take_sign_incl : forall s b r, take_sign s = (b, r) -> incl r s.
Proof.
  intros s b r H. destruct s as [|c s]; cbn in H.
  - injection H as <- <-. apply incl_refl.
  - destruct (Ascii.eqb c "-"); [|destruct (Ascii.eqb c "+")]; injection H as <- <-;
      auto using incl_tl, incl_refl.
Qed.

Lemma lexical_cast_double_digit : forall s d, lexical_cast_double s = Some d ->
  exists c, In c s /\ isdigit c = true.
Proof.
  intros s d H. unfold lexical_cast_double in H.
  destruct (take_sign s) as [neg s1] eqn:E1. apply take_sign_incl in E1.
  destruct (span_digits s1) as [ip s2] eqn:E2. apply span_digits_spec in E2. destruct E2 as [-> [Hi _]].
  destruct ip as [|c ip].
  - cbn [app] in *. destruct s2 as [|c s2]; [discriminate|].
    destruct (Ascii.eqb c "."); [|discriminate].
    destruct (span_digits s2) as [fp s3] eqn:E3. apply span_digits_spec in E3. destruct E3 as [-> [Hf _]].
    destruct fp as [|x fp]; [discriminate|]. cbn in Hf. apply andb_prop in Hf.
    exists x. split; [apply E1; right; left; reflexivity|apply Hf].
  - cbn in Hi. apply andb_prop in Hi. exists c. split; [apply E1; left; reflexivity|apply Hi].
Qed.

Lemma number_token_cause : forall m s u, number_token m s = Stuck u -> stuck_cause s u.
Proof.
  intros m s u H. right. split; [|apply number_token_stuck in H; exact H].
  unfold number_token, number_fallback in H.
  destruct (has_decimal_or_e m).
  - destruct (lexical_cast_double s) eqn:E.
    + eapply lexical_cast_double_digit. exact E.
    + destruct (existsb _ s); discriminate.
  - destruct (lexical_cast_int64 s); [discriminate|]. destruct (existsb _ s); discriminate.
Qed.

Lemma pull_cause : forall n,
  (forall ac sv s u, (List.length s < n)%nat -> pull_next_token n ac sv s = Stuck u -> stuck_cause s u) /\
  (forall ac o sv expr s u, (S (List.length s) < n)%nat -> pull_substitution n ac o sv expr s = Stuck u ->
     stuck_cause s u).
Proof.
  induction n as [|n [IHp IHs]]; split.
  - intros; lia.
  - intros; lia.
  - intros ac [ws ls] s u Hn H. cbn [pull_next_token] in H.
    destruct (next_char_after_whitespace ws s) as [ws' nx] eqn:E.
    apply next_char_spec in E. destruct E as [w [-> [Hw E]]].
    destruct nx as [[c s']|]; [|discriminate].
    destruct E as [-> Hc]. rewrite app_length in Hn. cbn in Hn.
    destruct (Ascii.eqb c nl); [discriminate|].
    apply bind_stuck in H. destruct H as [H|[[t r] [_ H]]]; [|discriminate].
    eapply stuck_cause_incl; [apply incl_appr, incl_refl|].
    destruct (start_of_comment ac c s').
    { unfold pull_comment in H. destruct (Ascii.eqb c "/").
      - destruct s' as [|c' s'']; [discriminate|]. destruct (Ascii.eqb c' "/"); [|discriminate].
        destruct (comment_text s''); discriminate.
      - destruct (comment_text s'); discriminate. }
    destruct (Ascii.eqb c (ch 34)).
    { apply pull_quoted_cause in H. eapply stuck_cause_incl; [|exact H]. apply incl_tl, incl_refl. }
    destruct (Ascii.eqb c "$").
    { apply bind_stuck in H. destruct H as [H|[[o s2] [Hb H]]].
      - unfold subst_open in H. destruct s' as [|c1 s1]; [discriminate|].
        destruct (Ascii.eqb c1 "{"); [|discriminate]. destruct s1 as [|q s2]; [discriminate|].
        destruct (Ascii.eqb q "?"); discriminate.
      - pose proof (subst_open_incl _ _ _ Hb) as Hi. apply subst_open_spec in Hb.
        apply IHs in H.
        + eapply stuck_cause_incl; [|exact H]. apply incl_tl, Hi.
        + rewrite Hb, !app_length in Hn. cbn in Hn. lia. }
    repeat match type of H with (if Ascii.eqb c ?k then _ else _) = _ =>
      destruct (Ascii.eqb c k);
      [ first [ discriminate
              | (unfold pull_plus_equals in H; destruct s' as [|c' s'']; [discriminate|];
                 destruct (Ascii.eqb c' "="); discriminate) ] | ] end.
    destruct (mem c first_number_chars).
    { unfold pull_number in H. destruct (span_number s') as [m r1] eqn:Es. apply span_number_spec in Es.
      apply bind_stuck in H. destruct H as [H|[t [_ H]]]; [|discriminate].
      apply number_token_cause in H. eapply stuck_cause_incl; [|exact H]. subst s'.
      change (c :: m ++ r1) with ((c :: m) ++ r1). apply incl_appl, incl_refl. }
    destruct (mem c not_in_unquoted_text); discriminate.
  - intros ac o sv expr s u Hn H. cbn [pull_substitution] in H.
    apply bind_stuck in H. destruct H as [H|[[[t sv'] r] [Hb H]]].
    + apply IHp in H; [exact H|lia].
    + pose proof (proj1 (pull_incl _) _ _ _ _ _ _ Hb) as Hi.
      apply (proj1 (pull_len _)) in Hb. destruct Hb as [Hl1 [Hl2 _]].
      destruct t; try discriminate;
        (destruct (saver_check sv' _) as [wt sv'']; eapply stuck_cause_incl; [exact Hi|];
         eapply IHs; [|exact H]; specialize (Hl2 ltac:(discriminate)); lia).
Qed.

Lemma lex_loop_cause : forall n ac sv s ts u, (List.length s < n)%nat ->
  lex_loop n ac sv s = (ts, LStuck u) -> stuck_cause s u.
Proof.
  induction n as [|n IH]; intros ac sv s ts u Hn H; [lia|]. cbn [lex_loop] in H.
  destruct (pull_next_token (S (List.length s)) ac sv s) as [[[t sv'] r]|e|u'] eqn:E.
  - pose proof (proj1 (pull_incl _) _ _ _ _ _ _ E) as Hi.
    apply (proj1 (pull_len _)) in E. destruct E as [Hl1 [Hl2 _]].
    assert (Hcont : forall sv'' h, t <> TEnd ->
      (let '(ts, e) := lex_loop n ac sv'' r in (h ++ ts, e)) = (ts, LStuck u) -> stuck_cause s u).
    { intros sv'' h Ht Hl. destruct (lex_loop n ac sv'' r) as [ts' e] eqn:El. injection Hl as _ ->.
      apply IH in El; [eapply stuck_cause_incl; eassumption|]. specialize (Hl2 Ht). lia. }
    destruct (saver_check sv' t) as [wt sv''].
    destruct t; try (eapply Hcont; [discriminate|exact H]). discriminate.
  - discriminate.
  - injection H as <- <-. apply (proj1 (pull_cause _)) in E; [exact E|lia].
Qed.

(** ** Only config exceptions *)

Lemma bind_throw_inv : forall A B (r : result A) (f : A -> result B) e (P : Prop),
  bind r f = Throw e -> (r = Throw e -> P) -> (forall a, r = Ok a -> f a = Throw e -> P) -> P.
Proof. intros A B r f e P H H1 H2. apply bind_throw in H. destruct H as [H|[a [Ha H]]]; eauto. Qed.

Lemma sscanf_hx_throw : forall s e, sscanf_hx s <> Throw e.
Proof.
  intros s e H. unfold sscanf_hx in H. destruct (take_sign (skip_space (c_string s))) as [neg s1].
  apply bind_throw in H. destruct H as [H|[a [_ H]]]; [|discriminate].
  destruct s1 as [|c0 [|x s2]].
  - discriminate.
  - destruct (span_xdigits [c0]); discriminate.
  - destruct (Ascii.eqb c0 "0" && (Ascii.eqb x "x" || Ascii.eqb x "X")).
    + destruct (span_xdigits s2); discriminate.
    + destruct (span_xdigits (c0 :: x :: s2)); discriminate.
Qed.

Lemma utf8_throw : forall z e, utf8 z <> Throw e.
Proof.
  intros z e H. unfold utf8 in H.
  repeat match type of H with (if ?b then _ else _) = _ => destruct b; try discriminate end.
Qed.

Lemma pull_escape_throw : forall s e, pull_escape_sequence s = Throw e -> e = EConfig.
Proof.
  intros s x H. destruct s as [|e s]; [cbn in H; congruence|]. cbn [pull_escape_sequence] in H.
  repeat match type of H with (if Ascii.eqb e ?k then Ok _ else _) = _ =>
    destruct (Ascii.eqb e k); [discriminate|] end.
  destruct (Ascii.eqb e "u"); [|congruence].
  destruct s as [|u1 [|u2 [|u3 [|u4 s]]]]; try congruence.
  - apply bind_throw in H. destruct H as [H|[a [_ H]]]; [|congruence]. apply sscanf_hx_throw in H. contradiction.
  - apply bind_throw in H. destruct H as [H|[a [_ H]]]; [apply sscanf_hx_throw in H; contradiction|].
    apply bind_throw in H. destruct H as [H|[a' [_ H]]]; [apply utf8_throw in H; contradiction|discriminate].
Qed.

Lemma quoted_loop_throw : forall n s p o e, quoted_loop n p o s = Throw e -> e = EConfig.
Proof.
  induction n as [|n IH]; intros s p o e H; cbn [quoted_loop] in H; [discriminate|].
  destruct s as [|c s]; [congruence|].
  destruct (Ascii.eqb c (ch 92)).
  - apply bind_throw in H. destruct H as [H|[[[p1 o1] r1] [Hb H]]].
    + apply pull_escape_throw in H. exact H.
    + eapply IH, H.
  - destruct (Ascii.eqb c (ch 34)); [discriminate|].
    destruct (is_C0_control c); [congruence|]. eapply IH, H.
Qed.

Lemma append_triple_throw : forall s q p o e, append_triple_quoted_string q p o s = Throw e -> e = EConfig.
Proof.
  induction s as [|c s IH]; intros q p o e H; cbn [append_triple_quoted_string] in H.
  - destruct (3 <=? q)%nat; congruence.
  - destruct (Ascii.eqb c (ch 34)); [eapply IH, H|].
    destruct (3 <=? q)%nat; [discriminate|eapply IH, H].
Qed.

Lemma pull_quoted_throw : forall s e, pull_quoted_string s = Throw e -> e = EConfig.
Proof.
  intros s u H. unfold pull_quoted_string in H. apply bind_throw in H.
  destruct H as [H|[[[p o] r] [_ H]]].
  - apply quoted_loop_throw in H; exact H.
  - apply bind_throw in H. destruct H as [H|[[[p' o'] r'] [_ H]]]; [|discriminate].
    destruct p as [|p0 p]; [|discriminate]. destruct r as [|c r]; [discriminate|].
    destruct (Ascii.eqb c (ch 34)); [|discriminate]. apply append_triple_throw in H. exact H.
Qed.

Lemma number_token_throw : forall m s e, number_token m s = Throw e -> e = EConfig.
Proof.
  intros m s e H. unfold number_token, number_fallback in H.
  destruct (has_decimal_or_e m).
  - destruct (lexical_cast_double s).
    + apply bind_throw in H. destruct H as [H|[a [_ H]]]; [|discriminate].
      unfold new_number_double in H. apply bind_throw in H. destruct H as [H|[a [_ H]]]; [|discriminate].
      unfold cast_int64 in H. destruct (double_trunc d); [|congruence]. destruct (in_int64 z); congruence.
    + destruct (existsb _ s); congruence.
  - destruct (lexical_cast_int64 s); [discriminate|]. destruct (existsb _ s); congruence.
Qed.

Lemma pull_throw : forall n,
  (forall ac sv s e, pull_next_token n ac sv s = Throw e -> e = EConfig) /\
  (forall ac o sv expr s e, pull_substitution n ac o sv expr s = Throw e -> e = EConfig).
Proof.
  induction n as [|n [IHp IHs]]; split.
  - intros ac sv s e H; cbn in H; discriminate.
  - intros ac o sv expr s e H; cbn in H; discriminate.
  - intros ac [ws ls] s u H. cbn [pull_next_token] in H.
    destruct (next_char_after_whitespace ws s) as [ws' nx] eqn:E.
    destruct nx as [[c s']|]; [|discriminate].
    destruct (Ascii.eqb c nl); [discriminate|].
    apply bind_throw in H. destruct H as [H|[[t r] [_ H]]]; [|discriminate].
    destruct (start_of_comment ac c s').
    { unfold pull_comment in H. destruct (Ascii.eqb c "/").
      - destruct s' as [|c' s'']; [congruence|]. destruct (Ascii.eqb c' "/"); [|congruence].
        destruct (comment_text s''); congruence.
      - destruct (comment_text s'); congruence. }
    destruct (Ascii.eqb c (ch 34)).
    { apply pull_quoted_throw in H. exact H. }
    destruct (Ascii.eqb c "$").
    { apply bind_throw in H. destruct H as [H|[[o s2] [Hb H]]].
      - unfold subst_open in H. destruct s' as [|c1 s1]; [congruence|].
        destruct (Ascii.eqb c1 "{"); [|congruence]. destruct s1 as [|q s2]; [congruence|].
        destruct (Ascii.eqb q "?"); congruence.
      - eapply IHs, H. }
    repeat match type of H with (if Ascii.eqb c ?k then _ else _) = _ =>
      destruct (Ascii.eqb c k);
      [ first [ discriminate
              | (unfold pull_plus_equals in H; destruct s' as [|c' s'']; [congruence|];
                 destruct (Ascii.eqb c' "="); congruence) ] | ] end.
    destruct (mem c first_number_chars).
    { unfold pull_number in H. destruct (span_number s') as [m r1].
      apply bind_throw in H. destruct H as [H|[t [_ H]]]; [|discriminate].
      apply number_token_throw in H. exact H. }
    destruct (mem c not_in_unquoted_text); congruence.
  - intros ac o sv expr s u H. cbn [pull_substitution] in H.
    apply bind_throw in H. destruct H as [H|[[[t sv'] r] [Hb H]]].
    + eapply IHp, H.
    + destruct t; try congruence;
        (destruct (saver_check sv' _) as [wt sv'']; eapply IHs, H).
Qed.

Lemma lex_loop_throw : forall n ac sv s ts e, lex_loop n ac sv s = (ts, LThrow e) -> e = EConfig.
Proof.
  induction n as [|n IH]; intros ac sv s ts u H; cbn [lex_loop] in H; [discriminate|].
  destruct (pull_next_token (S (List.length s)) ac sv s) as [[[t sv'] r]|e|u'] eqn:E.
  - assert (Hcont : forall sv'' h, 
      (let '(ts, e) := lex_loop n ac sv'' r in (h ++ ts, e)) = (ts, LThrow u) -> u = EConfig).
    { intros sv'' h Hl. destruct (lex_loop n ac sv'' r) as [ts' e] eqn:El. injection Hl as _ ->.
      apply IH in El; exact El. }
    destruct (saver_check sv' t) as [wt sv''].
    destruct t; try (eapply Hcont; exact H). discriminate.
  - injection H as <- <-. eapply (proj1 (pull_throw _)), E.
  - discriminate.
Qed.

(** ** Shape of single tokens *)

Definition no_ws (s : str) : Prop := Forall (fun c => is_whitespace c = false) s.

(** A token as delivered by pull_next_token. *)
Definition pulled (t : token) : Prop :=
  match t with
  | TStart | TIgnored _ => False
  | TUnquoted s => s <> [] /\ no_ws s
  | TValue _ s => exists c s', s = c :: s' /\ is_whitespace c = false
  | _ => True
  end.

Lemma number_chars_no_ws : forall c, mem c number_chars = true -> is_whitespace c = false.
Proof.
  intros c H. generalize (forall_byte (fun c => implb (mem c number_chars) (negb (is_whitespace c)))
    ltac:(vm_compute; reflexivity) c). rewrite H. cbn. destruct (is_whitespace c); [discriminate|reflexivity].
Qed.
Lemma first_number_no_ws : forall c, mem c first_number_chars = true -> is_whitespace c = false.
Proof.
  intros c H. generalize (forall_byte (fun c => implb (mem c first_number_chars) (negb (is_whitespace c)))
    ltac:(vm_compute; reflexivity) c). rewrite H. cbn. destruct (is_whitespace c); [discriminate|reflexivity].
Qed.

Lemma span_number_chars : forall s t r, span_number s = (t, r) ->
  Forall (fun c => mem c number_chars = true) t.
Proof.
  induction s as [|c s IH]; intros t r H; cbn [span_number] in H.
  - injection H as <- <-. constructor.
  - destruct (mem c number_chars) eqn:E.
    + destruct (span_number s) as [t' r'] eqn:E'. injection H as <- <-. constructor; eauto.
    + injection H as <- <-. constructor.
Qed.

Lemma number_token_pulled : forall m c s t, number_token m (c :: s) = Ok t -> no_ws (c :: s) -> pulled t.
Proof.
  intros m c s t H Hn. pose proof (number_token_text _ _ _ _ H) as Ht.
  apply number_token_simple in H as Hs. inversion Hn; subst.
  destruct t; try discriminate.
  - cbn in Ht. subst text. split; [discriminate|exact Hn].
  - exfalso. unfold number_token, number_fallback in H. destruct (has_decimal_or_e m).
    + destruct (lexical_cast_double _).
      * inv_bind H. discriminate.
      * destruct (existsb _ _); discriminate.
    + destruct (lexical_cast_int64 _); [discriminate|]. destruct (existsb _ _); discriminate.
  - cbn in Ht. subst text. exists c, s. auto.
Qed.

Lemma pull_unquoted_pulled : forall ac s res t r, pull_unquoted_text ac res s = (t, r) ->
  res <> [] -> no_ws res -> pulled t.
Proof.
  induction s as [|c s IH]; intros res t r H Hr Hn; cbn [pull_unquoted_text] in H.
  - injection H as <- <-. split; assumption.
  - destruct (mem c not_in_unquoted_text || is_whitespace c || start_of_comment ac c s) eqn:E.
    + injection H as <- <-. split; assumption.
    + destruct (str_eqb (res ++ [c]) (lit "true")).
      { injection H as <- <-. exists "t"%char, (lit "rue"). split; reflexivity. }
      destruct (str_eqb (res ++ [c]) (lit "null")).
      { injection H as <- <-. exists "n"%char, (lit "ull"). split; reflexivity. }
      destruct (str_eqb (res ++ [c]) (lit "false")).
      { injection H as <- <-. exists "f"%char, (lit "alse"). split; reflexivity. }
      apply IH in H; [exact H|destruct res; discriminate|].
      apply Forall_app. split; [exact Hn|]. constructor; [|constructor].
      rewrite !orb_false_iff in E. tauto.
Qed.

Lemma pull_quoted_starts : forall s t r, pull_quoted_string s = Ok (t, r) ->
  exists v z, t = TValue v (ch 34 :: z).
Proof. exact pull_quoted_text_nonempty. Qed.

Lemma pull_shape : forall n ac ws ls s t sv' r,
  pull_next_token n ac (ws, ls) s = Ok (t, sv', r) ->
  pulled t /\ exists w, sv' = (ws ++ w, ls) /\ Forall blank w.
Proof.
  intros [|n] ac ws ls s t sv' r H; [discriminate|]. cbn [pull_next_token] in H.
  destruct (next_char_after_whitespace ws s) as [ws' nx] eqn:E.
  apply next_char_spec in E. destruct E as [w [-> [Hw E]]].
  destruct nx as [[c s']|].
  2:{ injection H as <- <- <-. split; [exact I|]. exists w. auto. }
  destruct E as [-> Hc].
  destruct (Ascii.eqb_spec c nl) as [->|Hnl].
  { injection H as <- <- <-. split; [exact I|]. exists w. auto. }
  assert (Hws : is_whitespace c = false).
  { unfold is_whitespace_not_newline in Hc. destruct (Ascii.eqb_spec c nl); [contradiction|]. exact Hc. }
  inv_bind H. destruct a as [t' r']. injection Hk as <- <- <-.
  split; [|exists w; auto].
  destruct (start_of_comment ac c s') eqn:Ec.
  { unfold pull_comment in Hb. destruct (Ascii.eqb c "/").
    - destruct s' as [|c' s'']; [discriminate|]. destruct (Ascii.eqb c' "/"); [|discriminate].
      destruct (comment_text s''). injection Hb as <- <-. exact I.
    - destruct (comment_text s'). injection Hb as <- <-. exact I. }
  destruct (Ascii.eqb c (ch 34)).
  { apply pull_quoted_starts in Hb. destruct Hb as [v [z ->]]. exists (ch 34), z. split; reflexivity. }
  destruct (Ascii.eqb c "$").
  { inv_bind Hb. destruct a as [o s2]. apply (proj2 (pull_len _)) in Hk. destruct Hk as [_ [e ->]]. exact I. }
  repeat match type of Hb with (if Ascii.eqb c ?k then _ else _) = _ =>
    destruct (Ascii.eqb c k);
    [ first [ injection Hb as <- <-; exact I
            | (unfold pull_plus_equals in Hb; destruct s' as [|c' s'']; [discriminate|];
               destruct (Ascii.eqb c' "="); [|discriminate];
               injection Hb as <- <-; exact I) ] | ] end.
  destruct (mem c first_number_chars) eqn:Ef.
  { unfold pull_number in Hb. destruct (span_number s') as [m r1] eqn:Es. apply span_number_chars in Es.
    inv_bind Hb. injection Hk as <- <-. eapply number_token_pulled; [exact Hb0|].
    constructor; [exact Hws|]. eapply Forall_impl; [|exact Es]. apply number_chars_no_ws. }
  destruct (mem c not_in_unquoted_text) eqn:Em; [discriminate|].
  apply Ok_inj in Hb. cbn [pull_unquoted_text] in Hb. rewrite Em, Hws, Ec in Hb. cbn [orb app] in Hb.
  destruct (str_eqb [c] (lit "true")).
  { injection Hb as <- <-. exists "t"%char, (lit "rue"). split; reflexivity. }
  destruct (str_eqb [c] (lit "null")).
  { injection Hb as <- <-. exists "n"%char, (lit "ull"). split; reflexivity. }
  destruct (str_eqb [c] (lit "false")).
  { injection Hb as <- <-. exists "f"%char, (lit "alse"). split; reflexivity. }
  eapply pull_unquoted_pulled; [exact Hb|discriminate|]. constructor; [exact Hws|constructor].
Qed.

(** ** Whitespace classification *)

(** A token stream in which whitespace is classified by its neighbours; [ls] tells whether the token
    before the stream is a simple value. *)
Inductive classified : bool -> list token -> Prop :=
| cl_nil : forall ls, classified ls []
| cl_tok : forall ls t ts, pulled t -> classified (is_simple_value t) ts -> classified ls (t :: ts)
| cl_ws : forall ls w t ts, w <> [] -> Forall blank w -> pulled t -> classified (is_simple_value t) ts ->
    classified ls ((if ls && is_simple_value t then TUnquoted w else TIgnored w) :: t :: ts).

Fixpoint last_simple (ls : bool) (ts : list token) : bool :=
  match ts with [] => ls | t :: ts' => last_simple (is_simple_value t) ts' end.

Lemma last_simple_snoc : forall ts ls t, last_simple ls (ts ++ [t]) = is_simple_value t.
Proof. induction ts as [|x ts IH]; intros ls t; cbn; [reflexivity|apply IH]. Qed.

Lemma saver_check_eq : forall ws ls t,
  saver_check (ws, ls) t =
  (match ws with [] => None | _ :: _ => Some (if ls && is_simple_value t then TUnquoted ws else TIgnored ws) end,
   ([], is_simple_value t)).
Proof.
  intros ws ls t. unfold saver_check, create_whitespace_token.
  destruct (is_simple_value t), ws, ls; reflexivity.
Qed.

Lemma classified_chunk : forall ws ls t ts w sv, Forall blank ws -> pulled t ->
  saver_check (ws, ls) t = (w, sv) -> classified (is_simple_value t) ts ->
  classified ls ((match w with Some wt => [wt] | None => [] end ++ [t]) ++ ts).
Proof.
  intros ws ls t ts w sv Hb Hp H Hc. rewrite saver_check_eq in H. injection H as <- <-.
  destruct ws as [|c ws]; cbn [app].
  - constructor; assumption.
  - apply cl_ws; [discriminate|assumption..].
Qed.

Lemma classified_app : forall ls a b, classified ls a -> classified (last_simple ls a) b -> classified ls (a ++ b).
Proof.
  intros ls a b H. induction H as [ls|ls t ts Hp H IH|ls w t ts Hw Hb Hp H IH]; intro Hc; cbn [app last_simple] in *.
  - exact Hc.
  - constructor; auto.
  - apply cl_ws; auto.
Qed.

(** The token streams inside a token stream: the stream itself and, recursively, the expressions of
    its substitutions. *)
Lemma pull_classified : forall n,
  (forall ac ws ls s t sv' r, pull_next_token n ac (ws, ls) s = Ok (t, sv', r) -> Forall blank ws ->
     forall o e, t = TSubst o e -> forall st, stream_in e st -> classified false st) /\
  (forall ac o ws ls expr s t r, pull_substitution n ac o (ws, ls) expr s = Ok (t, r) -> Forall blank ws ->
     classified false expr -> ls = last_simple false expr ->
     (forall o' e', In (TSubst o' e') expr -> forall st, stream_in e' st -> classified false st) ->
     forall o e, t = TSubst o e -> forall st, stream_in e st -> classified false st).
Proof.
  induction n as [|n [IHp IHs]]; split.
  - intros ac ws ls s t sv' r H; cbn in H; discriminate.
  - intros ac o ws ls expr s t r H; cbn in H; discriminate.
  - intros ac ws ls s t sv' r H Hws o e ->. cbn [pull_next_token] in H.
    destruct (next_char_after_whitespace ws s) as [ws' nx] eqn:E.
    destruct nx as [[c s']|]; [|discriminate].
    destruct (Ascii.eqb c nl); [discriminate|].
    inv_bind H. destruct a as [t' r']. injection Hk as -> <- <-.
    destruct (start_of_comment ac c s') eqn:Ec.
    { exfalso. unfold pull_comment in Hb. destruct (Ascii.eqb c "/").
      - destruct s' as [|c' s'']; [discriminate|]. destruct (Ascii.eqb c' "/"); [|discriminate].
        destruct (comment_text s''). discriminate.
      - destruct (comment_text s'). discriminate. }
    destruct (Ascii.eqb c (ch 34)).
    { apply pull_quoted_starts in Hb. destruct Hb as [v [z Hz]]. discriminate. }
    destruct (Ascii.eqb c "$").
    { inv_bind Hb. destruct a as [o' s2]. eapply IHs; [exact Hk|constructor|constructor|reflexivity| |reflexivity].
      intros ? ? []. }
    exfalso.
    repeat match type of Hb with (if Ascii.eqb c ?k then _ else _) = _ =>
      destruct (Ascii.eqb c k);
      [ first [ discriminate
              | (unfold pull_plus_equals in Hb; destruct s' as [|c' s'']; [discriminate|];
                 destruct (Ascii.eqb c' "="); discriminate) ] | ] end.
    destruct (mem c first_number_chars) eqn:Ef.
    { unfold pull_number in Hb. destruct (span_number s') as [m r1] eqn:Es.
      inv_bind Hb. injection Hk as -> <-. unfold number_token, number_fallback in Hb0.
      destruct (has_decimal_or_e m).
      + destruct (lexical_cast_double _).
        * inv_bind Hb0. discriminate.
        * destruct (existsb _ _); discriminate.
      + destruct (lexical_cast_int64 _); [discriminate|]. destruct (existsb _ _); discriminate. }
    destruct (mem c not_in_unquoted_text) eqn:Em; [discriminate|].
    apply Ok_inj in Hb. revert Hb. generalize (c :: s') (@nil ascii).
    intros l. induction l as [|x l IH]; intros l0 Hb; cbn [pull_unquoted_text] in Hb; [discriminate|].
    destruct (_ || _) in Hb; [discriminate|].
    repeat match type of Hb with (if ?b then _ else _) = _ => destruct b; [discriminate|] end.
    eapply IH, Hb.
  - intros ac o ws ls expr s t r H Hws Hcl Hls Hin o0 e0 ->. cbn [pull_substitution] in H.
    inv_bind H. destruct a as [[t' sv'] r'].
    pose proof (pull_shape _ _ _ _ _ _ _ _ Hb) as [Hp [w [-> Hw]]].
    pose proof (IHp _ _ _ _ _ _ _ Hb Hws) as Hn.
    assert (Hcont : forall wt sv'', saver_check (ws ++ w, ls) t' = (wt, sv'') ->
      pull_substitution n ac o sv'' (expr ++ match wt with Some wt0 => [wt0] | None => [] end ++ [t']) r'
        = Ok (TSubst o0 e0, r) ->
      forall st, stream_in e0 st -> classified false st).
    { intros wt sv'' Hc H. pose proof Hc as Hc'. rewrite saver_check_eq in Hc. injection Hc as Hwt <-.
      eapply IHs; [exact H|constructor| | | |reflexivity].
      - apply classified_app; [exact Hcl|]. rewrite <- Hls.
        rewrite <- (app_nil_r (_ ++ [t'])). eapply classified_chunk; [|exact Hp|exact Hc'|constructor].
        apply Forall_app. auto.
      - rewrite app_assoc, last_simple_snoc. reflexivity.
      - intros o' e' Hi. rewrite !in_app_iff in Hi. destruct Hi as [Hi|[Hi|[Hi|[]]]].
        + eapply Hin, Hi.
        + exfalso. subst wt. destruct (ws ++ w); [destruct Hi|].
          destruct Hi as [Hi|[]]. destruct (ls && is_simple_value t'); discriminate.
        + subst t'. eapply Hn. reflexivity. }
    destruct t'; try discriminate;
      try (destruct (saver_check (ws ++ w, ls) _) as [wt sv''] eqn:Hsc; eapply Hcont; [reflexivity|exact Hk]).
    injection Hk as -> -> ->.
    intros st Hst. inversion Hst; subst; [exact Hcl|]. eapply Hin; eassumption.
Qed.

Lemma lex_loop_classified : forall n ac ws ls s ts e, lex_loop n ac (ws, ls) s = (ts, e) -> Forall blank ws ->
  classified ls ts /\
  forall o e, In (TSubst o e) ts -> forall st, stream_in e st -> classified false st.
Proof.
  induction n as [|n IH]; intros ac ws ls s ts e H Hws; cbn [lex_loop] in H.
  - injection H as <- <-. split; [constructor|intros ? ? []].
  - destruct (pull_next_token (S (List.length s)) ac (ws, ls) s) as [[[t sv'] r]|x|u] eqn:E.
    2,3: injection H as <- <-; split; [constructor|intros ? ? []].
    pose proof (pull_shape _ _ _ _ _ _ _ _ E) as [Hp [w [-> Hw]]].
    pose proof (proj1 (pull_classified _) _ _ _ _ _ _ _ E Hws) as Hn.
    assert (Hb : Forall blank (ws ++ w)) by (apply Forall_app; auto).
    destruct (saver_check (ws ++ w, ls) t) as [wt sv''] eqn:Hsc.
    assert (Hcont : forall ts' e', classified (is_simple_value t) ts' ->
      (forall o e, In (TSubst o e) ts' -> forall st, stream_in e st -> classified false st) ->
      ((match wt with Some wt0 => [wt0] | None => [] end ++ [t]) ++ ts', e') = (ts, e) ->
      classified ls ts /\
      forall o e, In (TSubst o e) ts -> forall st, stream_in e st -> classified false st).
    { intros ts' e' Hc Hi He. injection He as <- <-. split.
      - eapply classified_chunk; eassumption.
      - intros o e0 Hin. rewrite !in_app_iff in Hin. destruct Hin as [[Hin|[Hin|[]]]|Hin].
        + exfalso. rewrite saver_check_eq in Hsc. injection Hsc as Hwt <-. subst wt.
          destruct (ws ++ w); [destruct Hin|].
          destruct Hin as [Hin|[]]. destruct (ls && is_simple_value t); discriminate.
        + eapply Hn. exact Hin.
        + eapply Hi, Hin. }
    assert (Hrec : forall ts' e', lex_loop n ac sv'' r = (ts', e') ->
      ((match wt with Some wt0 => [wt0] | None => [] end ++ [t]) ++ ts', e') = (ts, e) ->
      classified ls ts /\
      forall o e, In (TSubst o e) ts -> forall st, stream_in e st -> classified false st).
    { intros ts' e' Hl. pose proof Hsc as Hsc'. rewrite saver_check_eq in Hsc'. injection Hsc' as _ <-.
      apply IH in Hl; [|constructor]. apply Hcont; apply Hl. }
    destruct (lex_loop n ac sv'' r) as [ts' e'].
    destruct t; try (eapply Hrec; [reflexivity|exact H]).
    eapply Hcont with (ts' := []); [constructor|intros ? ? []|rewrite app_nil_r; exact H].
Qed.

Lemma pulled_not_blank : forall t, pulled t -> token_text t <> [] -> ~ Forall blank (token_text t).
Proof.
  assert (Hb : forall c, blank c -> is_whitespace c = true).
  { intros c H. apply blank_iff in H. unfold is_whitespace_not_newline in H. apply andb_prop in H. tauto. }
  assert (Hc : forall c s, is_whitespace c = false -> ~ Forall blank (c :: s)).
  { intros c s H F. inversion F; subst. apply Hb in H2. congruence. }
  intros t Hp Hne. destruct t; cbn in *; try contradiction; try (apply Hc; reflexivity).
  - intro F. inversion F; subst. unfold blank in H1. clear -H1.
    repeat destruct H1 as [H1|H1]; vm_compute in H1; discriminate.
  - destruct Hp as [_ Hn]. destruct text as [|c s]; [congruence|]. inversion Hn; subst. apply Hc. assumption.
  - destruct double_slash; apply Hc; reflexivity.
  - destruct Hp as [c [s' [-> H]]]. apply Hc. exact H.
Qed.

Lemma simple_token_iff : forall t, is_simple_value t = true <-> simple_token t.
Proof. intros []; cbn; split; intro; try discriminate; try contradiction; auto. Qed.

Definition blank_token (w : token) : Prop := token_text w <> [] /\ Forall blank (token_text w).

Lemma classified_head : forall ls w y post, classified ls (w :: y :: post) -> blank_token w ->
  (w = TUnquoted (token_text w) /\ ls = true /\ simple_token y) \/
  (w = TIgnored (token_text w) /\ ~ (ls = true /\ simple_token y)).
Proof.
  intros ls w y post H [Hne Hb]. inversion H; subst.
  - exfalso. eapply pulled_not_blank; eassumption.
  - destruct ls; destruct (is_simple_value y) eqn:E; cbn.
    + left. apply simple_token_iff in E. auto.
    + right. split; [reflexivity|]. intros [_ Hs]. apply simple_token_iff in Hs. congruence.
    + right. split; [reflexivity|]. intros [Hs _]. discriminate.
    + right. split; [reflexivity|]. intros [Hs _]. discriminate.
Qed.

Lemma classified_skip : forall pre ls x w y post, classified ls (pre ++ x :: w :: y :: post) -> blank_token w ->
  exists ls', classified ls' (x :: w :: y :: post) /\ pulled x.
Proof.
  induction pre as [|t pre IH]; intros ls x w y post H Hb.
  - exists ls. split; [exact H|]. cbn in H. inversion H; subst; [assumption|].
    exfalso. destruct Hb. eapply pulled_not_blank; eassumption.
  - cbn [app] in H. inversion H; subst.
    + eapply IH; eassumption.
    + match goal with E : _ :: _ = pre ++ _ |- _ => rename E into Heq end.
      destruct pre as [|t' pre]; cbn in Heq; injection Heq as -> ->.
      * exists ls. split; [|assumption]. constructor; assumption.
      * apply (IH (is_simple_value t') x w y post); [|exact Hb]. cbn [app]. constructor; assumption.
Qed.

Lemma classified_spec : forall ls pre x w y post, classified ls (pre ++ x :: w :: y :: post) -> blank_token w ->
  (w = TUnquoted (token_text w) /\ simple_token x /\ simple_token y) \/
  (w = TIgnored (token_text w) /\ ~ (simple_token x /\ simple_token y)).
Proof.
  intros ls pre x w y post H Hb. apply classified_skip in H; [|exact Hb]. destruct H as [ls' [H Hx]].
  inversion H; subst.
  - apply classified_head in H4; [|exact Hb]. destruct H4 as [[H1 [H2 H3']]|[H1 H2]].
    + left. apply simple_token_iff in H2. auto.
    + right. split; [exact H1|]. rewrite <- simple_token_iff at 1. exact H2.
  - exfalso. destruct Hb. eapply pulled_not_blank; eassumption.
Qed.

Lemma lex_whitespace : forall ac s ts e st pre x w y post, lex ac s = (ts, e) -> stream_in ts st ->
  st = pre ++ x :: w :: y :: post -> token_text w <> [] -> Forall blank (token_text w) ->
  (w = TUnquoted (token_text w) /\ simple_token x /\ simple_token y) \/
  (w = TIgnored (token_text w) /\ ~ (simple_token x /\ simple_token y)).
Proof.
  intros ac s ts e st pre x w y post H Hst -> Hne Hb. unfold lex in H.
  destruct (lex_loop (S (List.length s)) ac saver_init s) as [ts' e'] eqn:E. injection H as <- <-.
  apply lex_loop_classified in E; [|constructor]. destruct E as [Hc Hin].
  inversion Hst as [Hq|o e st Hi Hs Hq]; subst.
  - destruct pre as [|p pre]; cbn in Hq; injection Hq as <- ->.
    + apply classified_head in Hc; [|split; assumption].
      destruct Hc as [[H1 [H2 H3]]|[H1 H2]]; [discriminate|]. right. split; [exact H1|]. intros [[] _].
    + eapply classified_spec; [exact Hc|split; assumption].
  - destruct Hi as [Hi|Hi]; [discriminate|]. eapply Hin in Hi; [|exact Hs].
    eapply classified_spec; [exact Hi|split; assumption].
Qed.

(** ** Shape and length of the stream *)

Lemma lex_loop_shape : forall n ac sv s ts e, (List.length s < n)%nat -> lex_loop n ac sv s = (ts, e) ->
  (List.length ts <= 2 * List.length s + 2)%nat /\
  (e = LEnd -> exists body, ts = body ++ [TEnd] /\ ~ In TEnd body /\ ~ In TStart body) /\
  (e <> LEnd -> ~ In TEnd ts).
Proof.
  induction n as [|n IH]; intros ac [ws ls] s ts e Hn H; [lia|]. cbn [lex_loop] in H.
  destruct (pull_next_token (S (List.length s)) ac (ws, ls) s) as [[[t sv'] r]|x|u] eqn:E.
  2,3: injection H as <- <-; cbn; split; [lia|]; split; [discriminate|tauto].
  pose proof (pull_shape _ _ _ _ _ _ _ _ E) as [Hp [w [-> Hw]]].
  apply (proj1 (pull_len _)) in E. destruct E as [Hl1 [Hl2 _]].
  rewrite saver_check_eq in H.
  set (wl := match match ws ++ w with [] => None | _ :: _ =>
     Some (if ls && is_simple_value t then TUnquoted (ws ++ w) else TIgnored (ws ++ w)) end
     with Some wt => [wt] | None => [] end) in *.
  assert (Hwl : (List.length wl <= 1)%nat /\ ~ In TEnd wl /\ ~ In TStart wl).
  { unfold wl. destruct (ws ++ w); cbn; [repeat split; [lia|tauto|tauto]|].
    destruct (ls && is_simple_value t); repeat split; try lia; intros [Hx|[]]; discriminate. }
  destruct Hwl as [Hw1 [Hw2 Hw3]]. clearbody wl.
  assert (Hcont : t <> TEnd ->
    (let '(ts, e) := lex_loop n ac ([], is_simple_value t) r in ((wl ++ [t]) ++ ts, e)) = (ts, e) ->
    (List.length ts <= 2 * List.length s + 2)%nat /\
    (e = LEnd -> exists body, ts = body ++ [TEnd] /\ ~ In TEnd body /\ ~ In TStart body) /\
    (e <> LEnd -> ~ In TEnd ts)).
  { intros Ht Hl. destruct (lex_loop n ac ([], is_simple_value t) r) as [ts' e'] eqn:El.
    injection Hl as <- <-. specialize (Hl2 Ht). apply IH in El; [|lia].
    destruct El as [H1 [H2 H3]]. split; [rewrite !app_length; cbn; lia|]. split.
    - intros ->. destruct (H2 eq_refl) as [b [-> [Hb1 Hb2]]]. exists ((wl ++ [t]) ++ b).
      rewrite <- !app_assoc. split; [reflexivity|]. rewrite !in_app_iff. cbn.
      split; [intuition congruence|]. intros [|[[->|[]]|]]; [contradiction|contradiction|contradiction].
    - intros He. rewrite !in_app_iff. cbn. specialize (H3 He). intuition congruence. }
  destruct t; try (apply Hcont; [discriminate|exact H]).
  injection H as <- <-. split; [rewrite app_length; cbn; lia|]. split; [|congruence].
  intros _. exists wl. auto.
Qed.

(** ** Quoting *)

Lemma quotable_cases : forall c, quotable c ->
  (byte_of c <? 32) = false /\ (byte_of c <=? 127) = true \/ mem c [ch 8; ch 9; ch 10; ch 12; ch 13] = true.
Proof.
  intros c [H|H].
  - left. lia.
  - right. apply mem_true. rewrite <- (ascii_nat_embedding c).
    destruct H as [<-|[<-|[<-|[<-|[<-|[]]]]]]; cbn; unfold ch; tauto.
Qed.

Definition quotable_b (c : ascii) : bool :=
  ((32 <=? byte_of c) && (byte_of c <=? 127)) || mem c [ch 8; ch 9; ch 10; ch 12; ch 13].

Lemma quotable_b_spec : forall c, quotable_b c = true <-> quotable c.
Proof.
  intro c. unfold quotable_b. split.
  - intro H. apply orb_true_iff in H. destruct H as [H|H].
    + left. lia.
    + right. apply mem_true in H. destruct H as [<-|[<-|[<-|[<-|[<-|[]]]]]]; cbn; tauto.
  - intro H. apply quotable_cases in H. apply orb_true_iff. destruct H as [[H1 H2]|H]; [left; lia|right; exact H].
Qed.

Lemma quoted_char : forall c r n p o, quotable c -> (List.length (render_json_char c ++ r) < n)%nat ->
  exists m, (List.length r < m)%nat /\
  quoted_loop n p o (render_json_char c ++ r) = quoted_loop m (p ++ [c]) (o ++ render_json_char c) r.
Proof.
  intros c r n p o Hq Hn. unfold render_json_char in *.
  assert (Hesc : forall e, pull_escape_sequence (e :: r) = Ok ([c], [ch 92; e], r) ->
    (List.length ([ch 92; e] ++ r) < n)%nat ->
    exists m, (List.length r < m)%nat /\
    quoted_loop n p o ([ch 92; e] ++ r) = quoted_loop m (p ++ [c]) (o ++ [ch 92; e]) r).
  { intros e He Hl. destruct n as [|n]; [lia|]. exists n. cbn in Hl. split; [lia|].
    cbn [app quoted_loop]. rewrite Ascii.eqb_refl, He. reflexivity. }
  repeat match type of Hn with context [Ascii.eqb c ?k] =>
    destruct (Ascii.eqb_spec c k) as [->|?]; [apply Hesc; [reflexivity|exact Hn]|] end.
  destruct n as [|n]; [cbn in Hn; lia|]. exists n. cbn in Hn. split; [lia|].
  cbn [app quoted_loop].
  destruct (Ascii.eqb_spec c (ch 92)); [contradiction|]. destruct (Ascii.eqb_spec c (ch 34)); [contradiction|].
  assert (Hc : is_C0_control c = false).
  { destruct Hq as [Hq|Hq].
    - unfold is_C0_control, schar, byte_of in *. destruct (Z.of_nat (nat_of_ascii c) <? 128) eqn:E; lia.
    - exfalso. pose proof (ascii_nat_embedding c) as He.
      destruct Hq as [Hq|[Hq|[Hq|[Hq|[Hq|[]]]]]]; rewrite <- Hq in He; fold (ch 8) (ch 9) (ch 10) (ch 12) (ch 13) in He; congruence. }
  rewrite Hc. reflexivity.
Qed.

Lemma quoted_loop_render : forall s n p o r, Forall quotable s ->
  (List.length (concat (map render_json_char s) ++ ch 34 :: r) < n)%nat ->
  quoted_loop n p o (concat (map render_json_char s) ++ ch 34 :: r)
    = Ok (p ++ s, o ++ concat (map render_json_char s) ++ [ch 34], r).
Proof.
  induction s as [|c s IH]; intros n p o r Hq Hn; cbn [map concat] in *.
  - destruct n as [|n]; [lia|]. cbn [app quoted_loop]. 
    change (Ascii.eqb (ch 34) (ch 92)) with false. rewrite Ascii.eqb_refl, app_nil_r. reflexivity.
  - inversion Hq; subst. rewrite <- app_assoc in *.
    destruct (quoted_char c _ n p o H1 Hn) as [m [Hm ->]].
    rewrite IH; [|assumption|exact Hm]. rewrite <- !app_assoc. reflexivity.
Qed.

Lemma pull_quoted_render : forall s r, Forall quotable s ->
  (s = [] -> match r with c :: _ => c <> ch 34 | [] => True end) ->
  pull_quoted_string (concat (map render_json_char s) ++ ch 34 :: r)
    = Ok (TValue (SStr s true) (render_json_string s), r).
Proof.
  intros s r Hq Hr. unfold pull_quoted_string. rewrite quoted_loop_render; [|exact Hq|lia].
  cbn [bind app]. destruct s as [|c s].
  - destruct r as [|c r]; [reflexivity|]. specialize (Hr eq_refl).
    destruct (Ascii.eqb_spec c (ch 34)); [contradiction|]. reflexivity.
  - reflexivity.
Qed.

Lemma pull_next_quoted : forall n ac ls s r, Forall quotable s ->
  (s = [] -> match r with c :: _ => c <> ch 34 | [] => True end) ->
  pull_next_token (S n) ac ([], ls) (render_json_string s ++ r)
    = Ok (TValue (SStr s true) (render_json_string s), ([], ls), r).
Proof.
  intros n ac ls s r Hq Hr. unfold render_json_string at 1. rewrite <- !app_assoc. cbn [app].
  cbn [pull_next_token next_char_after_whitespace].
  change (is_whitespace_not_newline (ch 34)) with false. cbv iota.
  change (Ascii.eqb (ch 34) nl) with false. cbv iota.
  assert (Hs : forall z, start_of_comment ac (ch 34) z = false) by (intro z; destruct ac; reflexivity).
  rewrite Hs, Ascii.eqb_refl. rewrite pull_quoted_render by assumption. reflexivity.
Qed.

Lemma lex_end_only : forall n ac ls, lex_loop (S n) ac ([], ls) [] = ([TEnd], LEnd).
Proof. reflexivity. Qed.

Lemma tokenize_quoted : forall ac s, Forall quotable s ->
  tokenize ac (render_json_string s) = Ok [TStart; TValue (SStr s true) (render_json_string s); TEnd].
Proof.
  intros ac s Hq. unfold tokenize, lex, saver_init. cbn [lex_loop].
  pose proof (pull_next_quoted (List.length (render_json_string s)) ac false s [] Hq (fun _ => I)) as Hp.
  rewrite app_nil_r in Hp. rewrite Hp.
  rewrite saver_check_eq. cbn [is_simple_value app].
  assert (Hl : exists m, List.length (render_json_string s) = S m).
  { unfold render_json_string. eexists. reflexivity. }
  destruct Hl as [m ->]. rewrite lex_end_only. reflexivity.
Qed.

Lemma quoted_char_bad : forall c r n p o, ~ quotable c -> (0 < n)%nat ->
  quoted_loop n p o (render_json_char c ++ r) = Throw EConfig.
Proof.
  intros c r n p o Hq Hn. destruct n as [|n]; [lia|].
  assert (Hb : quotable_b c = false).
  { destruct (quotable_b c) eqn:E; [apply quotable_b_spec in E; contradiction|reflexivity]. }
  assert (Hf : forall c, implb (negb (quotable_b c))
    (is_C0_control c && negb (Ascii.eqb c (ch 92)) && negb (Ascii.eqb c (ch 34))
     && str_eqb (render_json_char c) [c]) = true).
  { apply forall_byte. vm_compute. reflexivity. }
  specialize (Hf c). rewrite Hb in Hf. cbn [negb implb] in Hf. rewrite !andb_true_iff in Hf.
  destruct Hf as [[[H1 H2] H3] H4]. apply str_eqb_eq in H4. rewrite H4. cbn [app quoted_loop].
  destruct (Ascii.eqb c (ch 92)); [discriminate|]. destruct (Ascii.eqb c (ch 34)); [discriminate|].
  rewrite H1. reflexivity.
Qed.

Lemma quoted_loop_bad : forall s n p o r, ~ Forall quotable s ->
  (List.length (concat (map render_json_char s) ++ r) < n)%nat ->
  quoted_loop n p o (concat (map render_json_char s) ++ r) = Throw EConfig.
Proof.
  induction s as [|c s IH]; intros n p o r Hq Hn; [exfalso; apply Hq; constructor|]. cbn [map concat] in *.
  rewrite <- app_assoc in *. destruct (quotable_b c) eqn:E.
  - apply quotable_b_spec in E. destruct (quoted_char c _ n p o E Hn) as [m [Hm ->]].
    apply IH; [|exact Hm]. intro F. apply Hq. constructor; assumption.
  - apply quoted_char_bad; [|lia]. intro F. apply quotable_b_spec in F. congruence.
Qed.

Lemma tokenize_quoted_bad : forall ac s, ~ Forall quotable s ->
  tokenize ac (render_json_string s) = Throw EConfig.
Proof.
  intros ac s Hq. unfold tokenize, lex, saver_init. cbn [lex_loop].
  unfold render_json_string at 2. cbn [app].
  cbn [pull_next_token next_char_after_whitespace].
  change (is_whitespace_not_newline (ch 34)) with false. cbv iota.
  change (Ascii.eqb (ch 34) nl) with false. cbv iota.
  assert (Hs : forall z, start_of_comment ac (ch 34) z = false) by (intro z; destruct ac; reflexivity).
  rewrite Hs, Ascii.eqb_refl. unfold pull_quoted_string. rewrite quoted_loop_bad; [reflexivity|exact Hq|lia].
Qed.

(** ** Combined statements *)

Lemma lossless_all : forall ac s ts, ~ In (ch 0) s -> tokenize ac s = Ok ts ->
  lost_blanks s (render_tokens ts) /\
  ((~ In "$"%char s \/ no_blank_before_close s) -> render_tokens ts = s).
Proof.
  intros ac s ts Hn H. destruct (tokenize_lossless ac s ts Hn H) as [H1 H2].
  split; [exact H1|]. intros [Hd|Hb]; [exact (H2 Hd)|]. symmetry. apply lost_blanks_exact; assumption.
Qed.

Lemma lossless_refuted : exists s ts, ~ In (ch 0) s /\ tokenize true s = Ok ts /\ render_tokens ts <> s.
Proof.
  exists (lit "${a }"). eexists. split; [|split].
  - vm_compute. intuition discriminate.
  - vm_compute. reflexivity.
  - vm_compute. discriminate.
Qed.

Lemma lossless_nul_refuted : exists s ts, ~ In "$"%char s /\ tokenize true s = Ok ts /\ render_tokens ts <> s.
Proof.
  exists ([ch 34] ++ lit "\u41" ++ [ch 0; ch 0; ch 34]). eexists. split; [|split].
  - vm_compute. intuition discriminate.
  - vm_compute. reflexivity.
  - vm_compute. discriminate.
Qed.

Lemma tokenizer_total : forall ac s, exists ts e, lex ac s = (TStart :: ts, e) /\
  (List.length ts <= 2 * List.length s + 2)%nat /\
  match e with
  | LEnd => exists body, ts = body ++ [TEnd] /\ ~ In TEnd body /\ ~ In TStart body
  | LThrow x => x = EConfig
  | LStuck u => (In (ch 92) s /\ (u = UUninit \/ u = UUnspecified)) \/
                ((exists c, In c s /\ isdigit c = true) /\ u = UFloatCast)
  end.
Proof.
  intros ac s. unfold lex. destruct (lex_loop (S (List.length s)) ac saver_init s) as [ts e] eqn:E.
  exists ts, e. split; [reflexivity|].
  assert (Hn : (List.length s < S (List.length s))%nat) by lia.
  pose proof (lex_loop_shape _ _ _ _ _ _ Hn E) as [H1 [H2 H3]]. split; [exact H1|].
  destruct e.
  - exact (H2 eq_refl).
  - eapply lex_loop_throw, E.
  - eapply lex_loop_cause; [exact Hn|exact E].
Qed.

Lemma tokenizer_ub : 
  (exists s, tokenize true s = Stuck UUninit) /\
  (exists s, tokenize true s = Stuck UUnspecified) /\
  (exists s, tokenize true s = Stuck UFloatCast).
Proof.
  split; [|split].
  - exists ([ch 34] ++ lit "\uzzzz" ++ [ch 34]). vm_compute. reflexivity.
  - exists ([ch 34] ++ lit "\ud800" ++ [ch 34]). vm_compute. reflexivity.
  - exists (lit "1e20"). vm_compute. reflexivity.
Qed.

Lemma quoting : forall ac s,
  (Forall quotable s -> tokenize ac (render_json_string s)
     = Ok [TStart; TValue (SStr s true) (render_json_string s); TEnd]) /\
  (~ Forall quotable s -> tokenize ac (render_json_string s) = Throw EConfig).
Proof. intros ac s. split; [apply tokenize_quoted|apply tokenize_quoted_bad]. Qed.

Lemma lex_subst_first : forall ac s ts e st w y post, lex ac s = (ts, e) -> stream_in ts st ->
  st = w :: y :: post -> token_text w <> [] -> Forall blank (token_text w) -> w = TIgnored (token_text w).
Proof.
  intros ac s ts e st w y post H Hst -> Hne Hb. unfold lex in H.
  destruct (lex_loop (S (List.length s)) ac saver_init s) as [ts' e'] eqn:E. injection H as <- <-.
  apply lex_loop_classified in E; [|constructor]. destruct E as [Hc Hin].
  inversion Hst as [Hq|o e st Hi Hs Hq]; subst.
  - destruct Hne. reflexivity.
  - destruct Hi as [Hi|Hi]; [discriminate|]. eapply Hin in Hi; [|exact Hs].
    apply classified_head in Hi; [|split; assumption]. destruct Hi as [[_ [Hf _]]|[Hi _]]; [discriminate|exact Hi].
Qed.

Lemma whitespace_all : forall ac s ts e st, lex ac s = (ts, e) -> stream_in ts st ->
  (forall pre x w y post, st = pre ++ x :: w :: y :: post ->
     token_text w <> [] -> Forall blank (token_text w) ->
     (w = TUnquoted (token_text w) /\ simple_token x /\ simple_token y) \/
     (w = TIgnored (token_text w) /\ ~ (simple_token x /\ simple_token y))) /\
  (forall w y post, st = w :: y :: post ->
     token_text w <> [] -> Forall blank (token_text w) -> w = TIgnored (token_text w)).
Proof.
  intros ac s ts e st H Hst. split; intros.
  - eapply lex_whitespace; eassumption.
  - eapply lex_subst_first; eassumption.
Qed.
