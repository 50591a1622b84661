(** Every token the tokenizer gives for a JSON text is read again wherever its text stands. *)
From Verif Require Import Base BaseLemmas Util_Model Num_Model Path_Model Token_Model Token_Spec Token_Lemmas Token_Lemmas2 PathParser_Model Doc_Model Value_Model Json_Lemmas Json_Lemmas2 Render_Lemmas3 JsonEdit_Lemmas.

Lemma escape_anywhere : forall s p o r, no_nul s -> pull_escape_sequence s = Ok (p, o, r) ->
  exists x, s = x ++ r /\ o = ch 92 :: x /\ x <> [] /\ forall r', pull_escape_sequence (x ++ r') = Ok (p, o, r').
Proof.
  intros s p o r Hn H. destruct s as [|e s]; [discriminate|]. cbn [pull_escape_sequence] in H.
  destruct (Ascii.eqb e (ch 34)) eqn:E1; [|destruct (Ascii.eqb e (ch 92)) eqn:E2; [|destruct (Ascii.eqb e "/") eqn:E3; [|
  destruct (Ascii.eqb e "b") eqn:E4; [|destruct (Ascii.eqb e "f") eqn:E5; [|destruct (Ascii.eqb e "n") eqn:E6; [|
  destruct (Ascii.eqb e "r") eqn:E7; [|destruct (Ascii.eqb e "t") eqn:E8; [|]]]]]]]];
    try (injection H as <- <- <-; exists [e]; split; [reflexivity|]; split; [reflexivity|]; split; [discriminate|]; intro r'; cbn [app pull_escape_sequence];
         rewrite ?E1, ?E2, ?E3, ?E4, ?E5, ?E6, ?E7, ?E8; reflexivity).
  destruct (Ascii.eqb e "u") eqn:E9; [|discriminate].
  destruct s as [|u1 [|u2 [|u3 [|u4 s]]]]; try discriminate.
  - destruct (sscanf_hx [u1; u2; u3; ch 255]); discriminate.
  - inv_bind H. inv_bind Hk. remember (c_string [u1; u2; u3; u4]) as cs eqn:Ecs. injection Hk0 as <- <- <-.
    change (e :: u1 :: u2 :: u3 :: u4 :: s) with ([e] ++ [u1; u2; u3; u4] ++ s) in Hn.
    apply no_nul_app in Hn. destruct Hn as [_ Hn]. apply no_nul_app in Hn. destruct Hn as [Hn _].
    rewrite c_string_no_nul in Ecs by exact Hn. exists [e; u1; u2; u3; u4]. split; [reflexivity|]. split; [rewrite Ecs; reflexivity|]. split; [discriminate|].
    intro r'. cbn [app pull_escape_sequence]. rewrite E1, E2, E3, E4, E5, E6, E7, E8, E9, Hb. cbn [bind]. rewrite Hb0. cbn [bind]. rewrite c_string_no_nul by exact Hn. rewrite Ecs. reflexivity.
Qed.
Lemma quoted_anywhere : forall n s p o p' o' r, no_nul s -> quoted_loop n p o s = Ok (p', o', r) ->
  exists x, s = x ++ r /\ o' = o ++ x /\ x <> [] /\ forall m r', (List.length x < m)%nat -> quoted_loop m p o (x ++ r') = Ok (p', o', r').
Proof.
  induction n as [|n IH]; intros s p o p' o' r N H; [discriminate|]. cbn [quoted_loop] in H. destruct s as [|c s]; [discriminate|].
  apply no_nul_cons in N. destruct N as [N0 N]. destruct (Ascii.eqb c (ch 92)) eqn:E1.
  - inv_bind H. destruct a as [[pp oo] rr]. destruct (escape_anywhere _ _ _ _ N Hb) as [x [-> [-> [X A]]]].
    apply no_nul_app in N. destruct N as [_ N]. destruct (IH _ _ _ _ _ _ N Hk) as [y [-> [-> [Y B]]]].
    apply Ascii.eqb_eq in E1. subst c. exists (ch 92 :: x ++ y). split; [cbn [app]; rewrite <- app_assoc; reflexivity|]. split; [rewrite <- app_assoc; reflexivity|]. split; [discriminate|].
    intros [|m] r' L; [lia|]. cbn [app quoted_loop]. change (Ascii.eqb (ch 92) (ch 92)) with true. cbv iota. rewrite <- app_assoc, A. cbn [bind].
    apply B. cbn [List.length] in L. rewrite app_length in L. destruct x; [congruence|cbn [List.length] in L; lia].
  - destruct (Ascii.eqb c (ch 34)) eqn:E2.
    + injection H as <- <- <-. exists [c]. split; [reflexivity|]. split; [reflexivity|]. split; [discriminate|]. intros [|m] r' L; [lia|]. cbn [app quoted_loop]. rewrite E1, E2. reflexivity.
    + destruct (is_C0_control c) eqn:E3; [discriminate|]. destruct (IH _ _ _ _ _ _ N H) as [y [-> [-> [Y B]]]].
      exists (c :: y). split; [reflexivity|]. split; [rewrite <- app_assoc; reflexivity|]. split; [discriminate|]. intros [|m] r' L; [lia|]. cbn [app quoted_loop]. rewrite E1, E2, E3. apply B. cbn [List.length] in L. lia.
Qed.
Lemma triple_anywhere : forall s q p o p' o' r, append_triple_quoted_string q p o s = Ok (p', o', r) ->
  exists x, s = x ++ r /\ o' = o ++ x /\ forall r', not_quote r' -> append_triple_quoted_string q p o (x ++ r') = Ok (p', o', r').
Proof.
  assert (K : forall q p o r', (3 <=? q)%nat = true -> not_quote r' -> append_triple_quoted_string q p o r' = Ok (firstn (List.length p - 3) p, o, r')).
  { intros q p o [|c r'] Q N; cbn [append_triple_quoted_string]; rewrite Q; [reflexivity|]. destruct (Ascii.eqb_spec c (ch 34)) as [->|_]; [destruct N; reflexivity|reflexivity]. }
  induction s as [|c s IH]; intros q p o p' o' r H; cbn [append_triple_quoted_string] in H.
  - destruct (3 <=? q)%nat eqn:Q; [|discriminate]. injection H as <- <- <-. exists []. split; [reflexivity|]. split; [rewrite app_nil_r; reflexivity|]. intros r' N. apply K; assumption.
  - destruct (Ascii.eqb c (ch 34)) eqn:E.
    + destruct (IH _ _ _ _ _ _ H) as [x [-> [-> A]]]. exists (c :: x). split; [reflexivity|]. split; [rewrite <- app_assoc; reflexivity|].
      intros r' N. cbn [app append_triple_quoted_string]. rewrite E. apply A, N.
    + destruct (3 <=? q)%nat eqn:Q.
      * injection H as <- <- <-. exists []. split; [reflexivity|]. split; [rewrite app_nil_r; reflexivity|]. intros r' N. apply K; assumption.
      * destruct (IH _ _ _ _ _ _ H) as [x [-> [-> A]]]. exists (c :: x). split; [reflexivity|]. split; [rewrite <- app_assoc; reflexivity|].
        intros r' N. cbn [app append_triple_quoted_string]. rewrite E, Q. apply A, N.
Qed.
Lemma string_anywhere : forall s t r, no_nul s -> pull_quoted_string s = Ok (t, r) ->
  exists k x, t = TValue (SStr k true) (ch 34 :: x) /\ forall r', not_quote r' -> pull_quoted_string (x ++ r') = Ok (t, r').
Proof.
  intros s t r N H. unfold pull_quoted_string in H. inv_bind H. destruct a as [[p o] r1]. destruct (quoted_anywhere _ _ _ _ _ _ _ N Hb) as [x [-> [-> [X A]]]].
  apply no_nul_app in N. destruct N as [_ N]. inv_bind Hk. destruct a as [[p' o'] r2]. injection Hk0 as <- <-.
  assert (Q : forall r', quoted_loop (S (List.length (x ++ r'))) [] [ch 34] (x ++ r') = Ok (p, [ch 34] ++ x, r')).
  { intro r'. apply A. rewrite app_length. lia. }
  assert (Plain : p' = p -> o' = [ch 34] ++ x -> exists k y, TValue (SStr p' true) o' = TValue (SStr k true) (ch 34 :: y) /\ forall r', not_quote r' -> pull_quoted_string (y ++ r') = Ok (TValue (SStr p' true) o', r')).
  { intros -> ->. exists p, x. split; [reflexivity|]. intros r' NQ. unfold pull_quoted_string. rewrite Q. cbn [bind].
    destruct p; [|reflexivity]. destruct r' as [|c r']; [reflexivity|]. destruct (Ascii.eqb_spec c (ch 34)) as [->|_]; [destruct NQ; reflexivity|reflexivity]. }
  destruct p as [|pc p]; [|injection Hb0 as <- <- <-; apply Plain; reflexivity].
  destruct r1 as [|c r1]; [injection Hb0 as <- <- <-; apply Plain; reflexivity|].
  destruct (Ascii.eqb c (ch 34)) eqn:E; [|injection Hb0 as <- <- <-; apply Plain; reflexivity].
  destruct (triple_anywhere _ _ _ _ _ _ _ Hb0) as [y [-> [-> B]]]. exists p', (x ++ c :: y). split; [rewrite <- !app_assoc; reflexivity|].
  intros r' NQ. unfold pull_quoted_string. rewrite <- app_assoc. cbn [app]. change (ch 34 :: x) with ([ch 34] ++ x). rewrite Q. cbn [bind]. rewrite E. rewrite B by exact NQ. reflexivity.
Qed.

(** A token of a JSON text *)
Definition fine (t : token) : Prop :=
  match t with
  | TValue s x => readable t /\ forall k q, s = SStr k q -> q = true
  | TIgnored w => blanks w
  | TUnquoted w => forallb is_whitespace w = true -> blanks w
  | TComment _ _ => False
  | _ => True
  end.

Lemma number_not_string : forall m c s t, number_token m (c :: s) = Ok t -> (exists x, t = TUnquoted x) \/ exists v, t = TValue v (c :: s) /\ forall k q, v <> SStr k q.
Proof.
  intros m c s t H. pose proof (number_token_text _ _ _ _ H) as T. unfold number_token in H. destruct (has_decimal_or_e m).
  - destruct (lexical_cast_double (c :: s)) as [d|].
    + inv_bind H. injection Hk as <-. right. exists a. cbn [value_token token_text] in T. split; [unfold value_token; rewrite T; reflexivity|].
      intros k q ->. unfold new_number_double in Hb. inv_bind Hb. injection Hk as Hk. destruct (SFeqb _ _) in Hk; [|discriminate]. unfold new_number_int in Hk. destruct (in_int _) in Hk; discriminate.
    + apply number_fallback_spec in H. eauto.
  - destruct (lexical_cast_int64 (c :: s)) as [z|].
    + injection H as <-. right. eexists. cbn [value_token token_text] in T. split; [unfold value_token; rewrite T; reflexivity|]. intros k q E. unfold new_number_int in E. destruct (in_int z); discriminate.
    + apply number_fallback_spec in H. eauto.
Qed.
Lemma unquoted_cases : forall ac s res t r, pull_unquoted_text ac res s = (t, r) -> (exists x, t = TUnquoted x) \/ exists s, In s [SNull; SBool true; SBool false] /\ t = value_token s.
Proof.
  induction s as [|c s IH]; intros res t r H; cbn [pull_unquoted_text] in H; [injection H as <- <-; eauto|].
  destruct (mem c not_in_unquoted_text || is_whitespace c || start_of_comment ac c s); [injection H as <- <-; eauto|].
  destruct (str_eqb (res ++ [c]) (lit "true")); [injection H as <- <-; right; exists (SBool true); cbn; auto|].
  destruct (str_eqb (res ++ [c]) (lit "null")); [injection H as <- <-; right; exists SNull; cbn; auto|].
  destruct (str_eqb (res ++ [c]) (lit "false")); [injection H as <- <-; right; exists (SBool false); cbn; auto|]. eauto.
Qed.
Lemma pulled_fine : forall n ws ls s t sv r, no_nul s -> pull_next_token n false (ws, ls) s = Ok (t, sv, r) -> fine t.
Proof.
  intros n ws ls s t sv r N H. pose proof H as H0. destruct n as [|n]; [discriminate|]. cbn [pull_next_token] in H. destruct (next_char_after_whitespace ws s) as [ws' nx] eqn:W.
  destruct (next_char_spec _ _ _ _ W) as [w [_ [_ E]]]. destruct nx as [[c s']|]; [|injection H as <- _ _; exact I]. destruct E as [-> _].
  apply no_nul_app in N. destruct N as [_ N]. apply no_nul_cons in N. destruct N as [_ N].
  destruct (Ascii.eqb c nl) eqn:Enl; [injection H as <- _ _; exact I|]. inv_bind H. destruct a as [t' r']. injection Hk as <- _ _. unfold start_of_comment in Hb. cbn [andb] in Hb.
  destruct (Ascii.eqb c (ch 34)) eqn:E1.
  { destruct (string_anywhere _ _ _ N Hb) as [k [x [-> A]]]. split; [|intros k' q E; injection E as _ <-; reflexivity]. intros r2 [_ D]. split; [discriminate|]. split; [discriminate|].
    intros m ws2 ls2. cbn [token_text app]. cbn [pull_next_token next_char_after_whitespace]. change (is_whitespace_not_newline (ch 34)) with false. cbv iota.
    change (Ascii.eqb (ch 34) nl) with false. cbv iota. unfold start_of_comment. cbn [andb]. change (Ascii.eqb (ch 34) (ch 34)) with true. cbv iota. rewrite A by exact D. reflexivity. }
  destruct (Ascii.eqb c "$") eqn:E2.
  { inv_bind Hb. destruct a as [o s2]. destruct t'; try exact I.
    all: exfalso; clear -Hk; revert Hk; generalize saver_init (@nil token); revert o s2.
    all: induction n as [|n IH]; intros o s2 sv0 ex H; [discriminate|]; cbn [pull_substitution] in H; inv_bind H; destruct a as [[t1 sv1] r1]; destruct t1; try discriminate; destruct (saver_check sv1 _) as [w1 sv2]; eapply IH; exact Hk. }
  destruct (Ascii.eqb c ":"); [injection Hb as <- _; exact I|]. destruct (Ascii.eqb c ","); [injection Hb as <- _; exact I|]. destruct (Ascii.eqb c "="); [injection Hb as <- _; exact I|].
  destruct (Ascii.eqb c "{"); [injection Hb as <- _; exact I|]. destruct (Ascii.eqb c "}"); [injection Hb as <- _; exact I|]. destruct (Ascii.eqb c "["); [injection Hb as <- _; exact I|].
  destruct (Ascii.eqb c "]"); [injection Hb as <- _; exact I|].
  destruct (Ascii.eqb c "+"). { unfold pull_plus_equals in Hb. destruct s' as [|c' s']; [discriminate|]. destruct (Ascii.eqb c' "="); [injection Hb as <- _; exact I|discriminate]. }
  destruct (mem c first_number_chars) eqn:F.
  { unfold pull_number in Hb. destruct (span_number s') as [more r3] eqn:Sp. inv_bind Hb. injection Hk as <- _.
    destruct (number_not_string _ _ _ _ Hb0) as [[x ->]|[v [-> NS]]].
    - cbn [fine]. intro K. destruct (pull_shape _ _ _ _ _ _ _ _ H0) as [P _]. apply pulled_solid in P. cbn in P. congruence.
    - split; [|intros k q ->; destruct (NS k q); reflexivity]. intros r2 [D _]. apply reads_number; [exact F| |exact Hb0|exact D]. exact (span_number_chars _ _ _ Sp). }
  destruct (mem c not_in_unquoted_text); [discriminate|]. apply ok_same in Hb. destruct (unquoted_cases _ _ _ _ _ Hb) as [[x ->]|[v [V ->]]].
  - cbn [fine]. intro K. destruct (pull_shape _ _ _ _ _ _ _ _ H0) as [P _]. apply pulled_solid in P. cbn in P. congruence.
  - split; [|intros k q ->; cbn in V; destruct V as [V|[V|[V|[]]]]; discriminate]. intros r2 _. apply reads_keyword, V.
Qed.
Lemma lexed_fine : forall n ws ls s ts e, no_nul s -> Forall blank ws -> lex_loop n false (ws, ls) s = (ts, e) -> Forall fine ts.
Proof.
  induction n as [|n IH]; intros ws ls s ts e N B H; [injection H as <- _; constructor|]. cbn [lex_loop] in H.
  destruct (pull_next_token (S (List.length s)) false (ws, ls) s) as [[[t [ws' ls']] r]|x|u] eqn:P; [|injection H as <- _; constructor|injection H as <- _; constructor].
  pose proof (pulled_fine _ _ _ _ _ _ _ N P) as F.
  assert (X : Forall blank ws' /\ no_nul r).
  { split.
    - destruct (pull_shape _ _ _ _ _ _ _ _ P) as [_ [w [E W]]]. injection E as -> ->. apply Forall_app. auto.
    - intro K. apply N. eapply (proj1 (pull_incl _)); [exact P|exact K]. }
  destruct X as [B' N'].
  destruct (saver_check (ws', ls') t) as [w sv2] eqn:C.
  assert (Wf : Forall fine (match w with Some wt => [wt] | None => [] end) /\ exists ls2, sv2 = ([], ls2)).
  { unfold saver_check in C. destruct (is_simple_value t); injection C as <- <-.
    - split; [|eauto]. unfold create_whitespace_token. destruct ws' as [|b ws']; [constructor|]. constructor; [|constructor].
      assert (BB : blanks (b :: ws')) by (split; [discriminate|]; eapply Forall_impl; [|exact B']; intros a A; apply blank_iff, A). destruct ls'; [intros _; exact BB|exact BB].
    - split; [|eauto]. unfold create_whitespace_token. destruct ws' as [|b ws']; [constructor|]. constructor; [|constructor].
      split; [discriminate|]. eapply Forall_impl; [|exact B']. intros a A. apply blank_iff, A. }
  destruct Wf as [Wf [ls2 ->]]. destruct (lex_loop n false ([], ls2) r) as [ts' e'] eqn:L. pose proof (IH _ _ _ _ _ N' (Forall_nil _) L) as Fr.
  assert (Z : Forall fine ((match w with Some wt => [wt] | None => [] end) ++ [t])) by (apply Forall_app; split; [exact Wf|constructor; [exact F|constructor]]).
  destruct t; injection H as <- _; rewrite ?app_assoc; try exact Z; apply Forall_app; split; assumption.
Qed.
