(** The line of a token. *)
From Verif Require Import Base BaseLemmas Util_Model Num_Model Token_Model Token_Spec Token_Lemmas Token_Lemmas2 Comments_Spec Lines_Model Lines_Spec.

Lemma newlines_app : forall a b, newlines (a ++ b) = newlines a + newlines b.
Proof. intros. unfold newlines. rewrite count_occ_app. lia. Qed.
Lemma newlines_nil : newlines [] = 0.
Proof. reflexivity. Qed.
Lemma newlines_cons : forall c s, newlines (c :: s) = (if Ascii.eqb c nl then 1 else 0) + newlines s.
Proof.
  intros c s. unfold newlines. cbn [count_occ]. destruct (ascii_dec c nl) as [E|E]; destruct (Ascii.eqb_spec c nl) as [F|F]; try contradiction; lia.
Qed.
Lemma newlines_none : forall s, ~ In nl s -> newlines s = 0.
Proof. intros s H. unfold newlines. rewrite (proj1 (count_occ_not_In ascii_dec s nl) H). reflexivity. Qed.
Lemma blank_not_newline : forall c, blank c -> c <> nl.
Proof. intros c H ->. repeat (destruct H as [H|H]; [discriminate|]). discriminate. Qed.
Lemma newlines_blank : forall s, Forall blank s -> newlines s = 0.
Proof. intros s F. apply newlines_none. intro H. rewrite Forall_forall in F. exact (blank_not_newline _ (F _ H) eq_refl). Qed.
Lemma newlines_lost : forall s t, lost_blanks s t -> newlines s = newlines t.
Proof.
  intros s t H. induction H as [|c s t H IH|w s t F H IH]; [reflexivity| |].
  - rewrite !newlines_cons, IH. reflexivity.
  - rewrite newlines_app, newlines_blank by exact F. exact IH.
Qed.

Lemma escapes_suffix : forall a b, escapes_on_one_line (a ++ b) -> escapes_on_one_line b.
Proof. intros a b H x y z E. apply (H (a ++ x) y z). rewrite E, <- app_assoc. reflexivity. Qed.
Lemma escapes_tail : forall c b, escapes_on_one_line (c :: b) -> escapes_on_one_line b.
Proof. intros c b. apply (escapes_suffix [c]). Qed.

(** ** Strings *)
Lemma escape_newlines : forall s p o r, no_nul s -> escapes_on_one_line (ch 92 :: s) -> pull_escape_sequence s = Ok (p, o, r) -> newlines o = 0.
Proof.
  intros s p o r Hn He H. destruct s as [|e s]; [discriminate|]. cbn [pull_escape_sequence] in H.
  repeat match type of H with (if Ascii.eqb e ?k then _ else _) = _ =>
    destruct (Ascii.eqb_spec e k) as [->|?]; [try (injection H as <- <- <-; reflexivity)|] end; try discriminate.
  destruct s as [|u1 [|u2 [|u3 [|u4 s]]]]; try discriminate.
  - destruct (sscanf_hx [u1; u2; u3; ch 255]); discriminate.
  - inv_bind H. inv_bind Hk. remember (c_string [u1; u2; u3; u4]) as cs eqn:Ecs. injection Hk0 as <- <- <-. subst cs.
    change ("u"%char :: u1 :: u2 :: u3 :: u4 :: s) with (["u"%char] ++ [u1; u2; u3; u4] ++ s) in Hn. apply no_nul_app in Hn. destruct Hn as [_ Hn]. apply no_nul_app in Hn. destruct Hn as [Hn _].
    rewrite c_string_no_nul by exact Hn. apply newlines_none. cbn [app In].
    intros [X|[X|X]]; [discriminate|discriminate|].
    destruct X as [X|[X|[X|[X|[]]]]]; subst.
    + specialize (He [] [] _ eq_refl). cbn in He. lia.
    + specialize (He [] [u1] _ eq_refl). cbn in He. lia.
    + specialize (He [] [u1; u2] _ eq_refl). cbn in He. lia.
    + specialize (He [] [u1; u2; u3] _ eq_refl). cbn in He. lia.
Qed.
Lemma quoted_newlines : forall n s p o p' o' r, no_nul s -> escapes_on_one_line s -> quoted_loop n p o s = Ok (p', o', r) -> newlines o' = newlines o.
Proof.
  induction n as [|n IH]; intros s p o p' o' r Hn He H; cbn [quoted_loop] in H; [discriminate|]. destruct s as [|c s]; [discriminate|].
  assert (Hs : no_nul s) by (apply no_nul_cons in Hn; tauto). destruct (Ascii.eqb_spec c (ch 92)) as [->|C].
  - inv_bind H. destruct a as [[p1 o1] r1]. pose proof (escape_newlines _ _ _ _ Hs He Hb) as E. destruct (pull_escape_spec _ _ _ _ Hs Hb) as [S1 _].
    rewrite S1 in Hn, He. apply no_nul_app in Hn. rewrite (IH _ _ _ _ _ _ (proj2 Hn) (escapes_suffix _ _ He) Hk), newlines_app. lia.
  - destruct (Ascii.eqb_spec c (ch 34)) as [->|Q]; [injection H as <- <- <-; rewrite newlines_app; change (newlines [ch 34]) with 0; lia|].
    destruct (is_C0_control c) eqn:C0; [discriminate|]. rewrite (IH _ _ _ _ _ _ Hs (escapes_tail _ _ He) H), newlines_app, newlines_cons.
    destruct (Ascii.eqb_spec c nl) as [->|N]; [vm_compute in C0; discriminate|]. rewrite newlines_nil. lia.
Qed.
Lemma triple_newlines : forall s q p o p' o' r line, append_triple_quoted_string q p o s = Ok (p', o', r) -> triple_quoted_line q line s = line + newlines o' - newlines o.
Proof.
  induction s as [|c s IH]; intros q p o p' o' r line H; cbn [append_triple_quoted_string triple_quoted_line] in *.
  - destruct (3 <=? q)%nat; [|discriminate]. injection H as <- <- <-. lia.
  - destruct (Ascii.eqb_spec c (ch 34)) as [->|Q].
    + rewrite (IH _ _ _ _ _ _ line H), newlines_app. change (newlines [ch 34]) with 0. lia.
    + destruct (3 <=? q)%nat; [injection H as <- <- <-; lia|]. rewrite (IH _ _ _ _ _ _ _ H), newlines_app, newlines_cons, newlines_nil. destruct (Ascii.eqb c nl); lia.
Qed.

(** The located functions do what the others do. *)
Lemma quoted_same : forall line s, match pull_quoted_string_at line s with
  | Ok (tl, line', r) => pull_quoted_string s = Ok (fst tl, r) /\ snd tl = Some line' /\
      (no_nul s -> escapes_on_one_line s -> line' = line + newlines (token_text (fst tl)))
  | Throw e => pull_quoted_string s = Throw e
  | Stuck u => pull_quoted_string s = Stuck u
  end.
Proof.
  intros line s. unfold pull_quoted_string_at, pull_quoted_string. destruct (quoted_loop (S (List.length s)) [] [ch 34] s) as [[[p o] r]|e|u] eqn:Q; cbn [bind]; try reflexivity.
  assert (Plain : no_nul s -> escapes_on_one_line s -> newlines o = 0) by (intros Hn He; rewrite (quoted_newlines _ _ _ _ _ _ _ Hn He Q); reflexivity).
  assert (G : pull_quoted_string s = pull_quoted_string s) by reflexivity.
  destruct p as [|c p].
  - destruct r as [|c r].
    + cbn [bind fst snd token_text]. split; [reflexivity|]. split; [reflexivity|]. intros. rewrite Plain by assumption. lia.
    + destruct (Ascii.eqb_spec c (ch 34)) as [->|C].
      * destruct (append_triple_quoted_string 0 [] (o ++ [ch 34]) r) as [[[p' o'] r']|e|u] eqn:T; cbn [bind fst snd token_text]; try reflexivity.
        split; [reflexivity|]. split; [reflexivity|]. intros Hn He. rewrite (triple_newlines _ _ _ _ _ _ _ line T), newlines_app, (Plain Hn He). change (newlines [ch 34]) with 0. lia.
      * cbn [bind fst snd token_text]. split; [reflexivity|]. split; [reflexivity|]. intros. rewrite Plain by assumption. lia.
  - cbn [bind fst snd token_text]. split; [reflexivity|]. split; [reflexivity|]. intros. rewrite Plain by assumption. lia.
Qed.

(** ** Tokens on one line *)
Lemma no_ws_newlines : forall s, no_ws s -> newlines s = 0.
Proof. intros s F. apply newlines_none. intro H. unfold no_ws in F. rewrite Forall_forall in F. specialize (F _ H). vm_compute in F. discriminate. Qed.
Lemma comment_newlines : forall s t r, comment_text s = (t, r) -> newlines t = 0.
Proof.
  induction s as [|c s IH]; intros t r H; cbn [comment_text] in H; [injection H as <- <-; reflexivity|].
  destruct (Ascii.eqb c nl) eqn:C; [injection H as <- <-; reflexivity|]. destruct (comment_text s) as [t' r'] eqn:E. injection H as <- <-.
  rewrite newlines_cons, C, (IH _ _ eq_refl). reflexivity.
Qed.
Lemma pull_comment_newlines : forall c s t r, pull_comment c s = Ok (t, r) -> newlines (token_text t) = 0 /\ exists b tx, t = TComment b tx.
Proof.
  intros c s t r H. unfold pull_comment in H. destruct (Ascii.eqb c "/").
  - destruct s as [|c' s]; [discriminate|]. destruct (Ascii.eqb c' "/"); [|discriminate]. destruct (comment_text s) as [t' r'] eqn:E. injection H as <- <-.
    split; [cbn [token_text]; rewrite newlines_app, (comment_newlines _ _ _ E); reflexivity|eauto].
  - destruct (comment_text s) as [t' r'] eqn:E. injection H as <- <-. split; [cbn [token_text]; rewrite newlines_app, (comment_newlines _ _ _ E); reflexivity|eauto].
Qed.
Lemma unquoted_newlines : forall ac s res t r, pull_unquoted_text ac res s = (t, r) -> newlines res = 0 -> newlines (token_text t) = 0 /\ is_simple_value t = true.
Proof.
  induction s as [|c s IH]; intros res t r H N; cbn [pull_unquoted_text] in H; [injection H as <- <-; auto|].
  destruct (mem c not_in_unquoted_text || is_whitespace c || start_of_comment ac c s) eqn:E; [injection H as <- <-; auto|].
  destruct (str_eqb (res ++ [c]) (lit "true")); [injection H as <- <-; split; reflexivity|].
  destruct (str_eqb (res ++ [c]) (lit "null")); [injection H as <- <-; split; reflexivity|].
  destruct (str_eqb (res ++ [c]) (lit "false")); [injection H as <- <-; split; reflexivity|].
  apply IH in H; [exact H|]. rewrite newlines_app, N, newlines_cons, newlines_nil.
  destruct (Ascii.eqb_spec c nl) as [->|C]; [|reflexivity]. rewrite !orb_false_iff in E. destruct E as [[_ E] _]. vm_compute in E. discriminate.
Qed.
Lemma number_newlines : forall c s t r, pull_number c s = Ok (t, r) -> mem c first_number_chars = true -> newlines (token_text t) = 0 /\ is_simple_value t = true.
Proof.
  intros c s t r H F. unfold pull_number in H. destruct (span_number s) as [m r1] eqn:Es. apply span_number_chars in Es. inv_bind H. injection Hk as <- <-.
  split; [|exact (number_token_simple _ _ _ Hb)]. rewrite (number_token_text _ _ _ _ Hb). apply no_ws_newlines. constructor; [apply first_number_no_ws, F|].
  eapply Forall_impl; [|exact Es]. apply number_chars_no_ws.
Qed.

(** ** The token and its line *)
Definition placed (line : Z) (tl : located) (line' : Z) : Prop :=
  line' = line + newlines (token_text (fst tl)) /\
  snd tl = if has_line (fst tl) then Some (match fst tl with TNewline => line | _ => line' end) else None.

Definition pull_same (n : nat) : Prop := forall ac line (ws : str) (ls : bool) s, match pull_next_token_at n ac line (ws, ls) s with
  | Ok (tl, sv', line', r) => pull_next_token n ac (ws, ls) s = Ok (fst tl, sv', r) /\ (no_nul s -> escapes_on_one_line s -> placed line tl line')
  | Throw e => pull_next_token n ac (ws, ls) s = Throw e
  | Stuck u => pull_next_token n ac (ws, ls) s = Stuck u
  end.
Definition subst_same (n : nat) : Prop := forall ac line o (ws : str) (ls : bool) expr s, Forall blank ws -> match pull_substitution_at n ac line o (ws, ls) expr s with
  | Ok (tl, line', r) => pull_substitution n ac o (ws, ls) expr s = Ok (fst tl, r) /\
      (no_nul s -> escapes_on_one_line s -> snd tl = Some line' /\ exists e, fst tl = TSubst o (expr ++ e) /\ line' = line + newlines (render_tokens e))
  | Throw e => pull_substitution n ac o (ws, ls) expr s = Throw e
  | Stuck u => pull_substitution n ac o (ws, ls) expr s = Stuck u
  end.
Lemma line_same : forall n, pull_same n /\ subst_same n.
Proof.
  induction n as [|n [IHp IHs]]; [split; [intros ac line ws ls s; reflexivity|intros ac line o ws ls expr s _; reflexivity]|]. split.
  - intros ac line ws ls s. cbn [pull_next_token_at pull_next_token]. destruct (next_char_after_whitespace ws s) as [ws' nx] eqn:E.
    apply next_char_spec in E. destruct E as [w [-> [Hw E]]]. destruct nx as [[c s']|]; [|split; [reflexivity|intros _ _; split; [cbn; unfold newlines; cbn; lia|reflexivity]]].
    destruct E as [-> Hc]. destruct (Ascii.eqb_spec c nl) as [->|Hnl]; [split; [reflexivity|intros _ _; split; reflexivity]|].
    assert (Suf : no_nul (w ++ c :: s') -> escapes_on_one_line (w ++ c :: s') -> no_nul s' /\ escapes_on_one_line s').
    { intros A B. split; [apply no_nul_app in A; destruct A as [_ A]; apply no_nul_cons in A; tauto|exact (escapes_tail _ _ (escapes_suffix _ _ B))]. }
    assert (One : forall t, has_line t = true -> t <> TNewline -> newlines (token_text t) = 0 -> placed line (t, Some line) line).
    { intros t L N Z0. split; cbn [fst snd]; [lia|]. rewrite L. destruct t; congruence. }
    assert (Simple : forall t, is_simple_value t = true -> has_line t = true /\ t <> TNewline) by (intros [] H; try discriminate; (split; [reflexivity|discriminate])).
    destruct (start_of_comment ac c s').
    { destruct (pull_comment c s') as [[t r]|e|u] eqn:P; cbn [bind on_line fst]; try reflexivity. split; [reflexivity|]. intros _ _. destruct (pull_comment_newlines _ _ _ _ P) as [N [b [tx ->]]]. apply One; [reflexivity|discriminate|exact N]. }
    destruct (Ascii.eqb c (ch 34)).
    { pose proof (quoted_same line s') as Q. destruct (pull_quoted_string_at line s') as [[[tl line'] r]|e|u]; [|rewrite Q; reflexivity|rewrite Q; reflexivity].
      destruct Q as [Q1 [Q2 Q3]]. rewrite Q1. cbn [bind]. split; [reflexivity|]. intros A B. destruct (Suf A B) as [A1 B1]. split; [exact (Q3 A1 B1)|].
      destruct (pull_quoted_text_nonempty _ _ _ Q1) as [v [z Et]]. rewrite Et. cbn [has_line]. exact Q2. }
    destruct (Ascii.eqb c "$").
    { destruct (subst_open s') as [[o s2]|e|u] eqn:So; cbn [bind]; try reflexivity. pose proof (IHs ac line o [] false [] s2 (Forall_nil _)) as Q. change (@pair str bool [] false) with saver_init in Q.
      destruct (pull_substitution_at n ac line o saver_init [] s2) as [[[tl line'] r]|e|u]; [|rewrite Q; reflexivity|rewrite Q; reflexivity].
      destruct Q as [Q1 Q2]. rewrite Q1. cbn [bind]. split; [reflexivity|]. intros A B. destruct (Suf A B) as [A1 B1]. apply subst_open_spec in So. rewrite So in A1, B1.
      assert (A2 : no_nul s2) by (apply no_nul_app in A1; destruct A1 as [_ A1]; apply no_nul_app in A1; tauto).
      destruct (Q2 A2 (escapes_suffix _ _ (escapes_suffix _ _ B1))) as [L [e [Et Eq]]]. split; rewrite Et; [|exact L]. cbn [token_text app]. fold (render_tokens e). rewrite Eq, !newlines_app.
      change (newlines (lit "${")) with 0. change (newlines (lit "}")) with 0. destruct o; [change (newlines (lit "?")) with 0|rewrite newlines_nil]; lia. }
    destruct (Ascii.eqb c ":"). { cbn [bind shared fst]; split; [reflexivity|intros _ _; split; [cbn [fst token_text]; match goal with |- context [newlines ?x] => change (newlines x) with 0 end; lia|reflexivity]]. }
    destruct (Ascii.eqb c ","). { cbn [bind shared fst]; split; [reflexivity|intros _ _; split; [cbn [fst token_text]; match goal with |- context [newlines ?x] => change (newlines x) with 0 end; lia|reflexivity]]. }
    destruct (Ascii.eqb c "="). { cbn [bind shared fst]; split; [reflexivity|intros _ _; split; [cbn [fst token_text]; match goal with |- context [newlines ?x] => change (newlines x) with 0 end; lia|reflexivity]]. }
    destruct (Ascii.eqb c "{"). { cbn [bind shared fst]; split; [reflexivity|intros _ _; split; [cbn [fst token_text]; match goal with |- context [newlines ?x] => change (newlines x) with 0 end; lia|reflexivity]]. }
    destruct (Ascii.eqb c "}"). { cbn [bind shared fst]; split; [reflexivity|intros _ _; split; [cbn [fst token_text]; match goal with |- context [newlines ?x] => change (newlines x) with 0 end; lia|reflexivity]]. }
    destruct (Ascii.eqb c "["). { cbn [bind shared fst]; split; [reflexivity|intros _ _; split; [cbn [fst token_text]; match goal with |- context [newlines ?x] => change (newlines x) with 0 end; lia|reflexivity]]. }
    destruct (Ascii.eqb c "]"). { cbn [bind shared fst]; split; [reflexivity|intros _ _; split; [cbn [fst token_text]; match goal with |- context [newlines ?x] => change (newlines x) with 0 end; lia|reflexivity]]. }
    destruct (Ascii.eqb c "+").
    { unfold pull_plus_equals. destruct s' as [|c' s'']; [reflexivity|]. destruct (Ascii.eqb c' "="); [|reflexivity].
      cbn [bind shared fst]; split; [reflexivity|intros _ _; split; [cbn [fst token_text]; match goal with |- context [newlines ?x] => change (newlines x) with 0 end; lia|reflexivity]]. }
    destruct (mem c first_number_chars) eqn:Ef.
    { destruct (pull_number c s') as [[t r]|e|u] eqn:P; cbn [bind on_line fst]; try reflexivity. split; [reflexivity|]. intros _ _. destruct (number_newlines _ _ _ _ P Ef) as [N S1]. apply One; [apply Simple, S1|apply Simple, S1|exact N]. }
    destruct (mem c not_in_unquoted_text); [reflexivity|].
    destruct (pull_unquoted_text ac [] (c :: s')) as [t r] eqn:P. cbn [bind on_line fst]. split; [reflexivity|]. intros _ _. destruct (unquoted_newlines _ _ _ _ _ P eq_refl) as [N S1]. apply One; [apply Simple, S1|apply Simple, S1|exact N].
  - intros ac line o ws ls expr s Hws. cbn [pull_substitution_at pull_substitution]. pose proof (IHp ac line ws ls s) as Q.
    destruct (pull_next_token_at n ac line (ws, ls) s) as [[[[tl sv'] line'] r]|e|u]; [|rewrite Q; reflexivity|rewrite Q; reflexivity].
    destruct Q as [Q1 Q2]. rewrite Q1. cbn [bind]. destruct tl as [t l]. cbn [fst] in *.
    destruct (pull_shape _ _ _ _ _ _ _ _ Q1) as [_ [w [-> Hw]]].
    assert (Suf : no_nul s -> escapes_on_one_line s -> no_nul r /\ escapes_on_one_line r).
    { intros A B. destruct (proj1 (pull_spec n) _ _ _ _ _ _ _ A Q1) as [w' [x [_ [_ [-> _]]]]]. split; [apply no_nul_app in A; destruct A as [_ A]; apply no_nul_app in A; tauto|exact (escapes_suffix _ _ (escapes_suffix _ _ B))]. }
    assert (Cont : match (let '(w0, sv'') := saver_check (ws ++ w, ls) t in pull_substitution_at n ac line' o sv'' (expr ++ match w0 with Some wt => [wt] | None => [] end ++ [t]) r) with
      | Ok (tl, line'', r') => (let '(w0, sv'') := saver_check (ws ++ w, ls) t in pull_substitution n ac o sv'' (expr ++ match w0 with Some wt => [wt] | None => [] end ++ [t]) r) = Ok (fst tl, r') /\
          (no_nul s -> escapes_on_one_line s -> snd tl = Some line'' /\ exists e, fst tl = TSubst o (expr ++ e) /\ line'' = line + newlines (render_tokens e))
      | Throw e => (let '(w0, sv'') := saver_check (ws ++ w, ls) t in pull_substitution n ac o sv'' (expr ++ match w0 with Some wt => [wt] | None => [] end ++ [t]) r) = Throw e
      | Stuck u => (let '(w0, sv'') := saver_check (ws ++ w, ls) t in pull_substitution n ac o sv'' (expr ++ match w0 with Some wt => [wt] | None => [] end ++ [t]) r) = Stuck u
      end).
    { destruct (saver_check_shape (ws ++ w) ls t) as [wt [ls' [Hsc Hr]]]. unfold str in *. rewrite Hsc.
      pose proof (IHs ac line' o [] ls' (expr ++ match wt with Some wt => [wt] | None => [] end ++ [t]) r (Forall_nil _)) as R. unfold str in R.
      destruct (pull_substitution_at n ac line' o ([], ls') (expr ++ match wt with Some wt => [wt] | None => [] end ++ [t]) r) as [[[tl line''] r']|e|u]; [|exact R|exact R].
      destruct R as [R1 R2]. split; [exact R1|]. intros A B. destruct (Suf A B) as [A1 B1]. destruct (R2 A1 B1) as [L [e [Et Eq]]]. split; [exact L|].
      exists ((match wt with Some wt => [wt] | None => [] end ++ [t]) ++ e). split; [rewrite Et, <- app_assoc; reflexivity|].
      destruct (Q2 A B) as [P1 _]. cbn [fst] in P1. rewrite !render_tokens_app, Hr, render_tokens_one, !newlines_app, (newlines_blank ws Hws), (newlines_blank w Hw). lia. }
    destruct t; try exact Cont; [reflexivity|].
    split; [reflexivity|]. intros A B. cbn [snd]. split; [reflexivity|]. exists []. rewrite app_nil_r. split; [reflexivity|]. destruct (Q2 A B) as [P1 _]. cbn [fst token_text] in P1. rewrite P1. reflexivity.
Qed.

(** ** All tokens *)
Inductive lined : Z -> list located -> Prop :=
| lined_nil : forall line, lined line []
| lined_token : forall line tl line' rest, ~ blank_text (fst tl) -> placed line tl line' -> lined line' rest -> lined line (tl :: rest)
| lined_blank : forall line w tl line' rest, blank_text w -> ~ blank_text (fst tl) -> placed line tl line' -> lined line' rest -> lined line ((w, Some line') :: tl :: rest).

Lemma lex_same : forall n ac line (ws : str) (ls : bool) s, match lex_loop_at n ac line (ws, ls) s with
  | (lts, e) => lex_loop n ac (ws, ls) s = (map fst lts, e) /\ (no_nul s -> escapes_on_one_line s -> Forall blank ws -> lined line lts)
  end.
Proof.
  induction n as [|n IH]; intros ac line ws ls s; cbn [lex_loop_at lex_loop]; [split; [reflexivity|constructor]|].
  pose proof (proj1 (line_same (S (List.length s))) ac line ws ls s) as Q.
  destruct (pull_next_token_at (S (List.length s)) ac line (ws, ls) s) as [[[[[t l] sv'] line'] r]|e|u]; [|rewrite Q; split; [reflexivity|constructor]|rewrite Q; split; [reflexivity|constructor]].
  destruct Q as [Q1 Q2]. rewrite Q1. cbn [fst] in *. destruct (pull_shape _ _ _ _ _ _ _ _ Q1) as [Pu [w [-> Hw]]].
  assert (Suf : no_nul s -> escapes_on_one_line s -> no_nul r /\ escapes_on_one_line r).
  { intros A B. destruct (proj1 (pull_spec _) _ _ _ _ _ _ _ A Q1) as [w' [x [_ [_ [-> _]]]]]. split; [apply no_nul_app in A; destruct A as [_ A]; apply no_nul_app in A; tauto|exact (escapes_suffix _ _ (escapes_suffix _ _ B))]. }
  assert (Nb : ~ blank_text t) by (intros [B1 B2]; exact (pulled_not_blank _ Pu B1 B2)).
  pose proof (saver_check_eq (ws ++ w) ls t) as Hsc. set (wt := match ws ++ w with [] => None | _ :: _ => Some (if ls && is_simple_value t then TUnquoted (ws ++ w) else TIgnored (ws ++ w)) end) in *.
  assert (Hsc' : saver_check (@pair str bool (ws ++ w) ls) t = (wt, @pair str bool [] (is_simple_value t))) by exact Hsc. unfold str in Hsc'. unfold str. rewrite Hsc'. clear Hsc Hsc'.
  assert (Bl : Forall blank ws -> match wt with Some wt => blank_text wt | None => True end).
  { intro Hws. assert (F : Forall blank (ws ++ w)) by (apply Forall_app; auto). unfold wt. destruct (ws ++ w) as [|c x]; [exact I|]. destruct (ls && is_simple_value t); (split; [discriminate|exact F]). }
  assert (Here : forall rest, no_nul s -> escapes_on_one_line s -> Forall blank ws -> lined line' rest ->
    lined line ((match wt with Some wt => [(wt, Some line')] | None => [] end ++ [(t, l)]) ++ rest)).
  { intros rest A B Hws L. specialize (Q2 A B). specialize (Bl Hws). destruct wt as [w0|]; cbn [app]; [|exact (lined_token line (t, l) line' rest Nb Q2 L)].
    exact (lined_blank line w0 (t, l) line' rest Bl Nb Q2 L). }
  assert (Text : map fst (match wt with Some wt => [(wt, Some line')] | None => [] end ++ [(t, l)]) = match wt with Some wt => [wt] | None => [] end ++ [t]) by (destruct wt; reflexivity).
  clearbody wt.
  assert (Cont : match (let '(ts, e) := lex_loop_at n ac line' (@pair str bool [] (is_simple_value t)) r in ((match wt with Some wt => [(wt, Some line')] | None => [] end ++ [(t, l)]) ++ ts, e)) with
    | (lts, e) => (let '(ts, e) := lex_loop n ac (@pair str bool [] (is_simple_value t)) r in ((match wt with Some wt => [wt] | None => [] end ++ [t]) ++ ts, e)) = (map fst lts, e) /\
        (no_nul s -> escapes_on_one_line s -> Forall blank ws -> lined line lts) end).
  { pose proof (IH ac line' [] (is_simple_value t) r) as R. destruct (lex_loop_at n ac line' (@pair str bool [] (is_simple_value t)) r) as [lts e]. destruct R as [R1 R2]. rewrite R1.
    split; [rewrite map_app, Text; reflexivity|]. intros A B Hws. destruct (Suf A B) as [A1 B1]. exact (Here _ A B Hws (R2 A1 B1 (Forall_nil _))). }
  destruct t; try exact Cont. split; [f_equal; symmetry; exact Text|]. intros A B Hws. assert (X := Here [] A B Hws (lined_nil _)). rewrite app_nil_r in X. exact X.
Qed.
Lemma tokenize_same : forall ac s, tokenize ac s = (lts <- tokenize_at ac s ;; Ok (map fst lts)).
Proof.
  intros ac s. unfold tokenize, tokenize_at, lex. pose proof (lex_same (S (List.length s)) ac 1 [] false s) as Q. change (@pair str bool [] false) with saver_init in Q.
  destruct (lex_loop_at (S (List.length s)) ac 1 saver_init s) as [lts e]. destruct Q as [Q _]. rewrite Q. destruct e; reflexivity.
Qed.
Lemma tokenize_lined : forall ac s lts, no_nul s -> escapes_on_one_line s -> tokenize_at ac s = Ok lts -> lined 1 lts.
Proof.
  intros ac s lts A B H. unfold tokenize_at in H. pose proof (lex_same (S (List.length s)) ac 1 [] false s) as Q. change (@pair str bool [] false) with saver_init in Q.
  destruct (lex_loop_at (S (List.length s)) ac 1 saver_init s) as [ts e]. destruct Q as [_ Q]. destruct e; try discriminate. injection H as <-.
  apply (lined_token 1 (TStart, None) 1); [intros [X _]; apply X; reflexivity|split; reflexivity|exact (Q A B (Forall_nil _))].
Qed.

(** ** One token among the others *)
Lemma lined_here : forall pre line t l post, lined line (pre ++ (t, l) :: post) ->
  (~ blank_text t -> placed (line + newlines (render_tokens (map fst pre))) (t, l) (line + newlines (render_tokens (map fst pre)) + newlines (token_text t))) /\
  (blank_text t -> exists t' l' post', post = (t', l') :: post' /\ l = Some (line + newlines (render_tokens (map fst pre)) + newlines (token_text t'))).
Proof.
  assert (Tok : forall line t l line', placed line (t, l) line' -> placed line (t, l) (line + newlines (token_text t))).
  { intros line t l line' [P1 P2]. cbn [fst snd] in *. subst line'. split; [reflexivity|exact P2]. }
  intro pre. remember (List.length pre) as k eqn:K. revert pre K. induction k as [k IH] using (well_founded_induction lt_wf). intros pre K line t l post H.
  destruct pre as [|x pre].
  - cbn [app map render_tokens concat] in *. change (newlines (render_tokens [])) with 0. rewrite Z.add_0_r.
    inversion H as [|? tl line' rest Nb P L|? w tl line' rest Bw Nb P L]; subst; cbn [fst] in *.
    + split; [intros _; exact (Tok _ _ _ _ P)|intro B; contradiction].
    + split; [intro B; contradiction|]. intros _. destruct tl as [t' l']. exists t', l', rest. split; [reflexivity|]. destruct P as [P _]. cbn [fst] in P. rewrite P. reflexivity.
  - cbn [app] in H. inversion H as [|? tl line' rest Nb P L|? w tl line' rest Bw Nb P L]; subst.
    + destruct (IH (List.length pre) ltac:(cbn; lia) pre eq_refl line' t l post L) as [I1 I2]. destruct P as [P _]. change (map fst (x :: pre)) with ([fst x] ++ map fst pre).
      rewrite render_tokens_app, render_tokens_one, newlines_app, Z.add_assoc. rewrite P in I1, I2. split; assumption.
    + destruct pre as [|y pre].
      * cbn [app] in *. match goal with E : _ :: _ = _ :: _ |- _ => injection E as -> -> end.
        change (map fst [(w, Some line')]) with [w]. rewrite render_tokens_one, (newlines_blank _ (proj2 Bw)), Z.add_0_r. cbn [fst] in *. split; [intros _; exact (Tok _ _ _ _ P)|intro B; contradiction].
      * cbn [app] in *. match goal with E : _ :: _ = _ :: _ |- _ => injection E as -> -> end.
        destruct (IH (List.length pre) ltac:(cbn; lia) pre eq_refl line' t l post L) as [I1 I2]. destruct P as [P _]. change (map fst ((w, Some line') :: y :: pre)) with ([w] ++ [fst y] ++ map fst pre).
        rewrite !render_tokens_app, !render_tokens_one, !newlines_app, (newlines_blank _ (proj2 Bw)), Z.add_0_l, Z.add_assoc. rewrite P in I1, I2. split; assumption.
Qed.

Lemma lost_split : forall s t, lost_blanks s t -> forall a b, t = a ++ b -> exists s1 s2, s = s1 ++ s2 /\ lost_blanks s1 a /\ lost_blanks s2 b.
Proof.
  intros s t H. induction H as [|c s t H IH|w s t F H IH]; intros a b E.
  - symmetry in E. apply app_eq_nil in E. destruct E as [-> ->]. exists [], []. repeat split; constructor.
  - destruct a as [|x a]; cbn [app] in E.
    + subst b. exists [], (c :: s). repeat split; constructor. exact H.
    + injection E as <- E. destruct (IH a b E) as [s1 [s2 [-> [L1 L2]]]]. exists (c :: s1), s2. repeat split; [constructor; exact L1|exact L2].
  - destruct (IH a b E) as [s1 [s2 [E2 [L1 L2]]]]. destruct s1 as [|x s1]; cbn [app] in E2.
    + subst s2. exists [], (w ++ "}"%char :: s). repeat split; [exact L1|constructor; assumption].
    + injection E2 as <- ->. exists (w ++ "}"%char :: s1), s2. split; [rewrite <- app_assoc; reflexivity|]. split; [constructor; assumption|exact L2].
Qed.
Lemma tokenize_split : forall ac s lts pre post, no_nul s -> tokenize_at ac s = Ok lts -> lts = pre ++ post ->
  exists before after, split_at s before after (map fst pre) (map fst post).
Proof.
  intros ac s lts pre post A H E. assert (T : tokenize ac s = Ok (map fst lts)) by (rewrite tokenize_same, H; reflexivity).
  destruct (tokenize_lossless _ _ _ A T) as [L _]. rewrite E, map_app, render_tokens_app in L. destruct (lost_split _ _ L _ _ eq_refl) as [s1 [s2 [E2 [L1 L2]]]].
  exists s1, s2. repeat split; assumption.
Qed.

Lemma token_at : forall ac s pre t l post, ~ In (ch 0) s -> escapes_on_one_line s -> tokenize_at ac s = Ok (pre ++ (t, l) :: post) ->
  exists before after, split_at s before after (map fst pre) (t :: map fst post) /\
  (~ blank_text t -> has_line t = true -> l = Some (match t with TNewline => line_after before | _ => line_after before + newlines (token_text t) end)) /\
  (blank_text t -> exists t' post', map fst post = t' :: post' /\ l = Some (line_after before + newlines (token_text t'))).
Proof.
  intros ac s pre t l post A B H. destruct (tokenize_split _ _ _ pre ((t, l) :: post) A H eq_refl) as [before [after Sp]]. exists before, after. split; [exact Sp|].
  destruct (lined_here pre 1 t l post (tokenize_lined _ _ _ A B H)) as [P1 P2]. destruct Sp as [_ [Lb _]]. rewrite <- (newlines_lost _ _ Lb) in P1, P2. fold (line_after before) in P1, P2. split.
  - intros Nb Hl. destruct (P1 Nb) as [_ P]. cbn [fst snd] in P. rewrite Hl in P. destruct t; exact P.
  - intro Bt. destruct (P2 Bt) as [t' [l' [post' [-> E]]]]. exists t', (map fst post'). split; [reflexivity|exact E].
Qed.

Lemma one_line : forall ac s pre t l post, ~ In (ch 0) s -> escapes_on_one_line s -> tokenize_at ac s = Ok (pre ++ (t, l) :: post) ->
  has_line t = true -> ~ blank_text t -> (~ In nl (token_text t) \/ t = TNewline) ->
  exists before after, split_at s before after (map fst pre) (t :: map fst post) /\ l = Some (line_after before).
Proof.
  intros ac s pre t l post A B H Hl Nb One. destruct (token_at _ _ _ _ _ _ A B H) as [before [after [Sp [P _]]]]. exists before, after. split; [exact Sp|].
  rewrite (P Nb Hl). destruct One as [One| ->]; [|reflexivity]. rewrite (newlines_none _ One), Z.add_0_r. destruct t; reflexivity.
Qed.
Lemma line_app : forall a b, line_after (a ++ b) = line_after a + newlines b.
Proof. intros a b. unfold line_after. rewrite newlines_app. lia. Qed.
Lemma many_lines : forall ac s pre t l post, ~ In (ch 0) s -> escapes_on_one_line s -> tokenize_at ac s = Ok (pre ++ (t, l) :: post) ->
  has_line t = true -> ~ blank_text t -> t <> TNewline ->
  exists upto after, split_at s upto after (map fst pre ++ [t]) (map fst post) /\ l = Some (line_after upto).
Proof.
  intros ac s pre t l post A B H Hl Nb N. destruct (token_at _ _ _ _ _ _ A B H) as [before [_ [[_ [Lb _]] [P _]]]].
  replace (pre ++ (t, l) :: post) with ((pre ++ [(t, l)]) ++ post) in H by (rewrite <- app_assoc; reflexivity).
  destruct (tokenize_split _ _ _ _ _ A H eq_refl) as [upto [after Sp]]. exists upto, after. rewrite map_app in Sp. split; [exact Sp|].
  destruct Sp as [_ [Lu _]]. rewrite (P Nb Hl). apply newlines_lost in Lb. apply newlines_lost in Lu. cbn [map fst] in Lu. rewrite render_tokens_app, render_tokens_one, newlines_app in Lu.
  unfold line_after. rewrite Lb, Lu. destruct t; try (f_equal; lia); congruence.
Qed.
Lemma blank_lines : forall ac s pre t l post, ~ In (ch 0) s -> escapes_on_one_line s -> tokenize_at ac s = Ok (pre ++ (t, l) :: post) -> blank_text t ->
  exists upto after next rest, map fst post = next :: rest /\ split_at s upto after (map fst pre ++ [t; next]) rest /\ l = Some (line_after upto).
Proof.
  intros ac s pre t l post A B H Bt. destruct (token_at _ _ _ _ _ _ A B H) as [before [_ [[_ [Lb _]] [_ P]]]]. destruct (P Bt) as [next [rest [E L]]].
  destruct post as [|[t' l'] post]; [discriminate|]. cbn [map fst] in E. injection E as -> <-.
  replace (pre ++ (t, l) :: (next, l') :: post) with ((pre ++ [(t, l); (next, l')]) ++ post) in H by (rewrite <- app_assoc; reflexivity).
  destruct (tokenize_split _ _ _ _ _ A H eq_refl) as [upto [after Sp]]. rewrite map_app in Sp. exists upto, after, next, (map fst post). split; [reflexivity|]. split; [exact Sp|].
  destruct Sp as [_ [Lu _]]. apply newlines_lost in Lb. apply newlines_lost in Lu. cbn [map fst] in Lu. change [t; next] with ([t] ++ [next]) in Lu. rewrite !render_tokens_app, !render_tokens_one, !newlines_app, (newlines_blank _ (proj2 Bt)) in Lu.
  rewrite L. unfold line_after. rewrite Lb, Lu. f_equal. lia.
Qed.

(** The text of the examples. *)
Definition lines_text : str := lit "a = """"""p" ++ [nl] ++ lit "q"""""" " ++ [nl] ++ lit "b = 7".
Lemma lines_text_escapes : escapes_on_one_line lines_text.
Proof. intros a b c E. exfalso. assert (I : In (ch 92) lines_text) by (rewrite E; apply in_or_app; right; left; reflexivity). vm_compute in I. repeat destruct I as [I|I]; try discriminate; exact I. Qed.
