(** HOCON texts as token lists: which token lists a text is read as, and how they are put together. *)
From Verif Require Import Base BaseLemmas Util_Model Num_Model Path_Model Token_Model Token_Spec Token_Lemmas Token_Lemmas2 PathParser_Model Doc_Model Value_Model Json_Lemmas Json_Lemmas2 Render_Lemmas3 JsonEdit_Lemmas JsonEdit_Lemmas3 ConfText_Lemmas.

(** A token that is not whitespace. *)
Definition solid (t : token) : bool := match t with TIgnored _ => false | _ => negb (is_unquoted_whitespace t) end.

(** The text of the tokens, followed by [r], is read as these tokens; [ls] tells whether a simple value stands before. *)
Inductive spelt : bool -> list token -> str -> Prop :=
| sp_nil : forall ls r, spelt ls [] r
| sp_tok : forall ls t ts r, reads' t (render_tokens ts ++ r) -> spelt (is_simple_value t) ts r -> spelt ls (t :: ts) r
| sp_gap : forall ls w t ts r, blanks w -> ls && is_simple_value t = false -> reads' t (render_tokens ts ++ r) -> spelt (is_simple_value t) ts r -> spelt ls (TIgnored w :: t :: ts) r
| sp_word : forall w t ts r, blanks w -> is_simple_value t = true -> reads' t (render_tokens ts ++ r) -> spelt true ts r -> spelt true (TUnquoted w :: t :: ts) r
| sp_last : forall ls w r, blanks w -> spelt ls [TIgnored w] r.

Lemma skip_pull : forall n w ws ls s, Forall (fun c => is_whitespace_not_newline c = true) w ->
  pull_next_token (S n) true (ws, ls) (w ++ s) = pull_next_token (S n) true (ws ++ w, ls) s.
Proof. intros n w ws ls s W. cbn [pull_next_token]. rewrite (skip_blanks w ws s W). reflexivity. Qed.

(** ** Such a text is read so *)
Lemma lex_gap : forall w t r ls ts, blanks w -> reads' t r -> lexes true (is_simple_value t) r ts ->
  lexes true ls (w ++ token_text t ++ r) ((if ls && is_simple_value t then TUnquoted w else TIgnored w) :: t :: ts).
Proof.
  intros w t r ls ts [W1 W2] [N [E R]] H [|n] L; [lia|]. cbn [lex_loop]. rewrite (skip_pull _ w [] ls _ W2), R by (rewrite !app_length; lia). unfold saver_check. cbn [app]. rewrite !app_length in L.
  assert (L' : (List.length r < n)%nat) by (destruct (token_text t); [congruence|cbn in L; lia]).
  destruct w as [|c w]; [congruence|].
  destruct (is_simple_value t) eqn:S'; cbn [create_whitespace_token app]; rewrite (H n L').
  - rewrite andb_true_r. destruct ls; destruct t; try reflexivity; congruence.
  - rewrite andb_false_r. destruct t; try reflexivity; congruence.
Qed.
Lemma lex_tok : forall t r ls ts, reads' t r -> lexes true (is_simple_value t) r ts -> lexes true ls (token_text t ++ r) (t :: ts).
Proof.
  intros t r ls ts [N [E R]] H [|n] L; [lia|]. cbn [lex_loop]. rewrite R by (rewrite app_length; lia). unfold saver_check. rewrite app_length in L.
  assert (L' : (List.length r < n)%nat) by (destruct (token_text t); [congruence|cbn in L; lia]).
  destruct (is_simple_value t) eqn:S'; cbn [create_whitespace_token app]; rewrite (H n L'); destruct ls; destruct t; try reflexivity; congruence.
Qed.
Lemma spelt_lexes : forall ls ts r, spelt ls ts r -> r = [] -> lexes true ls (render_tokens ts) (ts ++ [TEnd]).
Proof.
  intros ls ts r H. induction H as [ls r|ls t ts r R H IH|ls w t ts r W S R H IH|w t ts r W S R H IH|ls w r W]; intros ->.
  - intros [|n] L; [lia|]. destruct ls; reflexivity.
  - rewrite render_cons, app_nil_r in *. cbn [app]. apply lex_tok; auto.
  - rewrite !render_cons, app_nil_r in *. cbn [app]. pose proof (lex_gap w t _ ls _ W R (IH eq_refl)) as K. rewrite S in K. exact K.
  - rewrite !render_cons, app_nil_r in *. cbn [app]. pose proof (IH eq_refl) as IH'. replace (lexes true true) with (lexes true (is_simple_value t)) in IH' by (rewrite S; reflexivity). pose proof (lex_gap w t _ true _ W R IH') as K. rewrite S in K. exact K.
  - rewrite render_cons. intros [|n] L; [lia|]. cbn [lex_loop]. destruct W as [W1 W2]. cbn [token_text render_tokens map concat]. rewrite (skip_pull _ w [] ls _ W2). cbn [app pull_next_token next_char_after_whitespace].
    unfold saver_check. destruct w as [|c w]; [congruence|]. reflexivity.
Qed.

(** ** Substitutions *)
Lemma reads_first : forall c x t r, reads' t r -> token_text t = c :: x -> c <> "?"%char.
Proof.
  intros c x t r [N [E R]] T ->. specialize (R _ [] false (le_n _)). rewrite T in R. cbn [app pull_next_token next_char_after_whitespace] in R.
  change (is_whitespace_not_newline "?") with false in R. cbv iota in R. change (Ascii.eqb "?" nl) with false in R. cbv iota in R. unfold start_of_comment in R. cbn in R. discriminate.
Qed.
Lemma spelt_first : forall ls e r c x, spelt ls e r -> render_tokens e = c :: x -> c <> "?"%char.
Proof.
  intros ls e r c x H T.
  assert (B : forall w y, blanks w -> w ++ y = c :: x -> c <> "?"%char) by (intros w y [N W] Q ->; destruct w as [|d w]; [congruence|]; injection Q as -> _; inversion W; subst; discriminate).
  destruct H as [ls r|ls t ts r R H|ls w t ts r W S R H|w t ts r W S R H|ls w r W]; rewrite ?render_cons in T; [discriminate| | | |]; try (eapply B; [exact W|exact T]).
  destruct (token_text t) as [|d y] eqn:E; [destruct (proj1 R); exact E|]. injection T as -> _. exact (reads_first _ _ _ _ R E).
Qed.
Definition open_end (e : list token) : bool := match List.last e TEnd with TIgnored _ => true | _ => false end.
Lemma sub_step : forall n o sv expr s t sv' r, pull_next_token n true sv s = Ok (t, sv', r) -> t <> TCloseCurly -> t <> TEnd ->
  pull_substitution (S n) true o sv expr s = (let '(w, sv'') := saver_check sv' t in pull_substitution n true o sv'' (expr ++ match w with Some wt => [wt] | None => [] end ++ [t]) r).
Proof. intros n o sv expr s t sv' r H A B. cbn [pull_substitution]. rewrite H. cbn [bind]. destruct t; congruence || reflexivity. Qed.
Lemma check_none : forall ls t, saver_check (([] : str), ls) t = (None, ([], is_simple_value t)).
Proof. intros ls t. unfold saver_check. destruct (is_simple_value t); reflexivity. Qed.
Lemma check_some : forall (w : str) ls t, w <> [] -> saver_check (w, ls) t = (Some (if ls && is_simple_value t then TUnquoted w else TIgnored w), ([], is_simple_value t)).
Proof. intros [|c w] ls t N; [congruence|]. unfold saver_check. destruct (is_simple_value t); [rewrite andb_true_r|rewrite andb_false_r]; destruct ls; reflexivity. Qed.
Lemma reads_longer : forall t r, reads' t r -> (1 <= List.length (token_text t))%nat.
Proof. intros t r [N _]. destruct (token_text t); [congruence|cbn; lia]. Qed.
Definition inner (e : list token) : Prop := open_end e = false /\ Forall (fun t => t <> TCloseCurly) e.
Lemma inner_tail : forall t e, inner (t :: e) -> inner e.
Proof. intros t e [A B]. inversion B; subst. split; [|assumption]. destruct e; [reflexivity|exact A]. Qed.
Lemma subst_pulled : forall o ls e q, spelt ls e q -> forall r, q = "}"%char :: r -> inner e -> forall n expr, (List.length (render_tokens e) + 2 <= n)%nat ->
  pull_substitution n true o ([], ls) expr (render_tokens e ++ "}"%char :: r) = Ok (TSubst o (expr ++ e), r).
Proof.
  intros o ls e q H. induction H as [ls q|ls t ts q R H IH|ls w t ts q W S R H IH|w t ts q W S R H IH|ls w q W]; intros r -> Op n expr L.
  - destruct n as [|[|n]]; [cbn in L; lia|cbn in L; lia|]. rewrite app_nil_r. reflexivity.
  - rewrite render_cons in *. rewrite app_length in L. pose proof (reads_longer _ _ R) as L1. pose proof R as [N [E R']]. pose proof Op as [_ Cc]. inversion Cc as [|? ? C1 _]; subst.
    destruct n as [|[|n]]; [lia|lia|]. rewrite <- app_assoc. rewrite (sub_step _ _ _ _ _ _ _ _ (R' n [] ls ltac:(lia)) C1 E), check_none.
    rewrite IH; [cbn [app]; rewrite <- app_assoc; reflexivity|reflexivity|exact (inner_tail _ _ Op)|lia].
  - rewrite !render_cons in *. rewrite !app_length in L. pose proof (reads_longer _ _ R) as L1. pose proof R as [N [E R']]. pose proof (inner_tail _ _ Op) as Op2. pose proof Op2 as [_ Cc]. inversion Cc as [|? ? C1 _]; subst.
    destruct W as [W1 W2]. cbn [token_text] in *. destruct n as [|[|n]]; [lia|lia|]. rewrite <- !app_assoc.
    assert (P : pull_next_token (Datatypes.S n) true ([], ls) (w ++ token_text t ++ render_tokens ts ++ "}"%char :: r) = Ok (t, (w, ls), render_tokens ts ++ "}"%char :: r)) by (rewrite (skip_pull _ w [] ls _ W2); apply R'; lia).
    rewrite (sub_step _ _ _ _ _ _ _ _ P C1 E), (check_some w ls t W1), S.
    rewrite IH; [cbn [app]; rewrite <- app_assoc; reflexivity|reflexivity|exact (inner_tail _ _ Op2)|lia].
  - rewrite !render_cons in *. rewrite !app_length in L. pose proof (reads_longer _ _ R) as L1. pose proof R as [N [E R']]. pose proof (inner_tail _ _ Op) as Op2. pose proof Op2 as [_ Cc]. inversion Cc as [|? ? C1 _]; subst.
    destruct W as [W1 W2]. cbn [token_text] in *. destruct n as [|[|n]]; [lia|lia|]. rewrite <- !app_assoc.
    assert (P : pull_next_token (Datatypes.S n) true ([], true) (w ++ token_text t ++ render_tokens ts ++ "}"%char :: r) = Ok (t, (w, true), render_tokens ts ++ "}"%char :: r)) by (rewrite (skip_pull _ w [] true _ W2); apply R'; lia).
    rewrite (sub_step _ _ _ _ _ _ _ _ P C1 E), (check_some w true t W1), S. cbn [andb].
    rewrite IH; [cbn [app]; rewrite <- app_assoc; reflexivity|reflexivity|exact (inner_tail _ _ Op2)|lia].
  - destruct Op as [Op _]. discriminate Op.
Qed.
Lemma subst_reads : forall o e r, spelt false e ("}"%char :: r) -> inner e -> reads' (TSubst o e) r.
Proof.
  intros o e r H Op. split; [destruct o; discriminate|]. split; [discriminate|]. intros n ws ls L. cbn [token_text] in *. fold (render_tokens e) in *. change (concat (map token_text e)) with (render_tokens e) in *.
  cbn [app lit list_ascii_of_string] in *. cbn [pull_next_token next_char_after_whitespace].
  change (is_whitespace_not_newline "$") with false. cbv iota. change (Ascii.eqb "$" nl) with false. cbv iota.
  change (start_of_comment true "$" ("{"%char :: ((if o then ["?"%char] else []) ++ render_tokens e ++ ["}"%char]) ++ r)) with false. cbv iota.
  change (Ascii.eqb "$" (ch 34)) with false. cbv iota. change (Ascii.eqb "$" "$") with true. cbv iota.
  assert (Sb : subst_open ("{"%char :: ((if o then ["?"%char] else []) ++ render_tokens e ++ ["}"%char]) ++ r) = Ok (o, render_tokens e ++ "}"%char :: r)).
  { rewrite <- !app_assoc. cbn [app]. unfold subst_open. change (Ascii.eqb "{" "{") with true. cbv iota. destruct o; [reflexivity|]. cbn [app]. destruct (render_tokens e) as [|c x] eqn:T; [reflexivity|].
    cbn [app]. destruct (Ascii.eqb_spec c "?") as [->|_]; [|reflexivity]. destruct (spelt_first _ _ _ _ _ H T eq_refl). }
  rewrite Sb. cbn [bind]. change saver_init with (@nil ascii, false). rewrite (subst_pulled o false e _ H r eq_refl Op); [reflexivity|]. cbn [List.length] in L. rewrite !app_length in L. cbn [List.length] in L. lia.
Qed.

(** ** What is read is such a list *)
Lemma pull_plain : forall n ws ls s t sv' r, no_nul s -> pull_next_token (S n) true (ws, ls) s = Ok (t, sv', r) -> is_subst t = false -> t <> TEnd ->
  exists w, sv' = (ws ++ w, ls) /\ Forall (fun c => is_whitespace_not_newline c = true) w /\ s = w ++ token_text t ++ r /\ reads' t r.
Proof.
  intros n ws ls s t sv' r N H Sb NE. cbn [pull_next_token] in H. destruct (next_char_after_whitespace ws s) as [ws' nx] eqn:E.
  assert (Sp : exists w, ws' = ws ++ w /\ Forall (fun c => is_whitespace_not_newline c = true) w /\ match nx with Some (c, s') => s = w ++ c :: s' /\ is_whitespace_not_newline c = false | None => s = w end).
  { clear -E. revert ws ws' nx E. induction s as [|c s IH]; intros ws ws' nx E; cbn [next_char_after_whitespace] in E.
    - injection E as <- <-. exists []. rewrite app_nil_r. auto.
    - destruct (is_whitespace_not_newline c) eqn:W.
      + destruct (IH _ _ _ E) as [w [-> [F M]]]. exists (c :: w). rewrite <- app_assoc. split; [reflexivity|]. split; [constructor; assumption|]. destruct nx as [[d s']|]; [destruct M as [-> M]; auto|rewrite M; reflexivity].
      + injection E as <- <-. exists []. rewrite app_nil_r. auto. }
  destruct Sp as [w [-> [W Sp]]]. destruct nx as [[c s']|]; [|injection H as <- _ _; congruence]. destruct Sp as [-> Wc].
  assert (K : sv' = (ws ++ w, ls) /\ c :: s' = token_text t ++ r /\ forall m us k, pull_next_token (S m) true (us, k) (c :: s') = Ok (t, (us, k), r)).
  { assert (Nx : forall us, next_char_after_whitespace us (c :: s') = (us, Some (c, s'))) by (intro us; cbn [next_char_after_whitespace]; rewrite Wc; reflexivity).
    apply no_nul_app in N. destruct N as [_ N]. apply no_nul_cons in N. destruct N as [_ N].
    destruct (Ascii.eqb c nl) eqn:Enl.
    { injection H as <- <- <-. split; [reflexivity|]. apply Ascii.eqb_eq in Enl. subst c. split; [reflexivity|]. intros m us k. cbn [pull_next_token]. rewrite Nx. reflexivity. }
    inv_bind H. destruct a as [t1 r1]. injection Hk as -> <- ->. split; [reflexivity|].
    destruct (start_of_comment true c s') eqn:Sc.
    { split; [|intros m us k; cbn [pull_next_token]; rewrite Nx, Enl, Sc, Hb; reflexivity]. unfold pull_comment in Hb. destruct (Ascii.eqb c "/") eqn:Es.
      - destruct s' as [|c' s'']; [discriminate|]. destruct (Ascii.eqb_spec c' "/") as [->|]; [|discriminate]. destruct (comment_text s'') eqn:Ct. injection Hb as <- <-. apply comment_text_spec in Ct. subst s''.
        apply Ascii.eqb_eq in Es. subst c. reflexivity.
      - unfold start_of_comment in Sc. rewrite Es in Sc. cbn [andb orb] in Sc. rewrite orb_false_r in Sc. destruct (comment_text s') eqn:Ct. injection Hb as <- <-. apply comment_text_spec in Ct. subst s'. apply Ascii.eqb_eq in Sc. subst c. reflexivity. }
    destruct (Ascii.eqb c (ch 34)) eqn:E1.
    { split; [|intros m us k; cbn [pull_next_token]; rewrite Nx, Enl, Sc, E1, Hb; reflexivity]. destruct (string_moved _ _ _ N Hb) as [k [y [-> [-> _]]]]. apply Ascii.eqb_eq in E1. subst c. reflexivity. }
    destruct (Ascii.eqb c "$") eqn:E2.
    { inv_bind Hb. destruct a as [o s2]. apply (proj2 (pull_len _)) in Hk. destruct Hk as [_ [ex ->]]. discriminate Sb. }
    split; [|intros m us k; cbn [pull_next_token]; rewrite Nx, Enl, Sc, E1, E2, Hb; reflexivity].
    repeat match type of Hb with (if Ascii.eqb c ?k then Ok (?tk, _) else _) = _ =>
      let Q := fresh "Q" in destruct (Ascii.eqb c k) eqn:Q; [injection Hb as <- <-; apply Ascii.eqb_eq in Q; subst c; reflexivity|] end.
    destruct (Ascii.eqb c "+") eqn:E3.
    { unfold pull_plus_equals in Hb. destruct s' as [|c' s'']; [discriminate|]. destruct (Ascii.eqb_spec c' "=") as [->|]; [|discriminate]. injection Hb as <- <-. apply Ascii.eqb_eq in E3. subst c. reflexivity. }
    destruct (mem c first_number_chars) eqn:F.
    { unfold pull_number in *. destruct (span_number s') as [more r3] eqn:Sp. inv_bind Hb. injection Hk as -> ->. rewrite (number_token_text _ _ _ _ Hb0). apply span_number_spec in Sp. subst s'. reflexivity. }
    destruct (mem c not_in_unquoted_text) eqn:Em; [discriminate|]. apply ok_same in Hb. apply pull_unquoted_spec in Hb. exact Hb. }
  destruct K as [-> [T K]]. exists w. split; [reflexivity|]. split; [exact W|]. split; [rewrite T; reflexivity|]. split.
  - intro Z. pose proof (K O [] false) as K'. rewrite T, Z in K'. cbn [app] in K'. destruct t; discriminate || (try (cbn in Z; discriminate)); try congruence.
    all: apply (proj1 (pull_len _)) in K'; destruct K' as [_ [K' _]]; specialize (K' ltac:(discriminate)); lia.
  - split; [exact NE|]. intros m us k _. rewrite <- T. apply K.
Qed.
Lemma pull_dollar : forall n ws ls s o e sv' r, no_nul s -> pull_next_token (S n) true (ws, ls) s = Ok (TSubst o e, sv', r) ->
  exists w y s2, sv' = (ws ++ w, ls) /\ Forall (fun c => is_whitespace_not_newline c = true) w /\ s = w ++ "$"%char :: y /\ no_nul s2 /\ pull_substitution n true o saver_init [] s2 = Ok (TSubst o e, r).
Proof.
  intros n ws ls s o e sv' r N H. cbn [pull_next_token] in H. destruct (next_char_after_whitespace ws s) as [ws' nx] eqn:E.
  assert (Sp : exists w, ws' = ws ++ w /\ Forall (fun c => is_whitespace_not_newline c = true) w /\ match nx with Some (c, s') => s = w ++ c :: s' | None => s = w end).
  { clear -E. revert ws ws' nx E. induction s as [|c s IH]; intros ws ws' nx E; cbn [next_char_after_whitespace] in E.
    - injection E as <- <-. exists []. rewrite app_nil_r. auto.
    - destruct (is_whitespace_not_newline c) eqn:W.
      + destruct (IH _ _ _ E) as [w [-> [F M]]]. exists (c :: w). rewrite <- app_assoc. split; [reflexivity|]. split; [constructor; assumption|]. destruct nx as [[d s']|]; rewrite M; reflexivity.
      + injection E as <- <-. exists []. rewrite app_nil_r. auto. }
  destruct Sp as [w [-> [W Sp]]]. destruct nx as [[c s']|]; [|discriminate]. subst s.
  apply no_nul_app in N. destruct N as [_ N]. apply no_nul_cons in N. destruct N as [_ N].
  destruct (Ascii.eqb c nl) eqn:Enl; [discriminate|]. inv_bind H. destruct a as [t1 r1]. injection Hk as -> <- ->.
  destruct (start_of_comment true c s') eqn:Sc.
  { exfalso. unfold pull_comment in Hb. destruct (Ascii.eqb c "/"); [destruct s' as [|c' s'']; [discriminate|]; destruct (Ascii.eqb c' "/"); [|discriminate]; destruct (comment_text s''); discriminate|destruct (comment_text s'); discriminate]. }
  destruct (Ascii.eqb c (ch 34)) eqn:E1; [exfalso; destruct (string_moved _ _ _ N Hb) as [k [y [Q _]]]; discriminate|].
  destruct (Ascii.eqb_spec c "$") as [->|E2].
  { inv_bind Hb. destruct a as [o' s2]. pose proof (proj2 (pull_len _) _ _ _ _ _ _ _ Hk) as [_ [ex Q]]. injection Q as <- _. exists w, s', s2. split; [reflexivity|]. split; [exact W|]. split; [reflexivity|]. split; [|exact Hk].
    unfold subst_open in Hb0. destruct s' as [|d s']; [discriminate|]. destruct (Ascii.eqb d "{"); [|discriminate]. apply no_nul_cons in N. destruct N as [_ N]. destruct s' as [|q s']; [injection Hb0 as _ <-; exact N|].
    destruct (Ascii.eqb q "?"); injection Hb0 as _ <-; [apply no_nul_cons in N; apply N|exact N]. }
  exfalso.
  repeat match type of Hb with (if Ascii.eqb c ?k then Ok (?tk, _) else _) = _ => destruct (Ascii.eqb c k); [discriminate|] end.
  destruct (Ascii.eqb c "+"); [unfold pull_plus_equals in Hb; destruct s' as [|c' s'']; [discriminate|]; destruct (Ascii.eqb c' "="); discriminate|].
  destruct (mem c first_number_chars).
  { unfold pull_number in Hb. destruct (span_number s') as [more r3]. inv_bind Hb. injection Hk as -> _. apply number_token_text in Hb0. destruct o; cbn in Hb0; injection Hb0 as Q _; congruence. }
  destruct (mem c not_in_unquoted_text); [discriminate|]. apply ok_same in Hb. destruct (unquoted_cases _ _ _ _ _ Hb) as [[y Q]|[v [V Q]]]; discriminate.
Qed.
Definition slash (r : str) : bool := match r with c :: _ => Ascii.eqb c "/" | [] => false end.
Lemma comment_slash : forall c s, start_of_comment true c s = Ascii.eqb c "#" || Ascii.eqb c "/" && slash s.
Proof. intros c [|d s]; unfold start_of_comment; cbn [andb slash]; reflexivity. Qed.
Lemma agree_text : forall x r r', x <> [] -> slash r = slash r' -> agree (x ++ r) (x ++ r').
Proof. intros [|c [|d x]] r r' N S; [congruence| |]; cbn [app agree]; (split; [reflexivity|]); rewrite !comment_slash; [rewrite S|]; reflexivity. Qed.
Lemma agree_slash : forall r r', agree r r' -> slash r = slash r'.
Proof. intros [|c r] [|c' r'] A; try contradiction; [reflexivity|]. destruct A as [<- _]. reflexivity. Qed.
Lemma agree_head : forall c r r', Ascii.eqb c "/" = false -> agree (c :: r) (c :: r').
Proof. intros c r r' E. split; [reflexivity|]. rewrite !comment_slash, E. reflexivity. Qed.
Lemma reads_comment : forall d x r, reads' (TComment d x) r -> r = [] \/ exists r2, r = nl :: r2.
Proof.
  intros d x r [_ [_ R]]. specialize (R _ [] false (le_n _)). destruct d; cbn [token_text lit list_ascii_of_string app pull_next_token next_char_after_whitespace] in R.
  - change (is_whitespace_not_newline "/") with false in R. cbv iota in R. change (Ascii.eqb "/" nl) with false in R. cbv iota in R. rewrite comment_slash in R. cbn [slash] in R. change (Ascii.eqb "/" "#" || Ascii.eqb "/" "/" && Ascii.eqb "/" "/") with true in R. cbv iota in R.
    unfold pull_comment in R. change (Ascii.eqb "/" "/") with true in R. cbv iota in R. destruct (comment_text (x ++ r)) as [a b] eqn:C. cbn [bind] in R. injection R as -> ->. apply (comment_stop _ _ _ C).
  - change (is_whitespace_not_newline "#") with false in R. cbv iota in R. change (Ascii.eqb "#" nl) with false in R. cbv iota in R. rewrite comment_slash in R. change (Ascii.eqb "#" "#") with true in R. cbn [orb] in R.
    unfold pull_comment in R. change (Ascii.eqb "#" "/") with false in R. cbv iota in R. destruct (comment_text (x ++ r)) as [a b] eqn:C. cbn [bind] in R. injection R as -> ->. apply (comment_stop _ _ _ C).
Qed.
Lemma pull_facts : forall n ls s t1 sv' r1, (forall o e s2 r, no_nul s2 -> pull_substitution n true o saver_init [] s2 = Ok (TSubst o e, r) -> inner e /\ no_nul (render_tokens e) /\ no_nul r /\ forall q, spelt false e ("}"%char :: q)) ->
  no_nul s -> pull_next_token (S n) true (([] : str), ls) s = Ok (t1, sv', r1) -> t1 <> TEnd ->
  exists w, sv' = (w, ls) /\ Forall (fun c => is_whitespace_not_newline c = true) w /\ no_nul w /\ no_nul (token_text t1) /\ no_nul r1 /\ token_text t1 <> [] /\ (forall r', moved t1 r1 r' -> reads' t1 r') /\
    (forall z, slash r1 = slash z -> match w with [] => agree s (token_text t1 ++ z) | c :: w' => exists y, s = c :: y end) /\ (is_comment t1 = true -> r1 = [] \/ exists r2, r1 = nl :: r2).
Proof.
  intros n ls s t1 sv' r1 Sub N Hb D2.
  destruct (is_subst t1) eqn:Sb.
    - destruct t1 as [| | | | | | | | | | | | | |o1 e1|]; try discriminate Sb. destruct (pull_dollar _ _ _ _ _ _ _ _ N Hb) as [w [y [s2 [-> [W [-> [N2 P]]]]]]]. cbn [app] in *.
      destruct (Sub _ _ _ _ N2 P) as [In1 [Ne [Nr Sp]]]. exists w. split; [reflexivity|]. split; [exact W|]. apply no_nul_app in N. destruct N as [Nw N]. split; [exact Nw|].
      assert (Tx : token_text (TSubst o1 e1) = "$"%char :: "{"%char :: (if o1 then ["?"%char] else []) ++ render_tokens e1 ++ ["}"%char]) by reflexivity.
      split; [|split; [exact Nr|split; [rewrite Tx; discriminate|split; [intros r' _; apply subst_reads; auto|split; [|discriminate]]]]].
      + rewrite Tx. intros [Z|[Z|Z]]; try discriminate Z. apply in_app_or in Z. destruct Z as [Z|Z]; [destruct o1; cbn in Z; intuition discriminate|]. apply in_app_or in Z. destruct Z as [Z|[Z|[]]]; [exact (Ne Z)|discriminate].
      + intros z _. destruct w as [|c w]; [|cbn [app]; eauto]. rewrite Tx. cbn [app]. apply agree_head. reflexivity.
    - destruct (pull_plain _ _ _ _ _ _ _ N Hb Sb D2) as [w [-> [W [-> R]]]]. cbn [app] in *. exists w. split; [reflexivity|]. split; [exact W|]. apply no_nul_app in N. destruct N as [Nw N]. split; [exact Nw|]. pose proof N as Nn. apply no_nul_app in N. destruct N as [Nt Nr].
      split; [exact Nt|]. split; [exact Nr|]. split; [apply R|]. split; [intros r' M; eapply plain_moved; eauto|]. split; [|intro C; destruct t1; try discriminate C; exact (reads_comment _ _ _ R)].
      intros z Sl. destruct w as [|c w]; [|cbn [app]; eauto]. cbn [app]. apply agree_text; [apply R|exact Sl].
Qed.
Lemma sub_spelt : forall n o ls expr s t r, no_nul s -> pull_substitution n true o (([] : str), ls) expr s = Ok (t, r) ->
  exists e, t = TSubst o (expr ++ e) /\ inner e /\ no_nul (render_tokens e) /\ no_nul r /\ (forall q, spelt ls e ("}"%char :: q)) /\
    match e with [] => exists w, Forall (fun c => is_whitespace_not_newline c = true) w /\ s = w ++ "}"%char :: r | _ => forall q, agree s (render_tokens e ++ "}"%char :: q) end.
Proof.
  induction n as [n IH] using lt_wf_ind. intros o ls expr s t r N H. destruct n as [|n]; [discriminate|]. cbn [pull_substitution] in H. inv_bind H. destruct a as [[t1 sv'] r1]. destruct n as [|n]; [discriminate|].
  assert (D : t1 = TCloseCurly \/ t1 = TEnd \/ (t1 <> TCloseCurly /\ t1 <> TEnd)) by (destruct t1; auto; right; right; split; discriminate). destruct D as [->|[->|[D1 D2]]]; [|discriminate|].
  { injection Hk as <- <-. destruct (pull_plain _ _ _ _ _ _ _ N Hb eq_refl ltac:(discriminate)) as [w [_ [W [-> R]]]]. exists []. rewrite app_nil_r. split; [reflexivity|]. split; [split; [reflexivity|constructor]|]. split; [intros []|].
    apply no_nul_app in N. destruct N as [_ N]. apply no_nul_app in N. split; [apply N|]. split; [intro; constructor|]. exists w. split; [exact W|reflexivity]. }
  destruct (pull_facts n ls s t1 sv' r1) as [w T]; [|exact N|exact Hb|exact D2|].
  { intros o1 e1 s2 r2 N2 P. destruct (IH n ltac:(lia) _ _ _ _ _ _ N2 P) as [e [Q [In1 [Ne [Nr [Sp _]]]]]]. cbn [app] in Q. injection Q as <-. auto. }
  destruct T as [-> [W [Nw [Nt [Nr [Tn [Mv [Ag Cm]]]]]]]].
  assert (Hk' : (let '(wt, sv'') := saver_check (w, ls) t1 in pull_substitution (S n) true o sv'' (expr ++ match wt with Some x => [x] | None => [] end ++ [t1]) r1) = Ok (t, r)) by (destruct t1; congruence || exact Hk). clear Hk.
  assert (Main : forall expr', pull_substitution (S n) true o ([] : str, is_simple_value t1) expr' r1 = Ok (t, r) -> exists e', t = TSubst o (expr' ++ e') /\ inner e' /\ no_nul (render_tokens e') /\ no_nul r /\
    (forall q, reads' t1 (render_tokens e' ++ "}"%char :: q) /\ spelt (is_simple_value t1) e' ("}"%char :: q) /\ slash r1 = slash (render_tokens e' ++ "}"%char :: q))).
  { intros expr' P. destruct (IH (S n) ltac:(lia) _ _ _ _ _ _ Nr P) as [e' [-> [In1 [Ne [Nr' [Sp A]]]]]]. exists e'. split; [reflexivity|]. split; [exact In1|]. split; [exact Ne|]. split; [exact Nr'|]. intro q.
    destruct e' as [|t2 e'].
    - destruct A as [w2 [W2 E]]. assert (Fst : exists c y, r1 = c :: y /\ c <> nl /\ Ascii.eqb c "/" = false).
      { destruct w2 as [|c w2]; subst r1; cbn [app]; [do 2 eexists; repeat split; discriminate|]. inversion W2 as [|? ? Wc _]; subst. do 2 eexists. split; [reflexivity|]. split; [intros ->; discriminate Wc|]. destruct (Ascii.eqb_spec c "/") as [->|]; [discriminate Wc|reflexivity]. }
      destruct Fst as [c [y [E2 [F1 F2]]]]. split; [|split; [apply Sp|]].
      + apply Mv. right. split; [reflexivity|]. destruct (is_comment t1); [|reflexivity]. destruct (Cm eq_refl) as [X|[r2 X]]; rewrite E2 in X; [discriminate|]. injection X as X _. contradiction.
      + rewrite E2. cbn [slash app render_tokens map concat]. rewrite F2. reflexivity.
    - split; [apply Mv; left; apply A|]. split; [apply Sp|]. apply agree_slash, A. }
  destruct w as [|c w].
  - rewrite check_none in Hk'. destruct (Main _ Hk') as [e' [-> [In1 [Ne [Nr' A]]]]]. exists (t1 :: e'). rewrite <- app_assoc. cbn [app]. split; [reflexivity|]. split; [split; [|constructor; [exact D1|apply In1]]|].
    + destruct e'; [|apply In1]. unfold open_end. cbn [List.last]. specialize (Mv ("}"%char :: [])). destruct t1; try reflexivity. exfalso. destruct (A []) as [[_ [_ R]] _]. specialize (R _ [] false (le_n _)).
      pose proof (pull_shape _ _ _ _ _ _ _ _ R) as [P _]. exact P.
    + rewrite render_cons. split; [intro Z; apply in_app_or in Z; destruct Z; [exact (Nt H)|exact (Ne H)]|]. split; [exact Nr'|]. split; [intro q; destruct (A q) as [X [Y _]]; apply sp_tok; assumption|].
      intro q. destruct (A q) as [_ [_ Sl]]. rewrite <- app_assoc. exact (Ag _ Sl).
  - rewrite check_some in Hk' by discriminate. destruct (Main _ Hk') as [e' [-> [In1 [Ne [Nr' A]]]]]. set (wt := if ls && is_simple_value t1 then TUnquoted (c :: w) else TIgnored (c :: w)) in *.
    assert (Wt : token_text wt = c :: w) by (unfold wt; destruct (ls && is_simple_value t1); reflexivity). assert (Wb : blanks (c :: w)) by (split; [discriminate|exact W]).
    exists (wt :: t1 :: e'). rewrite <- app_assoc. cbn [app]. split; [reflexivity|]. split; [split; [|constructor; [unfold wt; destruct (ls && is_simple_value t1); discriminate|constructor; [exact D1|apply In1]]]|].
    + destruct e'; [|apply In1]. unfold open_end. cbn [List.last]. destruct t1; try reflexivity. exfalso. destruct (A []) as [[_ [_ R]] _]. specialize (R _ [] false (le_n _)).
      pose proof (pull_shape _ _ _ _ _ _ _ _ R) as [P _]. exact P.
    + rewrite !render_cons, Wt. split; [intro Z; apply in_app_or in Z; destruct Z as [Z|Z]; [exact (Nw Z)|]; apply in_app_or in Z; destruct Z as [Z|Z]; [exact (Nt Z)|exact (Ne Z)]|]. split; [exact Nr'|]. split.
      * intro q. destruct (A q) as [X [Y _]]. unfold wt. destruct (ls && is_simple_value t1) eqn:B; [|apply sp_gap; assumption]. apply andb_prop in B. destruct B as [-> B]. rewrite B in Y. apply sp_word; assumption.
      * intro q. destruct (A q) as [_ [_ Sl]]. destruct (Ag _ Sl) as [y ->]. cbn [app]. apply agree_head. inversion W as [|? ? Wc _]; subst. destruct (Ascii.eqb_spec c "/") as [->|]; [discriminate Wc|reflexivity].
Qed.
Lemma pull_token : forall n ls s t1 sv' r1, no_nul s -> pull_next_token (S n) true (([] : str), ls) s = Ok (t1, sv', r1) -> t1 <> TEnd ->
  exists w, sv' = (w, ls) /\ Forall (fun c => is_whitespace_not_newline c = true) w /\ no_nul w /\ no_nul (token_text t1) /\ no_nul r1 /\ token_text t1 <> [] /\ (forall r', moved t1 r1 r' -> reads' t1 r') /\
    (forall z, slash r1 = slash z -> match w with [] => agree s (token_text t1 ++ z) | c :: w' => exists y, s = c :: y end) /\ (is_comment t1 = true -> r1 = [] \/ exists r2, r1 = nl :: r2).
Proof.
  intros n ls s t1 sv' r1 N H D. apply (pull_facts n); try assumption. intros o e s2 r N2 P. destruct (sub_spelt _ _ _ _ _ _ _ N2 P) as [e' [Q [In1 [Ne [Nr [Sp _]]]]]]. cbn [app] in Q. injection Q as <-. auto.
Qed.
Lemma reads_moved : forall t r r', reads' t r -> no_nul (token_text t ++ r) -> moved t r r' -> reads' t r'.
Proof.
  intros t r r' [N [E R]] Nn M. destruct (pull_token _ _ _ _ _ _ Nn (R _ [] false (le_n _)) E) as [w [_ [_ [_ [_ [_ [_ [K _]]]]]]]]. apply K, M.
Qed.
Lemma lex_spelt : forall n ls s out, no_nul s -> lex_loop n true ([], ls) s = (out, LEnd) ->
  exists body, out = body ++ [TEnd] /\ spelt ls body [] /\ no_nul (render_tokens body) /\ agree s (render_tokens body).
Proof.
  induction n as [|n IH]; intros ls s out N H; cbn [lex_loop] in H; [discriminate|].
  destruct (pull_next_token (S (List.length s)) true ([], ls) s) as [[[t sv'] r]| |] eqn:P; try discriminate.
  destruct (saver_check sv' t) as [wt sv''] eqn:Sc.
  assert (D : t = TEnd \/ t <> TEnd) by (destruct t; (left; reflexivity) || (right; discriminate)). destruct D as [->|D].
  { pose proof N as N0. apply (proj1 (pull_spec _)) in P; [|exact N]. destruct P as [w [x [P1 [Hw [P2 [_ [_ [He _]]]]]]]]. subst sv' s. destruct (He eq_refl) as [-> ->]. cbn [app] in *. injection H as <-. rewrite app_nil_r in *.
    unfold saver_check in Sc. cbn [is_simple_value] in Sc. injection Sc as <- <-. destruct w as [|c w]; cbn [create_whitespace_token app].
    - exists []. split; [reflexivity|]. split; [constructor|]. split; [intros []|exact Logic.I].
    - exists [TIgnored (c :: w)]. split; [reflexivity|]. assert (R : render_tokens [TIgnored (c :: w)] = c :: w) by (cbn; rewrite app_nil_r; reflexivity). rewrite R. split; [constructor; split; [discriminate|]|split; [exact N0|split; reflexivity]].
      eapply Forall_impl; [|exact Hw]. intros a Ha; unfold blank in Ha; destruct Ha as [Ha|[Ha|[Ha|[Ha|Ha]]]]; subst a; reflexivity. }
  assert (H' : (let '(ts, e) := lex_loop n true sv'' r in ((match wt with Some x => [x] | None => [] end ++ [t]) ++ ts, e)) = (out, LEnd)) by (destruct t; try exact H; congruence). clear H.
  destruct (lex_loop n true sv'' r) as [ts e] eqn:L. injection H' as <- ->.
  destruct (pull_token _ _ _ _ _ _ N P D) as [w [-> [W [Nw [Nt [Nr [Tn [Mv [Ag _]]]]]]]]].
  destruct w as [|c w].
  - rewrite check_none in Sc. injection Sc as <- <-. destruct (IH _ _ _ Nr L) as [body [-> [Sp [Nb A]]]]. exists (t :: body). split; [reflexivity|]. rewrite render_cons. split; [|split].
    + apply sp_tok; [|exact Sp]. rewrite app_nil_r. apply Mv. left. exact A.
    + intro Z. apply in_app_or in Z. destruct Z as [Z|Z]; [exact (Nt Z)|exact (Nb Z)].
    + apply Ag, agree_slash, A.
  - rewrite check_some in Sc by discriminate. injection Sc as <- <-. destruct (IH _ _ _ Nr L) as [body [-> [Sp [Nb A]]]]. set (wt := if ls && is_simple_value t then TUnquoted (c :: w) else TIgnored (c :: w)) in *.
    assert (Wt : token_text wt = c :: w) by (unfold wt; destruct (ls && is_simple_value t); reflexivity). assert (Wb : blanks (c :: w)) by (split; [discriminate|exact W]).
    assert (R : reads' t (render_tokens body ++ [])) by (rewrite app_nil_r; apply Mv; left; exact A).
    exists (wt :: t :: body). split; [reflexivity|]. rewrite !render_cons, Wt. split; [|split].
    + unfold wt. destruct (ls && is_simple_value t) eqn:B; [|apply sp_gap; assumption]. apply andb_prop in B. destruct B as [-> B]. rewrite B in Sp. apply sp_word; assumption.
    + intro Z. apply in_app_or in Z. destruct Z as [Z|Z]; [exact (Nw Z)|]. apply in_app_or in Z. destruct Z as [Z|Z]; [exact (Nt Z)|exact (Nb Z)].
    + destruct (Ag _ (agree_slash _ _ A)) as [y ->]. cbn [app]. apply agree_head. inversion W as [|? ? Wc _]; subst. destruct (Ascii.eqb_spec c "/") as [->|]; [discriminate Wc|reflexivity].
Qed.

(** ** Taking such lists apart and putting them together *)
Lemma reads_solid : forall t r, reads' t r -> solid t = true.
Proof.
  intros t r [N [E R]]. pose proof (pull_shape _ _ _ _ _ _ _ _ (R _ [] false (le_n _))) as [P _]. destruct t; try reflexivity; try contradiction.
  cbn [pulled] in P. destruct P as [P1 P2]. match goal with |- solid (TUnquoted ?s) = _ => destruct s as [|c s']; [congruence|] end. inversion P2 as [|? ? C _]; subst. cbn. rewrite C. reflexivity.
Qed.
Lemma word_not_solid : forall w, blanks w -> solid (TUnquoted w) = false.
Proof.
  intros w [_ W]. cbn. apply negb_false_iff. apply forallb_forall. intros c C. rewrite Forall_forall in W. specialize (W c C). unfold is_whitespace. unfold is_whitespace_not_newline in W.
  apply andb_prop in W. destruct W as [_ W]. exact W.
Qed.
Lemma spelt_tok : forall ls t ts r, spelt ls (t :: ts) r -> solid t = true -> reads' t (render_tokens ts ++ r) /\ spelt (is_simple_value t) ts r.
Proof.
  intros ls t ts r H S. inversion H as [|? ? ? ? A C|? w t' ts' ? W|w t' ts' ? W|]; subst; auto; try discriminate S. rewrite (word_not_solid w W) in S. discriminate.
Qed.
Lemma spelt_front : forall k ls t ts r, spelt ls (t :: ts) r -> solid t = true -> spelt k (t :: ts) r.
Proof. intros k ls t ts r H S. destruct (spelt_tok _ _ _ _ H S) as [A C]. apply sp_tok; assumption. Qed.
Lemma spelt_gap : forall ls k w t ts r, blanks w -> spelt k (t :: ts) r -> solid t = true -> ls && is_simple_value t = false -> spelt ls (TIgnored w :: t :: ts) r.
Proof. intros ls k w t ts r W H S L. destruct (spelt_tok _ _ _ _ H S) as [A C]. apply sp_gap; assumption. Qed.
Lemma spelt_suffix : forall ls ts r, spelt ls ts r -> forall A t B, ts = A ++ t :: B -> solid t = true -> forall k, spelt k (t :: B) r.
Proof.
  intros ls ts r H. induction H as [ls r|ls t ts r R H IH|ls w t ts r W L R H IH|w t ts r W L R H IH|ls w r W]; intros A t0 B E S k.
  - destruct A; discriminate.
  - destruct A as [|a A]; injection E as -> ->; [apply sp_tok; assumption|]. eapply IH; [reflexivity|exact S].
  - destruct A as [|a [|b A]]; cbn [app] in E.
    + injection E as <- <-. discriminate S.
    + injection E as <- -> ->. apply sp_tok; assumption.
    + injection E as <- -> ->. eapply IH; [reflexivity|exact S].
  - destruct A as [|a [|b A]]; cbn [app] in E.
    + injection E as <- <-. rewrite (word_not_solid w W) in S. discriminate S.
    + injection E as <- -> ->. apply sp_tok; try assumption. rewrite L. exact H.
    + injection E as <- -> ->. eapply IH; [reflexivity|exact S].
  - destruct A as [|a [|b A]]; try discriminate E. injection E as <- <-. discriminate S.
Qed.
Lemma spelt_prefix : forall ls ts r, spelt ls ts r -> forall A t B, ts = (A ++ [t]) ++ B -> solid t = true -> spelt ls (A ++ [t]) (render_tokens B ++ r).
Proof.
  intros ls ts r H. induction H as [ls r|ls t ts r R H IH|ls w t ts r W L R H IH|w t ts r W L R H IH|ls w r W]; intros A t0 B E S.
  - destruct A; discriminate.
  - destruct A as [|a A]; cbn [app] in *; injection E as -> ->; [apply sp_tok; [exact R|constructor]|]. apply sp_tok; [|eapply IH; [reflexivity|exact S]].
    rewrite render_app, <- app_assoc in R. exact R.
  - destruct A as [|a [|b A]]; cbn [app] in *.
    + injection E as <- <-. discriminate S.
    + injection E as <- -> ->. apply sp_gap; try assumption. constructor.
    + injection E as <- -> ->. apply sp_gap; try assumption; [|eapply IH; [reflexivity|exact S]]. rewrite render_app, <- app_assoc in R. exact R.
  - destruct A as [|a [|b A]]; cbn [app] in *.
    + injection E as <- <-. rewrite (word_not_solid w W) in S. discriminate S.
    + injection E as <- -> ->. apply sp_word; try assumption. constructor.
    + injection E as <- -> ->. apply sp_word; try assumption; [|eapply IH; [reflexivity|exact S]]. rewrite render_app, <- app_assoc in R. exact R.
  - destruct A as [|a [|b A]]; cbn [app] in *; try discriminate E. injection E as <- <-. discriminate S.
Qed.
Lemma spelt_app : forall ls A r', spelt ls A r' -> forall B r, r' = render_tokens B ++ r -> solid (List.last A TEnd) = true -> (forall k, spelt k B r) -> spelt ls (A ++ B) r.
Proof.
  intros ls A r' H. induction H as [ls r|ls t ts r R H IH|ls w t ts r W L R H IH|w t ts r W L R H IH|ls w r W]; intros B r0 -> S HB; cbn [app] in *.
  - apply HB.
  - apply sp_tok; [rewrite render_app, <- app_assoc; exact R|]. destruct ts as [|t2 ts]; [apply HB|]. apply IH; [reflexivity|exact S|exact HB].
  - apply sp_gap; [exact W|exact L|rewrite render_app, <- app_assoc; exact R|]. destruct ts as [|t2 ts]; [apply HB|]. apply IH; [reflexivity|exact S|exact HB].
  - apply sp_word; [exact W|exact L|rewrite render_app, <- app_assoc; exact R|]. destruct ts as [|t2 ts]; [apply HB|]. apply IH; [reflexivity|exact S|exact HB].
  - discriminate S.
Qed.

(** ** Such a list is read before other texts that end tokens *)
Lemma blanks_slash : forall w, blanks w -> w <> ["/"%char].
Proof. intros w [_ W] ->. inversion W; subst. discriminate. Qed.
Lemma reads_slash : forall c t r, reads' t r -> token_text t = [c] -> start_of_comment true c r = true -> is_comment t = true.
Proof.
  intros c t r [N [E R]] T S. specialize (R _ [] false (le_n _)). rewrite T in R. cbn [app pull_next_token] in R.
  assert (W : is_whitespace_not_newline c = false /\ Ascii.eqb c nl = false).
  { unfold start_of_comment in S. cbn [andb] in S. apply orb_prop in S. destruct S as [S|S]; [apply Ascii.eqb_eq in S; subst c; split; reflexivity|]. apply andb_prop in S. destruct S as [S _]. apply Ascii.eqb_eq in S. subst c. split; reflexivity. }
  destruct W as [W1 W2]. cbn [next_char_after_whitespace] in R. rewrite W1, W2, S in R. inv_bind R. destruct a as [t1 r1]. injection Hk as -> ->. unfold pull_comment in Hb.
  destruct (Ascii.eqb c "/").
  - destruct r as [|c' r]; [discriminate|]. destruct (Ascii.eqb c' "/"); [|discriminate]. destruct (comment_text r). injection Hb as <- _. reflexivity.
  - destruct (comment_text r). injection Hb as <- _. reflexivity.
Qed.
Lemma spelt_texts : forall ls ts r, spelt ls ts r -> ts <> [] -> render_tokens ts <> [].
Proof.
  intros ls ts r H N. destruct H as [ls r|ls t ts r [R _] _|ls w t ts r [W _] _ _|w t ts r [W _] _ _ _|ls w r [W _]]; rewrite ?render_cons; try congruence; intro E; apply app_eq_nil in E; destruct E as [E _]; contradiction.
Qed.
Lemma spelt_agree : forall ls ls' ts r r', spelt ls ts r -> spelt ls' ts r' -> ts <> [] -> agree (render_tokens ts ++ r) (render_tokens ts ++ r').
Proof.
  intros ls ls' ts r r' H H' N. pose proof (spelt_texts _ _ _ H N) as T. destruct (render_tokens ts) as [|c [|d x]] eqn:E; [congruence| |cbn [app agree]; split; [reflexivity|reflexivity]].
  cbn [app agree]. split; [reflexivity|].
  assert (K : exists t, ts = [t]).
  { destruct ts as [|t [|t2 ts]]; [congruence|eauto|]. exfalso. rewrite render_cons in E.
    assert (A : token_text t <> [] /\ render_tokens (t2 :: ts) <> []).
    { inversion H as [|? ? ? ? R C|? w t' ts' ? W L R C|w t' ts' ? W L R C|]; subst.
      - split; [apply R|]. eapply spelt_texts; [exact C|discriminate].
      - split; [apply W|]. rewrite render_cons. intro Z. apply app_eq_nil in Z. destruct Z as [Z _]. apply (proj1 R). exact Z.
      - split; [apply W|]. rewrite render_cons. intro Z. apply app_eq_nil in Z. destruct Z as [Z _]. apply (proj1 R). exact Z. }
    destruct A as [A1 A2]. destruct (token_text t) as [|a b]; [congruence|]. cbn in E. injection E as _ E. apply app_eq_nil in E. destruct E as [_ E]. contradiction. }
  destruct K as [t ->]. rewrite render_cons in E. cbn in E. rewrite app_nil_r in E.
  assert (Q : forall k s, spelt k [t] s -> solid t = false \/ reads' t s).
  { intros k s X. inversion X as [|? ? ? ? R C| | |? w ? W]; subst; [right; assumption|left; reflexivity]. }
  destruct (Q _ _ H) as [Sf|R].
  - inversion H as [|? ? ? ? R C| | |? w ? W]; subst; [rewrite (reads_solid _ _ R) in Sf; discriminate|]. cbn in E. subst w. destruct W as [_ W]. inversion W as [|? ? Wc _]; subst.
    unfold start_of_comment. cbn [andb]. destruct (Ascii.eqb_spec c "#") as [->|_]; [discriminate|]. destruct (Ascii.eqb_spec c "/") as [->|_]; [discriminate|]. reflexivity.
  - destruct (Q _ _ H') as [Sf|R']; [rewrite (reads_solid _ _ R) in Sf; discriminate|].
    destruct (start_of_comment true c r) eqn:S1; destruct (start_of_comment true c r') eqn:S2; try reflexivity; exfalso.
    + pose proof (reads_slash c t r R E S1) as Cm. destruct t; try discriminate. cbn in E. destruct double_slash; [discriminate|]. injection E as <- _. unfold start_of_comment in S2. cbn in S2. discriminate.
    + pose proof (reads_slash c t r' R' E S2) as Cm. destruct t; try discriminate. cbn in E. destruct double_slash; [discriminate|]. injection E as <- _. unfold start_of_comment in S1. cbn in S1. discriminate.
Qed.
Lemma spelt_moved : forall ls ts r, spelt ls ts r -> forall A t r', ts = A ++ [t] -> solid t = true -> is_comment t = false -> no_nul (render_tokens ts ++ r) -> neutral r' -> spelt ls ts r'.
Proof.
  intros ls ts r H. induction H as [ls r|ls t ts r R H IH|ls w t ts r W L R H IH|w t ts r W L R H IH|ls w r W]; intros A t0 r' E S Cm Nn Nt.
  - constructor.
  - destruct A as [|a A]; cbn [app] in E; injection E as -> ->.
    + apply sp_tok; [|constructor]. cbn [app render_tokens map concat] in *. eapply reads_moved; [exact R| |right; split; assumption]. rewrite app_nil_r in Nn. exact Nn.
    + rewrite render_cons, <- app_assoc in Nn. assert (Sp : spelt (is_simple_value a) (A ++ [t0]) r').
      { eapply IH; [reflexivity|exact S|exact Cm| |exact Nt]. apply no_nul_app in Nn. apply Nn. }
      apply sp_tok; [|exact Sp]. eapply reads_moved; [exact R|exact Nn|]. left. eapply spelt_agree; [exact H|exact Sp|]. destruct A; discriminate.
  - destruct A as [|a [|b A]]; cbn [app] in E; [discriminate| |].
    + injection E as <- -> ->. apply sp_gap; [exact W|exact L| |constructor]. cbn [app render_tokens map concat] in *. eapply reads_moved; [exact R| |right; split; assumption].
      rewrite app_nil_r, <- app_assoc in Nn. apply no_nul_app in Nn. apply Nn.
    + injection E as <- -> ->. rewrite !render_cons, <- !app_assoc in Nn. apply no_nul_app in Nn. destruct Nn as [_ Nn]. assert (Sp : spelt (is_simple_value b) (A ++ [t0]) r').
      { eapply IH; [reflexivity|exact S|exact Cm| |exact Nt]. apply no_nul_app in Nn. apply Nn. }
      apply sp_gap; [exact W|exact L| |exact Sp]. eapply reads_moved; [exact R|exact Nn|]. left. eapply spelt_agree; [exact H|exact Sp|]. destruct A; discriminate.
  - destruct A as [|a [|b A]]; cbn [app] in E; [discriminate| |].
    + injection E as <- -> ->. apply sp_word; [exact W|exact L| |constructor]. cbn [app render_tokens map concat] in *. eapply reads_moved; [exact R| |right; split; assumption].
      rewrite app_nil_r, <- app_assoc in Nn. apply no_nul_app in Nn. apply Nn.
    + injection E as <- -> ->. rewrite !render_cons, <- !app_assoc in Nn. apply no_nul_app in Nn. destruct Nn as [_ Nn]. assert (Sp : spelt true (A ++ [t0]) r').
      { eapply IH; [reflexivity|exact S|exact Cm| |exact Nt]. apply no_nul_app in Nn. apply Nn. }
      apply sp_word; [exact W|exact L| |exact Sp]. eapply reads_moved; [exact R|exact Nn|]. left. eapply spelt_agree; [exact H|exact Sp|]. destruct A; discriminate.
  - apply sp_last, W.
Qed.
