(** HOCON texts, token by token: what a token looks at behind its own text, and texts that are read as given tokens. *)
From Verif Require Import Base BaseLemmas Util_Model Num_Model Path_Model Token_Model Token_Spec Token_Lemmas Token_Lemmas2 PathParser_Model Doc_Model Value_Model Json_Lemmas Json_Lemmas2 Render_Lemmas3 JsonEdit_Lemmas JsonEdit_Lemmas3.

(** [t] is read from its text, followed by [r], with fuel for what is inside of it. *)
Definition reads' (t : token) (r : str) : Prop :=
  token_text t <> [] /\ t <> TEnd /\ forall n ws ls, (List.length (token_text t) <= n)%nat -> pull_next_token (S n) true (ws, ls) (token_text t ++ r) = Ok (t, (ws, ls), r).
Lemma reads_fuel : forall t r, reads true t r -> reads' t r.
Proof. intros t r [N [E R]]. split; [exact N|]. split; [exact E|]. intros n ws ls _. apply R. Qed.

(** The texts behind which any token but a comment ends. *)
Definition ender (c : ascii) : bool := is_whitespace c || mem c (lit "{}[]:=,#$").
Definition neutral (r : str) : Prop := match r with [] => True | c :: _ => ender c = true end.
(** Two texts that look alike to the token before them. *)
Definition agree (r r' : str) : Prop :=
  match r, r' with
  | [], [] => True
  | c :: s, c' :: s' => c = c' /\ start_of_comment true c s = start_of_comment true c s'
  | _, _ => False
  end.
Definition is_comment (t : token) : bool := match t with TComment _ _ => true | _ => false end.
Definition is_subst (t : token) : bool := match t with TSubst _ _ => true | _ => false end.
Definition moved (t : token) (r r' : str) : Prop := agree r r' \/ neutral r' /\ is_comment t = false.

Lemma ender_number : forall c, ender c = true -> mem c number_chars = false /\ c <> ch 34 /\ c <> "/"%char /\ mem c not_in_unquoted_text || is_whitespace c = true.
Proof.
  intros c H. generalize (forall_byte (fun c => implb (ender c) (negb (mem c number_chars) && negb (Ascii.eqb c (ch 34)) && negb (Ascii.eqb c "/") && (mem c not_in_unquoted_text || is_whitespace c)))
    ltac:(vm_compute; reflexivity) c). rewrite H. cbn [implb]. rewrite !andb_true_iff, !negb_true_iff. intros [[[A B] C] D].
  repeat split; [exact A| | |exact D]; intros ->; discriminate.
Qed.
Lemma moved_number : forall t r r', moved t r r' -> ends_number r -> ends_number r'.
Proof.
  intros t r r' [A|[N _]] E.
  - destruct r as [|c r], r' as [|c' r']; try contradiction; [exact I|]. destruct A as [<- _]. exact E.
  - destruct r' as [|c r']; [exact I|]. apply ender_number, N.
Qed.
Lemma moved_quote : forall t r r', moved t r r' -> not_quote r -> not_quote r'.
Proof.
  intros t r r' [A|[N _]] E.
  - destruct r as [|c r], r' as [|c' r']; try contradiction; [exact I|]. destruct A as [<- _]. exact E.
  - destruct r' as [|c r']; [exact I|]. apply ender_number, N.
Qed.
(** Where unquoted text ends. *)
Definition ends_word (r : str) : Prop := match r with [] => True | c :: s => mem c not_in_unquoted_text || is_whitespace c || start_of_comment true c s = true end.
Lemma moved_word : forall t r r', moved t r r' -> ends_word r -> ends_word r'.
Proof.
  intros t r r' [A|[N _]] E.
  - destruct r as [|c r], r' as [|c' r']; try contradiction; [exact I|]. destruct A as [<- A]. unfold ends_word in *. rewrite <- A. exact E.
  - destruct r' as [|c r']; [exact I|]. unfold ends_word. destruct (ender_number c N) as [_ [_ [_ ->]]]. reflexivity.
Qed.
Lemma moved_comment : forall t d y r r', moved t r r' -> start_of_comment true d (y ++ r) = false -> start_of_comment true d (y ++ r') = false.
Proof.
  intros t d y r r' M H. destruct y as [|e y]; [|exact H]. cbn [app] in *. unfold start_of_comment in *. cbn [andb] in *. destruct (Ascii.eqb d "#"); [discriminate|]. cbn [orb] in *.
  destruct (Ascii.eqb d "/"); [|reflexivity]. cbn [andb] in *. destruct M as [A|[N _]].
  - destruct r as [|c r], r' as [|c' r']; try contradiction; [reflexivity|]. destruct A as [<- _]. exact H.
  - destruct r' as [|c r']; [reflexivity|]. destruct (ender_number c N) as [_ [_ [X _]]]. apply Ascii.eqb_neq, X.
Qed.
Lemma unquoted_shorter : forall ac s res t r, pull_unquoted_text ac res s = (t, r) -> (List.length r <= List.length s)%nat.
Proof.
  induction s as [|c s IH]; intros res t r H; cbn [pull_unquoted_text] in H; [injection H as _ <-; lia|].
  destruct (mem c not_in_unquoted_text || is_whitespace c || start_of_comment ac c s); [injection H as _ <-; lia|].
  repeat match type of H with (if ?b then _ else _) = _ => destruct b; [injection H as _ <-; cbn; lia|] end. apply IH in H. cbn. lia.
Qed.
Lemma word_moved : forall t y res r r', moved t r r' -> pull_unquoted_text true res (y ++ r) = (TUnquoted (res ++ y), r) ->
  pull_unquoted_text true res (y ++ r') = (TUnquoted (res ++ y), r').
Proof.
  intros t y. induction y as [|d y IH]; intros res r r' M H.
  - rewrite app_nil_r in *. cbn [app] in *. assert (E : ends_word r).
    { destruct r as [|c r]; [exact I|]. cbn [pull_unquoted_text] in H. unfold ends_word.
      destruct (mem c not_in_unquoted_text || is_whitespace c || start_of_comment true c r) eqn:S; [reflexivity|]. exfalso.
      destruct (str_eqb (res ++ [c]) (lit "true")); [discriminate|]. destruct (str_eqb (res ++ [c]) (lit "null")); [discriminate|]. destruct (str_eqb (res ++ [c]) (lit "false")); [discriminate|].
      apply unquoted_shorter in H. cbn [List.length] in H. lia. }
    pose proof (moved_word _ _ _ M E) as E'. destruct r' as [|c r']; [reflexivity|]. cbn [pull_unquoted_text]. unfold ends_word in E'. rewrite E'. reflexivity.
  - cbn [app] in *. cbn [pull_unquoted_text] in *. destruct (mem d not_in_unquoted_text || is_whitespace d) eqn:S1; cbn [orb] in *.
    { injection H as H _. exfalso. apply (f_equal (@List.length ascii)) in H. rewrite app_length in H. cbn [List.length] in H. lia. }
    destruct (start_of_comment true d (y ++ r)) eqn:S2.
    { injection H as H _. exfalso. apply (f_equal (@List.length ascii)) in H. rewrite app_length in H. cbn [List.length] in H. lia. }
    rewrite (moved_comment _ _ _ _ _ M S2). destruct (str_eqb (res ++ [d]) (lit "true")); [discriminate|]. destruct (str_eqb (res ++ [d]) (lit "null")); [discriminate|].
    destruct (str_eqb (res ++ [d]) (lit "false")); [discriminate|]. change (d :: y) with ([d] ++ y). rewrite app_assoc. apply (IH _ r); [exact M|]. rewrite H. rewrite <- app_assoc. reflexivity.
Qed.
Lemma comment_stop : forall s t r, comment_text s = (t, r) -> ~ In nl t /\ (r = [] \/ exists r2, r = nl :: r2).
Proof.
  induction s as [|c s IH]; intros t r H; cbn [comment_text] in H; [injection H as <- <-; split; [intros []|left; reflexivity]|].
  destruct (Ascii.eqb_spec c nl) as [->|E]; [injection H as <- <-; split; [intros []|right; eauto]|].
  destruct (comment_text s) as [t' r'] eqn:C. injection H as <- <-. destruct (IH _ _ eq_refl) as [A B]. split; [|exact B]. intros [K|K]; [congruence|contradiction].
Qed.
Lemma comment_end : forall x, ~ In nl x -> comment_text x = (x, []).
Proof.
  induction x as [|c x IH]; intro N; [reflexivity|]. cbn [comment_text]. destruct (Ascii.eqb_spec c nl) as [->|E]; [destruct N; left; reflexivity|]. rewrite IH; [reflexivity|]. intro K. apply N. right. exact K.
Qed.
Lemma comment_either : forall x r, ~ In nl x -> (r = [] \/ exists r2, r = nl :: r2) -> comment_text (x ++ r) = (x, r).
Proof. intros x r N [->|[r2 ->]]; [rewrite app_nil_r; apply comment_end, N|apply comment_line, N]. Qed.
Lemma moved_end : forall d x r r', moved (TComment d x) r r' -> (r = [] \/ exists r2, r = nl :: r2) -> r' = [] \/ exists r2, r' = nl :: r2.
Proof.
  intros d x r r' [A|[_ N]] E; [|discriminate]. destruct r as [|c r], r' as [|c' r']; try contradiction; [left; reflexivity|]. destruct A as [<- _]. destruct E as [E|[r2 E]]; [discriminate|]. injection E as -> _. right. eauto.
Qed.

Lemma triple_stop : forall s q p o p' o' r, append_triple_quoted_string q p o s = Ok (p', o', r) -> not_quote r.
Proof.
  induction s as [|c s IH]; intros q p o p' o' r H; cbn [append_triple_quoted_string] in H.
  - destruct (3 <=? q)%nat; [|discriminate]. injection H as _ _ <-. exact I.
  - destruct (Ascii.eqb_spec c (ch 34)) as [->|E]; [eauto|]. destruct (3 <=? q)%nat; [|eauto]. injection H as _ _ <-. exact E.
Qed.
Lemma string_moved : forall s t r, no_nul s -> pull_quoted_string s = Ok (t, r) ->
  exists k x, t = TValue (SStr k true) (ch 34 :: x) /\ s = x ++ r /\ forall r', not_quote r' \/ ~ not_quote r -> pull_quoted_string (x ++ r') = Ok (t, r').
Proof.
  intros s t r N H. unfold pull_quoted_string in H. inv_bind H. destruct a as [[p o] r1]. destruct (quoted_anywhere _ _ _ _ _ _ _ N Hb) as [x [-> [-> [X A]]]].
  apply no_nul_app in N. destruct N as [_ N]. inv_bind Hk. destruct a as [[p' o'] r2]. injection Hk0 as <- <-.
  assert (Q : forall r', quoted_loop (S (List.length (x ++ r'))) [] [ch 34] (x ++ r') = Ok (p, [ch 34] ++ x, r')).
  { intro r'. apply A. rewrite app_length. lia. }
  assert (Plain : forall r0, r1 = r0 -> (not_quote r0 \/ p <> []) -> p' = p -> o' = [ch 34] ++ x -> exists k y, TValue (SStr p' true) o' = TValue (SStr k true) (ch 34 :: y) /\ x ++ r1 = y ++ r0 /\ forall r', not_quote r' \/ ~ not_quote r0 -> pull_quoted_string (y ++ r') = Ok (TValue (SStr p' true) o', r')).
  { intros r0 -> Z -> ->. exists p, x. split; [reflexivity|]. split; [reflexivity|]. intros r' NQ. unfold pull_quoted_string. rewrite Q. cbn [bind].
    destruct p; [|reflexivity]. destruct Z as [Z|Z]; [|congruence]. destruct NQ as [NQ|NQ]; [|contradiction]. destruct r' as [|c r']; [reflexivity|]. destruct (Ascii.eqb_spec c (ch 34)) as [->|_]; [destruct NQ; reflexivity|reflexivity]. }
  destruct p as [|pc p]; [|injection Hb0 as <- <- <-; apply Plain; [reflexivity|right; discriminate|reflexivity|reflexivity]].
  destruct r1 as [|c r1]; [injection Hb0 as <- <- <-; apply Plain; [reflexivity|left; exact I|reflexivity|reflexivity]|].
  destruct (Ascii.eqb_spec c (ch 34)) as [->|E]; [|injection Hb0 as <- <- <-; apply Plain; [reflexivity|left; exact E|reflexivity|reflexivity]].
  pose proof (triple_stop _ _ _ _ _ _ _ Hb0) as St.
  destruct (triple_anywhere _ _ _ _ _ _ _ Hb0) as [y [-> [-> B]]]. exists p', (x ++ ch 34 :: y). split; [rewrite <- !app_assoc; reflexivity|]. split; [rewrite <- !app_assoc; reflexivity|].
  intros r' [NQ|NQ]; [|contradiction]. unfold pull_quoted_string. rewrite <- app_assoc. cbn [app]. change (ch 34 :: x) with ([ch 34] ++ x). rewrite Q. cbn [bind]. change (Ascii.eqb (ch 34) (ch 34)) with true. cbv iota. rewrite B by exact NQ. reflexivity.
Qed.

(** ** A token is read again behind its text wherever what follows looks the same, or ends tokens; substitutions later *)
Lemma plain_moved : forall t r r', reads' t r -> no_nul (token_text t ++ r) -> is_subst t = false -> moved t r r' -> reads' t r'.
Proof.
  intros t r r' [N [E R]] Nn Sb M. split; [exact N|]. split; [exact E|]. intros n ws ls L. specialize (R n ws ls L). clear L.
  destruct (token_text t) as [|c x] eqn:T; [congruence|]. cbn [app] in *. cbn [pull_next_token] in *.
  change (next_char_after_whitespace ws (c :: x ++ r)) with (if is_whitespace_not_newline c then next_char_after_whitespace (ws ++ [c]) (x ++ r) else (ws, Some (c, x ++ r))) in R.
  change (next_char_after_whitespace ws (c :: x ++ r')) with (if is_whitespace_not_newline c then next_char_after_whitespace (ws ++ [c]) (x ++ r') else (ws, Some (c, x ++ r'))).
  destruct (is_whitespace_not_newline c) eqn:Wc.
  { exfalso. destruct (next_char_after_whitespace (ws ++ [c]) (x ++ r)) as [ws' nx] eqn:W. destruct (next_char_spec _ _ _ _ W) as [w [-> _]].
    assert (K : (ws ++ [c]) ++ w = ws).
    { destruct nx as [[d s]|]; [|injection R as _ K _; exact K]. destruct (Ascii.eqb d nl); [injection R as _ K _; exact K|]. inv_bind R. destruct a as [t1 r1]. injection Hk as _ K _. exact K. }
    apply (f_equal (@List.length ascii)) in K. rewrite !app_length in K. cbn [List.length] in K. lia. }
  destruct (Ascii.eqb c nl) eqn:Enl.
  { injection R as <- R. apply Ascii.eqb_eq in Enl. subst c. injection T as <-. reflexivity. }
  inv_bind R. destruct a as [t1 r1]. injection Hk as -> ->.
  destruct (start_of_comment true c (x ++ r)) eqn:Sc.
  { unfold pull_comment in Hb. destruct (Ascii.eqb c "/") eqn:Es.
    - assert (X : exists x2, x = "/"%char :: x2 /\ t = TComment true x2).
      { destruct (x ++ r) as [|c1 s1] eqn:Xr; [discriminate|]. destruct (Ascii.eqb_spec c1 "/") as [->|]; [|discriminate]. destruct (comment_text s1) as [t1 r1] eqn:Ct. injection Hb as <- ->. cbn [token_text] in T. injection T as _ <-. eauto. }
      destruct X as [x2 [-> ->]]. cbn [app] in *. change (Ascii.eqb "/" "/") with true in *. cbv iota in *.
      assert (Q : start_of_comment true c ("/"%char :: x2 ++ r') = true) by (unfold start_of_comment in *; rewrite Es; cbn; apply orb_true_r).
      rewrite Q. unfold pull_comment. rewrite Es. change (Ascii.eqb "/" "/") with true. cbv iota. destruct (comment_text (x2 ++ r)) as [t1 r1] eqn:Ct. injection Hb as -> ->. destruct (comment_stop _ _ _ Ct) as [A B].
      rewrite (comment_either x2 r' A (moved_end _ _ _ _ M B)). reflexivity.
    - assert (X : t = TComment false x). { destruct (comment_text (x ++ r)) as [t1 r1] eqn:Ct. injection Hb as <- ->. cbn [token_text] in T. injection T as _ <-. reflexivity. }
      subst t. assert (Q : start_of_comment true c (x ++ r') = true). { unfold start_of_comment in *. rewrite Es in *. cbn [andb orb] in *. rewrite orb_false_r in *. exact Sc. }
      rewrite Q. unfold pull_comment. rewrite Es. destruct (comment_text (x ++ r)) as [t1 r1] eqn:Ct. injection Hb as -> ->. destruct (comment_stop _ _ _ Ct) as [A B].
      rewrite (comment_either x r' A (moved_end _ _ _ _ M B)). reflexivity. }
  rewrite (moved_comment _ _ _ _ _ M Sc).
  destruct (Ascii.eqb c (ch 34)) eqn:E1.
  { change (c :: x ++ r) with ([c] ++ x ++ r) in Nn. apply no_nul_app in Nn. destruct Nn as [_ Nn].
    destruct (string_moved _ _ _ Nn Hb) as [k [y [-> [Y A]]]]. apply app_inv_tail in Y. subst y. rewrite A; [reflexivity|].
    destruct r as [|q r]; [left; eapply moved_quote; [exact M|exact I]|]. destruct (Ascii.eqb_spec q (ch 34)) as [->|Q]; [right; intro K; apply K; reflexivity|left; eapply moved_quote; [exact M|exact Q]]. }
  destruct (Ascii.eqb c "$") eqn:E2.
  { inv_bind Hb. destruct a as [o s2]. apply (proj2 (pull_len _)) in Hk. destruct Hk as [_ [ex ->]]. discriminate Sb. }
  repeat match type of Hb with (if Ascii.eqb c ?k then Ok (?tk, _) else _) = _ =>
    destruct (Ascii.eqb c k); [injection Hb as <- Hb; apply app_inv_tail with (l1 := x) (l2 := []) in Hb; subst x; reflexivity|] end.
  destruct (Ascii.eqb c "+") eqn:E3.
  { unfold pull_plus_equals in Hb. destruct (x ++ r) as [|c' s'] eqn:X; [discriminate|]. destruct (Ascii.eqb_spec c' "=") as [->|]; [|discriminate]. injection Hb as <- ->.
    cbn [token_text] in T. injection T as <- <-. reflexivity. }
  destruct (mem c first_number_chars) eqn:F.
  { unfold pull_number in *. destruct (span_number (x ++ r)) as [more r3] eqn:Sp. inv_bind Hb. injection Hk as -> ->.
    pose proof (number_token_text _ _ _ _ Hb0) as T2. rewrite T in T2. injection T2 as ->. pose proof (span_number_chars _ _ _ Sp) as Ch.
    assert (En : ends_number r).
    { destruct r as [|d r]; [exact I|]. clear -Sp Ch. revert Sp. induction more as [|e more IH]; intro Sp.
      - cbn [app span_number] in Sp. unfold ends_number. destruct (mem d number_chars); [|reflexivity]. destruct (span_number r) as [a b]. discriminate.
      - inversion Ch as [|? ? C1 C2]; subst. cbn [app span_number] in Sp. rewrite C1 in Sp. destruct (span_number (more ++ d :: r)) as [a b]. injection Sp as -> ->. apply IH; [exact C2|reflexivity]. }
    rewrite (span_all more r' Ch (moved_number _ _ _ M En)), Hb0. reflexivity. }
  destruct (mem c not_in_unquoted_text) eqn:Em; [discriminate|]. apply ok_same in Hb. destruct (unquoted_cases _ _ _ _ _ Hb) as [[y ->]|[v [V ->]]].
  - cbn [token_text] in T. subst y. change (c :: x ++ r) with ((c :: x) ++ r) in Hb. change (TUnquoted (c :: x)) with (TUnquoted ([] ++ c :: x)) in Hb.
    change (c :: x ++ r') with ((c :: x) ++ r'). rewrite (word_moved _ _ _ _ _ M Hb). reflexivity.
  - assert (K : forall z, pull_unquoted_text true [] (c :: x ++ z) = (value_token v, z)).
    { intro z. cbn in V. destruct V as [V|[V|[V|[]]]]; subst v; cbn [value_token scalar_text token_text lit] in T; cbn in T; injection T as <- <-; reflexivity. }
    rewrite K. reflexivity.
Qed.
