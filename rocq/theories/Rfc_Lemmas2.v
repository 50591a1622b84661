(** The tokenizer finds the tokens of a JSON text. *)
From Verif Require Import Base BaseLemmas Util_Model Num_Model Path_Model Token_Model Token_Spec Token_Lemmas Token_Lemmas2 Value_Model Escape_Spec Escape_Lemmas Round_Spec
  Render_Lemmas3 Rfc_Spec Rfc_Lemmas.

Section Lexing.
Variable ac : bool.
Notation lexes := (Render_Lemmas3.lexes ac).
Notation reads := (Render_Lemmas3.reads ac).

Lemma skip_wide : forall w ws s, Forall (fun c => is_whitespace_not_newline c = true) w -> next_char_after_whitespace ws (w ++ s) = next_char_after_whitespace (ws ++ w) s.
Proof.
  intros w ws s H. revert ws. induction H as [|c w C H IH]; intro ws; [rewrite app_nil_r; reflexivity|]. cbn [app next_char_after_whitespace]. rewrite C, IH, <- app_assoc. reflexivity.
Qed.
Lemma pull_wide : forall n w ws ls s, Forall (fun c => is_whitespace_not_newline c = true) w ->
  pull_next_token (S n) ac (ws, ls) (w ++ s) = pull_next_token (S n) ac (ws ++ w, ls) s.
Proof. intros n w ws ls s H. cbn [pull_next_token]. rewrite (skip_wide w ws s H). reflexivity. Qed.
Lemma lex_wide : forall w t r ls ts, wide w -> reads t r -> ls && is_simple_value t = false -> lexes (is_simple_value t) r ts ->
  lexes ls (w ++ token_text t ++ r) (TIgnored w :: t :: ts).
Proof.
  intros w t r ls ts [W1 W2] [N [E R]] S H [|n] L; [lia|]. cbn [lex_loop]. rewrite (pull_wide _ w [] ls _ W2), R. unfold saver_check. cbn [app]. rewrite !app_length in L.
  assert (L' : (List.length r < n)%nat) by (destruct (token_text t); [congruence|cbn in L; lia]).
  destruct w as [|c w]; [congruence|].
  destruct (is_simple_value t) eqn:S'; cbn [create_whitespace_token app]; rewrite (H n L').
  - rewrite andb_true_r in S. subst ls. destruct t; try reflexivity; congruence.
  - destruct t; try reflexivity; congruence.
Qed.
Lemma lex_wide_end : forall w ls, wide w -> lexes ls w [TIgnored w; TEnd].
Proof.
  intros w ls [W1 W2] [|n] L; [lia|]. cbn [lex_loop]. pose proof (pull_wide (List.length w) w [] ls [] W2) as P. rewrite app_nil_r in P. unfold str in *. rewrite P. clear P. cbn [app]. destruct w as [|c w]; [congruence|]. reflexivity.
Qed.
Lemma layout_end : forall g, layout g -> forall ls, lexes ls (render_tokens g) (g ++ [TEnd]).
Proof.
  intros g G. induction G as [|w W|g G IH|w g W G IH]; intro ls; rewrite ?render_cons.
  - apply lexes_nil.
  - cbn [render_tokens map concat token_text app]. rewrite app_nil_r. apply lex_wide_end, W.
  - apply lex_one; [apply reads_newline|apply IH].
  - apply (lex_wide w TNewline); [exact W|apply reads_newline|apply andb_false_r|apply IH].
Qed.
Lemma layout_lexes : forall g, layout g -> forall t r ls ts, reads t r -> ls && is_simple_value t = false -> lexes (is_simple_value t) r ts ->
  lexes ls (render_tokens g ++ token_text t ++ r) (g ++ t :: ts).
Proof.
  intros g G. induction G as [|w W|g G IH|w g W G IH]; intros t r ls ts R S H.
  - apply lex_one; assumption.
  - rewrite render_cons. cbn [token_text render_tokens map concat app]. rewrite app_nil_r. apply lex_wide; assumption.
  - rewrite render_cons, <- app_assoc. cbn [app]. apply lex_one; [apply reads_newline|]. apply IH; auto.
  - rewrite !render_cons, <- !app_assoc. cbn [app]. apply (lex_wide w TNewline); [exact W|apply reads_newline|apply andb_false_r|]. apply IH; auto.
Qed.
Lemma layout_mark : forall g, layout g -> forall t r ls ts, mark t -> lexes false r ts -> lexes ls (render_tokens g ++ token_text t ++ r) (g ++ t :: ts).
Proof. intros g G t r ls ts M H. apply layout_lexes; auto; [apply reads_mark; exact M|rewrite (mark_simple t M); apply andb_false_r|rewrite (mark_simple t M); exact H]. Qed.
Lemma wide_delimited : forall w s, wide w -> delimited (w ++ s).
Proof.
  intros [|c w] s [N W]; [congruence|]. inversion W as [|? ? C _]; subst. clear -C. cbn [app].
  split; cbn; [|intros ->; discriminate C]. revert C. destruct c as [[] [] [] [] [] [] [] []]; vm_compute; intro C; try reflexivity; discriminate C.
Qed.
Lemma layout_delimited : forall g s, layout g -> delimited s -> delimited (render_tokens g ++ s).
Proof.
  intros g s G D. destruct G as [|w W|g G|w g W G]; [exact D| | |]; rewrite ?render_cons, <- ?app_assoc; try (apply wide_delimited, W). split; [reflexivity|cbn; discriminate].
Qed.
Lemma mark_delimited : forall t r, mark t -> delimited (token_text t ++ r).
Proof. intros t r M. cbn in M. repeat (destruct M as [<-|M]; [split; [reflexivity|cbn; discriminate]|]). destruct M. Qed.

Lemma reads_escaped : forall w s r, stands_for w s -> not_quote r -> reads (string_token w s) r.
Proof.
  intros w s r Q N. split; [discriminate|]. split; [discriminate|]. intros n ws ls. cbn [token_text string_token].
  pose proof (escaped_next n ac ls w s r Q (fun _ => N)) as H. unfold between_quotes at 1. unfold string_token, between_quotes at 1.
  rewrite <- !app_assoc in *. cbn [app] in *. cbn [pull_next_token next_char_after_whitespace] in *.
  change (is_whitespace_not_newline (ch 34)) with false in *. cbv iota in *. change (Ascii.eqb (ch 34) nl) with false in *. cbv iota in *.
  apply bind_ok in H. destruct H as [[t r'] [H1 H2]]. rewrite H1. cbn [bind]. injection H2 as -> ->. reflexivity.
Qed.
Lemma reads_leaf : forall j t r, leaf_token j t -> delimited r -> reads t r.
Proof.
  intros j t r H [E Q]. destruct H as [|b|w s F|v c more n x D F M T].
  - apply reads_keyword. cbn. auto.
  - apply reads_keyword. destruct b; cbn; auto.
  - apply reads_escaped; assumption.
  - apply reads_number; assumption.
Qed.

Lemma json_lexes :
  (forall v tv, spelled v tv -> forall g r ts, layout g -> (forall ls, lexes ls r ts) -> delimited r ->
     lexes false (render_tokens (g ++ tv) ++ r) (g ++ tv ++ ts)) /\
  (forall vs ts, others vs ts -> forall t r ts', mark t -> lexes false r ts' ->
     (forall ls, lexes ls (render_tokens ts ++ token_text t ++ r) (ts ++ t :: ts')) /\ delimited (render_tokens ts ++ token_text t ++ r)) /\
  (forall k v te, entry k v te -> forall g r ts, layout g -> (forall ls, lexes ls r ts) -> delimited r ->
     lexes false (render_tokens (g ++ te) ++ r) (g ++ te ++ ts)) /\
  (forall m ts, entries m ts -> forall t r ts', mark t -> lexes false r ts' ->
     (forall ls, lexes ls (render_tokens ts ++ token_text t ++ r) (ts ++ t :: ts')) /\ delimited (render_tokens ts ++ token_text t ++ r)).
Proof.
  assert (M1 : forall t, In t [TComma; TColon; TOpenCurly; TCloseCurly; TOpenSquare; TCloseSquare] -> mark t) by auto.
  assert (LD : forall g t r, layout g -> mark t -> delimited (render_tokens g ++ token_text t ++ r)) by (intros; apply layout_delimited; [assumption|apply mark_delimited; assumption]).
  apply spelled_mutual.
  - intros s t T g r ts G H D. rewrite render_app, <- app_assoc. change (render_tokens [t]) with (token_text t ++ []). rewrite app_nil_r. cbn [app].
    apply layout_lexes; auto. exact (reads_leaf s t r T D).
  - intros g G g0 r ts G0 H D. rewrite render_app, render_cons, render_app, <- !app_assoc. cbn [app]. apply (layout_mark g0 G0 TOpenSquare); [cbn; auto 10|].
    rewrite <- app_assoc. cbn [app]. apply (layout_mark g G TCloseSquare r false ts); [cbn; auto 10|]. apply H.
  - intros g v vs tv ts G S IH O IHo g0 r ts' G0 H D. rewrite render_app, render_cons, <- !app_assoc. cbn [app].
    apply (layout_mark g0 G0 TOpenSquare); [cbn; auto 10|]. destruct (IHo TCloseSquare r ts' ltac:(cbn; auto 10) (H false)) as [I1 I2].
    specialize (IH g _ _ G I1 I2). rewrite !render_app, <- !app_assoc in *. exact IH.
  - intros g G g0 r ts G0 H D. rewrite render_app, render_cons, render_app, <- !app_assoc. cbn [app]. apply (layout_mark g0 G0 TOpenCurly); [cbn; auto 10|].
    rewrite <- app_assoc. cbn [app]. apply (layout_mark g G TCloseCurly r false ts); [cbn; auto 10|]. apply H.
  - intros k v m g te ts _ G E IH O IHo g0 r ts' G0 H D. rewrite render_app, render_cons, <- !app_assoc. cbn [app].
    apply (layout_mark g0 G0 TOpenCurly); [cbn; auto 10|]. destruct (IHo TCloseCurly r ts' ltac:(cbn; auto 10) (H false)) as [I1 I2].
    specialize (IH g _ _ G I1 I2). rewrite !render_app, <- !app_assoc in *. exact IH.
  - intros g G t r ts' M H. split; [|apply LD; assumption]. intro ls. apply layout_mark; assumption.
  - intros g g' v vs tv ts G G' S IH O IHo t r ts' M H.
    destruct (IHo t r ts' M H) as [I1 I2]. specialize (IH g' _ _ G' I1 I2). rewrite render_app, render_cons, <- !app_assoc. cbn [app]. split.
    + intro ls. apply layout_mark; [exact G|cbn; auto 10|]. rewrite !render_app, <- !app_assoc in *. exact IH.
    + apply LD; [exact G|cbn; auto 10].
  - intros w k v g g' tv Q G G' S IH g0 r ts G0 H D. rewrite render_app, <- app_assoc. rewrite render_cons, <- app_assoc. cbn [app].
    rewrite render_app, render_cons, <- !app_assoc. cbn [app].
    apply layout_lexes; auto.
    + apply reads_escaped; [exact Q|]. apply (LD g TColon); [exact G|cbn; auto 10].
    + cbn [is_simple_value string_token]. rewrite <- !app_assoc. cbn [app]. apply layout_mark; [exact G|cbn; auto 10|]. rewrite <- ?app_assoc. specialize (IH g' r ts G' H D). rewrite render_app, <- !app_assoc in *. exact IH.
  - intros g G t r ts' M H. split; [|apply LD; assumption]. intro ls. apply layout_mark; assumption.
  - intros g g' k v m te ts G G' E IH O IHo t r ts' M H.
    destruct (IHo t r ts' M H) as [I1 I2]. specialize (IH g' _ _ G' I1 I2). rewrite render_app, render_cons, <- !app_assoc. cbn [app]. split.
    + intro ls. apply layout_mark; [exact G|cbn; auto 10|]. rewrite !render_app, <- !app_assoc in *. exact IH.
    + apply LD; [exact G|cbn; auto 10].
Qed.

Lemma json_lex : forall v g tv g', layout g -> spelled v tv -> layout g' -> lex ac (render_tokens (g ++ tv ++ g')) = (TStart :: g ++ tv ++ g' ++ [TEnd], LEnd).
Proof.
  intros v g tv g' G S G'. unfold lex, saver_init.
  assert (D : delimited (render_tokens g')) by (rewrite <- (app_nil_r (render_tokens g')); apply layout_delimited; [exact G'|split; exact I]).
  pose proof (proj1 json_lexes v tv S g _ _ G (layout_end g' G') D) as H.
  rewrite <- render_app, <- app_assoc in H. rewrite (H _ (Nat.lt_succ_diag_r _)). reflexivity.
Qed.
End Lexing.
