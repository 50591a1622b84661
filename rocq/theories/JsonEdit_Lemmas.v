(** JSON tokens with any whitespace between them: the tokenizer finds them and the parser gives the value. *)
From Verif Require Import Base BaseLemmas Util_Model Num_Model Path_Model Token_Model Token_Spec Token_Lemmas Token_Lemmas2 PathParser_Model Doc_Model Edit_Model Value_Model Value_Spec Value_Lemmas Concat_Model ConfigParser_Model ConfigParser_Lemmas Json_Lemmas Json_Lemmas2 Render_Model Render_Lemmas3 Render_Lemmas4.

(** ** Tokens *)
Definition blanks (w : str) : Prop := w <> [] /\ Forall (fun c => is_whitespace_not_newline c = true) w.
(** The token is read from its text wherever that stands before something else. *)
Definition readable (t : token) : Prop := forall r, delimited r -> reads false t r.

(** Whitespace as the tokenizer gives it *)
Inductive white_gap : list token -> Prop :=
| wg_nil : white_gap []
| wg_blank : forall w, blanks w -> white_gap [TIgnored w]
| wg_line : forall g, white_gap g -> white_gap (TNewline :: g)
| wg_blank_line : forall w g, blanks w -> white_gap g -> white_gap (TIgnored w :: TNewline :: g).

Inductive spell : value -> list token -> Prop :=
| spl_scalar : forall s x, readable (TValue s x) -> spell (VScalar s) [TValue s x]
| spl_no_list : forall g, white_gap g -> spell (VList []) (TOpenSquare :: g ++ [TCloseSquare])
| spl_list : forall g v vs tv ts, white_gap g -> spell v tv -> spell_others vs ts -> spell (VList (v :: vs)) (TOpenSquare :: g ++ tv ++ ts ++ [TCloseSquare])
| spl_no_object : forall g, white_gap g -> spell (new_object []) (TOpenCurly :: g ++ [TCloseCurly])
| spl_object : forall k v m g te ts, NoDup (k :: map fst m) -> white_gap g -> spell_entry k v te -> spell_entries m ts ->
    spell (new_object ((k, v) :: m)) (TOpenCurly :: g ++ te ++ ts ++ [TCloseCurly])
with spell_others : list value -> list token -> Prop :=
| spo_end : forall g, white_gap g -> spell_others [] g
| spo_more : forall g g' v vs tv ts, white_gap g -> white_gap g' -> spell v tv -> spell_others vs ts -> spell_others (v :: vs) (g ++ TComma :: g' ++ tv ++ ts)
with spell_entry : str -> value -> list token -> Prop :=
| spe_entry : forall k x v g g' tv, readable (TValue (SStr k true) x) -> white_gap g -> white_gap g' -> spell v tv ->
    spell_entry k v (TValue (SStr k true) x :: g ++ TColon :: g' ++ tv)
with spell_entries : fields -> list token -> Prop :=
| sps_end : forall g, white_gap g -> spell_entries [] g
| sps_more : forall g g' k v m te ts, white_gap g -> white_gap g' -> spell_entry k v te -> spell_entries m ts -> spell_entries ((k, v) :: m) (g ++ TComma :: g' ++ te ++ ts).

Scheme spell_min := Minimality for spell Sort Prop
  with spell_others_min := Minimality for spell_others Sort Prop
  with spell_entry_min := Minimality for spell_entry Sort Prop
  with spell_entries_min := Minimality for spell_entries Sort Prop.
Combined Scheme spell_mutual from spell_min, spell_others_min, spell_entry_min, spell_entries_min.

(** ** Lexing *)
Notation lexes' := (lexes false).

Lemma skip_blanks : forall w ws s, Forall (fun c => is_whitespace_not_newline c = true) w -> next_char_after_whitespace ws (w ++ s) = next_char_after_whitespace (ws ++ w) s.
Proof.
  intros w ws s H. revert ws. induction H as [|c w C H IH]; intro ws; [rewrite app_nil_r; reflexivity|]. cbn. rewrite C, IH, <- app_assoc. reflexivity.
Qed.
Lemma lex_blanks : forall w t r ls ts, blanks w -> reads false t r -> ls && is_simple_value t = false -> lexes' (is_simple_value t) r ts ->
  lexes' ls (w ++ token_text t ++ r) (TIgnored w :: t :: ts).
Proof.
  intros w t r ls ts [W1 W2] [N [E R]] S H [|n] L; [lia|]. cbn [lex_loop].
  assert (P : forall k, pull_next_token (Datatypes.S k) false ([], ls) (w ++ token_text t ++ r) = pull_next_token (Datatypes.S k) false (w, ls) (token_text t ++ r)).
  { intro k. cbn [pull_next_token]. rewrite (skip_blanks w [] _ W2). reflexivity. }
  rewrite P, R. unfold saver_check. cbn [app]. rewrite !app_length in L.
  assert (L' : (List.length r < n)%nat) by (destruct (token_text t); [congruence|cbn in L; lia]).
  destruct w as [|c w]; [congruence|].
  destruct (is_simple_value t) eqn:S'; cbn [create_whitespace_token app]; rewrite (H n L').
  - rewrite andb_true_r in S. subst ls. destruct t; try reflexivity; congruence.
  - destruct t; try reflexivity; congruence.
Qed.
Lemma white_lexes : forall g, white_gap g -> forall t r ls ts, reads false t r -> ls && is_simple_value t = false -> lexes' (is_simple_value t) r ts ->
  lexes' ls (render_tokens g ++ token_text t ++ r) (g ++ t :: ts).
Proof.
  intros g G. induction G as [|w W|g G IH|w g W G IH]; intros t r ls ts R S H.
  - apply lex_one; assumption.
  - rewrite render_cons. cbn [token_text render_tokens map concat app]. rewrite app_nil_r. apply lex_blanks; assumption.
  - rewrite render_cons, <- app_assoc. cbn [app]. apply lex_one; [apply reads_newline|]. apply IH; auto.
  - rewrite !render_cons, <- !app_assoc. cbn [app]. apply (lex_blanks w TNewline); [exact W|apply reads_newline|apply andb_false_r|]. apply IH; auto.
Qed.
Lemma white_mark : forall g, white_gap g -> forall t r ls ts, mark t -> lexes' false r ts ->
  lexes' ls (render_tokens g ++ token_text t ++ r) (g ++ t :: ts).
Proof. intros g G t r ls ts M H. apply white_lexes; auto; [apply reads_mark; exact M|rewrite (mark_simple t M); apply andb_false_r|rewrite (mark_simple t M); exact H]. Qed.
Lemma blank_char : forall c, is_whitespace_not_newline c = true -> mem c number_chars = false /\ c <> ch 34.
Proof. intros c H. split; [|intros ->; discriminate]. destruct c as [[] [] [] [] [] [] [] []]; try discriminate H; reflexivity. Qed.
Lemma blanks_delimited : forall w s, blanks w -> delimited (w ++ s).
Proof. intros [|c w] s [N W]; [congruence|]. inversion W; subst. apply blank_char. assumption. Qed.
Lemma white_delimited : forall g t r, white_gap g -> mark t -> delimited (render_tokens g ++ token_text t ++ r).
Proof.
  intros g t r G M. destruct G as [|w W|g G|w g W G].
  - cbn in M. repeat (destruct M as [<-|M]; [split; [reflexivity|cbn; discriminate]|]). destruct M.
  - rewrite render_cons, <- app_assoc. apply blanks_delimited, W.
  - split; [reflexivity|cbn; discriminate].
  - rewrite render_cons, <- app_assoc. apply blanks_delimited, W.
Qed.

Lemma spell_lexes :
  (forall v tv, spell v tv -> forall g r ts, white_gap g -> (forall ls, lexes' ls r ts) -> delimited r ->
     lexes' false (render_tokens (g ++ tv) ++ r) (g ++ tv ++ ts)) /\
  (forall vs ts, spell_others vs ts -> forall t r ts', mark t -> lexes' false r ts' ->
     (forall ls, lexes' ls (render_tokens ts ++ token_text t ++ r) (ts ++ t :: ts')) /\ delimited (render_tokens ts ++ token_text t ++ r)) /\
  (forall k v te, spell_entry k v te -> forall g r ts, white_gap g -> (forall ls, lexes' ls r ts) -> delimited r ->
     lexes' false (render_tokens (g ++ te) ++ r) (g ++ te ++ ts)) /\
  (forall m ts, spell_entries m ts -> forall t r ts', mark t -> lexes' false r ts' ->
     (forall ls, lexes' ls (render_tokens ts ++ token_text t ++ r) (ts ++ t :: ts')) /\ delimited (render_tokens ts ++ token_text t ++ r)).
Proof.
  apply spell_mutual.
  - intros s x T g r ts G H D. rewrite render_app, <- app_assoc. change (render_tokens [TValue s x]) with (token_text (TValue s x) ++ []). rewrite app_nil_r.
    change ([TValue s x] ++ ts) with (TValue s x :: ts). apply white_lexes; auto.
  - intros g G g0 r ts G0 H D. rewrite render_app, render_cons, <- !app_assoc. cbn [app]. apply (white_mark g0 G0 TOpenSquare); [cbn; auto 10|].
    rewrite render_app, <- !app_assoc. apply (white_mark g G TCloseSquare); [cbn; auto 10|apply H].
  - intros g v vs tv ts G S IH O IHo g0 r ts' G0 H D. rewrite render_app, render_cons, <- !app_assoc. cbn [app].
    apply (white_mark g0 G0 TOpenSquare); [cbn; auto 10|].
    destruct (IHo TCloseSquare r ts' ltac:(cbn; auto 10) (H false)) as [I1 I2].
    specialize (IH g _ _ G I1 I2). rewrite !render_app, <- !app_assoc in *. exact IH.
  - intros g G g0 r ts G0 H D. rewrite render_app, render_cons, <- !app_assoc. cbn [app]. apply (white_mark g0 G0 TOpenCurly); [cbn; auto 10|].
    rewrite render_app, <- !app_assoc. apply (white_mark g G TCloseCurly); [cbn; auto 10|apply H].
  - intros k v m g te ts _ G E IH O IHo g0 r ts' G0 H D. rewrite render_app, render_cons, <- !app_assoc. cbn [app].
    apply (white_mark g0 G0 TOpenCurly); [cbn; auto 10|].
    destruct (IHo TCloseCurly r ts' ltac:(cbn; auto 10) (H false)) as [I1 I2].
    specialize (IH g _ _ G I1 I2). rewrite !render_app, <- !app_assoc in *. exact IH.
  - intros g G t r ts' M H. split; [|apply white_delimited; assumption]. intro ls. apply white_mark; assumption.
  - intros g g' v vs tv ts G G' S IH O IHo t r ts' M H.
    destruct (IHo t r ts' M H) as [I1 I2]. specialize (IH g' _ _ G' I1 I2). rewrite render_app, render_cons, <- !app_assoc. cbn [app]. split.
    + intro ls. apply white_mark; [exact G|cbn; auto 10|]. rewrite !render_app, <- !app_assoc in *. exact IH.
    + apply white_delimited; [exact G|cbn; auto 10].
  - intros k x v g g' tv Q G G' S IH g0 r ts G0 H D. rewrite render_app, <- app_assoc. rewrite render_cons, <- app_assoc. cbn [app].
    rewrite render_app, render_cons, <- !app_assoc. cbn [app].
    apply white_lexes; auto.
    + apply Q. apply white_delimited; [exact G|cbn; auto 10].
    + cbn [is_simple_value]. rewrite <- !app_assoc. cbn [app]. apply white_mark; [exact G|cbn; auto 10|]. rewrite <- ?app_assoc. specialize (IH g' r ts G' H D). rewrite render_app, <- !app_assoc in *. exact IH.
  - intros g G t r ts' M H. split; [|apply white_delimited; assumption]. intro ls. apply white_mark; assumption.
  - intros g g' k v m te ts G G' E IH O IHo t r ts' M H.
    destruct (IHo t r ts' M H) as [I1 I2]. specialize (IH g' _ _ G' I1 I2). rewrite render_app, render_cons, <- !app_assoc. cbn [app]. split.
    + intro ls. apply white_mark; [exact G|cbn; auto 10|]. rewrite !render_app, <- !app_assoc in *. exact IH.
    + apply white_delimited; [exact G|cbn; auto 10].
Qed.
Lemma white_end : forall g, white_gap g -> forall ls, lexes' ls (render_tokens g) (g ++ [TEnd]).
Proof.
  intros g G. induction G as [|w W|g G IH|w g W G IH]; intro ls.
  - apply lexes_nil.
  - intros [|n] L; [lia|]. rewrite render_cons. cbn [token_text render_tokens map concat]. cbn [lex_loop pull_next_token]. rewrite (skip_blanks w [] [] (proj2 W)).
    cbn. destruct W as [W _]. destruct w; [congruence|]. reflexivity.
  - rewrite render_cons. cbn [app]. apply lex_one; [apply reads_newline|apply IH].
  - rewrite !render_cons. cbn [app]. apply (lex_blanks w TNewline); [exact W|apply reads_newline|apply andb_false_r|apply IH].
Qed.
Lemma white_end_delimited : forall g, white_gap g -> delimited (render_tokens g).
Proof.
  intros g G. destruct G as [|w W|g G|w g W G].
  - split; exact I.
  - rewrite render_cons. apply blanks_delimited, W.
  - split; [reflexivity|cbn; discriminate].
  - rewrite render_cons. apply blanks_delimited, W.
Qed.
(** The tokens of a text *)
Lemma spell_lex : forall v tv g g', spell v tv -> white_gap g -> white_gap g' ->
  lex false (render_tokens (g ++ tv ++ g')) = (TStart :: g ++ tv ++ g' ++ [TEnd], LEnd).
Proof.
  intros v tv g g' S G G'. unfold lex, saver_init.
  pose proof (proj1 spell_lexes v tv S g _ _ G (white_end g' G') (white_end_delimited g' G')) as H.
  rewrite <- render_app, <- app_assoc in H. rewrite (H _ (Nat.lt_succ_diag_r _)). reflexivity.
Qed.
