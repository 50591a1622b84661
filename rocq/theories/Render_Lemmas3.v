(** The tokens of rendered JSON, and that the tokenizer finds them in the text. *)
From Verif Require Import Base BaseLemmas Util_Model Num_Model Path_Model Token_Model Token_Spec Token_Lemmas Token_Lemmas2 Value_Model Value_Spec Render_Model Render_Spec Render_Lemmas2.
From Coq Require Import Permutation.

Definition spaces (w : str) : Prop := w <> [] /\ Forall (fun c => c = " "%char) w.
Definition one_line (s : str) : Prop := ~ In nl s.

(** Whitespace and comments between two tokens. *)
Inductive gap : list token -> Prop :=
| gap_nil : gap []
| gap_blank : forall w, spaces w -> gap [TIgnored w]
| gap_line : forall g, gap g -> gap (TNewline :: g)
| gap_comment : forall c g, one_line c -> gap g -> gap (TComment false c :: TNewline :: g)
| gap_indented : forall w c g, spaces w -> one_line c -> gap g -> gap (TIgnored w :: TComment false c :: TNewline :: g).
Definition no_comment_in (g : list token) : Prop := Forall (fun t => match t with TComment _ _ => False | _ => True end) g.

(** How a number is written *)
Definition digits_text (t : str) : Prop := exists c more, t = c :: more /\ mem c first_number_chars = true /\ Forall (fun c => mem c number_chars = true) more.

(** The token of a scalar *)
Inductive scalar_token : scalar -> token -> Prop :=
| st_null : scalar_token SNull (value_token SNull)
| st_bool : forall b, scalar_token (SBool b) (value_token (SBool b))
| st_string : forall s q, Forall quotable s -> scalar_token (SStr s q) (TValue (SStr s true) (render_json_string s))
| st_number : forall n n' c more, same_number n n' -> mem c first_number_chars = true -> Forall (fun c => mem c number_chars = true) more ->
    number_token more (c :: more) = Ok (TValue n' (c :: more)) -> scalar_token n (TValue n' (c :: more)).

(** The tokens of a value *)
Inductive spelled : value -> list token -> Prop :=
| sp_scalar : forall s t, scalar_token s t -> spelled (VScalar s) [t]
| sp_no_list : spelled (VList []) [TOpenSquare; TCloseSquare]
| sp_list : forall g v vs tv ts, gap g -> spelled v tv -> others vs ts -> spelled (VList (v :: vs)) (TOpenSquare :: g ++ tv ++ ts ++ [TCloseSquare])
| sp_no_object : forall r i, spelled (VObj r i []) [TOpenCurly; TCloseCurly]
| sp_object : forall r i m k v m' g te ts, NoDup (map fst m) -> Permutation m ((k, v) :: m') -> gap g -> entry k v te -> entries m' ts ->
    spelled (VObj r i m) (TOpenCurly :: g ++ te ++ ts ++ [TCloseCurly])
with others : list value -> list token -> Prop :=
| ot_end : forall g, gap g -> others [] g
| ot_more : forall g g' v vs tv ts, gap g -> gap g' -> spelled v tv -> others vs ts -> others (v :: vs) (g ++ TComma :: g' ++ tv ++ ts)
with entry : str -> value -> list token -> Prop :=
| en_entry : forall k v g g' tv, k <> [] -> Forall quotable k -> gap g -> gap g' -> spelled v tv ->
    entry k v (TValue (SStr k true) (render_json_string k) :: g ++ TColon :: g' ++ tv)
with entries : fields -> list token -> Prop :=
| es_end : forall g, gap g -> entries [] g
| es_more : forall g g' k v m te ts, gap g -> gap g' -> entry k v te -> entries m ts -> entries ((k, v) :: m) (g ++ TComma :: g' ++ te ++ ts).

Scheme spelled_min := Minimality for spelled Sort Prop
  with others_min := Minimality for others Sort Prop
  with entry_min := Minimality for entry Sort Prop
  with entries_min := Minimality for entries Sort Prop.
Combined Scheme spelled_mutual from spelled_min, others_min, entry_min, entries_min.

(** ** Lexing *)
Section Lexing.
Variable ac : bool.

Definition lexes (ls : bool) (s : str) (ts : list token) : Prop := forall n, (List.length s < n)%nat -> lex_loop n ac ([], ls) s = (ts, LEnd).

(** [t] is read from its text, followed by [r]. *)
Definition reads (t : token) (r : str) : Prop :=
  token_text t <> [] /\ t <> TEnd /\ forall n ws ls, pull_next_token (S n) ac (ws, ls) (token_text t ++ r) = Ok (t, (ws, ls), r).

Lemma skip_spaces : forall w ws s, Forall (fun c => c = " "%char) w -> next_char_after_whitespace ws (w ++ s) = next_char_after_whitespace (ws ++ w) s.
Proof.
  intros w ws s H. revert ws. induction H as [|c w -> H IH]; intro ws; [rewrite app_nil_r; reflexivity|]. cbn. rewrite IH, <- app_assoc. reflexivity.
Qed.
Lemma pull_spaces : forall n w ws ls s, Forall (fun c => c = " "%char) w ->
  pull_next_token (S n) ac (ws, ls) (w ++ s) = pull_next_token (S n) ac (ws ++ w, ls) s.
Proof. intros n w ws ls s H. cbn [pull_next_token]. rewrite (skip_spaces w ws s H). reflexivity. Qed.

Lemma lexes_nil : forall ls, lexes ls [] [TEnd].
Proof. intros ls [|n] H; [cbn in H; lia|]. reflexivity. Qed.
Lemma lex_one : forall t r ls ts, reads t r -> lexes (is_simple_value t) r ts -> lexes ls (token_text t ++ r) (t :: ts).
Proof.
  intros t r ls ts [N [E R]] H [|n] L; [lia|]. cbn [lex_loop]. rewrite R. unfold saver_check. rewrite app_length in L.
  assert (L' : (List.length r < n)%nat) by (destruct (token_text t); [congruence|cbn in L; lia]).
  destruct (is_simple_value t) eqn:S; cbn [create_whitespace_token app]; rewrite (H n L'); destruct t; try reflexivity; congruence.
Qed.
Lemma lex_blank : forall w t r ls ts, spaces w -> reads t r -> ls && is_simple_value t = false -> lexes (is_simple_value t) r ts ->
  lexes ls (w ++ token_text t ++ r) (TIgnored w :: t :: ts).
Proof.
  intros w t r ls ts [W1 W2] [N [E R]] S H [|n] L; [lia|]. cbn [lex_loop]. rewrite (pull_spaces _ w [] ls _ W2), R. unfold saver_check. cbn [app]. rewrite !app_length in L.
  assert (L' : (List.length r < n)%nat) by (destruct (token_text t); [congruence|cbn in L; lia]).
  destruct w as [|c w]; [congruence|].
  destruct (is_simple_value t) eqn:S'; cbn [create_whitespace_token app]; rewrite (H n L').
  - rewrite andb_true_r in S. subst ls. destruct t; try reflexivity; congruence.
  - destruct t; try reflexivity; congruence.
Qed.

Lemma reads_newline : forall r, reads TNewline r.
Proof. intro r. split; [discriminate|]. split; [discriminate|]. reflexivity. Qed.
Lemma reads_mark : forall t r, In t [TComma; TColon; TOpenCurly; TCloseCurly; TOpenSquare; TCloseSquare] -> reads t r.
Proof.
  intros t r H. cbn in H. repeat (destruct H as [<-|H]; [split; [discriminate|]; split; [discriminate|]; intros; destruct ac; reflexivity|]). destruct H.
Qed.
Lemma comment_line : forall c r, one_line c -> comment_text (c ++ nl :: r) = (c, nl :: r).
Proof.
  induction c as [|x c IH]; intros r H; [reflexivity|]. cbn [app comment_text]. destruct (Ascii.eqb_spec x nl) as [->|E]; [destruct H; left; reflexivity|].
  rewrite IH; [reflexivity|]. intro K. apply H. right. exact K.
Qed.
Lemma reads_comment : forall c r, ac = true -> one_line c -> reads (TComment false c) (nl :: r).
Proof.
  intros c r A H. split; [discriminate|]. split; [discriminate|]. intros n ws ls. rewrite A. cbn [token_text].
  change (pull_next_token (S n) true (ws, ls) ((lit "#" ++ c) ++ nl :: r)) with
    ('(t, r') <- (let '(t, r') := comment_text (c ++ nl :: r) in Ok (TComment false t, r')) ;; Ok (t, (ws, ls), r')).
  rewrite (comment_line c r H). reflexivity.
Qed.
Definition ends_number (r : str) : Prop := match r with c :: _ => mem c number_chars = false | [] => True end.
Definition not_quote (r : str) : Prop := match r with c :: _ => c <> ch 34 | [] => True end.
Lemma reads_string : forall s r, Forall quotable s -> not_quote r -> reads (TValue (SStr s true) (render_json_string s)) r.
Proof.
  intros s r Q N. split; [discriminate|]. split; [discriminate|]. intros n ws ls. cbn [token_text].
  pose proof (pull_next_quoted n ac ls s r Q (fun _ => N)) as H. unfold render_json_string at 1. unfold render_json_string at 1 in H.
  rewrite <- !app_assoc in *. cbn [app] in *. cbn [pull_next_token next_char_after_whitespace] in *.
  change (is_whitespace_not_newline (ch 34)) with false in *. cbv iota in *. change (Ascii.eqb (ch 34) nl) with false in *. cbv iota in *.
  apply bind_ok in H. destruct H as [[t r'] [H1 H2]]. rewrite H1. cbn [bind]. injection H2 as -> ->. reflexivity.
Qed.
Lemma span_all : forall more r, Forall (fun c => mem c number_chars = true) more -> ends_number r -> span_number (more ++ r) = (more, r).
Proof.
  intros more r H E. induction H as [|c more C H IH].
  - destruct r as [|c r]; [reflexivity|]. cbn [app span_number]. unfold ends_number in E. rewrite E. reflexivity.
  - cbn [app span_number]. rewrite C, IH. reflexivity.
Qed.
Lemma first_facts : forall a c s, mem c first_number_chars = true ->
  is_whitespace_not_newline c = false /\ Ascii.eqb c nl = false /\ start_of_comment a c s = false /\ Ascii.eqb c (ch 34) = false /\ Ascii.eqb c "$" = false /\
  Ascii.eqb c ":" = false /\ Ascii.eqb c "," = false /\ Ascii.eqb c "=" = false /\ Ascii.eqb c "{" = false /\ Ascii.eqb c "}" = false /\
  Ascii.eqb c "[" = false /\ Ascii.eqb c "]" = false /\ Ascii.eqb c "+" = false.
Proof.
  intros a c s H. unfold mem in H. apply existsb_exists in H. destruct H as [d [I H]]. apply Ascii.eqb_eq in H. subst d. cbn in I.
  repeat (destruct I as [<-|I]; [destruct a; repeat split; reflexivity|]). destruct I.
Qed.
Lemma reads_number : forall n' c more r, mem c first_number_chars = true -> Forall (fun c => mem c number_chars = true) more ->
  number_token more (c :: more) = Ok (TValue n' (c :: more)) -> ends_number r -> reads (TValue n' (c :: more)) r.
Proof.
  intros n' c more r F M T E. split; [discriminate|]. split; [discriminate|]. intros n ws ls. cbn [token_text app].
  cbn [pull_next_token next_char_after_whitespace]. destruct (first_facts ac c (more ++ r) F) as [-> [-> [-> [-> [-> [-> [-> [-> [-> [-> [-> [-> ->]]]]]]]]]]]].
  rewrite F. unfold pull_number. rewrite (span_all more r M E), T. reflexivity.
Qed.
Lemma reads_keyword : forall s r, In s [SNull; SBool true; SBool false] -> reads (value_token s) r.
Proof.
  intros s r H. cbn in H. repeat (destruct H as [<-|H]; [split; [discriminate|]; split; [discriminate|]; intros; destruct ac; reflexivity|]). destruct H.
Qed.
Lemma reads_scalar : forall s t r, scalar_token s t -> ends_number r -> not_quote r -> reads t r.
Proof.
  intros s t r H E Q. destruct H as [|b|s q F|n n' c more S F M T].
  - apply reads_keyword. cbn. auto.
  - apply reads_keyword. destruct b; cbn; auto.
  - apply reads_string; assumption.
  - apply reads_number; assumption.
Qed.
Lemma scalar_simple : forall s t, scalar_token s t -> is_simple_value t = true.
Proof. intros s t H. destruct H; reflexivity. Qed.

(** ** Gaps *)
(** Comments are only read when they are allowed. *)
Definition fits (ts : list token) : Prop := ac = true \/ no_comment_in ts.
Lemma fits_app : forall a b, fits (a ++ b) -> fits a /\ fits b.
Proof. intros a b [H|H]; [split; left; exact H|]. apply Forall_app in H. destruct H. split; right; assumption. Qed.
Lemma fits_cons : forall t a, fits (t :: a) -> fits a.
Proof. intros t a H. apply (fits_app [t]) in H. apply H. Qed.

Lemma render_app : forall a b, render_tokens (a ++ b) = render_tokens a ++ render_tokens b.
Proof. intros. unfold render_tokens. rewrite map_app, concat_app. reflexivity. Qed.
Lemma render_cons : forall t a, render_tokens (t :: a) = token_text t ++ render_tokens a.
Proof. reflexivity. Qed.

Lemma gap_lexes : forall g, gap g -> fits g -> forall t r ls ts, reads t r -> ls && is_simple_value t = false -> lexes (is_simple_value t) r ts ->
  lexes ls (render_tokens g ++ token_text t ++ r) (g ++ t :: ts).
Proof.
  intros g G. induction G as [|w W|g G IH|c g C G IH|w c g W C G IH]; intros F t r ls ts R S H.
  - apply lex_one; assumption.
  - rewrite render_cons. cbn [token_text render_tokens map concat app]. rewrite app_nil_r. apply lex_blank; assumption.
  - rewrite render_cons, <- app_assoc. cbn [app]. apply lex_one; [apply reads_newline|]. apply IH; auto. apply fits_cons in F. exact F.
  - rewrite !render_cons, <- !app_assoc. cbn [app].
    destruct F as [F|F]; [|inversion F; subst; contradiction].
    apply lex_one; [apply (reads_comment c (render_tokens g ++ token_text t ++ r) F C)|].
    apply lex_one; [apply reads_newline|]. apply IH; auto. left. exact F.
  - rewrite !render_cons, <- !app_assoc. cbn [app].
    destruct F as [F|F]; [|inversion F as [|? ? _ F']; inversion F'; subst; contradiction].
    apply (lex_blank w (TComment false c)); [exact W|apply (reads_comment c (render_tokens g ++ token_text t ++ r) F C)|apply andb_false_r|].
    apply lex_one; [apply reads_newline|]. apply IH; auto. left. exact F.
Qed.
Definition mark (t : token) : Prop := In t [TComma; TColon; TOpenCurly; TCloseCurly; TOpenSquare; TCloseSquare].
Lemma mark_simple : forall t, mark t -> is_simple_value t = false.
Proof. intros t H. cbn in H. repeat (destruct H as [<-|H]; [reflexivity|]). destruct H. Qed.
Lemma gap_mark : forall g, gap g -> fits g -> forall t r ls ts, mark t -> lexes false r ts ->
  lexes ls (render_tokens g ++ token_text t ++ r) (g ++ t :: ts).
Proof. intros g G F t r ls ts M H. apply gap_lexes; auto; [apply reads_mark; exact M|rewrite (mark_simple t M); apply andb_false_r|rewrite (mark_simple t M); exact H]. Qed.
Definition delimited (r : str) : Prop := ends_number r /\ not_quote r.
Lemma gap_delimited : forall g t r, gap g -> mark t -> delimited (render_tokens g ++ token_text t ++ r).
Proof.
  intros g t r G M. assert (K : forall w s, spaces w -> delimited (w ++ s)).
  { intros [|c w] s [N W]; [congruence|]. inversion W; subst. split; [reflexivity|]. cbn. discriminate. }
  destruct G as [|w W|g G|c g C G|w c g W C G].
  - cbn in M. repeat (destruct M as [<-|M]; [split; [reflexivity|cbn; discriminate]|]). destruct M.
  - rewrite render_cons, <- app_assoc. apply K, W.
  - split; [reflexivity|cbn; discriminate].
  - split; [reflexivity|cbn; discriminate].
  - rewrite render_cons, <- app_assoc. apply K, W.
Qed.

Lemma spelled_lexes :
  (forall v tv, spelled v tv -> forall g r ts, gap g -> fits g -> fits tv -> (forall ls, lexes ls r ts) -> delimited r ->
     lexes false (render_tokens (g ++ tv) ++ r) (g ++ tv ++ ts)) /\
  (forall vs ts, others vs ts -> forall t r ts', fits ts -> mark t -> lexes false r ts' ->
     (forall ls, lexes ls (render_tokens ts ++ token_text t ++ r) (ts ++ t :: ts')) /\ delimited (render_tokens ts ++ token_text t ++ r)) /\
  (forall k v te, entry k v te -> forall g r ts, gap g -> fits g -> fits te -> (forall ls, lexes ls r ts) -> delimited r ->
     lexes false (render_tokens (g ++ te) ++ r) (g ++ te ++ ts)) /\
  (forall m ts, entries m ts -> forall t r ts', fits ts -> mark t -> lexes false r ts' ->
     (forall ls, lexes ls (render_tokens ts ++ token_text t ++ r) (ts ++ t :: ts')) /\ delimited (render_tokens ts ++ token_text t ++ r)).
Proof.
  apply spelled_mutual.
  - intros s t T g r ts G F F' H D. rewrite render_app, <- app_assoc. change (render_tokens [t]) with (token_text t ++ []). rewrite app_nil_r. cbn [app].
    apply gap_lexes; auto. exact (reads_scalar s t r T (proj1 D) (proj2 D)).
  - intros g r ts G F F' H D. rewrite render_app, <- app_assoc. cbn [app]. apply (gap_mark g G F TOpenSquare); [cbn; auto 10|].
    apply (gap_mark [] gap_nil (or_intror (Forall_nil _)) TCloseSquare); [cbn; auto 10|]. apply H.
  - intros g v vs tv ts G S IH O IHo g0 r ts' G0 F F' H D. rewrite render_app, render_cons, <- !app_assoc. cbn [app].
    apply (gap_mark g0 G0 F TOpenSquare); [cbn; auto 10|]. apply fits_cons in F'. apply fits_app in F'. destruct F' as [F1 F']. apply fits_app in F'. destruct F' as [F2 F'].
    apply fits_app in F'. destruct F' as [F3 _].
    destruct (IHo TCloseSquare r ts' F3 ltac:(cbn; auto 10) (H false)) as [I1 I2].
    specialize (IH g _ _ G F1 F2 I1 I2). rewrite !render_app, <- !app_assoc in *. exact IH.
  - intros _ _ g r ts G F F' H D. rewrite render_app, <- app_assoc. cbn [app]. apply (gap_mark g G F TOpenCurly); [cbn; auto 10|].
    apply (gap_mark [] gap_nil (or_intror (Forall_nil _)) TCloseCurly); [cbn; auto 10|]. apply H.
  - intros _ _ m k v m' g te ts _ P G E IH O IHo g0 r ts' G0 F F' H D. rewrite render_app, render_cons, <- !app_assoc. cbn [app].
    apply (gap_mark g0 G0 F TOpenCurly); [cbn; auto 10|]. apply fits_cons in F'. apply fits_app in F'. destruct F' as [F1 F']. apply fits_app in F'. destruct F' as [F2 F'].
    apply fits_app in F'. destruct F' as [F3 _].
    destruct (IHo TCloseCurly r ts' F3 ltac:(cbn; auto 10) (H false)) as [I1 I2].
    specialize (IH g _ _ G F1 F2 I1 I2). rewrite !render_app, <- !app_assoc in *. exact IH.
  - intros g G t r ts' F M H. split; [|apply gap_delimited; assumption]. intro ls. apply gap_mark; assumption.
  - intros g g' v vs tv ts G G' S IH O IHo t r ts' F M H. apply fits_app in F. destruct F as [F1 F]. apply fits_cons in F. apply fits_app in F. destruct F as [F2 F]. apply fits_app in F. destruct F as [F3 F4].
    destruct (IHo t r ts' F4 M H) as [I1 I2]. specialize (IH g' _ _ G' F2 F3 I1 I2). rewrite render_app, render_cons, <- !app_assoc. cbn [app]. split.
    + intro ls. apply gap_mark; [exact G|exact F1|cbn; auto 10|]. rewrite !render_app, <- !app_assoc in *. exact IH.
    + apply gap_delimited; [exact G|cbn; auto 10].
  - intros k v g g' tv N Q G G' S IH g0 r ts G0 F F' H D. rewrite render_app, <- app_assoc. rewrite render_cons, <- app_assoc. cbn [app].
    apply fits_cons, fits_app in F'. destruct F' as [F1 F']. apply fits_cons, fits_app in F'. destruct F' as [F2 F3].
    rewrite render_app, render_cons, <- !app_assoc. cbn [app].
    apply gap_lexes; auto.
    + apply reads_string; [exact Q|]. apply gap_delimited; [exact G|cbn; auto 10].
    + cbn [is_simple_value]. rewrite <- !app_assoc. cbn [app]. apply gap_mark; [exact G|exact F1|cbn; auto 10|]. rewrite <- ?app_assoc. specialize (IH g' r ts G' F2 F3 H D). rewrite render_app, <- !app_assoc in *. exact IH.
  - intros g G t r ts' F M H. split; [|apply gap_delimited; assumption]. intro ls. apply gap_mark; assumption.
  - intros g g' k v m te ts G G' E IH O IHo t r ts' F M H. apply fits_app in F. destruct F as [F1 F]. apply fits_cons in F. apply fits_app in F. destruct F as [F2 F]. apply fits_app in F. destruct F as [F3 F4].
    destruct (IHo t r ts' F4 M H) as [I1 I2]. specialize (IH g' _ _ G' F2 F3 I1 I2). rewrite render_app, render_cons, <- !app_assoc. cbn [app]. split.
    + intro ls. apply gap_mark; [exact G|exact F1|cbn; auto 10|]. rewrite !render_app, <- !app_assoc in *. exact IH.
    + apply gap_delimited; [exact G|cbn; auto 10].
Qed.

(** The tokens of a rendered text *)
Lemma spelled_lex : forall v tv tail, spelled v tv -> fits tv -> (tail = [] \/ tail = [TNewline]) ->
  lex ac (render_tokens (tv ++ tail)) = (TStart :: tv ++ tail ++ [TEnd], LEnd).
Proof.
  intros v tv tail S F T. unfold lex, saver_init.
  assert (E : forall ls, lexes ls (render_tokens tail) (tail ++ [TEnd])).
  { intro ls. destruct T as [->| ->]; [apply lexes_nil|]. rewrite render_cons. apply lex_one; [apply reads_newline|apply lexes_nil]. }
  assert (D : delimited (render_tokens tail)) by (destruct T as [->| ->]; split; cbn; (exact I || reflexivity || discriminate)).
  pose proof (proj1 spelled_lexes v tv S [] _ _ gap_nil (or_intror (Forall_nil _)) F E D) as H.
  cbn [app] in H. rewrite <- render_app in H. rewrite (H _ (Nat.lt_succ_diag_r _)). reflexivity.
Qed.
End Lexing.
