(** What the tokens of a text say about it, when comments are not allowed. *)
From Verif Require Import Base BaseLemmas Util_Model Num_Model Path_Model Token_Model Token_Spec Token_Lemmas Token_Lemmas2 PathParser_Model Doc_Model Value_Model Duration_Spec Duration_Lemmas Escape_Spec Escape_Lemmas Round_Spec
  Round_Lemmas10 Round_Lemmas11 Rfc_Spec Rfc_Lemmas.

(** ** Numbers *)
Lemma sign_given : forall s neg r, take_sign s = (neg, r) -> exists sg, sign_text sg neg /\ s = sg ++ r.
Proof.
  intros [|c s] neg r H; cbn [take_sign] in H; [injection H as <- <-; exists []; split; [constructor|reflexivity]|].
  destruct (Ascii.eqb_spec c "-") as [->|_]; [injection H as <- <-; exists (lit "-"); split; [constructor|reflexivity]|].
  destruct (Ascii.eqb_spec c "+") as [->|_]; [injection H as <- <-; exists (lit "+"); split; [constructor|reflexivity]|].
  injection H as <- <-. exists []. split; [constructor|reflexivity].
Qed.
Lemma digits_all : forall l, forallb isdigit l = true -> all_digits l.
Proof. intros l H. unfold all_digits. rewrite Forall_forall. rewrite forallb_forall in H. exact H. Qed.
Lemma exponent_given : forall s e, take_exponent s = Some (e, []) -> exponent_text s e.
Proof.
  intros [|c s] e H; cbn [take_exponent] in H; [injection H as <-; constructor|]. destruct (Ascii.eqb c "e" || Ascii.eqb c "E") eqn:C; [|discriminate].
  destruct (take_sign s) as [neg s2] eqn:T. destruct (span_digits s2) as [ds r] eqn:D. destruct ds as [|d ds]; [discriminate|]. injection H as <- ->.
  destruct (sign_given _ _ _ T) as [sg [Sg ->]]. destruct (span_digits_spec _ _ _ D) as [-> [F _]]. rewrite app_nil_r, !dec_spec. constructor; [|exact Sg|apply digits_all, F|discriminate].
  apply orb_true_iff in C. destruct C as [C|C]; apply Ascii.eqb_eq in C; auto.
Qed.
Lemma double_numeral : forall t d, lexical_cast_double t = Some d -> exists n x, numeral t n x.
Proof.
  intros t d H. unfold lexical_cast_double in H. destruct (take_sign t) as [neg s1] eqn:T. destruct (sign_given _ _ _ T) as [sg [Sg ->]]. destruct (span_digits s1) as [ip s2] eqn:D. destruct (span_digits_spec _ _ _ D) as [-> [F _]].
  assert (P : exists pt fp s3, match s2 with c :: s' => if Ascii.eqb c "." then span_digits s' else ([], s2) | [] => ([], []) end = (fp, s3) /\ s2 = pt ++ s3 /\ point_text pt fp).
  { destruct s2 as [|c s']; [exists [], [], []; split; [reflexivity|split; [reflexivity|constructor]]|]. destruct (Ascii.eqb_spec c ".") as [->|_]; [|exists [], [], (c :: s'); split; [reflexivity|split; [reflexivity|constructor]]].
    destruct (span_digits s') as [fp s3] eqn:D2. destruct (span_digits_spec _ _ _ D2) as [-> [F2 _]]. exists ("."%char :: fp), fp, s3. split; [reflexivity|]. split; [reflexivity|]. constructor. apply digits_all, F2. }
  destruct P as [pt [fp [s3 [E [-> Pt]]]]]. rewrite E in H. destruct (ip ++ fp) as [|a l] eqn:N; [discriminate|]. destruct (take_exponent s3) as [[x [|? ?]]|] eqn:X; try discriminate.
  eexists. eexists. apply (numeral_text sg neg ip pt fp s3 x); [exact Sg|apply digits_all, F|exact Pt|congruence|apply exponent_given, X].
Qed.
Lemma int64_numeral : forall t z, lexical_cast_int64 t = Some z -> numeral t z 0 /\ in_int64 z = true.
Proof.
  intros t z H. unfold lexical_cast_int64 in H. destruct (take_sign t) as [neg s1] eqn:T. destruct (sign_given _ _ _ T) as [sg [Sg ->]]. destruct s1 as [|c ds]; [discriminate|]. destruct (forallb isdigit (c :: ds)) eqn:F; [|discriminate].
  cbv zeta in H. destruct (in_int64 _) eqn:I; [|discriminate]. injection H as <-. split; [|exact I]. rewrite dec_spec.
  pose proof (numeral_text sg neg (c :: ds) [] [] [] 0 Sg (digits_all _ F) point_none ltac:(discriminate) exponent_none) as Q. rewrite !app_nil_r in Q. exact Q.
Qed.
Lemma first_char : forall c, mem c first_number_chars = true -> isdigit c = true \/ c = "-"%char.
Proof.
  intros c H. unfold mem in H. apply existsb_exists in H. destruct H as [d [I H]]. apply Ascii.eqb_eq in H. subst d. cbn in I. repeat (destruct I as [<-|I]; [auto|]). destruct I.
Qed.
Definition says_number (x : str) (v : scalar) : Prop := exists n e, lax_number x n e /\ denotes (JNumber x n e) (VScalar v).
Lemma has_point : forall c more, integer_text (c :: more) -> has_decimal_or_e more = false.
Proof. intros c more H. apply no_point. intros a A. apply H. right. exact A. Qed.
Lemma number_given : forall c more t, mem c first_number_chars = true -> number_token more (c :: more) = Ok t ->
  (exists v, t = TValue v (c :: more) /\ is_number v = true /\ says_number (c :: more) v) \/ t = TUnquoted (c :: more).
Proof.
  intros c more t F H. unfold number_token, number_fallback in H. assert (C := first_char c F). destruct (has_decimal_or_e more) eqn:P.
  - destruct (lexical_cast_double (c :: more)) as [d|] eqn:L; [|destruct (existsb _ _); [discriminate|injection H as <-; auto]]. left.
    apply bind_ok in H. destruct H as [v [V H]]. injection H as <-. destruct (double_numeral _ _ L) as [n [x Nm]]. assert (D := numeral_double _ _ _ Nm). rewrite L in D.
    unfold new_number_double in V. apply bind_ok in V. destruct V as [z [_ V]]. injection V as V.
    assert (R : reads_as v (c :: more) n x).
    { destruct (SFeqb (int_to_double z) d) eqn:E; subst v; [apply new_int_reads; [discriminate|exact (equal_unit _ _ _ _ E D)]|split; [reflexivity|split; [reflexivity|exact D]]]. }
    destruct R as [R1 [R2 R3]]. exists v. split; [unfold value_token; rewrite R2; reflexivity|]. split; [exact R1|]. exists n, x. split; [constructor; assumption|]. constructor; try assumption.
    intro I. apply has_point in I. congruence.
  - destruct (lexical_cast_int64 (c :: more)) as [z|] eqn:L; [|destruct (existsb _ _); [discriminate|injection H as <-; auto]]. left. injection H as <-. destruct (int64_numeral _ _ L) as [Nm I].
    destruct (new_int_reads z (c :: more) z 0 ltac:(discriminate)) as [R1 [R2 R3]]. { apply integer_unit. unfold in_int64, int64_min, int64_max in I. apply andb_true_iff in I. destruct I as [I1 I2]. apply Z.leb_le in I1. apply Z.leb_le in I2. lia. }
    exists (new_number_int z (c :: more)). split; [unfold value_token; rewrite R2; reflexivity|]. split; [exact R1|]. exists z, 0. split; [constructor; assumption|]. constructor; try assumption. intros _. apply long_new.
Qed.

(** ** Strings *)
Definition digits_mean (c1 c2 c3 c4 : ascii) (bs : str) : Prop :=
  forall d1 d2 d3 d4, hex_digit c1 d1 -> hex_digit c2 d2 -> hex_digit c3 d3 -> hex_digit c4 d4 ->
    let z := ((d1 * 16 + d2) * 16 + d3) * 16 + d4 in z = 0 /\ bs = [] \/ 0 < z /\ ~ surrogate z /\ encodes z bs.
Lemma byte_ch : forall z, 0 <= z < 256 -> byte_of (ch (Z.to_nat z)) = z.
Proof. intros z H. unfold byte_of, ch. rewrite nat_ascii_embedding by lia. lia. Qed.
Lemma utf8_given : forall z bs, 0 <= z < 65536 -> utf8 z = Ok bs -> z = 0 /\ bs = [] \/ 0 < z /\ ~ surrogate z /\ encodes z bs.
Proof.
  intros z bs R H. unfold utf8 in H. destruct (Z.eqb_spec z 0); [injection H as <-; auto|]. right. split; [lia|]. unfold surrogate.
  destruct (Z.ltb_spec z 128). { injection H as <-. split; [lia|]. apply one_byte; [apply byte_ch; lia|lia]. }
  pose proof (Z.div_mod z 64 ltac:(lia)) as D. pose proof (Z.mod_pos_bound z 64 ltac:(lia)) as M.
  destruct (Z.ltb_spec z 2048). { injection H as <-. split; [lia|]. apply (two_bytes _ _ _ (z / 64) (z mod 64)); [apply byte_ch; lia|lia|split; [apply byte_ch; lia|lia]|lia|lia]. }
  destruct ((55296 <=? z) && (z <=? 57343)) eqn:S; [discriminate|]. injection H as <-. apply andb_false_iff in S. split; [destruct S as [S|S]; apply Z.leb_gt in S; lia|].
  pose proof (Z.div_mod (z / 64) 64 ltac:(lia)) as D2. pose proof (Z.mod_pos_bound (z / 64) 64 ltac:(lia)) as M2. rewrite Z.div_div in D2 by lia. change (64 * 64) with 4096 in D2.
  apply (three_bytes _ _ _ _ (z / 4096) ((z / 64) mod 64) (z mod 64)); [apply byte_ch; lia|lia|split; [apply byte_ch; lia|lia]|split; [apply byte_ch; lia|lia]|lia|lia].
Qed.
Lemma digits_given : forall c1 c2 c3 c4 z bs, sscanf_hx [c1; c2; c3; c4] = Ok z -> utf8 z = Ok bs -> digits_mean c1 c2 c3 c4 bs.
Proof.
  intros c1 c2 c3 c4 z bs S U d1 d2 d3 d4 H1 H2 H3 H4. destruct (scan_hex _ _ _ _ _ _ _ _ H1 H2 H3 H4) as [Q _]. rewrite Q in S. injection S as <-.
  apply hex_digit_val in H1, H2, H3, H4. destruct H1 as [_ [_ H1]], H2 as [_ [_ H2]], H3 as [_ [_ H3]], H4 as [_ [_ H4]]. apply utf8_given; [lia|exact U].
Qed.
Lemma escape_given : forall s p o r, pull_escape_sequence s = Ok (p, o, r) ->
  (exists e c, In (e, c) short_escapes /\ s = e :: r /\ p = [c]) \/ (exists c1 c2 c3 c4, s = "u"%char :: c1 :: c2 :: c3 :: c4 :: r /\ digits_mean c1 c2 c3 c4 p).
Proof.
  intros [|e s] p o r H; [discriminate|]. cbn [pull_escape_sequence] in H. cbv zeta in H.
  assert (S : forall c x, e = x -> In (x, c) short_escapes -> Ok ([c], [ch 92; e], s) = Ok (p, o, r) -> (exists e' c', In (e', c') short_escapes /\ e :: s = e' :: r /\ p = [c']) \/ (exists c1 c2 c3 c4, e :: s = "u"%char :: c1 :: c2 :: c3 :: c4 :: r /\ digits_mean c1 c2 c3 c4 p)).
  { intros c x -> I Q. left. injection Q as <- _ <-. exists x, c. auto. }
  repeat match type of H with (if Ascii.eqb e ?x then Ok _ else _) = _ => destruct (Ascii.eqb_spec e x) as [E|_]; [eapply S; [exact E| |exact H]; cbn; auto 10|] end.
  destruct (Ascii.eqb_spec e "u") as [->|_]; [|discriminate]. right. destruct s as [|c1 [|c2 [|c3 [|c4 s]]]]; try discriminate H.
  - apply bind_ok in H. destruct H as [z [_ H]]. discriminate.
  - apply bind_ok in H. destruct H as [z [Sc H]]. apply bind_ok in H. destruct H as [q [U H]]. injection H as <- _ <-. exists c1, c2, c3, c4. split; [reflexivity|]. exact (digits_given _ _ _ _ _ _ Sc U).
Qed.
Lemma plain_byte : forall c, is_C0_control c = false -> 32 <= byte_of c <= 127.
Proof. intros c H. revert H. destruct c as [[] [] [] [] [] [] [] []]; vm_compute; intro H; try discriminate H; split; discriminate. Qed.
Lemma loop_given : forall n s p o p' o' r, quoted_loop n p o s = Ok (p', o', r) -> exists w v, lax_escaped w v /\ p' = p ++ v /\ s = w ++ ch 34 :: r.
Proof.
  induction n as [|n IH]; intros s p o p' o' r H; [discriminate|]. cbn [quoted_loop] in H. destruct s as [|c s]; [discriminate|].
  destruct (Ascii.eqb_spec c (ch 92)) as [->|N1].
  - apply bind_ok in H. destruct H as [[[q oo] r1] [E H]]. apply IH in H. destruct H as [w [v [L [-> ->]]]]. destruct (escape_given _ _ _ _ E) as [[e [c [I [-> ->]]]]|[c1 [c2 [c3 [c4 [-> Dm]]]]]].
    + exists (ch 92 :: e :: w), (c :: v). split; [constructor; assumption|]. split; [rewrite <- app_assoc; reflexivity|reflexivity].
    + exists (ch 92 :: "u"%char :: c1 :: c2 :: c3 :: c4 :: w), (q ++ v). split; [constructor; [exact Dm|exact L]|]. split; [rewrite <- app_assoc; reflexivity|reflexivity].
  - destruct (Ascii.eqb_spec c (ch 34)) as [->|N2]; [injection H as <- _ <-; exists [], []; split; [constructor|split; [rewrite app_nil_r; reflexivity|reflexivity]]|].
    destruct (is_C0_control c) eqn:C; [discriminate|]. apply IH in H. destruct H as [w [v [L [-> ->]]]]. exists (c :: w), (c :: v). split; [constructor; try assumption; apply plain_byte, C|].
    split; [rewrite <- app_assoc; reflexivity|reflexivity].
Qed.
Definition tidy (p : str) : Prop := forall a c b, p = a ++ three_quotes ++ c :: b -> c = ch 34.
Definition at_most (q : nat) (p : str) : Prop := forall k a, p = a ++ repeat (ch 34) k -> (k <= q)%nat.
Lemma snoc_cases : forall (A : Type) (l : list A), l = [] \/ exists m x, l = m ++ [x].
Proof. intros A l. destruct l as [|x l]; [auto|]. right. destruct (exists_last (l := x :: l) ltac:(discriminate)) as [m [y E]]. eauto. Qed.
Lemma at_most_quote : forall q p, at_most q p -> at_most (S q) (p ++ [ch 34]).
Proof. intros q p H [|k] a E; [lia|]. cbn [repeat] in E; rewrite repeat_cons, app_assoc in E. apply app_inj_tail in E. destruct E as [E _]. apply H in E. lia. Qed.
Lemma at_most_other : forall q p c, c <> ch 34 -> at_most q (p ++ [c]).
Proof. intros q p c N [|k] a E; [lia|]. cbn [repeat] in E; rewrite repeat_cons, app_assoc in E. apply app_inj_tail in E. destruct E as [_ E]. congruence. Qed.
Lemma tidy_snoc : forall p c, tidy p -> (c <> ch 34 -> forall a, p <> a ++ three_quotes) -> tidy (p ++ [c]).
Proof.
  intros p c T N a x b E. destruct (snoc_cases _ b) as [->|[m [y ->]]].
  - replace (a ++ three_quotes ++ [x]) with ((a ++ three_quotes) ++ [x]) in E by (rewrite <- app_assoc; reflexivity). apply app_inj_tail in E. destruct E as [E <-]. destruct (Ascii.ascii_dec c (ch 34)) as [|C]; [assumption|]. destruct (N C a E).
  - replace (a ++ three_quotes ++ x :: m ++ [y]) with ((a ++ three_quotes ++ x :: m) ++ [y]) in E by (rewrite <- !app_assoc; reflexivity). apply app_inj_tail in E. destruct E as [E _]. exact (T _ _ _ E).
Qed.
Lemma triple_given : forall s q p o p' o' r, append_triple_quoted_string q p o s = Ok (p', o', r) -> (q <= List.length p)%nat -> (exists a, p = a ++ repeat (ch 34) q) -> at_most q p -> tidy p ->
  exists b, s = b ++ r /\ p ++ b = p' ++ three_quotes /\ tidy (p ++ b).
Proof.
  assert (K : forall q (p : str), (3 <=? q)%nat = true -> (exists a, p = a ++ repeat (ch 34) q) -> p = firstn (List.length p - 3) p ++ three_quotes).
  { unfold three_quotes. intros q p Q [a ->]. apply Nat.leb_le in Q. assert (E : a ++ repeat (ch 34) q = (a ++ repeat (ch 34) (q - 3)) ++ [ch 34; ch 34; ch 34]).
    { rewrite <- app_assoc. f_equal. replace q with (q - 3 + 3)%nat at 1 by lia. rewrite repeat_app. reflexivity. }
    rewrite E at 2. rewrite E. rewrite firstn_app. replace (List.length ((a ++ repeat (ch 34) (q - 3)) ++ [ch 34; ch 34; ch 34]) - 3)%nat with (List.length (a ++ repeat (ch 34) (q - 3))) by (rewrite (app_length _ [ch 34; ch 34; ch 34]); cbn [List.length]; lia).
    rewrite firstn_all, Nat.sub_diag. cbn [firstn]. rewrite app_nil_r. reflexivity. }
  induction s as [|c s IH]; intros q p o p' o' r H L A Am T; cbn [append_triple_quoted_string] in H.
  - destruct (3 <=? q)%nat eqn:Q; [|discriminate]. injection H as <- _ <-. exists []. split; [reflexivity|]. rewrite app_nil_r. split; [exact (K q p Q A)|exact T].
  - destruct (Ascii.eqb_spec c (ch 34)) as [->|N].
    + apply IH in H; [|rewrite app_length; cbn; lia|destruct A as [a ->]; exists a; rewrite <- app_assoc, <- repeat_cons; reflexivity|apply at_most_quote, Am|apply tidy_snoc; [exact T|congruence]].
      destruct H as [b [-> E]]. rewrite <- app_assoc in E. exists (ch 34 :: b). split; [reflexivity|exact E].
    + destruct (3 <=? q)%nat eqn:Q; [injection H as <- _ <-; exists []; split; [reflexivity|]; rewrite app_nil_r; split; [exact (K q p Q A)|exact T]|].
      apply IH in H; [|lia|exists (p ++ [c]); rewrite app_nil_r; reflexivity|apply at_most_other, N|apply tidy_snoc; [exact T|]].
      * destruct H as [b [-> E]]. rewrite <- app_assoc in E. exists (c :: b). split; [reflexivity|exact E].
      * intros _ a E. apply Nat.leb_gt in Q. specialize (Am 3%nat a E). lia.
Qed.
Lemma string_given : forall s t r, pull_quoted_string s = Ok (t, r) -> exists k o x, t = TValue (SStr k true) o /\ ch 34 :: s = x ++ r /\ lax_string x k.
Proof.
  intros s t r H. unfold pull_quoted_string in H. apply bind_ok in H. destruct H as [[[p o] r1] [L H]]. apply bind_ok in H. destruct H as [[[p' o'] r'] [M H]]. injection H as <- <-.
  destruct (loop_given _ _ _ _ _ _ _ L) as [w [v [W [E ->]]]]. cbn [app] in E. subst p.
  assert (Plain : Ok (v, o, r1) = Ok (p', o', r') -> exists k o0 x, TValue (SStr p' true) o' = TValue (SStr k true) o0 /\ ch 34 :: w ++ ch 34 :: r1 = x ++ r' /\ lax_string x k).
  { intro Q. injection Q as -> -> ->. exists p', o', (between_quotes w). split; [reflexivity|]. split; [unfold between_quotes; cbn [app]; rewrite <- app_assoc; reflexivity|constructor; exact W]. }
  destruct v as [|a v]; [|apply Plain; destruct r1; exact M]. destruct r1 as [|c r1]; [apply Plain, M|]. destruct (Ascii.eqb_spec c (ch 34)) as [->|_]; [|apply Plain, M].
  apply triple_given in M; [|cbn; lia|exists []; reflexivity|intros [|k] a E; [lia|destruct a; discriminate E]|intros a c b E; destruct a; discriminate E]. destruct M as [b [-> [E T]]]. cbn [app] in E, T. subst b.
  exists p', o', (between_quotes w ++ [ch 34] ++ p' ++ three_quotes). split; [reflexivity|]. split; [unfold between_quotes; rewrite <- !app_assoc; cbn [app]; rewrite <- ?app_assoc; reflexivity|apply lax_raw; [exact W|exact T]].
Qed.

(** ** Tokens *)
Definition says (t : token) (x : str) : Prop :=
  match t with
  | TNewline => x = [nl]
  | TIgnored _ => lax_blank x
  | TUnquoted _ => lax_blank x
  | TComma => x = lit ","
  | TColon => x = lit ":"
  | TOpenCurly => x = lit "{"
  | TCloseCurly => x = lit "}"
  | TOpenSquare => x = lit "["
  | TCloseSquare => x = lit "]"
  | TValue (SStr k q) _ => q = true /\ lax_string x k
  | TValue SNull _ => x = lit "null"
  | TValue (SBool b) _ => x = if b then lit "true" else lit "false"
  | TValue v _ => says_number x v
  | TComment _ _ | TStart => False
  | _ => True
  end.
(** The tokens, up to one that is rejected or that is not delivered, and the text they are read from. *)
Inductive stream : list token -> str -> Prop :=
| stream_end : stream [TEnd] []
| stream_cut : forall s, stream [] s
| stream_stop : forall t ts s, json_forbids JSON t = true -> stream (t :: ts) s
| stream_cons : forall t x ts s, t <> TEnd -> says t x -> stream ts s -> stream (t :: ts) (x ++ s).

Lemma space_blank : forall w, Forall Token_Spec.blank w -> lax_blank w.
Proof.
  intros w H. eapply Forall_impl; [|exact H]. intros c H0. cbn. destruct H0 as [-> |[-> |[-> |[-> | ->]]]]; auto 10.
Qed.
Lemma unquoted_given : forall ac s res t r, pull_unquoted_text ac res s = (t, r) -> res <> [] -> no_ws res ->
  json_forbids JSON t = true \/ (exists v, In v [SNull; SBool true; SBool false] /\ t = value_token v /\ res ++ s = scalar_text v ++ r).
Proof.
  induction s as [|c s IH]; intros res t r H Hr Hn; cbn [pull_unquoted_text] in H.
  - injection H as <- <-. left. cbn. destruct res as [|a l]; [congruence|]. inversion Hn as [|? ? W _]; subst. cbn. rewrite W. reflexivity.
  - destruct (mem c not_in_unquoted_text || is_whitespace c || start_of_comment ac c s) eqn:E.
    + injection H as <- <-. left. cbn. destruct res as [|a l]; [congruence|]. inversion Hn as [|? ? W _]; subst. cbn. rewrite W. reflexivity.
    + destruct (str_eqb (res ++ [c]) (lit "true")) eqn:K. { injection H as <- <-. apply str_eqb_eq in K. right. exists (SBool true). split; [cbn; auto|]. split; [reflexivity|]. change (res ++ c :: s) with (res ++ [c] ++ s). rewrite app_assoc, K. reflexivity. }
      destruct (str_eqb (res ++ [c]) (lit "null")) eqn:K2. { injection H as <- <-. apply str_eqb_eq in K2. right. exists SNull. split; [cbn; auto|]. split; [reflexivity|]. change (res ++ c :: s) with (res ++ [c] ++ s). rewrite app_assoc, K2. reflexivity. }
      destruct (str_eqb (res ++ [c]) (lit "false")) eqn:K3. { injection H as <- <-. apply str_eqb_eq in K3. right. exists (SBool false). split; [cbn; auto|]. split; [reflexivity|]. change (res ++ c :: s) with (res ++ [c] ++ s). rewrite app_assoc, K3. reflexivity. }
      apply IH in H; [|destruct res; discriminate|apply Forall_app; split; [exact Hn|]; constructor; [|constructor]; rewrite !orb_false_iff in E; tauto].
      rewrite <- app_assoc in H. exact H.
Qed.
Lemma span_given : forall s t r, span_number s = (t, r) -> s = t ++ r.
Proof.
  induction s as [|c s IH]; intros t r H; cbn [span_number] in H; [injection H as <- <-; reflexivity|]. destruct (mem c number_chars); [|injection H as <- <-; reflexivity].
  destruct (span_number s) as [t' r']. injection H as <- <-. cbn. rewrite <- (IH _ _ eq_refl). reflexivity.
Qed.
Lemma subst_forbidden : forall n ac o sv ex s t r, pull_substitution n ac o sv ex s = Ok (t, r) -> json_forbids JSON t = true.
Proof.
  induction n as [|n IH]; intros ac o sv ex s t r H; [discriminate|]. cbn [pull_substitution] in H. apply bind_ok in H. destruct H as [[[t' sv'] r'] [_ H]].
  destruct t'; try discriminate; try (destruct (saver_check sv' _) as [w sv'']; eapply IH; exact H). injection H as <- _. reflexivity.
Qed.
Lemma pull_given : forall n ls s t sv' r, pull_next_token n false ([], ls) s = Ok (t, sv', r) ->
  exists w y, sv' = (w, ls) /\ Forall Token_Spec.blank w /\ s = w ++ y /\ (json_forbids JSON t = true \/ t = TEnd /\ y = [] \/ t <> TEnd /\ exists x, y = x ++ r /\ says t x).
Proof.
  intros [|n] ls s t sv' r H; [discriminate|]. cbn [pull_next_token] in H.
  destruct (next_char_after_whitespace [] s) as [ws' nx] eqn:E. apply next_char_spec in E. destruct E as [w [-> [Hw E]]]. cbn [app] in H. exists w.
  destruct nx as [[c s']|]. 2:{ injection H as <- <- <-. exists []. split; [reflexivity|]. split; [exact Hw|]. split; [rewrite app_nil_r; exact E|]. right. left. auto. }
  destruct E as [-> Hc]. exists (c :: s').
  destruct (Ascii.eqb_spec c nl) as [->|Hnl]. { injection H as <- <- <-. split; [reflexivity|]. split; [exact Hw|]. split; [reflexivity|]. right. right. split; [discriminate|]. exists [nl]. split; reflexivity. }
  apply bind_ok in H. destruct H as [[t0 r0] [H H0]]. injection H0 as -> <- ->. split; [reflexivity|]. split; [exact Hw|]. split; [reflexivity|]. cbn [start_of_comment andb] in H.
  assert (M : forall m, c = m -> Ok (t, s') = Ok (t, r) -> says t [m] -> t <> TEnd -> json_forbids JSON t = true \/ t = TEnd /\ c :: s' = [] \/ t <> TEnd /\ exists x, c :: s' = x ++ r /\ says t x).
  { intros m -> K S N. injection K as <-. right. right. split; [exact N|]. exists [m]. split; [reflexivity|exact S]. }
  destruct (Ascii.eqb_spec c (ch 34)) as [->|_]. { destruct (string_given _ _ _ H) as [k [o [x [-> [E S]]]]]. right. right. split; [discriminate|]. exists x. rewrite E. split; [reflexivity|split; [reflexivity|exact S]]. }
  destruct (Ascii.eqb c "$"). { apply bind_ok in H. destruct H as [[o s2] [_ H]]. left. eapply subst_forbidden. exact H. }
  repeat match type of H with (if Ascii.eqb c ?m then Ok _ else _) = _ => destruct (Ascii.eqb_spec c m) as [Em|_]; [injection H as <- <-; apply (M m); (exact Em || reflexivity || exact I || discriminate)|] end.
  destruct (Ascii.eqb_spec c "+") as [->|_]. { unfold pull_plus_equals in H. destruct s' as [|d s']; [discriminate|]. destruct (Ascii.eqb_spec d "=") as [->|_]; [|discriminate]. injection H as <- <-. right. right. split; [discriminate|]. exists (lit "+="). split; [reflexivity|exact I]. }
  destruct (mem c first_number_chars) eqn:F.
  { unfold pull_number in H. destruct (span_number s') as [more r1] eqn:Sp. apply bind_ok in H. destruct H as [t1 [T H]]. injection H as -> ->. rewrite (span_given _ _ _ Sp).
    destruct (number_given c more t F T) as [[v [-> [V S]]]|K].
    - right. right. split; [discriminate|]. exists (c :: more). split; [reflexivity|]. destruct v; try discriminate V; exact S.
    - left. rewrite K. cbn. rewrite (first_number_no_ws c F). reflexivity. }
  destruct (mem c not_in_unquoted_text) eqn:U; [discriminate|]. injection H as H. assert (Ws : is_whitespace c = false).
  { unfold is_whitespace_not_newline in Hc. destruct (Ascii.eqb_spec c nl); [contradiction|]. exact Hc. }
  cbn [pull_unquoted_text] in H. rewrite U, Ws in H. cbn [orb start_of_comment andb app] in H.
  repeat match type of H with (if str_eqb ?a ?b then _ else _) = _ => destruct (str_eqb a b) eqn:K; [apply str_eqb_eq in K; discriminate K|clear K] end.
  apply unquoted_given in H; [|discriminate|constructor; [exact Ws|constructor]]. destruct H as [H|[v [I [-> H]]]]; [left; exact H|]. right. right. split; [discriminate|]. exists (scalar_text v). cbn [app] in H. rewrite H. split; [reflexivity|].
  cbn in I. destruct I as [<-|[<-|[<-|[]]]]; reflexivity.
Qed.
Lemma lex_given : forall n ls s ts e, lex_loop n false ([], ls) s = (ts, e) -> stream ts s.
Proof.
  induction n as [|n IH]; intros ls s ts e H; [injection H as <- _; constructor|]. cbn [lex_loop] in H.
  destruct (pull_next_token _ false ([], ls) s) as [[[t sv'] r]|?|?] eqn:P; try (injection H as <- _; constructor). destruct (pull_given _ _ _ _ _ _ P) as [w [y [-> [B [-> K]]]]]. clear P. rewrite saver_check_eq in H.
  set (here := match match w with [] => None | _ :: _ => Some (if ls && is_simple_value t then TUnquoted w else TIgnored w) end with Some wt => [wt] | None => [] end ++ [t]) in *.
  assert (G : forall rest, stream (t :: rest) y -> stream (here ++ rest) (w ++ y)).
  { intros rest S. unfold here. destruct w as [|a w]; cbn [app]; [exact S|].
    apply (stream_cons _ (a :: w)); [destruct (ls && is_simple_value t); discriminate|destruct (ls && is_simple_value t); apply space_blank, B|exact S]. }
  assert (D : t = TEnd /\ ts = here \/ t <> TEnd /\ exists rest, ts = here ++ rest /\ lex_loop n false ([], is_simple_value t) r = (rest, e)).
  { destruct t; try (right; split; [discriminate|]; destruct (lex_loop n false _ r) as [rest e']; injection H as <- ->; eauto). left. injection H as <- _. auto. }
  destruct D as [[-> ->]|[N [rest [-> L]]]].
  - rewrite <- (app_nil_r here). apply G. destruct K as [K|[[_ ->]|[K _]]]; [discriminate K|constructor|congruence].
  - apply G. destruct K as [K|[[K _]|[_ [x [-> S]]]]]; [apply stream_stop, K|congruence|]. apply stream_cons; [exact N|exact S|]. exact (IH _ _ _ _ L).
Qed.
Lemma stream_prefix : forall ts s, stream ts s -> stream (removelast ts) s.
Proof.
  intros ts s S. induction S as [|s|t ts s F|t x ts s N Y S IH]; [constructor|constructor| |].
  - destruct ts; [constructor|]. apply stream_stop, F.
  - destruct ts; [constructor|]. apply stream_cons; [exact N|exact Y|exact IH].
Qed.
Lemma delivered_given : forall s ts e, delivered (lex false s) = (ts, e) -> stream (List.tl ts) s.
Proof.
  intros s ts e H. unfold lex in H. destruct (lex_loop _ _ saver_init s) as [l e0] eqn:L. apply lex_given in L.
  destruct e0; cbn [delivered] in H; injection H as <- _; [exact L| |]; destruct l; try constructor; exact (stream_prefix _ _ L).
Qed.
