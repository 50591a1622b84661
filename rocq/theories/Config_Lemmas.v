(** Getters. *)
From Coq Require Import ZifyBool.
From Verif Require Import Base BaseLemmas Token_Lemmas Token_Lemmas2 Doc_Lemmas Util_Model Num_Model Path_Model Path_Spec Path_Lemmas Token_Model Token_Spec PathParser_Model PathParser_Spec PathParser_Lemmas PathParser_Lemmas2 PathParser_Lemmas3
  Value_Model Value_Spec Value_Lemmas Value_Lemmas2 Duration_Model Duration_Spec Duration_Lemmas Config_Model Config_Spec.

Lemma new_path_not_empty : forall s p, new_path s = Ok p -> p <> [].
Proof. intros s p H. apply (new_path_empty_keys _ _ H). Qed.

Lemma plain_type : forall v, plain v -> exists t, value_type v = Ok t.
Proof. intros v H. destruct v; inversion H; cbn; eauto. Qed.

Definition converted (v : value) (expected : vtype) : result value :=
  if vtype_eqb expected TUnspecified then Ok v
  else v' <- transform v expected ;; t <- value_type v' ;;
       if vtype_eqb t expected || vtype_eqb t TNull then Ok v' else Throw EWrongType.

Lemma sliced_ok : forall A (r : result A), (exists a, r = Ok a) -> sliced r = r.
Proof. intros A r [a ->]. reflexivity. Qed.

Lemma peek_path_plain : forall p v, p <> [] -> plain v -> simple_object v -> peek_path v p = Ok (get p v).
Proof.
  intro p. induction p as [|k p IH]; intros v Hp Hv [r [i [m ->]]]; [congruence|]. cbn [peek_path peek get].
  destruct p as [|k2 p].
  - destruct (find_key k m); reflexivity.
  - destruct (find_key k m) as [w|] eqn:F; [|reflexivity]. assert (Pw : plain w) by exact (plain_find _ _ _ _ _ Hv F).
    destruct (is_object w) eqn:O.
    + apply IH; [discriminate|exact Pw|]. destruct w; try discriminate; [repeat eexists|inversion Pw].
    + destruct w; try reflexivity. discriminate.
Qed.

Lemma find_plain : forall p self expected original pre, p <> [] -> original = pre ++ p -> plain self -> simple_object self ->
  find_or_null self p expected original =
  match get p self with None => Throw EConfig | Some v => sliced (converted v expected) end.
Proof.
  intro p. induction p as [|k p IH]; intros self expected original pre Hp Ho Hs [r [i [m ->]]]; [congruence|].
  cbn [find_or_null get]. destruct p as [|k2 p].
  - unfold find_key_or_null, peek_assuming_resolved. cbn [peek bind]. destruct (find_key k m) as [v|]; [|reflexivity]. reflexivity.
  - assert (S : exists q, sub_path2 original 0 (length original - length (k2 :: p)) = Ok q).
    { exists (slice 0 (List.length pre + 1) original). subst original.
      rewrite (length_spec (pre ++ k :: k2 :: p)) by (destruct pre; discriminate). rewrite (length_spec (k2 :: p)) by discriminate.
      rewrite app_length. replace (Z.of_nat (List.length pre + List.length (k :: k2 :: p)) - Z.of_nat (List.length (k2 :: p))) with (Z.of_nat (List.length pre + 1)) by (cbn [List.length]; lia).
      apply (sub_path2_spec _ 0%nat); [lia|]. rewrite app_length. cbn [List.length]. lia. }
    destruct S as [q ->]. cbn [bind]. unfold find_key_, find_key_or_null, peek_assuming_resolved. cbn [peek bind].
    destruct (find_key k m) as [v|] eqn:F; [|reflexivity]. cbn [vtype_eqb]. assert (Pv : plain v) by exact (plain_find _ _ _ _ _ Hs F).
    destruct v as [s|vs|r' i' m'| | | |]; try (inversion Pv; fail).
    + destruct s; reflexivity.
    + reflexivity.
    + cbn [transform value_type bind vtype_eqb orb throw_if_null is_object]. rewrite (IH (VObj r' i' m') expected original (pre ++ [k])).
      * destruct (get (k2 :: p) (VObj r' i' m')) as [w|]; [|reflexivity].
        destruct (converted w expected) as [| e |]; cbn [sliced]; try reflexivity. destruct (is_config_exn e) eqn:E; [reflexivity|]. cbn [sliced]. rewrite E. reflexivity.
      * discriminate.
      * rewrite <- app_assoc. exact Ho.
      * exact Pv.
      * repeat eexists.
Qed.

Lemma find_expr : forall self ps p expected, plain self -> simple_object self -> new_path ps = Ok p ->
  find self ps expected = match get p self with None => Throw EConfig | Some v => v' <- sliced (converted v expected) ;; throw_if_null v' end.
Proof.
  intros self ps p expected H1 H2 Hp. unfold find. rewrite Hp. cbn [bind].
  rewrite (find_plain p self expected p [] (new_path_not_empty _ _ Hp) eq_refl H1 H2). destruct (get p self); reflexivity.
Qed.

Lemma plain_get : forall p v w, plain v -> get p v = Some w -> plain w.
Proof.
  intro p. induction p as [|k p IH]; intros v w H G; [injection G as <-; exact H|]. destruct v as [| |r i m| | | |]; try discriminate.
  cbn [get] in G. destruct (find_key k m) as [u|] eqn:F; [|discriminate]. apply (IH u w); [exact (plain_find _ _ _ _ _ H F)|exact G].
Qed.

Lemma find_value : forall self ps p, plain self -> simple_object self -> new_path ps = Ok p ->
  get_value self ps = outcome (get p self) Some.
Proof.
  intros self ps p H1 H2 Hp. unfold get_value. rewrite (find_expr self ps p _ H1 H2 Hp). destruct (get p self) as [v|] eqn:G; [|reflexivity].
  pose proof (plain_get _ _ _ H1 G) as Pv. destruct v as [s| | | | | |]; try (inversion Pv; fail); try reflexivity. destruct s; reflexivity.
Qed.

Lemma get_string_spec : forall self ps p, plain self -> simple_object self -> new_path ps = Ok p ->
  get_string self ps = outcome (get p self) as_text.
Proof.
  intros self ps p H1 H2 Hp. unfold get_string. rewrite (find_expr self ps p _ H1 H2 Hp). destruct (get p self) as [v|] eqn:G; [|reflexivity].
  pose proof (plain_get _ _ _ H1 G) as Pv. destruct v as [s| | | | | |]; try (inversion Pv; fail); try reflexivity.
  destruct s as [|[]|z [|c t]|z [|c t]|d [|c t]|s q]; reflexivity.
Qed.

Lemma get_bool_spec : forall self ps p, plain self -> simple_object self -> new_path ps = Ok p ->
  get_bool self ps = outcome (get p self) as_bool.
Proof.
  intros self ps p H1 H2 Hp. unfold get_bool. rewrite (find_expr self ps p _ H1 H2 Hp). destruct (get p self) as [v|] eqn:G; [|reflexivity].
  pose proof (plain_get _ _ _ H1 G) as Pv. destruct v as [s| | | | | |]; try (inversion Pv; fail); try reflexivity.
  destruct s as [|b|z t|z t|d t|s q]; try reflexivity. unfold outcome, is_null, as_bool, one_of, converted, transform. cbn [vtype_eqb value_type scalar_type bind existsb].
  rewrite !orb_false_r. rewrite !orb_assoc.
  destruct (str_eqb s (lit "true") || str_eqb s (lit "yes") || str_eqb s (lit "on")); [reflexivity|].
  destruct (str_eqb s (lit "false") || str_eqb s (lit "no") || str_eqb s (lit "off")); reflexivity.
Qed.

Lemma get_number_spec : forall self ps p, plain self -> simple_object self -> new_path ps = Ok p ->
  get_number self ps = outcome (get p self) as_number.
Proof.
  intros self ps p H1 H2 Hp. unfold get_number. rewrite (find_expr self ps p _ H1 H2 Hp). destruct (get p self) as [v|] eqn:G; [|reflexivity].
  pose proof (plain_get _ _ _ H1 G) as Pv. destruct v as [s| | | | | |]; try (inversion Pv; fail); try reflexivity.
  destruct s as [|b|z t|z t|d t|s q]; try reflexivity. unfold outcome, is_null, as_number, converted, transform. cbn [vtype_eqb value_type scalar_type bind].
  destruct (lexical_cast_int64 s); [reflexivity|]. destruct (text_to_double s); reflexivity.
Qed.

Lemma get_double_spec : forall self ps p, plain self -> simple_object self -> new_path ps = Ok p ->
  get_double self ps = outcome (get p self) as_double.
Proof.
  intros self ps p H1 H2 Hp. unfold get_double. rewrite (get_number_spec self ps p H1 H2 Hp). destruct (get p self) as [v|]; [|reflexivity].
  destruct v as [s| | | | | |]; try reflexivity. destruct s as [|b|z t|z t|d t|s q]; try reflexivity.
  unfold outcome, is_null, as_double, as_number. destruct (lexical_cast_int64 s); [reflexivity|]. destruct (text_to_double s); reflexivity.
Qed.

Lemma get_object_spec : forall self ps p, plain self -> simple_object self -> new_path ps = Ok p ->
  get_object self ps = outcome (get p self) as_object.
Proof.
  intros self ps p H1 H2 Hp. unfold get_object. rewrite (find_expr self ps p _ H1 H2 Hp). destruct (get p self) as [v|] eqn:G; [|reflexivity].
  pose proof (plain_get _ _ _ H1 G) as Pv. destruct v as [s| | | | | |]; try (inversion Pv; fail); try reflexivity. destruct s; reflexivity.
Qed.

Lemma get_list_spec : forall self ps p, plain self -> simple_object self -> new_path ps = Ok p ->
  get_list self ps = outcome (get p self) as_list.
Proof.
  intros self ps p H1 H2 Hp. unfold get_list. rewrite (find_expr self ps p _ H1 H2 Hp). destruct (get p self) as [v|] eqn:G; [|reflexivity].
  pose proof (plain_get _ _ _ H1 G) as Pv. destruct v as [s| | | | | |]; try (inversion Pv; fail); try reflexivity. destruct s; reflexivity.
Qed.

Lemma getters_spec : forall self ps p, plain self -> simple_object self -> new_path ps = Ok p ->
  get_value self ps = outcome (get p self) Some /\
  get_string self ps = outcome (get p self) as_text /\
  get_bool self ps = outcome (get p self) as_bool /\
  get_double self ps = outcome (get p self) as_double /\
  get_object self ps = outcome (get p self) as_object /\
  get_list self ps = outcome (get p self) as_list.
Proof.
  intros self ps p H1 H2 Hp. repeat split;
    [apply find_value|apply get_string_spec|apply get_bool_spec|apply get_double_spec|apply get_object_spec|apply get_list_spec]; assumption.
Qed.

(** ** has_path *)

Lemma has_path_value : forall self ps p, plain self -> simple_object self -> new_path ps = Ok p ->
  has_path self ps = Ok (match get p self with Some v => negb (is_null v) | None => false end) /\
  has_path_or_null self ps = Ok (match get p self with Some v => true | None => false end).
Proof.
  intros self ps p H1 H2 Hp. unfold has_path, has_path_or_null, has_path_peek. rewrite Hp. cbn [bind].
  rewrite (peek_path_plain p self (new_path_not_empty _ _ Hp) H1 H2). cbn [sliced bind].
  destruct (get p self) as [v|] eqn:G; [|split; reflexivity]. pose proof (plain_get _ _ _ H1 G) as Pv.
  destruct v as [s| | | | | |]; try (inversion Pv; fail); try (split; reflexivity). destruct s; split; reflexivity.
Qed.

Lemma has_path_spec : forall self ps, plain self -> simple_object self ->
  (has_path self ps = Ok true <-> exists v, get_value self ps = Ok v) /\
  (has_path self ps = Ok false -> exists e, get_value self ps = Throw e /\ is_config_exn e = true) /\
  (has_path_or_null self ps = Ok true <-> has_path self ps = Ok true \/ get_value self ps = Throw ENull).
Proof.
  intros self ps H1 H2. destruct (new_path ps) as [p|e|u] eqn:Hp.
  - destruct (has_path_value self ps p H1 H2 Hp) as [-> ->]. rewrite (find_value self ps p H1 H2 Hp).
    destruct (get p self) as [v|]; cbn [outcome].
    + destruct (is_null v); cbn [negb].
      * repeat split; try discriminate; try (intros [v' E]; discriminate); try (intro; right; reflexivity). intros _. exists ENull. split; reflexivity.
      * repeat split; try discriminate; eauto.
    + repeat split; try discriminate; try (intros [v' E]; discriminate); try (intros [E|E]; discriminate). intros _. exists EConfig. split; reflexivity.
  - unfold has_path, has_path_or_null, has_path_peek, get_value, find. rewrite Hp. cbn [bind].
    assert (Hne : e <> ENull) by (destruct (new_path_outcomes ps) as [[q E]|[E|[E|[x [E _]]]]]; rewrite E in Hp; try discriminate; injection Hp as <-; discriminate).
    repeat split; try discriminate; try (intros [v' E]; discriminate); try (intros [E|E]; congruence).
  - unfold has_path, has_path_or_null, has_path_peek, get_value, find. rewrite Hp. cbn [bind].
    repeat split; try discriminate; try (intros [v' E]; discriminate); try (intros [E|E]; discriminate).
Qed.

(** ** Integers *)

Lemma sign_cases : forall n a (s : bool), 0 <= a -> ((n = 0 \/ (n < 0 <-> s = true)) /\ Z.abs n = a) <-> (if s then - a else a) = n.
Proof.
  intros n a s Ha. split.
  - intros [[H|H] E]; [subst; destruct s; reflexivity|]. destruct s; [assert (n < 0) by (apply H; reflexivity)|assert (~ n < 0) by (intro X; apply H in X; discriminate)]; lia.
  - intros <-. destruct s; (split; [|lia]); destruct (Z.eq_dec a 0); [left; lia|right|left; lia|right]; split; intro; try reflexivity; try discriminate; try lia.
Qed.

Lemma integer_part_trunc : forall d n, integer_part d n <-> double_trunc d = Some n.
Proof.
  intros d n. destruct d as [s|s| |s m e]; cbn [integer_part double_trunc]; try (split; [intros []|discriminate]).
  - split; [intros ->; reflexivity|intro H; injection H as <-; reflexivity].
  - destruct (0 <=? e) eqn:E.
    + assert (P : 0 <= Z.pos m * 2 ^ e) by (apply Z.mul_nonneg_nonneg; [lia|apply Z.pow_nonneg; lia]). rewrite sign_cases by exact P. split; congruence.
    + assert (P : 0 < 2 ^ (- e)) by (apply Z.pow_pos_nonneg; lia). remember (2 ^ (- e)) as b.
      assert (Q : 0 <= Z.pos m / b) by (apply Z.div_pos; lia).
      transitivity ((n = 0 \/ (n < 0 <-> s = true)) /\ Z.abs n = Z.pos m / b).
      * split; intros [H1 H2]; (split; [exact H1|]); remember (Z.abs n) as a.
        -- apply Z.div_unique with (Z.pos m - b * a); lia.
        -- subst a. pose proof (Z.div_mod (Z.pos m) b). pose proof (Z.mod_pos_bound (Z.pos m) b). lia.
      * rewrite sign_cases by exact Q. split; congruence.
Qed.

Lemma cast_spec : forall d n, integer_part d n -> cast_int64 d = if in_int64 n then Ok n else Stuck UFloatCast.
Proof. intros d n H. apply integer_part_trunc in H. unfold cast_int64. rewrite H. reflexivity. Qed.

Lemma cast_inv : forall d n, cast_int64 d = Ok n -> integer_part d n /\ in_int64 n = true.
Proof.
  intros d n H. unfold cast_int64 in H. destruct (double_trunc d) as [z|] eqn:E; [|discriminate]. destruct (in_int64 z) eqn:I; [|discriminate].
  injection H as <-. apply integer_part_trunc in E. auto.
Qed.

Lemma number_long : forall v s n, as_number v = Some s -> long_value s = Ok n -> stands_for v n.
Proof.
  intros v s n H L. destruct v as [x| | | | | |]; try discriminate. destruct x as [|b|z t|z t|d t|t q]; try discriminate; cbn in H.
  - injection H as <-. injection L as <-. reflexivity.
  - injection H as <-. injection L as <-. reflexivity.
  - injection H as <-. cbn in L |- *. apply (cast_inv _ _ L).
  - cbn. destruct (lexical_cast_int64 t) as [z|] eqn:E.
    + injection H as <-. injection L as <-. left. apply lexical_int_spec, E.
    + right. split; [reflexivity|]. destruct (text_to_double t) as [d|]; [|discriminate]. injection H as <-. exists d. split; [reflexivity|]. apply (cast_inv _ _ L).
Qed.

Lemma fits32_iff : forall n, in_int n = true <-> fits32 n.
Proof. intro n. unfold in_int, fits32. change int_min with (-2147483648). change int_max with 2147483647. lia. Qed.
Lemma fits64_iff : forall n, in_int64 n = true <-> fits64 n.
Proof. intro n. apply in_int64_iff. Qed.

Lemma get_int_sound : forall self ps n, plain self -> simple_object self -> get_int self ps = Ok n ->
  exists p v, new_path ps = Ok p /\ get p self = Some v /\ stands_for v n /\ fits32 n.
Proof.
  intros self ps n H1 H2 H. unfold get_int in H. inv_bind H. assert (exists p, new_path ps = Ok p) as [p Hp].
  { unfold get_number, find in Hb. destruct (new_path ps) as [p| |]; try discriminate. eauto. }
  rewrite (get_number_spec self ps p H1 H2 Hp) in Hb. unfold outcome in Hb. destruct (get p self) as [v|] eqn:G; [|discriminate].
  destruct (is_null v); [discriminate|]. destruct (as_number v) as [s|] eqn:A; [|discriminate]. injection Hb as <-.
  unfold int_value_range_checked in Hk. inv_bind Hk. destruct (in_int a) eqn:I; [|discriminate]. injection Hk0 as <-.
  exists p, v. split; [exact Hp|]. split; [exact G|]. split; [exact (number_long _ _ _ A Hb)|apply fits32_iff, I].
Qed.

Lemma stands_for_number : forall v n, stands_for v n -> exists s, as_number v = Some s /\ is_null v = false /\
  (long_value s = Ok n \/ ((exists d t, s = SDouble d t /\ integer_part d n))).
Proof.
  intros v n H. destruct v as [x| | | | | |]; try destruct H. destruct x as [|b|z t|z t|d t|t q]; try destruct H; cbn.
  - exists (SInt n t). auto.
  - exists (SLong n t). auto.
  - eexists. split; [reflexivity|]. split; [reflexivity|]. right. exists d, t. auto.
  - assert (L : lexical_cast_int64 t = Some n) by (apply lexical_int_spec; assumption). rewrite L. eexists. split; [reflexivity|]. auto.
  - destruct H as [L [d [T I]]]. rewrite L, T. eexists. split; [reflexivity|]. split; [reflexivity|]. right. exists d, t. auto.
Qed.

Lemma get_int_complete : forall self ps p v n, plain self -> simple_object self -> new_path ps = Ok p -> get p self = Some v -> stands_for v n ->
  fits64 n -> get_long self ps = Ok n /\ (fits32 n -> get_int self ps = Ok n) /\ (~ fits32 n -> get_int self ps = Throw EConfig).
Proof.
  intros self ps p v n H1 H2 Hp G S F. destruct (stands_for_number v n S) as [s [A [N L]]].
  assert (L' : long_value s = Ok n).
  { destruct L as [L|[d [t [-> I]]]]; [exact L|]. cbn. rewrite (cast_spec d n I). apply fits64_iff in F. rewrite F. reflexivity. }
  assert (Gn : get_number self ps = Ok s).
  { rewrite (get_number_spec self ps p H1 H2 Hp), G. cbn [outcome]. rewrite N, A. reflexivity. }
  unfold get_long, get_int, int_value_range_checked. rewrite Gn. cbn [bind]. rewrite L'. cbn [bind].
  rewrite <- fits32_iff. destruct (in_int n); repeat split; congruence.
Qed.

(** Literals: the tokenizer never changes the value of an integer. *)
Lemma number_token_exact : forall c more t, number_token more (c :: more) = Ok t -> exact_integer t.
Proof.
  intros c more t H. unfold number_token, number_fallback in H. destruct (has_decimal_or_e more) eqn:D.
  - assert (W : ~ whole_text (c :: more)).
    { intros [W1 [W2 W3]]. unfold has_decimal_or_e in D. apply existsb_exists in D. destruct D as [x [I X]]. apply orb_true_iff in X. destruct X as [X|X]; [apply orb_true_iff in X; destruct X as [X|X]|]; apply Ascii.eqb_eq in X; subst x.
      - apply W1. right. exact I.
      - apply W2. right. exact I.
      - apply W3. right. exact I. }
    destruct (lexical_cast_double (c :: more)) as [d|].
    + inv_bind H. injection Hk as <-. unfold new_number_double in Hb. inv_bind Hb. injection Hk as <-. destruct (SFeqb (int_to_double a0) d).
      * unfold new_number_int. destruct (in_int a0); (split; [reflexivity|]); intro; contradiction.
      * split; [reflexivity|exact W].
    + destruct (existsb _ _); [discriminate|]. injection H as <-. exact I.
  - destruct (lexical_cast_int64 (c :: more)) as [z|] eqn:L.
    + apply lexical_int_spec in L. destruct L as [L1 L2]. injection H as <-. unfold new_number_int. destruct (in_int z) eqn:I; (split; [reflexivity|]); intros _; (split; [exact L1|]).
      * apply fits32_iff, I.
      * apply fits64_iff, L2.
    + destruct (existsb _ _); [discriminate|]. injection H as <-. exact I.
Qed.

Lemma pull_exact : forall n ac sv s t sv' r, pull_next_token n ac sv s = Ok (t, sv', r) -> exact_integer t.
Proof.
  intros [|n] ac [ws ls] s t sv' r H; [discriminate|]. cbn [pull_next_token] in H.
  destruct (next_char_after_whitespace ws s) as [ws' [[c s']|]]; [|injection H as <- <- <-; exact I].
  destruct (Ascii.eqb c nl); [injection H as <- <- <-; exact I|].
  inv_bind H. destruct a as [t' r']. injection Hk as -> <- <-.
  destruct (start_of_comment ac c s').
  { unfold pull_comment in Hb. destruct (Ascii.eqb c "/").
    - destruct s' as [|c' s'']; [discriminate|]. destruct (Ascii.eqb c' "/"); [|discriminate].
      destruct (comment_text s''). injection Hb as <- <-. exact I.
    - destruct (comment_text s'). injection Hb as <- <-. exact I. }
  destruct (Ascii.eqb c (ch 34)).
  { unfold pull_quoted_string in Hb. inv_bind Hb. destruct a as [[p o] r1]. inv_bind Hk. destruct a as [[p' o'] r2].
    injection Hk0 as <- <-. exact I. }
  destruct (Ascii.eqb c "$").
  { inv_bind Hb. destruct a as [o' s2]. apply (proj2 (pull_len _)) in Hk. destruct Hk as [_ [e ->]]. exact I. }
  repeat match type of Hb with (if Ascii.eqb c ?k then _ else _) = _ =>
    destruct (Ascii.eqb c k);
    [ first [ (injection Hb as <- <-; exact I)
            | (unfold pull_plus_equals in Hb; destruct s' as [|c' s'']; [discriminate|];
               destruct (Ascii.eqb c' "="); [injection Hb as <- <-; exact I|discriminate]) ] | ] end.
  destruct (mem c first_number_chars).
  { unfold pull_number in Hb. destruct (span_number s') as [m r1].
    inv_bind Hb. injection Hk as -> <-. apply number_token_exact in Hb0. exact Hb0. }
  destruct (mem c not_in_unquoted_text); [discriminate|].
  apply Ok_inj in Hb. revert Hb. generalize (c :: s') (@nil ascii).
  intros l. induction l as [|y l IH]; intros l0 Hb; cbn [pull_unquoted_text] in Hb; [injection Hb as <- <-; exact I|].
  destruct (_ || _) in Hb; [injection Hb as <- <-; exact I|].
  repeat match type of Hb with (if ?b then _ else _) = _ => destruct b; [injection Hb as <- <-; exact I|] end.
  eapply IH, Hb.
Qed.

Lemma literals_exact : forall ac s, Forall exact_integer (fst (lex ac s)).
Proof.
  intros ac s. unfold lex. assert (L : forall n sv s, Forall exact_integer (fst (lex_loop n ac sv s))).
  { clear s. induction n as [|n IH]; intros [ws ls] s; cbn [lex_loop]; [constructor|].
    destruct (pull_next_token (S (List.length s)) ac (ws, ls) s) as [[[t [ws' ls']] r]|x|u] eqn:E; try constructor.
    pose proof (pull_exact _ _ _ _ _ _ _ E) as Hf. rewrite saver_check_eq.
    assert (C : forall l, Forall exact_integer l -> Forall exact_integer ((match match ws' with [] => None | _ :: _ =>
       Some (if ls' && is_simple_value t then TUnquoted ws' else TIgnored ws') end with Some wt => [wt] | None => [] end ++ [t]) ++ l)).
    { intros l Hl. apply Forall_app. split; [|exact Hl]. apply Forall_app. split; [|repeat constructor; exact Hf].
      destruct ws'; [constructor|]. constructor; [|constructor]. destruct (ls' && is_simple_value t); exact I. }
    pose proof (C _ (IH ([], is_simple_value t) r)) as C1. specialize (C [] (Forall_nil _)). rewrite app_nil_r in C.
    destruct t; cbn [fst]; try exact C; destruct (lex_loop n ac _ r); exact C1. }
  specialize (L (S (List.length s)) saver_init s). destruct (lex_loop _ ac saver_init s). cbn [fst] in *. constructor; [exact I|exact L].
Qed.

(** ** Well-behaved getters *)

Lemma outcome_behaved : forall A o (f : value -> option A), well_behaved (outcome o f).
Proof. intros A [v|] f; cbn; [|reflexivity]. destruct (is_null v); [reflexivity|]. destruct (f v); cbn; reflexivity || exact I. Qed.

Lemma unwrapped_ok : forall v, plain v -> exists u, unwrapped v = Ok u.
Proof.
  intro v. induction v as [s|vs IH|r i m IH|n p o l|vs IH|vs IH|vs IH] using value_induction; intro H; try (inversion H; fail); cbn [unwrapped].
  - eauto.
  - inversion H as [|? F|]; subst. clear H. match goal with |- exists u, (l <- ?g vs ;; _) = _ => assert (E : exists l, g vs = Ok l) end.
    { induction vs as [|v vs IHv]; [eauto|]. inversion IH; inversion F; subst. destruct (H1 H5) as [u ->]. cbn [bind]. destruct IHv as [l ->]; auto. cbn. eauto. }
    destruct E as [l ->]. cbn. eauto.
  - inversion H as [| |? ? N F]; subst. clear H N. match goal with |- exists u, (l <- ?g m ;; _) = _ => assert (E : exists l, g m = Ok l) end.
    { induction m as [|[k v] m IHm]; [eauto|]. inversion IH; inversion F; subst. cbn [snd] in *. destruct (H1 H5) as [u ->]. cbn [bind]. destruct IHm as [l ->]; auto. cbn. eauto. }
    destruct E as [l ->]. cbn. eauto.
Qed.

Lemma unwrapped_list : forall vs u, unwrapped (VList vs) = Ok u -> exists l, u = UList l.
Proof. intros vs u H. cbn [unwrapped] in H. inv_bind H. injection Hk as <-. eauto. Qed.

Lemma pick_all_behaved : forall A (pick : unwrapped_value -> option A) l, well_behaved (pick_all pick l).
Proof.
  intros A pick l. induction l as [|u l IH]; [exact I|]. cbn [pick_all]. destruct (pick u); [|reflexivity].
  destruct (pick_all pick l); cbn in *; auto.
Qed.

Lemma the_list_spec : forall self ps p, plain self -> simple_object self -> new_path ps = Ok p ->
  (exists vs, the_list self ps = Ok vs /\ plain (VList vs)) \/ (exists e, the_list self ps = Throw e /\ is_config_exn e = true).
Proof.
  intros self ps p H1 H2 Hp. unfold the_list. rewrite (get_list_spec self ps p H1 H2 Hp). destruct (get p self) as [v|] eqn:G; cbn [outcome].
  - destruct (is_null v) eqn:N; [right; eexists; split; reflexivity|]. pose proof (plain_get _ _ _ H1 G) as Pv.
    destruct v; cbn; try (right; eexists; split; reflexivity). left. eexists. split; [reflexivity|exact Pv].
  - right. eexists. split; reflexivity.
Qed.

Lemma homogeneous_behaved : forall A (pick : unwrapped_value -> option A) self ps p, plain self -> simple_object self -> new_path ps = Ok p ->
  well_behaved (get_homogeneous pick self ps).
Proof.
  intros A pick self ps p H1 H2 Hp. unfold get_homogeneous. destruct (the_list_spec self ps p H1 H2 Hp) as [[vs [-> P]]|[e [-> E]]]; [|exact E].
  cbn [bind]. destruct (unwrapped_ok _ P) as [u Hu]. rewrite Hu. cbn [bind]. destruct (unwrapped_list _ _ Hu) as [l ->]. apply pick_all_behaved.
Qed.

Lemma getters_behaved : forall self ps p, plain self -> simple_object self -> new_path ps = Ok p ->
  well_behaved (has_path self ps) /\ well_behaved (has_path_or_null self ps) /\ well_behaved (get_is_null self ps) /\
  well_behaved (get_value self ps) /\ well_behaved (get_bool self ps) /\ well_behaved (get_double self ps) /\
  well_behaved (get_string self ps) /\ well_behaved (get_object self ps) /\ well_behaved (get_config self ps) /\
  well_behaved (get_list self ps) /\ well_behaved (get_any_ref self ps) /\ well_behaved (get_bool_list self ps) /\
  well_behaved (get_int_list self ps) /\ well_behaved (get_long_list self ps) /\ well_behaved (get_double_list self ps) /\
  well_behaved (get_string_list self ps) /\ well_behaved (get_config_list self ps) /\
  (forall v, get p self = Some v -> (forall s d t, as_number v = Some s -> s = SDouble d t -> exists n, integer_part d n /\ fits64 n) ->
     well_behaved (get_int self ps) /\ well_behaved (get_long self ps)) /\
  (forall vs, get p self = Some (VList vs) -> forallb is_object vs = true -> well_behaved (get_object_list self ps)).
Proof.
  intros self ps p H1 H2 Hp. destruct (getters_spec self ps p H1 H2 Hp) as [E1 [E2 [E3 [E4 [E5 E6]]]]]. destruct (has_path_value self ps p H1 H2 Hp) as [E7 E8].
  rewrite E1, E2, E3, E4, E5, E6, E7, E8. split; [exact I|]. split; [exact I|]. split.
  { unfold get_is_null, find_or_null_expr. rewrite Hp. cbn [bind]. rewrite (find_plain p self TUnspecified p [] (new_path_not_empty _ _ Hp) eq_refl H1 H2).
    destruct (get p self) as [v|] eqn:G; [|reflexivity]. cbn [converted vtype_eqb sliced bind]. destruct (plain_type v (plain_get _ _ _ H1 G)) as [t ->]. exact I. }
  do 5 (split; [apply outcome_behaved|]). split.
  { unfold get_config. rewrite E5. destruct (get p self) as [v|]; cbn [outcome]; [|reflexivity]. destruct (is_null v); [reflexivity|]. destruct v; cbn; reflexivity || exact I. }
  split; [apply outcome_behaved|]. split.
  { unfold get_any_ref. change (find self ps TUnspecified) with (get_value self ps). rewrite E1. destruct (get p self) as [v|] eqn:G; cbn [outcome]; [|reflexivity].
    destruct (is_null v); [reflexivity|]. cbn [bind]. destruct (unwrapped_ok v (plain_get _ _ _ H1 G)) as [u ->]. exact I. }
  do 5 (split; [apply (homogeneous_behaved _ _ self ps p H1 H2 Hp)|]). split.
  { unfold get_config_list. destruct (the_list_spec self ps p H1 H2 Hp) as [[vs [-> P]]|[e [-> E]]]; [|exact E]. cbn [bind]. destruct vs; [exact I|reflexivity]. }
  split.
  - intros v G C. unfold get_int, get_long. rewrite (get_number_spec self ps p H1 H2 Hp), G. cbn [outcome]. destruct (is_null v); [split; reflexivity|].
    destruct (as_number v) as [s|] eqn:A; [|split; reflexivity]. cbn [bind]. unfold int_value_range_checked.
    assert (L : exists n, long_value s = Ok n).
    { destruct s as [|b|z t|z t|d t|t q]; cbn; eauto. destruct (C _ d t eq_refl eq_refl) as [n [Hi Hf]]. rewrite (cast_spec d n Hi). apply fits64_iff in Hf. rewrite Hf. eauto. }
    destruct L as [n ->]. cbn [bind]. split; [|exact I]. destruct (in_int n); [exact I|reflexivity].
  - intros vs G F. unfold get_object_list, the_list. rewrite E6, G. cbn. rewrite F. exact I.
Qed.

(** ** Durations of configured values *)

Lemma timespan_spec : forall self ps p v, plain self -> simple_object self -> new_path ps = Ok p -> get p self = Some v ->
  (forall z t, v = VScalar (SInt z t) \/ v = VScalar (SLong z t) -> get_timespan self ps = convert_long z MILLISECONDS) /\
  (forall s q, v = VScalar (SStr s q) -> get_timespan self ps = parse_duration s).
Proof.
  intros self ps p v H1 H2 Hp G. unfold get_timespan. rewrite (find_value self ps p H1 H2 Hp), G. split.
  - intros z t [-> | ->]; reflexivity.
  - intros s q ->. reflexivity.
Qed.

Lemma duration_correct : forall self ps p v n u unit, plain self -> simple_object self -> new_path ps = Ok p -> get p self = Some v ->
  ((exists t, v = VScalar (SInt n t) \/ v = VScalar (SLong n t)) /\ u = MILLISECONDS \/
   (exists w1 t w2 name w3 q, v = VScalar (SStr (w1 ++ t ++ w2 ++ lit name ++ w3) q) /\
      spaces w1 /\ spaces w2 /\ spaces w3 /\ decimal t n /\ In name (unit_names u))) ->
  fits64 n ->
  match get_duration self ps unit with
  | Ok r => r = Z.quot (n * nanos_in u) (nanos_in unit)
  | Throw e => e = EConfig /\ n < 0 /\ (- second < n * nanos_in u \/ - nanos_in unit < n * nanos_in u)
  | Stuck x => x = UOverflow /\ (~ fits64 (Z.quot (n * nanos_in u) second) \/ ~ fits64 (Z.quot (n * nanos_in u) (nanos_in unit)))
  end.
Proof.
  intros self ps p v n u unit H1 H2 Hp G Hv F. apply fits64_iff in F. destruct (timespan_spec self ps p v H1 H2 Hp G) as [T1 T2].
  assert (T : get_timespan self ps = convert_long n u).
  { destruct Hv as [[[t Ht] ->]|[w1 [t [w2 [name [w3 [q [-> [S1 [S2 [S3 [D I]]]]]]]]]]]].
    - exact (T1 n t Ht).
    - rewrite (T2 _ q eq_refl). exact (duration_text w1 t w2 name w3 n u S1 S2 S3 D F I). }
  unfold get_duration. rewrite T. pose proof (convert_long_full n u F) as C. assert (P : 0 < nanos_in u) by (destruct u; reflexivity).
  destruct (convert_long n u) as [d|e|x]; cbn [bind].
  - destruct C as [C1 C2]. pose proof (in_unit_full d unit C2) as U. destruct (in_unit d unit) as [r|e|x].
    + rewrite U, C1. reflexivity.
    + destruct U as [U1 [U2 U3]]. rewrite C1 in *. split; [exact U1|]. split; [nia|]. lia.
    + destruct U as [U1 U2]. rewrite C1 in U2. split; [exact U1|]. right. rewrite <- fits64_iff. congruence.
  - destruct C as [-> C]. split; [reflexivity|]. split; [nia|lia].
  - destruct C as [-> C]. split; [reflexivity|]. left. rewrite <- fits64_iff. congruence.
Qed.

Lemma get_int_other : forall self ps p, plain self -> simple_object self -> new_path ps = Ok p ->
  match get p self with Some v => as_double v = None | None => True end ->
  get_int self ps = outcome (get p self) (fun _ => None) /\ get_long self ps = outcome (get p self) (fun _ => None).
Proof.
  intros self ps p H1 H2 Hp H. unfold get_int, get_long. rewrite (get_number_spec self ps p H1 H2 Hp). destruct (get p self) as [v|]; [|split; reflexivity].
  cbn [outcome]. destruct (is_null v); [split; reflexivity|].
  assert (N : as_number v = None).
  { destruct v as [[| | | | |s q]| | | | | |]; try reflexivity; try discriminate. cbn in H |- *. destruct (lexical_cast_int64 s); [discriminate|]. destruct (text_to_double s); [discriminate|reflexivity]. }
  rewrite N. split; reflexivity.
Qed.

Lemma getters_behaved_all : forall self ps, plain self -> simple_object self -> (forall u, new_path ps <> Stuck u) ->
  well_behaved (has_path self ps) /\ well_behaved (has_path_or_null self ps) /\ well_behaved (get_is_null self ps) /\
  well_behaved (get_value self ps) /\ well_behaved (get_bool self ps) /\ well_behaved (get_double self ps) /\
  well_behaved (get_string self ps) /\ well_behaved (get_object self ps) /\ well_behaved (get_config self ps) /\
  well_behaved (get_list self ps) /\ well_behaved (get_any_ref self ps) /\ well_behaved (get_bool_list self ps) /\
  well_behaved (get_int_list self ps) /\ well_behaved (get_long_list self ps) /\ well_behaved (get_double_list self ps) /\
  well_behaved (get_string_list self ps) /\ well_behaved (get_config_list self ps) /\
  ((forall v s d t, get_value self ps = Ok v -> as_number v = Some s -> s = SDouble d t -> exists n, integer_part d n /\ fits64 n) ->
     well_behaved (get_int self ps) /\ well_behaved (get_long self ps)) /\
  ((forall vs, get_list self ps = Ok (Some vs) -> forallb is_object vs = true) -> well_behaved (get_object_list self ps)).
Proof.
  intros self ps H1 H2 Hs. destruct (new_path ps) as [p|e|u] eqn:Hp; [|clear Hs|exfalso; exact (Hs u eq_refl)].
  - destruct (getters_behaved self ps p H1 H2 Hp) as [B1 [B2 [B3 [B4 [B5 [B6 [B7 [B8 [B9 [B10 [B11 [B12 [B13 [B14 [B15 [B16 [B17 [B18 B19]]]]]]]]]]]]]]]]]].
    do 17 (split; [assumption|]). split.
    + intro C. rewrite (find_value self ps p H1 H2 Hp) in C. destruct (get p self) as [v|] eqn:G.
      * destruct (is_null v) eqn:N.
        -- destruct (get_int_other self ps p H1 H2 Hp) as [-> ->]; [rewrite G; destruct v as [[]| | | | | |]; try discriminate; reflexivity|]. split; apply outcome_behaved.
        -- apply (B18 v eq_refl). intros s d t. apply C. cbn [outcome]. rewrite N. reflexivity.
      * destruct (get_int_other self ps p H1 H2 Hp) as [-> ->]; [rewrite G; exact I|]. split; apply outcome_behaved.
    + intro C. rewrite (get_list_spec self ps p H1 H2 Hp) in C. destruct (get p self) as [v|] eqn:G.
      * destruct v as [|vs| | | | |]; try (unfold get_object_list, the_list; rewrite (get_list_spec self ps p H1 H2 Hp), G; cbn; try destruct s; reflexivity).
        apply (B19 vs eq_refl). apply C. reflexivity.
      * unfold get_object_list, the_list. rewrite (get_list_spec self ps p H1 H2 Hp), G. reflexivity.
  - assert (He : is_config_exn e = true) by (destruct (new_path_outcomes ps) as [[q E]|[E|[E|[x [E _]]]]]; rewrite E in Hp; try discriminate; injection Hp as <-; reflexivity).
    unfold has_path, has_path_or_null, has_path_peek, get_is_null, find_or_null_expr, get_config, get_any_ref, get_bool_list, get_int_list, get_long_list, get_double_list, get_string_list, get_config_list,
      get_int, get_long, get_object_list, get_homogeneous, the_list, get_number, get_value, get_bool, get_double, get_string, get_object, get_list, get_number, find.
    rewrite Hp. cbn. repeat split; intros; try split; assumption.
Qed.
