(** Lemmas about the path expression parser. *)
From Verif Require Import Base BaseLemmas Util_Model Num_Model Path_Model Path_Lemmas Token_Model Token_Spec
  Token_Lemmas Token_Lemmas2 PathParser_Model PathParser_Spec.

(** ** add_path_text *)

Definition add_char (b : list element) (c : ascii) : list element :=
  match b with
  | [] => []
  | (v, e) :: b' => if Ascii.eqb c "." then ([], false) :: b else (v ++ [c], e) :: b'
  end.

Lemma split_dots_nonempty : forall s, split_dots s <> [].
Proof.
  induction s as [|c s IH]; cbn; [discriminate|]. destruct (Ascii.eqb c "."); [discriminate|].
  destruct (split_dots s); [contradiction|discriminate].
Qed.

Lemma add_path_text_fold : forall s b, b <> [] -> add_path_text b false s = fold_left add_char s b.
Proof.
  induction s as [|c s IH]; intros [|[v e] b] Hb; try contradiction.
  - cbn. rewrite app_nil_r. reflexivity.
  - cbn [fold_left add_char]. destruct (Ascii.eqb c ".") eqn:E.
    + rewrite <- IH by discriminate. unfold add_path_text. cbn [split_dots]. rewrite E. cbn [app].
      destruct (split_dots s) as [|p ps] eqn:Es; [exfalso; eapply split_dots_nonempty, Es|].
      cbn [fold_left]. rewrite app_nil_r. reflexivity.
    + rewrite <- IH by discriminate. unfold add_path_text. cbn [split_dots]. rewrite E.
      destruct (split_dots s) as [|p ps] eqn:Es; [exfalso; eapply split_dots_nonempty, Es|].
      rewrite <- app_assoc. reflexivity.
Qed.

Lemma add_char_ne : forall b c, b <> [] -> add_char b c <> [].
Proof. intros [|[v e] b] c H; [contradiction|]. cbn. destruct (Ascii.eqb c "."); discriminate. Qed.

Lemma fold_add_char_ne : forall s b, b <> [] -> fold_left add_char s b <> [].
Proof. induction s as [|c s IH]; intros b Hb; cbn; [exact Hb|]. apply IH, add_char_ne, Hb. Qed.

Lemma add_path_text_ne : forall b q s, b <> [] -> add_path_text b q s <> [].
Proof.
  intros b q s Hb. destruct q.
  - destruct b as [|[v e] b]; [contradiction|]. discriminate.
  - rewrite add_path_text_fold by exact Hb. apply fold_add_char_ne, Hb.
Qed.

Lemma add_path_text_app : forall a a' b, b <> [] ->
  add_path_text (add_path_text b false a) false a' = add_path_text b false (a ++ a').
Proof.
  intros a a' b Hb. rewrite (add_path_text_fold (a ++ a')), fold_left_app by exact Hb.
  rewrite (add_path_text_fold a b Hb). apply add_path_text_fold, fold_add_char_ne, Hb.
Qed.

(** ** Tokens of a path expression *)

Definition tok_buff (b : list element) (t : token) : list element :=
  match t with
  | TValue (SStr s _) _ => add_path_text b true s
  | TValue v _ => add_path_text b false (scalar_text v)
  | TUnquoted s => add_path_text b false s
  | _ => b
  end.

Definition path_token (t : token) : Prop :=
  match t with TIgnored _ | TValue _ _ | TUnquoted _ | TEnd => True | _ => False end.

Lemma path_tokens_loop_ok : forall ts o f b acc, Forall path_token ts ->
  exists acc', path_tokens_loop o f b acc ts = Ok (fold_left tok_buff ts b, acc').
Proof.
  induction ts as [|t ts IH]; intros o f b acc H; cbn [path_tokens_loop fold_left].
  - eauto.
  - inversion H; subst. destruct t; try contradiction; cbn [tok_buff].
    + apply IH; assumption.
    + apply IH; assumption.
    + apply IH; assumption.
    + destruct v; apply IH; assumption.
Qed.

Lemma path_tokens_loop_inv : forall ts o f b acc b' acc',
  path_tokens_loop o f b acc ts = Ok (b', acc') -> Forall path_token ts /\ b' = fold_left tok_buff ts b.
Proof.
  induction ts as [|t ts IH]; intros o f b acc b' acc' H; cbn [path_tokens_loop fold_left] in *.
  - injection H as <- <-. auto.
  - destruct t; try (unfold bad_path in H; destruct o; discriminate); cbn [tok_buff];
      try (destruct v); apply IH in H; destruct H; (split; [constructor; [exact I|assumption]|assumption]).
Qed.

Lemma build_path_ok : forall es o b, Forall (fun e => fst e <> [] \/ snd e = true) es ->
  build_path o es b = Ok (builder_result b ++ map fst es).
Proof.
  assert (Hr : forall b r, builder_result_from r b = rev b ++ r).
  { induction b as [|k b IH]; intro r; cbn; [reflexivity|]. rewrite IH, <- app_assoc. reflexivity. }
  induction es as [|[v e] es IH]; intros o b H; cbn [build_path map].
  - rewrite app_nil_r. reflexivity.
  - inversion H as [|x y Hx Hy]; subst. cbn in Hx.
    assert (Hc : match v with [] => negb e | _ :: _ => false end = false).
    { destruct v; [|reflexivity]. destruct Hx as [Hx| ->]; [contradiction|reflexivity]. }
    rewrite Hc, IH by exact Hy. unfold builder_result, append_key. rewrite !Hr. cbn [rev fst].
    rewrite !app_nil_r, <- app_assoc. reflexivity.
Qed.

Lemma build_path_inv : forall es o b p, build_path o es b = Ok p ->
  Forall (fun e => fst e <> [] \/ snd e = true) es.
Proof.
  induction es as [|[v e] es IH]; intros o b p H; cbn [build_path] in H; [constructor|].
  destruct v as [|c v].
  - destruct e; cbn in H; [|unfold bad_path in H; destruct o; discriminate].
    constructor; [right; reflexivity|]. eapply IH, H.
  - constructor; [left; discriminate|]. eapply IH, H.
Qed.

Lemma build_path_bad : forall es o b, ~ Forall (fun e => fst e <> [] \/ snd e = true) es ->
  build_path o es b = bad_path o.
Proof.
  induction es as [|[v e] es IH]; intros o b H; cbn [build_path]; [exfalso; apply H; constructor|].
  destruct v as [|c v].
  - destruct e; cbn; [|reflexivity]. apply IH. intro F. apply H. constructor; auto.
  - apply IH. intro F. apply H. constructor; [left; discriminate|exact F].
Qed.

(** ** The characters of rendered keys *)

Definition Uc (c : ascii) : bool := isalnum c || Ascii.eqb c "-" || Ascii.eqb c "_" || Ascii.eqb c ".".

Lemma Uc_facts : forall c, Uc c = true ->
  is_whitespace_not_newline c = false /\ is_whitespace c = false /\ Ascii.eqb c nl = false /\
  Ascii.eqb c "#" = false /\ Ascii.eqb c "/" = false /\ mem c not_in_unquoted_text = false.
Proof.
  intros c H.
  pose proof (forall_byte (fun c => implb (Uc c) (negb (is_whitespace_not_newline c) && negb (is_whitespace c)
    && negb (Ascii.eqb c nl) && negb (Ascii.eqb c "#") && negb (Ascii.eqb c "/") && negb (mem c not_in_unquoted_text)))
    ltac:(vm_compute; reflexivity) c) as F. cbv beta in F. rewrite H in F. cbn [implb] in F.
  rewrite !andb_true_iff, !negb_true_iff in F. tauto.
Qed.

Lemma Uc_comment : forall ac c s, Uc c = true -> start_of_comment ac c s = false.
Proof.
  intros ac c s H. apply Uc_facts in H. unfold start_of_comment. destruct H as [_ [_ [_ [-> [-> _]]]]].
  destruct ac; reflexivity.
Qed.

Lemma not_in_unquoted_eqb : forall c k, mem c not_in_unquoted_text = false ->
  mem k not_in_unquoted_text = true -> Ascii.eqb c k = false.
Proof.
  intros c k H1 H2. destruct (Ascii.eqb_spec c k) as [->|]; [congruence|reflexivity].
Qed.

(** What may follow a run of such characters: the end, a quote, a newline or a blank. *)
Definition stop (rest : str) : Prop :=
  match rest with [] => True | c :: _ => c = ch 34 \/ c = nl \/ blank c end.

Lemma stop_facts : forall c rest, stop (c :: rest) ->
  (mem c not_in_unquoted_text || is_whitespace c = true) /\ mem c number_chars = false.
Proof.
  intros c rest [->|[->|H]]; [split; reflexivity|split; reflexivity|].
  destruct H as [->|[->|[->|[->| ->]]]]; split; reflexivity.
Qed.

(** A token that stands for its own text in a path. *)
Definition textual (t : token) : Prop :=
  match t with
  | TUnquoted s => True
  | TValue (SStr _ _) _ => False
  | TValue v x => scalar_text v = x
  | _ => False
  end.

Lemma textual_buff : forall t b, textual t -> tok_buff b t = add_path_text b false (token_text t).
Proof.
  intros t b H. destruct t; try contradiction; [reflexivity|].
  destruct v; cbn in *; try contradiction; rewrite <- H; reflexivity.
Qed.

Lemma textual_fold : forall ts b, b <> [] -> Forall textual ts ->
  fold_left tok_buff ts b = add_path_text b false (render_tokens ts).
Proof.
  induction ts as [|t ts IH]; intros b Hb H; cbn [fold_left].
  - rewrite add_path_text_fold by exact Hb. reflexivity.
  - inversion H; subst. rewrite textual_buff by assumption. rewrite IH; [|apply add_path_text_ne, Hb|assumption].
    rewrite add_path_text_app by exact Hb. reflexivity.
Qed.

Lemma textual_path : forall t, textual t -> path_token t.
Proof. intros [] H; try contradiction; exact I. Qed.

Lemma textual_simple : forall t, textual t -> is_simple_value t = true.
Proof. intros [] H; try contradiction; reflexivity. Qed.

Lemma pull_unquoted_U : forall ac u res rest, Forall (fun c => Uc c = true) u -> stop rest ->
  exists t u1 u2, pull_unquoted_text ac res (u ++ rest) = (t, u2 ++ rest) /\ u = u1 ++ u2 /\
    token_text t = res ++ u1 /\ textual t.
Proof.
  induction u as [|c u IH]; intros res rest Hu Hs.
  - exists (TUnquoted res), [], []. cbn [app]. split; [|split; [reflexivity|split; [symmetry; apply app_nil_r|exact I]]].
    destruct rest as [|c rest]; [reflexivity|]. cbn [pull_unquoted_text].
    apply stop_facts in Hs. destruct Hs as [-> _]. reflexivity.
  - inversion Hu as [|x y Hc Hu']; subst. cbn [app pull_unquoted_text].
    pose proof (Uc_facts c Hc) as [_ [Hw [_ [_ [_ Hm]]]]]. rewrite Hm, Hw, Uc_comment by exact Hc. cbn [orb].
    assert (Hlit : forall v, match v with SStr _ _ => False | _ => True end ->
      str_eqb (res ++ [c]) (scalar_text v) = true ->
      exists t u1 u2, (value_token v, u ++ rest) = (t, u2 ++ rest) /\ c :: u = u1 ++ u2 /\
        token_text t = res ++ u1 /\ textual t).
    { intros v Hv He. apply str_eqb_eq in He. exists (value_token v), [c], u. repeat split.
      - cbn. symmetry. exact He.
      - destruct v; try contradiction; reflexivity. }
    destruct (str_eqb (res ++ [c]) (lit "true")) eqn:E1; [apply (Hlit (SBool true)); [exact I|exact E1]|].
    destruct (str_eqb (res ++ [c]) (lit "null")) eqn:E2; [apply (Hlit SNull); [exact I|exact E2]|].
    destruct (str_eqb (res ++ [c]) (lit "false")) eqn:E3; [apply (Hlit (SBool false)); [exact I|exact E3]|].
    destruct (IH (res ++ [c]) rest Hu' Hs) as [t [u1 [u2 [H1 [-> [H3 H4]]]]]].
    exists t, (c :: u1), u2. rewrite H1. repeat split; [|exact H4]. rewrite H3, <- app_assoc. reflexivity.
Qed.

Lemma span_number_U : forall u rest, stop rest ->
  exists u1 u2, span_number (u ++ rest) = (u1, u2 ++ rest) /\ u = u1 ++ u2.
Proof.
  induction u as [|c u IH]; intros rest Hs.
  - exists [], []. cbn [app]. split; [|reflexivity]. destruct rest as [|c rest]; [reflexivity|].
    cbn [span_number]. apply stop_facts in Hs. destruct Hs as [_ ->]. reflexivity.
  - cbn [app span_number]. destruct (mem c number_chars).
    + destruct (IH rest Hs) as [u1 [u2 [-> ->]]]. exists (c :: u1), u2. auto.
    + exists [], (c :: u). auto.
Qed.

Lemma new_number_double_nonstr : forall d x v, new_number_double d x = Ok v -> match v with SStr _ _ => False | _ => True end.
Proof.
  intros d x v H. unfold new_number_double in H. inv_bind H. injection Hk as <-.
  destruct (SFeqb _ _); [|exact I]. unfold new_number_int. destruct (in_int a); exact I.
Qed.

Lemma number_token_U : forall m c s, Forall (fun c => Uc c = true) (c :: s) ->
  match number_token m (c :: s) with
  | Ok t => textual t /\ token_text t = c :: s
  | Stuck u => u = UFloatCast /\ exists x, In x (c :: s) /\ isdigit x = true
  | Throw _ => False
  end.
Proof.
  intros m c s Hu. destruct (number_token m (c :: s)) as [t|e|u] eqn:E.
  - split; [|eapply number_token_text, E].
    unfold number_token, number_fallback in E. destruct (has_decimal_or_e m).
    + destruct (lexical_cast_double _).
      * inv_bind E. injection Hk as <-. apply new_number_double_nonstr in Hb.
        destruct a; try contradiction; reflexivity.
      * destruct (existsb _ _); [discriminate|]. injection E as <-. exact I.
    + destruct (lexical_cast_int64 _).
      * injection E as <-. unfold new_number_int. destruct (in_int z); reflexivity.
      * destruct (existsb _ _); [discriminate|]. injection E as <-. exact I.
  - exfalso.
    assert (He : existsb (fun c => mem c not_in_unquoted_text) (c :: s) = false).
    { apply not_true_is_false. intro H. apply existsb_exists in H. destruct H as [x [Hx Hm]].
      rewrite Forall_forall in Hu. apply Hu, Uc_facts in Hx. destruct Hx as [_ [_ [_ [_ [_ Hx]]]]]. congruence. }
    unfold number_token, number_fallback in E. rewrite He in E. destruct (has_decimal_or_e m).
    + destruct (lexical_cast_double _); [|discriminate].
      apply bind_throw in E. destruct E as [E|[a [_ E]]]; [|discriminate].
      unfold new_number_double in E. apply bind_throw in E. destruct E as [E|[a [_ E]]]; [|discriminate].
      unfold cast_int64 in E. destruct (double_trunc d); [|discriminate]. destruct (in_int64 z); discriminate.
    + destruct (lexical_cast_int64 _); discriminate.
  - apply number_token_cause in E. destruct E as [[H _]|[H1 H2]]; [|auto].
    exfalso. rewrite Forall_forall in Hu. apply Hu in H. discriminate.
Qed.

Lemma pull_U : forall n ac ws ls c u rest, Forall (fun c => Uc c = true) (c :: u) -> stop rest ->
  match pull_next_token (S n) ac (ws, ls) (c :: u ++ rest) with
  | Ok (t, sv', r) => sv' = (ws, ls) /\ textual t /\ token_text t <> [] /\
      exists u2, c :: u = token_text t ++ u2 /\ r = u2 ++ rest
  | Stuck e => e = UFloatCast /\ exists x, In x (c :: u) /\ isdigit x = true
  | Throw _ => False
  end.
Proof.
  intros n ac ws ls c u rest Hu Hs. inversion Hu as [|x y Hc Hu']; subst.
  pose proof (Uc_facts c Hc) as [Hwn [Hw [Hnl [_ [_ Hm]]]]].
  cbn [pull_next_token next_char_after_whitespace]. rewrite Hwn. cbv iota. rewrite Hnl, Uc_comment by exact Hc.
  rewrite !(not_in_unquoted_eqb c) by (try exact Hm; reflexivity).
  destruct (mem c first_number_chars) eqn:Ef.
  - unfold pull_number. destruct (span_number_U u rest Hs) as [u1 [u2 [-> ->]]].
    assert (H1 : Forall (fun c => Uc c = true) (c :: u1)).
    { constructor; [exact Hc|]. apply Forall_app in Hu'. tauto. }
    pose proof (number_token_U u1 c u1 H1) as Hn. destruct (number_token u1 (c :: u1)) as [t|e|e]; cbn [bind].
    + destruct Hn as [Ht Hx]. repeat split; [exact Ht|rewrite Hx; discriminate|].
      exists u2. rewrite Hx. split; reflexivity.
    + contradiction.
    + destruct Hn as [He [x [Hx Hd]]]. split; [exact He|]. exists x. split; [|exact Hd].
      destruct Hx as [->|Hx]; [left; reflexivity|]. right. apply in_app_iff. left. exact Hx.
  - rewrite Hm. destruct (pull_unquoted_U ac (c :: u) [] rest Hu Hs) as [t [u1 [u2 [H1 [H2 [H3 H4]]]]]].
    change (c :: u ++ rest) with ((c :: u) ++ rest). rewrite H1. cbn [bind].
    repeat split; [exact H4| |exists u2; rewrite H3; auto].
    cbn [app] in H3. intro He. 
    assert (Hp : pull_unquoted_text ac [] ((c :: u) ++ rest) = (t, u2 ++ rest)) by exact H1.
    cbn [app pull_unquoted_text] in Hp. rewrite Hm, Hw, Uc_comment in Hp by exact Hc. cbn [orb app] in Hp.
    repeat match type of Hp with (if ?b then _ else _) = _ =>
        destruct b; [injection Hp as <- _; discriminate He|] end.
    eapply pull_unquoted_nonempty; [exact Hp|discriminate|exact He].
Qed.

Lemma pull_U_eq : forall n ac ws ls c u rest q, pull_next_token (S n) ac (ws, ls) (c :: u ++ rest) = q ->
  Forall (fun c => Uc c = true) (c :: u) -> stop rest ->
  match q with
  | Ok (t, sv', r) => sv' = (ws, ls) /\ textual t /\ token_text t <> [] /\
      exists u2, c :: u = token_text t ++ u2 /\ r = u2 ++ rest
  | Stuck e => e = UFloatCast /\ exists x, In x (c :: u) /\ isdigit x = true
  | Throw _ => False
  end.
Proof. intros n ac ws ls c u rest q <- Hu Hs. apply pull_U; assumption. Qed.

Definition has_digit (u : str) : Prop := exists x, In x u /\ isdigit x = true.

Lemma lex_U : forall n ac ls u rest, Forall (fun c => Uc c = true) u -> stop rest ->
  (List.length (u ++ rest) < n)%nat ->
  (exists k ls' ts1, (List.length rest < k)%nat /\ Forall textual ts1 /\ render_tokens ts1 = u /\
     (u = [] -> ls' = ls) /\
     lex_loop n ac ([], ls) (u ++ rest) =
       (ts1 ++ fst (lex_loop k ac ([], ls') rest), snd (lex_loop k ac ([], ls') rest))) \/
  (exists ts1, Forall textual ts1 /\ has_digit u /\
     lex_loop n ac ([], ls) (u ++ rest) = (ts1, LStuck UFloatCast)).
Proof.
  induction n as [|n IH]; intros ac ls u rest Hu Hs Hn; [lia|].
  destruct u as [|c u].
  - left. exists (S n), ls, []. cbn [app] in *. repeat split; auto.
    destruct (lex_loop (S n) ac ([], ls) rest); reflexivity.
  - cbn [app lex_loop].
    destruct (pull_next_token (S (List.length (c :: u ++ rest))) ac ([], ls) (c :: u ++ rest)) as [[[t sv'] r]|e|e] eqn:Hp;
      apply pull_U_eq in Hp; try assumption.
    + destruct Hp as [-> [Ht [Hne [u2 [Hx ->]]]]]. rewrite saver_check_eq. cbn [app].
      rewrite (textual_simple t Ht).
      assert (Hu2 : Forall (fun c => Uc c = true) u2).
      { rewrite Hx in Hu. apply Forall_app in Hu. tauto. }
      assert (Hl : (List.length (u2 ++ rest) < n)%nat).
      { apply (f_equal (@List.length ascii)) in Hx. rewrite app_length in *. cbn in Hx, Hn.
        destruct (token_text t); [contradiction|]. cbn in Hx. lia. }
      assert (Hte : forall (A : Type) (a b : A), match t with TEnd => a | _ => b end = b).
      { intros A a b. destruct t; try reflexivity; contradiction. }
      rewrite Hte.
      destruct (IH ac true u2 rest Hu2 Hs Hl) as [[k [ls' [ts1 [H1 [H2 [H3 [_ H4]]]]]]]|[ts1 [H1 [[x [H2 H2']] H3]]]].
      * left. exists k, ls', (t :: ts1). rewrite H4. repeat split; [exact H1|constructor; assumption| |discriminate].
        change (t :: ts1) with ([t] ++ ts1). rewrite render_tokens_app, render_tokens_one, H3. symmetry. exact Hx.
      * right. exists (t :: ts1). rewrite H3. repeat split; [constructor; assumption|].
        exists x. split; [|exact H2']. rewrite Hx. apply in_app_iff. auto.
    + contradiction.
    + destruct Hp as [-> Hd]. right. exists []. repeat split; [constructor|exact Hd].
Qed.

(** ** Parsing the path back *)

(** The result of parsing a token stream. *)
Definition stream_result (b : list element) (x : list token * lex_end) : result path :=
  match delivered x with
  | (ts, e) =>
      rmap fst ('(buff, acc) <- path_tokens_loop true CONF b [] ts ;;
                raise_end e (p <- build_path true (rev buff) [] ;; Ok (p, acc)))
  end.

Definition finish (b : list element) : result path := build_path true (rev b) [].

Lemma stream_result_ok : forall b ts, Forall path_token ts ->
  stream_result b (ts, LEnd) = finish (fold_left tok_buff ts b).
Proof.
  intros b ts H. unfold stream_result, finish. cbn [delivered].
  destruct (path_tokens_loop_ok ts true CONF b [] H) as [acc' ->]. cbn [bind raise_end].
  destruct (build_path true (rev (fold_left tok_buff ts b)) []); reflexivity.
Qed.

Lemma Forall_removelast : forall A (P : A -> Prop) l, Forall P l -> Forall P (removelast l).
Proof.
  intros A P l H. induction H as [|x l Hx H IH]; [constructor|]. cbn. destruct l; [constructor|].
  constructor; assumption.
Qed.

Lemma stream_result_stuck : forall b ts u, Forall path_token ts ->
  stream_result b (ts, LStuck u) = Stuck u.
Proof.
  intros b ts u H. unfold stream_result. cbn [delivered].
  destruct (path_tokens_loop_ok (removelast ts) true CONF b [] (Forall_removelast _ _ _ H)) as [acc' ->]. reflexivity.
Qed.

Lemma full_parse_stream : forall s, full_parse_path s = stream_result [([], false)] (lex_loop (S (List.length s)) true saver_init s).
Proof.
  intro s. unfold full_parse_path, lex. 
  destruct (lex_loop (S (List.length s)) true saver_init s) as [ts e] eqn:E.
  assert (Hne : e = LEnd -> ts <> []).
  { intros -> ->. apply lex_loop_shape in E; [|lia]. destruct E as [_ [E _]].
    destruct (E eq_refl) as [b [Hb _]]. destruct b; discriminate. }
  unfold stream_result. destruct e; cbn [delivered].
  - unfold parse_path_expression. destruct ts as [|t ts]; [destruct (Hne eq_refl eq_refl)|]. reflexivity.
  - destruct ts as [|t ts]; [reflexivity|]. change (removelast (TStart :: t :: ts)) with (TStart :: removelast (t :: ts)).
    unfold parse_path_expression. destruct (removelast (t :: ts)); reflexivity.
  - destruct ts as [|t ts]; [reflexivity|]. change (removelast (TStart :: t :: ts)) with (TStart :: removelast (t :: ts)).
    unfold parse_path_expression. destruct (removelast (t :: ts)); reflexivity.
Qed.
