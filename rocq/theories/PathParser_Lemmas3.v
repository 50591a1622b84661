(** The shortcut against the full parser; empty elements; totality. *)
From Verif Require Import Base BaseLemmas Util_Model Num_Model Path_Model Path_Lemmas Token_Model Token_Spec
  Token_Lemmas Token_Lemmas2 PathParser_Model PathParser_Spec PathParser_Lemmas PathParser_Lemmas2.

(** ** trim *)

Definition spaces (w : str) : Prop := Forall (fun c => isspace c = true) w.

Lemma trim_left_spec : forall s, exists w, spaces w /\ s = w ++ trim_left s /\
  match trim_left s with c :: _ => isspace c = false | [] => True end.
Proof.
  induction s as [|c s IH]; cbn [trim_left].
  - exists []. repeat split. constructor.
  - destruct (isspace c) eqn:E.
    + destruct IH as [w [H1 [H2 H3]]]. exists (c :: w). split; [constructor; assumption|].
      split; [cbn; f_equal; exact H2|exact H3].
    + exists []. split; [constructor|]. split; [reflexivity|exact E].
Qed.

Lemma spaces_rev : forall w, spaces w -> spaces (rev w).
Proof. intros w H. unfold spaces in *. rewrite Forall_forall in *. intros c Hc. apply H, in_rev, Hc. Qed.

Lemma trim_spec : forall s, exists w1 w2, spaces w1 /\ spaces w2 /\ s = w1 ++ trim s ++ w2.
Proof.
  intro s. unfold trim. destruct (trim_left_spec s) as [w1 [H1 [H2 _]]].
  destruct (trim_left_spec (rev (trim_left s))) as [w2 [H3 [H4 _]]].
  exists w1, (rev w2). split; [exact H1|]. split; [apply spaces_rev, H3|].
  rewrite H2 at 1. f_equal. rewrite <- rev_app_distr, <- H4, rev_involutive. reflexivity.
Qed.

Lemma trim_id : forall s c d z, s = c :: z -> isspace c = false -> rev s = d -> 
  match d with x :: _ => isspace x = false | [] => True end -> trim s = s.
Proof.
  intros s c d z -> Hc Hr Hd. unfold trim. cbn [trim_left]. rewrite Hc, Hr.
  destruct d as [|x d].
  - apply (f_equal (@List.length ascii)) in Hr. rewrite rev_length in Hr. discriminate.
  - cbn [trim_left]. rewrite Hd. rewrite <- Hr. apply rev_involutive.
Qed.

(** ** split_dots *)

Lemma split_dots_app_dot : forall a b, split_dots (a ++ "."%char :: b) = split_dots a ++ split_dots b.
Proof.
  induction a as [|c a IH]; intro b; cbn [app split_dots].
  - rewrite Ascii.eqb_refl. reflexivity.
  - rewrite IH. destruct (Ascii.eqb c "."); [reflexivity|].
    destruct (split_dots a) as [|p ps] eqn:E; [exfalso; eapply split_dots_nonempty, E|]. reflexivity.
Qed.

Lemma rsplit_dot_spec : forall s, match rsplit_dot s with
  | Some (a, b) => s = a ++ "."%char :: b /\ dotless b
  | None => dotless s
  end.
Proof.
  induction s as [|c s IH]; cbn [rsplit_dot].
  - intros [].
  - destruct (rsplit_dot s) as [[a b]|].
    + destruct IH as [-> H]. auto.
    + destruct (Ascii.eqb_spec c ".") as [->|Hn].
      * auto.
      * intros [->|H]; [contradiction|exact (IH H)].
Qed.

Lemma fast_path_build_spec : forall n s tail, (List.length s < n)%nat ->
  fast_path_build n tail s = Ok (split_dots s ++ tail).
Proof.
  induction n as [|n IH]; intros s tail Hn; [lia|]. cbn [fast_path_build].
  pose proof (rsplit_dot_spec s) as H. destruct (rsplit_dot s) as [[a b]|].
  - destruct H as [-> Hb]. rewrite app_length in Hn. cbn in Hn. rewrite IH by lia.
    rewrite split_dots_app_dot, (split_dots_dotless b) by exact Hb. rewrite <- app_assoc. reflexivity.
  - rewrite split_dots_dotless by exact H. reflexivity.
Qed.

(** ** What the shortcut accepts *)

Definition Sc (c : ascii) : bool := isalpha c || Ascii.eqb c "-" || Ascii.eqb c "_" || Ascii.eqb c ".".

Lemma unsafe_char : forall c,
  (((97 <=? byte_of c) && (byte_of c <=? 122)) || ((65 <=? byte_of c) && (byte_of c <=? 90)) || Ascii.eqb c "_")
  = isalpha c || Ascii.eqb c "_".
Proof.
  intro c. pose proof (forall_byte (fun c => Bool.eqb
   (((97 <=? byte_of c) && (byte_of c <=? 122)) || ((65 <=? byte_of c) && (byte_of c <=? 90)) || Ascii.eqb c "_")
   (isalpha c || Ascii.eqb c "_")) ltac:(vm_compute; reflexivity) c) as F. apply eqb_prop in F. exact F.
Qed.

Lemma unsafe_loop_spec : forall s l, unsafe_loop l s = false ->
  Forall (fun c => Sc c = true) s /\
  Forall (fun p => p <> []) (tl (split_dots s)) /\
  (l = true -> hd [] (split_dots s) <> []).
Proof.
  induction s as [|c s IH]; intros l H; cbn [unsafe_loop] in H.
  - cbn. repeat constructor. congruence.
  - rewrite unsafe_char in H. cbn [split_dots].
    destruct (isalpha c || Ascii.eqb c "_") eqn:E1.
    + apply IH in H. destruct H as [H1 [H2 H3]].
      assert (Hd : Ascii.eqb c "." = false).
      { destruct (Ascii.eqb_spec c ".") as [->|]; [discriminate|reflexivity]. }
      rewrite Hd. destruct (split_dots s) as [|p ps] eqn:Es; [exfalso; eapply split_dots_nonempty, Es|].
      split; [constructor; [|exact H1]|split; [exact H2|cbn; discriminate]].
      unfold Sc. apply orb_true_iff in E1. destruct E1 as [E1|E1]; rewrite E1; [reflexivity|].
      rewrite !orb_true_r. reflexivity.
    + destruct (Ascii.eqb_spec c ".") as [->|Hd].
      * destruct l; [discriminate|]. apply IH in H. destruct H as [H1 [H2 H3]].
        split; [constructor; [reflexivity|exact H1]|]. cbn [tl hd]. split; [|discriminate].
        destruct (split_dots s) as [|p ps] eqn:Es; [constructor|]. constructor; [apply H3; reflexivity|exact H2].
      * destruct (Ascii.eqb_spec c "-") as [->|Hm]; [|discriminate].
        destruct l; [discriminate|]. apply IH in H. destruct H as [H1 [H2 H3]].
        destruct (split_dots s) as [|p ps] eqn:Es; [exfalso; eapply split_dots_nonempty, Es|].
        split; [constructor; [reflexivity|exact H1]|]. split; [exact H2|cbn; discriminate].
Qed.

Lemma looks_safe : forall s, looks_unsafe_for_fast_parser s = false ->
  s <> [] /\ Forall (fun c => Sc c = true) s /\ Forall (fun p => p <> []) (split_dots s).
Proof.
  intros [|c s] H; [discriminate|]. split; [discriminate|].
  unfold looks_unsafe_for_fast_parser in H.
  destruct (Ascii.eqb c "."); [discriminate|]. destruct (ends_in_dot (c :: s)); [discriminate|].
  apply unsafe_loop_spec in H. destruct H as [H1 [H2 H3]]. split; [exact H1|].
  destruct (split_dots (c :: s)) as [|p ps] eqn:Es; [constructor|]. constructor; [apply H3; reflexivity|exact H2].
Qed.

Lemma Sc_Uc : forall c, Sc c = true -> Uc c = true /\ isdigit c = false.
Proof.
  intros c H. pose proof (forall_byte (fun c => implb (Sc c) (Uc c && negb (isdigit c))) ltac:(vm_compute; reflexivity) c) as F.
  cbv beta in F. rewrite H in F. cbn [implb] in F. apply andb_prop in F. rewrite negb_true_iff in F. exact F.
Qed.

(** ** The full parser on a run of characters surrounded by blanks *)

Lemma next_char_blanks : forall w ws s, Forall blank w ->
  next_char_after_whitespace ws (w ++ s) = next_char_after_whitespace (ws ++ w) s.
Proof.
  induction w as [|c w IH]; intros ws s H; cbn [app].
  - rewrite app_nil_r. reflexivity.
  - inversion H; subst. cbn [next_char_after_whitespace]. apply blank_iff in H2. rewrite H2.
    rewrite IH by assumption. rewrite <- app_assoc. reflexivity.
Qed.

Lemma pull_blanks : forall n ac ws ls w s, Forall blank w ->
  pull_next_token n ac (ws, ls) (w ++ s) = pull_next_token n ac (ws ++ w, ls) s.
Proof.
  intros [|n] ac ws ls w s H; [reflexivity|]. cbn [pull_next_token]. rewrite next_char_blanks by exact H. reflexivity.
Qed.

Lemma lex_blanks_end : forall n ac ls w, Forall blank w -> (0 < n)%nat ->
  exists ts, lex_loop n ac ([], ls) w = (ts ++ [TEnd], LEnd) /\ Forall (fun t => exists x, t = TIgnored x) ts.
Proof.
  intros [|n] ac ls w H Hn; [lia|]. cbn [lex_loop].
  pose proof (pull_blanks (S (List.length w)) ac [] ls w [] H) as E. rewrite app_nil_r in E.
  match goal with |- context [pull_next_token ?a ?b ?c ?d] => change (pull_next_token a b c d) with (pull_next_token (S (List.length w)) ac ([] : str, ls) w) end.
  rewrite E. clear E.
  cbn [pull_next_token next_char_after_whitespace app].
  rewrite saver_check_eq. cbn [is_simple_value]. rewrite andb_false_r.
  destruct w as [|c w]; eexists; split; try reflexivity; repeat constructor. eexists. reflexivity.
Qed.

Lemma ignored_fold : forall ts b, Forall (fun t => exists x, t = TIgnored x) ts -> fold_left tok_buff ts b = b.
Proof. induction ts as [|t ts IH]; intros b H; [reflexivity|]. inversion H as [|? ? [x ->] H']; subst. cbn. apply IH, H'. Qed.
Lemma ignored_path : forall ts, Forall (fun t => exists x, t = TIgnored x) ts -> Forall path_token ts.
Proof. intros ts H. eapply Forall_impl; [|exact H]. intros t [x ->]. exact I. Qed.

Lemma lex_run : forall w1 u w2, Forall blank w1 -> Forall blank w2 -> u <> [] -> Forall (fun c => Uc c = true) u ->
  (exists ts, Forall path_token ts /\ lex_loop (S (List.length (w1 ++ u ++ w2))) true saver_init (w1 ++ u ++ w2) = (ts, LEnd) /\
     forall b, b <> [] -> fold_left tok_buff ts b = add_path_text b false u) \/
  (exists ts, Forall path_token ts /\ has_digit u /\
     lex_loop (S (List.length (w1 ++ u ++ w2))) true saver_init (w1 ++ u ++ w2) = (ts, LStuck UFloatCast)).
Proof.
  intros w1 u w2 H1 H2 Hne Hu. destruct u as [|c u]; [contradiction|].
  assert (Hs : stop w2) by (destruct w2; [exact I|]; inversion H2; subst; right; right; assumption).
  cbn [lex_loop]. unfold saver_init. rewrite pull_blanks by exact H1. cbn [app].
  destruct (pull_next_token (S (List.length (w1 ++ c :: u ++ w2))) true (w1, false) (c :: u ++ w2)) as [[[t sv'] r]|e|e] eqn:Hp;
    apply pull_U_eq in Hp; try assumption.
  - destruct Hp as [-> [Ht [Htn [u2 [Hx ->]]]]]. rewrite saver_check_eq. cbn [app andb].
    rewrite (textual_simple t Ht).
    set (pre := match match w1 with [] => None | _ :: _ => Some (TIgnored w1) end with Some wt => [wt] | None => [] end).
    assert (Hpre : Forall (fun t => exists x, t = TIgnored x) pre).
    { unfold pre. destruct w1; repeat constructor. eexists; reflexivity. }
    assert (Hu2 : Forall (fun c => Uc c = true) u2).
    { rewrite Hx in Hu. apply Forall_app in Hu. tauto. }
    assert (Hl : (List.length (u2 ++ w2) < List.length (w1 ++ c :: u ++ w2))%nat).
    { apply (f_equal (@List.length ascii)) in Hx. rewrite !app_length in *. cbn in *. rewrite !app_length.
      destruct (token_text t); [contradiction|]. cbn in Hx. lia. }
    assert (Hte : forall (A : Type) (a b : A), match t with TEnd => a | _ => b end = b).
    { intros A a b. destruct t; try reflexivity; contradiction. }
    rewrite Hte. clearbody pre.
    destruct (lex_U _ true true u2 w2 Hu2 Hs Hl) as [[k [ls' [ts1 [G1 [G2 [G3 [_ G4]]]]]]]|[ts1 [G1 [[x [G2 G2']] G3]]]].
    + destruct (lex_blanks_end k true ls' w2 H2 ltac:(lia)) as [ts2 [K1 K2]].
      rewrite G4, K1. cbn [fst snd]. left. eexists. split; [|split; [reflexivity|]].
      * rewrite !Forall_app. repeat split; [apply ignored_path, Hpre|repeat constructor; apply textual_path, Ht| |apply ignored_path, K2|repeat constructor].
        eapply Forall_impl; [|exact G2]. exact textual_path.
      * intros b Hb. rewrite !fold_left_app, (ignored_fold pre) by exact Hpre.
        cbn [fold_left]. rewrite (textual_buff t) by exact Ht. rewrite (textual_fold ts1) by (try exact G2; apply add_path_text_ne, Hb).
        rewrite G3, (ignored_fold ts2) by exact K2. rewrite add_path_text_app by exact Hb. rewrite <- Hx. reflexivity.
    + rewrite G3. right. eexists. split; [|split; [|reflexivity]].
      * rewrite !Forall_app. repeat split; [apply ignored_path, Hpre|repeat constructor; apply textual_path, Ht|].
        eapply Forall_impl; [|exact G1]. exact textual_path.
      * exists x. split; [|exact G2']. rewrite Hx. apply in_app_iff. auto.
  - contradiction.
  - destruct Hp as [-> Hd]. right. exists []. repeat split; [constructor|exact Hd].
Qed.

Lemma rev_fold_push : forall ps b, fold_left (fun (b : list element) q => (q, false) :: b) ps b = rev (map (fun q => (q, false)) ps) ++ b.
Proof. induction ps as [|p ps IH]; intro b; cbn; [reflexivity|]. rewrite IH, <- app_assoc. reflexivity. Qed.

Lemma finish_split : forall u, finish (add_path_text [([], false)] false u) =
  if existsb is_nil (split_dots u) then Throw EBadPath else Ok (split_dots u).
Proof.
  intro u. unfold finish, add_path_text. destruct (split_dots u) as [|p ps] eqn:E; [exfalso; eapply split_dots_nonempty, E|].
  rewrite rev_fold_push. cbn [app].
  assert (Hr : rev (rev (map (fun q : str => (q, false)) ps) ++ [(p, false)]) = map (fun q => (q, false)) (p :: ps)).
  { rewrite rev_app_distr, rev_involutive. reflexivity. }
  match goal with |- build_path _ ?x _ = _ => change x with (rev (rev (map (fun q : str => (q, false)) ps) ++ [(p, false)])) end.
  rewrite Hr. destruct (existsb is_nil (p :: ps)) eqn:Ex.
  - apply build_path_bad. intro F. apply existsb_exists in Ex. destruct Ex as [x [Hx Hn]].
    rewrite Forall_forall in F. specialize (F (x, false) (in_map (fun q => (q, false)) _ _ Hx)).
    destruct F as [F|F]; [|discriminate]. destruct x; [apply F; reflexivity|discriminate].
  - rewrite build_path_ok; [rewrite map_map, map_id; reflexivity|].
    apply Forall_forall. intros [v e] Hv. apply in_map_iff in Hv. destruct Hv as [x [Hx Hi]]. injection Hx as -> <-.
    left. cbn. intros ->. assert (existsb is_nil (p :: ps) = true) by (apply existsb_exists; exists []; auto). congruence.
Qed.

Lemma full_parse_run : forall w1 u w2, Forall blank w1 -> Forall blank w2 -> u <> [] -> Forall (fun c => Uc c = true) u ->
  full_parse_path (w1 ++ u ++ w2) = (if existsb is_nil (split_dots u) then Throw EBadPath else Ok (split_dots u)) \/
  (full_parse_path (w1 ++ u ++ w2) = Stuck UFloatCast /\ has_digit u).
Proof.
  intros w1 u w2 H1 H2 Hne Hu. rewrite full_parse_stream.
  destruct (lex_run w1 u w2 H1 H2 Hne Hu) as [[ts [G1 [G2 G3]]]|[ts [G1 [G2 G3]]]].
  - left. rewrite G2, stream_result_ok by exact G1. rewrite G3 by discriminate. apply finish_split.
  - right. split; [|exact G2]. rewrite G3. apply stream_result_stuck, G1.
Qed.

Lemma spaces_blank : forall w, spaces w -> ~ In nl w -> Forall blank w.
Proof.
  intros w H Hn. apply Forall_forall. intros c Hc. unfold spaces in H. rewrite Forall_forall in H. apply H in Hc as Hs.
  apply blank_iff. unfold is_whitespace_not_newline, is_whitespace. rewrite Hs, !orb_true_r, andb_true_r.
  destruct (Ascii.eqb_spec c nl) as [->|]; [contradiction|reflexivity].
Qed.

Lemma fast_parse_spec : forall s p, speculative_fast_parse_path s = Ok p -> p <> [] ->
  looks_unsafe_for_fast_parser (trim s) = false /\ p = split_dots (trim s).
Proof.
  intros s p H Hp. unfold speculative_fast_parse_path in H.
  destruct (looks_unsafe_for_fast_parser (trim s)); [congruence|].
  rewrite fast_path_build_spec in H by lia. rewrite app_nil_r in H. injection H as <-. auto.
Qed.

Lemma fast_parse_total : forall s, exists p, speculative_fast_parse_path s = Ok p.
Proof.
  intro s. unfold speculative_fast_parse_path. destruct (looks_unsafe_for_fast_parser (trim s)); [eauto|].
  rewrite fast_path_build_spec by lia. eauto.
Qed.

Lemma path_eq_nil : forall p, path_eq p [] = match p with [] => true | _ => false end.
Proof. intros []; reflexivity. Qed.

Lemma fast_agrees : forall s p, ~ In nl s -> speculative_fast_parse_path s = Ok p -> p <> [] ->
  full_parse_path s = Ok p.
Proof.
  intros s p Hn H Hp. apply fast_parse_spec in H; [|exact Hp]. destruct H as [Hl ->].
  destruct (trim_spec s) as [w1 [w2 [H1 [H2 Hs]]]].
  apply looks_safe in Hl. destruct Hl as [Hne [Hsc Hsp]].
  rewrite Hs in Hn. rewrite !in_app_iff in Hn.
  assert (Hu : Forall (fun c => Uc c = true) (trim s)).
  { eapply Forall_impl; [|exact Hsc]. intros c Hc. apply Sc_Uc, Hc. }
  destruct (full_parse_run w1 (trim s) w2) as [F|[F [x [Hx Hd]]]]; try (apply spaces_blank; tauto); try assumption.
  - rewrite <- Hs in F. rewrite F. destruct (existsb is_nil (split_dots (trim s))) eqn:E; [|reflexivity].
    apply existsb_exists in E. destruct E as [x [Hx Hxn]]. rewrite Forall_forall in Hsp. apply Hsp in Hx. destruct x; [contradiction|discriminate].
  - exfalso. rewrite Forall_forall in Hsc. apply Hsc, Sc_Uc in Hx. destruct Hx. congruence.
Qed.

Lemma new_path_full : forall s, ~ In nl s -> new_path s = full_parse_path s.
Proof.
  intros s Hn. unfold new_path, parse_path. destruct (fast_parse_total s) as [p Hp]. rewrite Hp. cbn [bind].
  rewrite path_eq_nil. destruct p as [|k p]; [reflexivity|]. cbn [negb].
  symmetry. apply fast_agrees; [exact Hn|exact Hp|discriminate].
Qed.

Lemma dotted_split : forall s, dotted (split_dots s) = s.
Proof.
  induction s as [|c s IH]; cbn [split_dots]; [reflexivity|].
  destruct (Ascii.eqb_spec c ".") as [->|].
  - cbn [dotted]. destruct (split_dots s) as [|p ps] eqn:E; [exfalso; eapply split_dots_nonempty, E|]. rewrite IH. reflexivity.
  - destruct (split_dots s) as [|p ps] eqn:E; [exfalso; eapply split_dots_nonempty, E|].
    destruct ps; cbn [dotted] in *; rewrite <- IH; reflexivity.
Qed.

(** ** The round trip *)

Lemma render_no_newline : forall p, ~ In nl (render_path p).
Proof.
  assert (Hc : forall c, ~ In nl (render_json_char c)).
  { intros c. pose proof (forall_byte (fun c => negb (mem nl (render_json_char c))) ltac:(vm_compute; reflexivity) c) as F.
    cbv beta in F. apply negb_true_iff in F. intro H. apply mem_true in H. congruence. }
  assert (Hk : forall k, ~ In nl (render_key k)).
  { intros k. destruct (plain_dec k) as [Hp|Hp].
    - rewrite render_key_plain by exact Hp. intro H. apply plain_Uc in Hp. rewrite Forall_forall in Hp. apply Hp in H. discriminate.
    - rewrite render_key_quoted by exact Hp. unfold render_json_string. rewrite !in_app_iff.
      intros [[H|[]]|[H|[H|[]]]]; try discriminate. apply in_concat in H. destruct H as [x [Hx H]].
      apply in_map_iff in Hx. destruct Hx as [y [<- _]]. exact (Hc y H). }
  induction p as [|k r IH]; [intros []|]. rewrite render_path_cons, !in_app_iff.
  intros [H|[H|H]]; [exact (Hk k H)| |exact (IH H)]. destruct r; cbn in H; [contradiction|]. destruct H as [H|[]]. discriminate.
Qed.

Lemma round_trip : forall p, p <> [] -> Forall (Forall quotable) p ->
  (new_path (render_path p) = Ok p \/ new_path (render_path p) = Stuck UFloatCast) /\
  (no_plain_digit p \/ word_key (hd [] p) -> new_path (render_path p) = Ok p).
Proof.
  intros p Hp Hq. rewrite new_path_full by apply render_no_newline.
  pose proof (full_parse_render p Hp Hq) as H. split.
  - destruct H as [H|[H _]]; auto.
  - intros [Hd|Hw].
    + destruct H as [H|[H [[x [[] _]]|[k [Hk [Hpk [x [Hx Hdx]]]]]]]]; [exact H|].
      rewrite (Hd k x Hk Hpk Hx) in Hdx. discriminate.
    + destruct p as [|k r]; [contradiction|]. apply full_parse_render_word; assumption.
Qed.

(** The tokenizer rejects a key that is not quotable, so the condition of the round trip is exact. *)

(** ** Empty elements *)

Definition empties (b : list element) : nat := List.length (filter (fun e : element => is_nil (fst e) && snd e) b).

Lemma empties_cons : forall v e b, empties ((v, e) :: b) = ((if is_nil v && e then 1 else 0) + empties b)%nat.
Proof. intros v e b. unfold empties. cbn. destruct (is_nil v && e); reflexivity. Qed.

Lemma add_path_text_empties_unq : forall s b, b <> [] -> (empties (add_path_text b false s) <= empties b)%nat.
Proof.
  intros s b Hb. rewrite add_path_text_fold by exact Hb. revert b Hb.
  induction s as [|c s IH]; intros b Hb; cbn [fold_left]; [lia|].
  eapply Nat.le_trans; [apply IH, add_char_ne, Hb|]. destruct b as [|[v e] b]; [contradiction|].
  cbn [add_char]. destruct (Ascii.eqb c "."); rewrite !empties_cons.
  - cbn. lia.
  - assert (Hv : is_nil (v ++ [c]) = false) by (destruct v; reflexivity). rewrite Hv. cbn. destruct (is_nil v && e); lia.
Qed.

Lemma add_path_text_empties_q : forall s b, b <> [] ->
  (empties (add_path_text b true s) <= empties b + (if is_nil s then 1 else 0))%nat.
Proof.
  intros s [|[v e] b] Hb; [contradiction|]. cbn [add_path_text]. rewrite !empties_cons.
  destruct s as [|c s].
  - rewrite app_nil_r. cbn [is_nil]. destruct v, e; cbn; lia.
  - assert (Hv : is_nil (v ++ c :: s) = false) by (destruct v; reflexivity). rewrite Hv. cbn. lia.
Qed.

Lemma tok_buff_ne : forall t b, b <> [] -> tok_buff b t <> [].
Proof. intros t b Hb. destruct t; cbn; try exact Hb; try apply add_path_text_ne, Hb. destruct v; apply add_path_text_ne, Hb. Qed.

Lemma fold_empties : forall ts b, b <> [] -> (forall s x, In (TValue (SStr s false) x) ts -> s <> []) ->
  (empties (fold_left tok_buff ts b) <= empties b + empty_quotes ts)%nat.
Proof.
  unfold empty_quotes. induction ts as [|t ts IH]; intros b Hb Hq; cbn [fold_left filter]; [cbn; lia|].
  eapply Nat.le_trans; [apply IH; [apply tok_buff_ne, Hb|]|].
  { intros s x Hi. apply (Hq s x). right. exact Hi. }
  assert (H0 : forall s, (empties (add_path_text b false s) <= empties b)%nat) by (intro; apply add_path_text_empties_unq, Hb).
  destruct t; cbn [tok_buff]; try lia; try (specialize (H0 text); lia).
  destruct v as [|b0|z tx|z tx|d tx|s q]; try (match goal with |- context [add_path_text b false ?x] => specialize (H0 x) end; lia).
  pose proof (add_path_text_empties_q s b Hb) as H1. destruct s as [|c s]; cbn [is_nil] in H1.
  - destruct q; cbn [List.length]; [lia|]. exfalso. eapply Hq; [left; reflexivity|reflexivity].
  - lia.
Qed.

(** Tokens never carry an unquoted string value. *)
Lemma pull_no_unquoted_str : forall n ac sv s t sv' r, pull_next_token n ac sv s = Ok (t, sv', r) ->
  forall z x, t <> TValue (SStr z false) x.
Proof.
  intros [|n] ac [ws ls] s t sv' r H z x ->; [discriminate|]. cbn [pull_next_token] in H.
  destruct (next_char_after_whitespace ws s) as [ws' [[c s']|]]; [|discriminate].
  destruct (Ascii.eqb c nl); [discriminate|].
  inv_bind H. destruct a as [t' r']. injection Hk as -> <- <-.
  destruct (start_of_comment ac c s').
  { unfold pull_comment in Hb. destruct (Ascii.eqb c "/").
    - destruct s' as [|c' s'']; [discriminate|]. destruct (Ascii.eqb c' "/"); [|discriminate].
      destruct (comment_text s''). discriminate.
    - destruct (comment_text s'). discriminate. }
  destruct (Ascii.eqb c (ch 34)).
  { unfold pull_quoted_string in Hb. inv_bind Hb. destruct a as [[p o] r1]. inv_bind Hk. destruct a as [[p' o'] r2]. discriminate. }
  destruct (Ascii.eqb c "$").
  { inv_bind Hb. destruct a as [o' s2]. apply (proj2 (pull_len _)) in Hk. destruct Hk as [_ [e He]]. discriminate. }
  repeat match type of Hb with (if Ascii.eqb c ?k then _ else _) = _ =>
    destruct (Ascii.eqb c k);
    [ first [ discriminate
            | (unfold pull_plus_equals in Hb; destruct s' as [|c' s'']; [discriminate|];
               destruct (Ascii.eqb c' "="); discriminate) ] | ] end.
  destruct (mem c first_number_chars).
  { unfold pull_number in Hb. destruct (span_number s') as [m r1].
    inv_bind Hb. injection Hk as -> <-. unfold number_token, number_fallback in Hb0.
    destruct (has_decimal_or_e m).
    + destruct (lexical_cast_double _).
      * inv_bind Hb0. injection Hk as -> _. apply new_number_double_nonstr in Hb. exact Hb.
      * destruct (existsb _ _); discriminate.
    + destruct (lexical_cast_int64 _).
      * injection Hb0 as Hz _. unfold new_number_int in Hz. destruct (in_int z0); discriminate.
      * destruct (existsb _ _); discriminate. }
  destruct (mem c not_in_unquoted_text); [discriminate|].
  apply Ok_inj in Hb. revert Hb. generalize (c :: s') (@nil ascii).
  intros l. induction l as [|y l IH]; intros l0 Hb; cbn [pull_unquoted_text] in Hb; [discriminate|].
  destruct (_ || _) in Hb; [discriminate|].
  repeat match type of Hb with (if ?b then _ else _) = _ => destruct b; [discriminate|] end.
  eapply IH, Hb.
Qed.

Lemma lex_no_unquoted_str : forall n ac sv s ts e, lex_loop n ac sv s = (ts, e) ->
  forall z x, ~ In (TValue (SStr z false) x) ts.
Proof.
  induction n as [|n IH]; intros ac sv s ts e H z x; cbn [lex_loop] in H.
  - injection H as <- <-. intros [].
  - destruct (pull_next_token (S (List.length s)) ac sv s) as [[[t sv'] r]|e'|u] eqn:E.
    2,3: injection H as <- <-; intros [].
    destruct sv as [ws ls]. pose proof (pull_no_unquoted_str _ _ _ _ _ _ _ E z x) as Ht.
    destruct sv' as [ws' ls']. rewrite saver_check_eq in H.
    set (wl := match match ws' with [] => None | _ :: _ =>
      Some (if ls' && is_simple_value t then TUnquoted ws' else TIgnored ws') end with Some wt => [wt] | None => [] end) in *.
    assert (Hw : ~ In (TValue (SStr z false) x) wl).
    { unfold wl. destruct ws'; [intros []|]. destruct (ls' && is_simple_value t); intros [Hx|[]]; discriminate. }
    clearbody wl.
    destruct (lex_loop n ac ([], is_simple_value t) r) as [ts' e'] eqn:El.
    specialize (IH _ _ _ _ _ El z x).
    assert (Hgo : forall q, q = wl ++ [t] \/ q = (wl ++ [t]) ++ ts' -> ~ In (TValue (SStr z false) x) q).
    { intros q [-> | ->]; rewrite !in_app_iff; cbn; intuition. }
    destruct t; injection H as <- <-; apply Hgo; auto.
Qed.

Lemma delivered_end : forall ts, delivered (ts, LEnd) = (ts, LEnd). Proof. reflexivity. Qed.

Lemma full_parse_inv : forall s p, full_parse_path s = Ok p ->
  exists ts, tokenize true s = Ok (TStart :: ts) /\ Forall path_token ts /\
    p = map fst (rev (fold_left tok_buff ts [([], false)])) /\
    Forall (fun e => fst e <> [] \/ snd e = true) (fold_left tok_buff ts [([], false)]).
Proof.
  intros s p H. rewrite full_parse_stream in H. unfold stream_result in H.
  destruct (lex_loop (S (List.length s)) true saver_init s) as [ts e] eqn:El.
  destruct e; cbn [delivered] in H.
  - unfold rmap in H. inv_bind H. destruct a as [p0 acc0]. apply Ok_inj in Hk. cbn [fst] in Hk. subst p0.
    apply bind_ok in Hb. destruct Hb as [[b acc] [Hb Hk]]. cbn [raise_end] in Hk.
    apply bind_ok in Hk. destruct Hk as [p0 [Hb0 Hk]]. apply Ok_inj in Hk. injection Hk as -> ->.
    apply path_tokens_loop_inv in Hb. destruct Hb as [Hb ->]. exists ts. unfold tokenize, lex. rewrite El.
    split; [reflexivity|]. split; [exact Hb|]. pose proof (build_path_inv _ _ _ _ Hb0) as F.
    rewrite build_path_ok in Hb0 by exact F. injection Hb0 as <-. split; [reflexivity|].
    apply Forall_rev in F. rewrite rev_involutive in F. exact F.
  - destruct (path_tokens_loop true CONF [([], false)] [] (removelast ts)) as [[b acc]| |]; discriminate.
  - destruct (path_tokens_loop true CONF [([], false)] [] (removelast ts)) as [[b acc]| |]; discriminate.
Qed.

Lemma filter_len_le : forall (es : list element), Forall (fun e => fst e <> [] \/ snd e = true) es ->
  List.length (filter is_nil (map fst es)) = empties es.
Proof.
  intros es H. unfold empties. induction H as [|[v e] es Hx H IH]; [reflexivity|]. cbn in *.
  destruct v; cbn; [|exact IH]. destruct Hx as [Hx| ->]; [contradiction|]. cbn. rewrite IH. reflexivity.
Qed.

Lemma filter_rev_len : forall (l : list str), List.length (filter is_nil (rev l)) = List.length (filter is_nil l).
Proof.
  induction l as [|x l IH]; [reflexivity|]. cbn. rewrite filter_app, app_length. cbn. rewrite IH.
  destruct (is_nil x); cbn; lia.
Qed.


Lemma fold_ne : forall ts b, b <> [] -> fold_left tok_buff ts b <> [].
Proof. induction ts as [|t ts IH]; intros b Hb; [exact Hb|]. cbn. apply IH, tok_buff_ne, Hb. Qed.

Lemma new_path_empty_keys : forall s p, new_path s = Ok p ->
  p <> [] /\ (empty_keys p <= empty_quotes (fst (lex true s)))%nat.
Proof.
  intros s p H. unfold new_path, parse_path in H. destruct (fast_parse_total s) as [q Hq]. rewrite Hq in H. cbn [bind] in H.
  rewrite path_eq_nil in H. destruct q as [|k q]; cbn [negb] in H.
  - apply full_parse_inv in H. destruct H as [ts [H1 [H2 [-> H3]]]]. split.
    + intro E. apply map_eq_nil in E. apply (f_equal (@rev element)) in E. rewrite rev_involutive in E.
      revert E. apply fold_ne. discriminate.
    + unfold tokenize, lex in *. destruct (lex_loop (S (List.length s)) true saver_init s) as [ts' e] eqn:El.
      destruct e; try discriminate. injection H1 as ->. cbn [fst]. unfold empty_keys.
      rewrite map_rev, filter_rev_len, filter_len_le by exact H3.
      eapply Nat.le_trans; [apply fold_empties|].
      * discriminate.
      * intros z x Hz. exfalso. eapply lex_no_unquoted_str; eauto.
      * unfold empty_quotes, empties; cbn; lia.
  - injection H as <-. split; [discriminate|]. apply fast_parse_spec in Hq; [|discriminate]. destruct Hq as [Hl Hs].
    apply looks_safe in Hl. destruct Hl as [_ [_ Hl]]. rewrite <- Hs in Hl. unfold empty_keys.
    assert (E : filter is_nil (k :: q) = []).
    { revert Hl. generalize (k :: q). intros l Hl. induction Hl as [|x l Hx Hl IH]; [reflexivity|]. cbn.
      destruct x; [contradiction|exact IH]. }
    rewrite E. cbn. lia.
Qed.

Lemma path_tokens_loop_out : forall ts b acc,
  (exists r, path_tokens_loop true CONF b acc ts = Ok r) \/ path_tokens_loop true CONF b acc ts = Throw EBadPath.
Proof.
  induction ts as [|t ts IH]; intros b acc; cbn [path_tokens_loop]; [eauto|].
  destruct t; try (right; reflexivity); try apply IH. destruct v; apply IH.
Qed.

Lemma build_path_out : forall es b, (exists p, build_path true es b = Ok p) \/ build_path true es b = Throw EBadPath.
Proof.
  induction es as [|[v e] es IH]; intros b; cbn [build_path]; [eauto|].
  destruct v; [destruct e; [apply IH|right; reflexivity]|apply IH].
Qed.

Lemma new_path_outcomes : forall s,
  (exists p, new_path s = Ok p) \/ new_path s = Throw EBadPath \/ new_path s = Throw EConfig \/
  (exists u, new_path s = Stuck u /\ stuck_cause s u).
Proof.
  intro s. unfold new_path, parse_path. destruct (fast_parse_total s) as [q Hq]. rewrite Hq. cbn [bind].
  destruct (negb (path_eq q [])); [eauto|]. rewrite full_parse_stream. unfold stream_result.
  destruct (lex_loop (S (List.length s)) true saver_init s) as [ts e] eqn:El. destruct e; cbn [delivered].
  - destruct (path_tokens_loop_out ts [([], false)] []) as [[[b acc] ->]| ->]; [|right; left; reflexivity].
    cbn [bind raise_end]. destruct (build_path_out (rev b) []) as [[p ->]| ->]; [left; exists p|right; left]; reflexivity.
  - destruct (path_tokens_loop_out (removelast ts) [([], false)] []) as [[[b acc] ->]| ->]; [|right; left; reflexivity].
    apply lex_loop_throw in El. subst. right; right; left. reflexivity.
  - destruct (path_tokens_loop_out (removelast ts) [([], false)] []) as [[[b acc] ->]| ->]; [|right; left; reflexivity].
    apply lex_loop_cause in El; [|lia]. right; right; right. exists u. split; [reflexivity|exact El].
Qed.

Lemma new_path_run : forall w1 u w2, Forall blank w1 -> Forall blank w2 -> Forall (fun c => Uc c = true) u ->
  new_path (w1 ++ u ++ w2) = (if existsb is_nil (split_dots u) then Throw EBadPath else Ok (split_dots u)) \/
  (new_path (w1 ++ u ++ w2) = Stuck UFloatCast /\ has_digit u).
Proof.
  intros w1 u w2 H1 H2 Hu. rewrite new_path_full.
  - destruct u as [|c u]; [|apply full_parse_run; try assumption; discriminate]. left. cbn [app].
    rewrite full_parse_stream. destruct (lex_blanks_end (S (List.length (w1 ++ w2))) true false (w1 ++ w2)) as [ts [E Hts]];
      [apply Forall_app; auto|lia|].
    unfold saver_init. rewrite E, stream_result_ok, fold_left_app, (ignored_fold ts); [reflexivity|exact Hts|].
    apply Forall_app. split; [apply ignored_path, Hts|repeat constructor].
  - rewrite !in_app_iff. rewrite Forall_forall in *. intros [H|[H|H]].
    + apply H1, blank_iff in H. discriminate.
    + apply Hu in H. discriminate.
    + apply H2, blank_iff in H. discriminate.
Qed.

Lemma split_dots_dotted : forall ps, ps <> [] -> Forall dotless ps -> split_dots (dotted ps) = ps.
Proof.
  induction ps as [|p ps IH]; intros Hn H; [contradiction|]. inversion H; subst. destruct ps as [|p' ps].
  - cbn. apply split_dots_dotless. assumption.
  - change (dotted (p :: p' :: ps)) with (p ++ "."%char :: dotted (p' :: ps)).
    rewrite split_dots_app_dot, IH, split_dots_dotless by (try assumption; discriminate). reflexivity.
Qed.

Lemma Uc_dotted : forall ps, Forall (Forall plain_char) ps -> Forall (fun c => Uc c = true) (dotted ps).
Proof.
  induction ps as [|p ps IH]; intro H; [constructor|]. inversion H; subst.
  assert (Hp : Forall (fun c => Uc c = true) p).
  { eapply Forall_impl; [|exact H2]. intros c [Hc|[-> | ->]]; [|reflexivity|reflexivity]. unfold Uc. rewrite Hc. reflexivity. }
  destruct ps as [|p' ps]; [exact Hp|]. change (dotted (p :: p' :: ps)) with (p ++ "."%char :: dotted (p' :: ps)).
  apply Forall_app. split; [exact Hp|]. constructor; [reflexivity|]. apply IH. assumption.
Qed.

Lemma plain_dotless : forall p, Forall plain_char p -> dotless p.
Proof.
  intros p H Hd. rewrite Forall_forall in H. apply H in Hd. destruct Hd as [Hd|[Hd|Hd]]; discriminate.
Qed.

Lemma dotted_in : forall ps c, In c (dotted ps) -> c = "."%char \/ exists p, In p ps /\ In c p.
Proof.
  induction ps as [|p ps IH]; intros c H; [destruct H|]. destruct ps as [|p' ps].
  - right. exists p. split; [left; reflexivity|exact H].
  - change (dotted (p :: p' :: ps)) with (p ++ "."%char :: dotted (p' :: ps)) in H. apply in_app_iff in H.
    destruct H as [H|[H|H]]; [right; exists p; split; [left; reflexivity|exact H]|auto|].
    apply IH in H. destruct H as [H|[q [H1 H2]]]; [auto|]. right. exists q. split; [right; exact H1|exact H2].
Qed.

(** The dotted form of elements over the plain alphabet. *)
Lemma new_path_dotted : forall w1 ps w2, Forall blank w1 -> Forall blank w2 -> ps <> [] -> Forall (Forall plain_char) ps ->
  let s := w1 ++ dotted ps ++ w2 in
  (In [] ps -> new_path s = Throw EBadPath \/ new_path s = Stuck UFloatCast) /\
  (~ In [] ps -> new_path s = Ok ps \/ new_path s = Stuck UFloatCast) /\
  (new_path s = Stuck UFloatCast -> exists p c, In p ps /\ In c p /\ isdigit c = true).
Proof.
  intros w1 ps w2 H1 H2 Hn Hp s. destruct (new_path_run w1 (dotted ps) w2 H1 H2 (Uc_dotted ps Hp)) as [H|[H [c [Hc Hd]]]].
  - fold s in H. rewrite split_dots_dotted in H; [|exact Hn|eapply Forall_impl; [|exact Hp]; exact plain_dotless].
    destruct (existsb is_nil ps) eqn:E; rewrite H.
    + split; [auto|]. split; [|discriminate]. intro Hx. exfalso. apply Hx. apply existsb_exists in E.
      destruct E as [x [Hx1 Hx2]]. destruct x; [exact Hx1|discriminate].
    + split; [|split; [auto|discriminate]]. intro Hx. exfalso.
      assert (existsb is_nil ps = true) by (apply existsb_exists; exists []; auto). congruence.
  - fold s in H. rewrite H. repeat split; auto. intros _. apply dotted_in in Hc. destruct Hc as [->|[p [Hc1 Hc2]]]; [discriminate|eauto].
Qed.

Lemma fast_newline : speculative_fast_parse_path (nl :: lit "a") = Ok [lit "a"] /\
  full_parse_path (nl :: lit "a") = Throw EBadPath.
Proof. split; vm_compute; reflexivity. Qed.

Lemma round_trip_digits : new_path (render_path [lit "1e300"]) = Stuck UFloatCast.
Proof. vm_compute. reflexivity. Qed.
