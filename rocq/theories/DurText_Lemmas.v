(** Only numbers with units are durations. *)
From Coq Require Import ZArith Lia Bool List.
From Verif Require Import Base BaseLemmas Util_Model Num_Model Value_Model Value_Spec Path_Model PathParser_Model Config_Model Config_Spec Config_Lemmas Duration_Model Duration_Spec Duration_Lemmas Round_Spec Rfc_Lemmas5 DurText_Spec.

Lemma trim_left_split : forall s, exists w, s = w ++ trim_left s /\ spaces w.
Proof.
  induction s as [|c s [w [E H]]]; [exists []; split; [reflexivity|constructor]|]. cbn [trim_left]. destruct (isspace c) eqn:C; [|exists []; split; [reflexivity|constructor]].
  exists (c :: w). split; [cbn [app]; rewrite <- E; reflexivity|constructor; assumption].
Qed.
Lemma trim_split : forall s, exists w1 w2, s = w1 ++ trim s ++ w2 /\ spaces w1 /\ spaces w2.
Proof.
  intro s. unfold trim. destruct (trim_left_split s) as [w1 [E1 H1]]. destruct (trim_left_split (rev (trim_left s))) as [w2 [E2 H2]]. exists w1, (rev w2). split; [|split; [exact H1|apply Forall_rev, H2]].
  rewrite <- rev_app_distr, <- E2, rev_involutive. exact E1.
Qed.
Lemma from_alpha_split : forall s, exists a, s = a ++ from_alpha s /\ Forall (fun c => isalpha c = false) a.
Proof.
  induction s as [|c s [a [E H]]]; [exists []; split; [reflexivity|constructor]|]. cbn [from_alpha]. destruct (isalpha c) eqn:C; [exists []; split; [reflexivity|constructor]|].
  exists (c :: a). split; [cbn [app]; rewrite <- E; reflexivity|constructor; assumption].
Qed.
Lemma one_of_in : forall s l, one_of s l = true -> exists x, In x l /\ s = lit x.
Proof. intros s l H. unfold one_of in H. apply existsb_exists in H. destruct H as [x [I E]]. apply str_eqb_eq in E. eauto. Qed.
Lemma plural_cases : forall o x, unit_plural o = lit x -> o = lit x \/ (2 < List.length o)%nat /\ o = removelast (lit x) /\ List.last (lit x) "a"%char = "s"%char.
Proof.
  intros o x H. unfold unit_plural in H. destruct ((2 <? List.length o)%nat) eqn:L; cbn [andb] in H; [|auto]. destruct (negb _) eqn:N; [|auto]. right. rewrite <- H. change (lit "s") with ["s"%char]. rewrite removelast_last, last_last. apply Nat.ltb_lt in L. auto.
Qed.
Lemma units_named : forall o u, get_units (unit_plural o) = Ok u -> exists name, o = lit name /\ In name (unit_names u).
Proof.
  intros o u H. unfold get_units in H.
  assert (X : forall l v, one_of (unit_plural o) l = true -> Ok v = Ok u -> (forall x, In x l -> unit_plural o = lit x -> exists name, o = lit name /\ In name (unit_names v)) -> exists name, o = lit name /\ In name (unit_names u)).
  { intros l v O Ev A. injection Ev as <-. apply one_of_in in O. destruct O as [x [I E]]. exact (A x I E). }
  repeat match type of H with (if one_of _ ?l then _ else _) = _ => destruct (one_of (unit_plural o) l) eqn:O; [apply (X _ _ O H)|clear O] end; [| | | | | | |discriminate H]; clear; intros x I E; cbn [In] in I;
    repeat (destruct I as [<-|I]; [destruct (plural_cases _ _ E) as [->|[L [-> S]]]; [eexists; split; [reflexivity|cbn; tauto]|];
      first [exfalso; cbn in L; lia|discriminate S|match goal with |- exists _, ?l = _ /\ _ => let y := eval vm_compute in (string_of_list_ascii l) in exists y; split; [reflexivity|cbn; tauto] end]|]); destruct I.
Qed.
Lemma durations_shape : forall s, (exists e, parse_duration s = Throw e) \/ exists t name u, duration_written s t name /\ plain_numeral t /\ In name (unit_names u) /\
  (forall n, decimal t n -> in_int64 n = true -> parse_duration s = convert_long n u).
Proof.
  intro s. unfold parse_duration. destruct (trim_split s) as [w1 [w2 [E [H1 H2]]]]. set (input := trim s) in *. clearbody input.
  destruct (from_alpha_split input) as [a [Ea Ha]]. set (o := from_alpha input) in *. clearbody o. subst input.
  replace (firstn (List.length (a ++ o) - List.length o) (a ++ o)) with a by (rewrite app_length, Nat.add_sub, firstn_app, Nat.sub_diag, firstn_all, app_nil_r; reflexivity).
  destruct (trim_split a) as [v1 [v2 [Ev [V1 V2]]]]. set (t := trim a) in *. clearbody t. subst a s. rewrite !Forall_app in Ha. destruct Ha as [_ [Ha _]].
  destruct t as [|c t']; [left; eauto|]. set (t := c :: t') in *.
  assert (W : forall u, get_units (unit_plural o) = Ok u -> exists name, duration_written (w1 ++ ((v1 ++ t ++ v2) ++ o) ++ w2) t name /\ In name (unit_names u)).
  { intros u G. destruct (units_named _ _ G) as [name [-> I]]. exists name. split; [|exact I]. rewrite <- !app_assoc, (app_assoc w1 v1). constructor; [apply Forall_app; split; assumption|assumption|assumption]. }
  destruct (lexical_cast_int64 t) as [n|] eqn:L.
  - destruct (get_units (unit_plural o)) as [u|e|x] eqn:G; cbn [bind]; [|left; eauto|exfalso; unfold get_units in G; repeat (destruct (one_of _ _); [discriminate G|]); discriminate G].
    right. destruct (W u eq_refl) as [name [W1 I]]. exists t, name, u. split; [exact W1|]. apply lexical_int_spec in L. destruct L as [D L]. split; [split; [|exact Ha]|split; [exact I|]].
    + clear -D. destruct D as [ds N F|ds N F|ds N F].
      * exists (digits_value ds), (0 - 0). pose proof (numeral_text [] false ds [] [] [] 0 sign_none F point_none) as X. cbn [app] in X. rewrite !app_nil_r in X. apply X; [exact N|constructor].
      * exists (digits_value ds), (0 - 0). pose proof (numeral_text (lit "+") false ds [] [] [] 0 sign_plus F point_none) as X. cbn [app lit list_ascii_of_string] in X. rewrite !app_nil_r in X. apply X; [exact N|constructor].
      * exists (- digits_value ds), (0 - 0). pose proof (numeral_text (lit "-") true ds [] [] [] 0 sign_minus F point_none) as X. cbn [app lit list_ascii_of_string] in X. rewrite !app_nil_r in X. apply X; [exact N|constructor].
    + intros n' D' L'. assert (lexical_cast_int64 t = Some n') by (apply lexical_int_spec; auto). assert (lexical_cast_int64 t = Some n) by (apply lexical_int_spec; auto). congruence.
  - destruct (lexical_cast_double t) as [d|] eqn:Ld; [|left; eauto]. destruct (get_units (unit_plural o)) as [u|e|x] eqn:G; cbn [bind]; [|left; eauto|exfalso; unfold get_units in G; repeat (destruct (one_of _ _); [discriminate G|]); discriminate G].
    right. destruct (W u eq_refl) as [name [W1 I]]. exists t, name, u. split; [exact W1|]. split; [split; [exact (double_numeral _ _ Ld)|exact Ha]|split; [exact I|]].
    intros n D' L'. assert (lexical_cast_int64 t = Some n) by (apply lexical_int_spec; auto). congruence.
Qed.
Lemma duration_throws : forall s e, parse_duration s = Throw e -> parse_duration s = Throw EBadValue \/ parse_duration s = Throw EConfig.
Proof.
  intros s e E. rewrite E. revert E. unfold parse_duration. destruct (trim _) as [|c t]; [intro H; injection H as <-; auto|].
  assert (G : forall o e, get_units o = Throw e -> e = EConfig) by (intros o e' H; unfold get_units in H; repeat (destruct (one_of _ _); [discriminate H|]); injection H as <-; reflexivity).
  assert (K1 : forall z e, cast_int64 z <> Throw e) by (intros z e'; unfold cast_int64; repeat match goal with |- context [match ?x with _ => _ end] => destruct x end; discriminate).
  assert (K2 : forall z e, cast_int z <> Throw e) by (intros z e'; unfold cast_int; repeat match goal with |- context [match ?x with _ => _ end] => destruct x end; discriminate).
  assert (C : forall n u e, in_int64 n = true -> convert_long n u = Throw e -> e = EConfig) by (intros n u e' B H; pose proof (convert_long_full n u B) as F; rewrite H in F; apply F).
  assert (D : forall d u e, convert_double d u = Throw e -> e = EConfig).
  { intros d u e' H. unfold convert_double in H. destruct (match u with NANOSECONDS => _ | _ => _ end) as [a b]. destruct (_ || _); [injection H as <-; reflexivity|].
    destruct (cast_int64 a) eqn:A; cbn [bind] in H; [|apply K1 in A; destruct A|discriminate H]. destruct (cast_int b) eqn:B; cbn [bind] in H; [discriminate H|apply K2 in B; destruct B|discriminate H]. }
  destruct (lexical_cast_int64 _) as [n|] eqn:L.
  - apply lexical_int_spec in L. destruct L as [_ L]. destruct (get_units _) as [u|e0|x] eqn:U; cbn [bind]; [intro H; apply C in H; [|exact L]; subst; auto|intro H; injection H as <-; apply G in U; subst; auto|discriminate].
  - destruct (lexical_cast_double _) as [d|]; [|intro H; injection H as <-; auto]. destruct (get_units _) as [u|e0|x] eqn:U; cbn [bind]; [intro H; apply D in H; subst; auto|intro H; injection H as <-; apply G in U; subst; auto|discriminate].
Qed.
Lemma text_or_throws : forall s, duration_text s \/ parse_duration s = Throw EBadValue \/ parse_duration s = Throw EConfig.
Proof. intros s. destruct (durations_shape s) as [[e T]|[t [name [u [W [P [I _]]]]]]]; [right; exact (duration_throws s e T)|left; exists t, name, u; auto]. Qed.
Lemma duration_only : forall self ps p unit, plain self -> simple_object self -> new_path ps = Ok p -> (forall e, get_duration self ps unit <> Throw e) ->
  exists v, get p self = Some v /\ ((exists n t, v = VScalar (SInt n t) \/ v = VScalar (SLong n t)) \/ (exists d t, v = VScalar (SDouble d t)) \/ exists s q, v = VScalar (SStr s q) /\ duration_text s).
Proof.
  intros self ps p unit H1 H2 Hp H. unfold get_duration, get_timespan in H. rewrite (find_value self ps p H1 H2 Hp) in H. destruct (get p self) as [v|]; [|exfalso; eapply H; reflexivity]. exists v. split; [reflexivity|].
  cbn [outcome] in H. destruct (is_null v); [exfalso; eapply H; reflexivity|]. cbn [bind] in H. destruct v as [[| |z t|z t|d t|s q]| | | | | |]; try (exfalso; eapply H; reflexivity); [eauto|eauto|eauto|].
  right. right. exists s, q. split; [reflexivity|]. destruct (durations_shape s) as [[e E]|[t [name [u [W [P [I _]]]]]]]; [exfalso; rewrite E in H; eapply H; reflexivity|]. exists t, name, u. auto.
Qed.
