(** What the parser makes is truthful. *)
From Verif Require Import Base BaseLemmas Util_Model Num_Model Path_Model Token_Model PathParser_Model Doc_Model Edit_Model Value_Model Value_Spec
  Value_Lemmas Value_Lemmas2 Concat_Model Concat_Lemmas ConfigParser_Model ConfigParser_Spec ConfigParser_Lemmas Resolve_Model Resolve_Spec Resolve_Lemmas.

Definition tf (m : fields) : Prop := Forall (fun kv => truthful (snd kv)) m.

Lemma new_object_truthful : forall m, tf m -> truthful (new_object m).
Proof. intros m H. constructor; [intro E; exact E|exact H]. Qed.
Lemma under_truthful : forall p v, truthful v -> truthful (create_value_under_path p v).
Proof. intro p. induction p as [|k p IH]; intros v H; cbn [create_value_under_path]; [exact H|]. apply new_object_truthful. constructor; [exact (IH _ H)|constructor]. Qed.
Lemma set_key_truthful : forall m k v, tf m -> truthful v -> tf (set_key m k v).
Proof.
  intros m k v H V. induction H as [|[k' w] m W M IH]; cbn [set_key]; [constructor; [exact V|constructor]|].
  destruct (str_eqb k k'); constructor; try assumption.
Qed.
Lemma add_field_truthful : forall flavor values p v values', tf values -> truthful v -> add_field flavor values p v = Ok values' -> tf values'.
Proof.
  intros flavor values p v values' H V E. destruct p as [|k p]; [discriminate|]. unfold add_field in E. destruct p as [|k' p].
  - destruct (find_key k values) as [w|] eqn:F.
    + destruct flavor; [|discriminate]. destruct (with_fallback v w) as [x|e|u] eqn:W; cbn [bind] in E; try discriminate. injection E as <-. apply set_key_truthful; [exact H|].
      exact (fallback_ok _ _ _ _ V (find_ok _ _ _ _ H F) W).
    + injection E as <-. apply set_key_truthful; assumption.
  - destruct flavor; [|discriminate]. assert (U := under_truthful (k' :: p) v V). destruct (find_key k values) as [w|] eqn:F.
    + destruct (with_fallback (create_value_under_path (k' :: p) v) w) as [x|e|u] eqn:W; cbn [bind] in E; try discriminate. destruct (is_object x); [|discriminate].
      injection E as <-. apply set_key_truthful; [exact H|]. exact (fallback_ok _ _ _ _ U (find_ok _ _ _ _ H F) W).
    + injection E as <-. apply set_key_truthful; assumption.
Qed.
Lemma add_included_truthful : forall m values values', tf values -> tf m -> add_included values m = Ok values' -> tf values'.
Proof.
  intro m. induction m as [|[k v] m IH]; intros values values' H M E; cbn [add_included] in E; [congruence|]. inversion M; subst. destruct (find_key k values) as [w|] eqn:F.
  - destruct (with_fallback v w) as [x|e|u] eqn:W; cbn [bind] in E; try discriminate. refine (IH _ _ _ H3 E). apply set_key_truthful; [exact H|]. exact (fallback_ok _ _ _ _ H2 (find_ok _ _ _ _ H F) W).
  - refine (IH _ _ _ H3 E). apply Forall_app. split; [exact H|]. constructor; [exact H2|constructor].
Qed.
Lemma concatenate_truthful : forall vs v, Forall truthful vs -> concatenate vs = Ok (Some v) -> truthful v.
Proof.
  intros vs v H E. unfold concatenate in E. destruct (consolidate vs) as [c|e|u] eqn:C; cbn [bind] in E; try discriminate. assert (K := consolidate_ok _ _ _ H C). destruct c as [|a [|b c]].
  - discriminate.
  - injection E as <-. inversion K; assumption.
  - destruct (new_concatenation (a :: b :: c)) as [w|e|u] eqn:N; cbn [bind] in E; try discriminate. injection E as <-. exact (new_concat_ok _ _ _ K N).
Qed.
Lemma token_truthful : forall t n v n', token_value t n = Ok (v, n') -> truthful v.
Proof.
  intros t n v n' E. destruct t; cbn [token_value] in E; try discriminate; try (injection E as <- _; constructor).
  match type of E with bind ?x _ = _ => destruct x as [[p ts]|e|u]; cbn [bind] in E; try discriminate end. injection E as <- _. constructor. exact I.
Qed.
Lemma appended_truthful : forall s v n w n', truthful v -> appended s v n = Ok (w, n') -> truthful w.
Proof.
  intros s v n w n' H E. unfold appended in E. destruct (full_current_path s) as [p|e|u]; cbn [bind] in E; try discriminate.
  destruct (concatenate [VRef n p true 0; VList [v]]) as [[x|]|e|u] eqn:C; cbn [bind] in E; try discriminate. injection E as <- _. refine (concatenate_truthful _ _ _ C).
  repeat constructor. exact H.
Qed.

Section Parse.
Variable flavor : syntax.
Variable includer : include_kind -> str -> nat -> result (value * nat).
Hypothesis Includer : forall kind name n v n', includer kind name n = Ok (v, n') -> truthful v.
Definition gives (n : node) : Prop := forall s ac i v i', parse_value flavor includer n s ac i = Ok (v, i') -> truthful v.
Definition field_gives (n : node) : Prop := match n with NField fcs => Forall gives fcs | _ => True end.

Lemma field_value_gives : forall fcs, Forall gives fcs -> forall s ac i v i', parse_field_value (parse_value flavor includer) fcs s ac i = Ok (v, i') -> truthful v.
Proof. intros fcs H. induction H as [|c fcs C F IH]; intros s ac i v i' E; cbn [parse_field_value] in E; [discriminate|]. destruct (is_value_node c); [exact (C _ _ _ _ _ E)|exact (IH _ _ _ _ _ E)]. Qed.
Lemma values_give : forall cs, Forall gives cs -> forall s ac i vs i', parse_values (parse_value flavor includer) cs s ac i = Ok (vs, i') -> Forall truthful vs.
Proof.
  intros cs H. induction H as [|c cs C F IH]; intros s ac i vs i' E; cbn [parse_values] in E; [injection E as <- _; constructor|]. destruct (is_value_node c); [|exact (IH _ _ _ _ _ E)].
  destruct (parse_value flavor includer c s ac i) as [[v i1]|e|u] eqn:V; cbn [bind] in E; try discriminate.
  destruct (parse_values (parse_value flavor includer) cs s ac i1) as [[ws i2]|e|u] eqn:W; cbn [bind] in E; try discriminate. injection E as <- _. constructor; [exact (C _ _ _ _ _ V)|exact (IH _ _ _ _ _ W)].
Qed.
Lemma object_gives : forall cs, Forall field_gives cs -> forall values s ac i v i', tf values -> parse_object_nodes flavor includer (parse_value flavor includer) cs values s ac i = Ok (v, i') -> truthful v.
Proof.
  intros cs H. induction H as [|c cs C F IH]; intros values s ac i v i' V E; cbn [parse_object_nodes] in E; [injection E as <- _; apply new_object_truthful, V|].
  destruct c as [t|t|p|t|fs|ics kind|fs|fs|fs]; try exact (IH _ _ _ _ _ _ V E).
  - destruct (parse_field (parse_value flavor includer) fs s ac i) as [[[p w] i1]|e|u] eqn:P; cbn [bind] in E; try discriminate.
    destruct (add_field flavor values p w) as [values'|e|u] eqn:A; cbn [bind] in E; try discriminate. refine (IH _ _ _ _ _ _ _ E). refine (add_field_truthful _ _ _ _ _ V _ A).
    unfold parse_field in P. destruct (field_path fs) as [[p0 ts]|e|u]; cbn [bind] in P; try discriminate. destruct (is_plus_equals fs && (0 <? ac)); [discriminate|].
    match type of P with bind ?x _ = _ => destruct x as [[v1 i2]|e|u] eqn:V1; cbn [bind] in P; try discriminate end. assert (T := field_value_gives _ C _ _ _ _ _ V1).
    destruct (is_plus_equals fs).
    + match type of P with bind ?x _ = _ => destruct x as [[v2 i3]|e|u] eqn:V2; cbn [bind] in P; try discriminate end. injection P as _ <- _. exact (appended_truthful _ _ _ _ _ T V2).
    + cbn [bind] in P. injection P as _ <- _. exact T.
  - destruct (is_json flavor); [exact (IH _ _ _ _ _ _ V E)|]. destruct (parse_include includer values ics kind s ac i) as [[values' i1]|e|u] eqn:P; cbn [bind] in E; try discriminate.
    refine (IH _ _ _ _ _ _ _ E). unfold parse_include in P. match type of P with bind ?x _ = _ => destruct x as [[obj i2]|e|u] eqn:X; cbn [bind] in P; try discriminate end.
    assert (T : truthful obj). { destruct kind; try discriminate; destruct (include_name ics) as [name|e|u]; cbn [bind] in X; try discriminate; exact (Includer _ _ _ _ _ X). }
    destruct ((0 <? ac) && negb (is_resolved obj)); [discriminate|]. rewrite below_match in P. destruct obj as [| |r ig m| | | |]; try discriminate.
    destruct (add_included values m) as [x|e|u] eqn:A; cbn [bind] in P; try discriminate. injection P as <- _. refine (add_included_truthful _ _ _ V _ A). inversion T; assumption.
Qed.
Lemma parse_gives : forall n, gives n /\ field_gives n.
Proof.
  intro n. induction n as [t|t|p|t|cs F|cs k F|cs F|cs F|cs F] using node_induction; (split; [intros s ac i v i' E; cbn [parse_value] in E; try discriminate|cbn [field_gives]; try exact I]).
  - exact (token_truthful _ _ _ _ E).
  - refine (Forall_impl _ _ F). intros a [A _]. exact A.
  - destruct flavor eqn:Fl; [|discriminate]. match type of E with bind ?x _ = _ => destruct x as [[vs i1]|e|u] eqn:V; cbn [bind] in E; try discriminate end.
    destruct (concatenate vs) as [[w|]|e|u] eqn:C; cbn [bind] in E; try discriminate. injection E as <- _. refine (concatenate_truthful _ _ _ C).
    refine (values_give _ _ _ _ _ _ _ _); [refine (Forall_impl _ _ F); intros a [A _]; exact A|]. rewrite Fl. exact V.
  - match type of E with bind ?x _ = _ => destruct x as [[vs i1]|e|u] eqn:V; cbn [bind] in E; try discriminate end. injection E as <- _. constructor.
    refine (values_give _ _ _ _ _ _ _ V). refine (Forall_impl _ _ F). intros a [A _]. exact A.
  - refine (object_gives _ _ _ _ _ _ _ _ (Forall_nil _) E). refine (Forall_impl _ _ F). intros a [_ A]. exact A.
Qed.
Lemma parse_root_truthful : forall ns found i v i', (forall w, found = Some w -> truthful w) -> parse_root_nodes flavor includer found ns i = Ok (Some v, i') -> truthful v.
Proof.
  intro ns. induction ns as [|n ns IH]; intros found i v i' H E; cbn [parse_root_nodes] in E.
  { injection E as -> _. exact (H v eq_refl). }
  assert (D : (is_complex n = true -> forall w i1, parse_value flavor includer n [] 0 i = Ok (w, i1) -> parse_root_nodes flavor includer (Some w) ns i1 = Ok (Some v, i') -> truthful v)).
  { intros _ w i1 W R. refine (IH _ _ _ _ _ R). intros x X. injection X as <-. exact (proj1 (parse_gives n) _ _ _ _ _ W). }
  assert (G : (if is_complex n then '(v, next') <- parse_value flavor includer n [] 0 i;; parse_root_nodes flavor includer (Some v) ns next' else parse_root_nodes flavor includer found ns i) = Ok (Some v, i') -> truthful v).
  { intro G. destruct (is_complex n) eqn:K; [|exact (IH _ _ _ _ H G)]. destruct (parse_value flavor includer n [] 0 i) as [[w i1]|e|u] eqn:W; cbn [bind] in G; try discriminate. exact (D eq_refl _ _ eq_refl G). }
  destruct n as [t| | | | | | | |]; try exact (G E). destruct t; try exact (G E). destruct found as [w|]; [|exact (IH _ _ _ _ H E)]. injection E as -> _. exact (H v eq_refl).
Qed.
Lemma parse_truthful : forall text i v i', parse_config flavor includer text i = Ok (Some v, i') -> truthful v.
Proof.
  intros text i v i' E. unfold parse_config in E. destruct (parse_document flavor text) as [ns|e|u]; cbn [bind] in E; try discriminate. refine (parse_root_truthful _ _ _ _ _ _ E). discriminate.
Qed.
End Parse.
