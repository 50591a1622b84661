(** Files that include each other in a ring, files that are missing, and the options of a text. *)
From Verif Require Import Base BaseLemmas Util_Model Num_Model Path_Model Token_Model Token_Spec PathParser_Model Doc_Model Edit_Model Value_Model Value_Spec
  Value_Lemmas Value_Lemmas2 Concat_Model Concat_Lemmas ConfigParser_Model ConfigParser_Spec ConfigParser_Lemmas ConfigParser_Lemmas2 Resolve_Model Resolve_Spec Resolve_Lemmas5
  Include_Model Include_Spec Include_Lemmas Include_Lemmas2.

Lemma root_skip : forall flavor includer pre ns next, Forall (fun n => is_complex n = false) pre ->
  parse_root_nodes flavor includer None (pre ++ ns) next = parse_root_nodes flavor includer None ns next.
Proof.
  intros flavor includer pre ns next F. induction F as [|n pre N F IH]; [reflexivity|]. cbn [app parse_root_nodes]. rewrite N. destruct n; try exact IH. destruct t; exact IH.
Qed.
Lemma root_object : forall flavor includer cs post next, parse_root_nodes flavor includer None (NObject cs :: post) next =
  ('(v, next') <- parse_value flavor includer (NObject cs) [] 0 next ;; parse_root_nodes flavor includer (Some v) post next').
Proof. reflexivity. Qed.

Section Files.
Variable files : str -> option str.
Variable environment : list (str * str).
Variable resolve_depth : nat.
Notation new_file := (new_file files).
Notation parse_parseable := (parse_parseable files environment resolve_depth).
Notation from_basename := (from_basename files).
Notation default_include := (default_include files environment resolve_depth).

Definition conf_or_none (o : parse_options) : Prop := o_syntax o = None \/ o_syntax o = Some CONF.

(** ** Rings of includes *)

Lemma conf_flavor : forall s o, conf_or_none o ->
  match o_syntax (fixup_options (syntax_from_extension (s ++ lit ".conf")) o) with Some f => f | None => CONF end = CONF.
Proof. intros s o [H|H]; unfold fixup_options, set_syntax; cbn [o_syntax]; rewrite H; [rewrite conf_syntax|]; reflexivity. Qed.
Lemma conf_fixed : forall s o, conf_or_none o -> conf_or_none (fixup_options (syntax_from_extension (s ++ lit ".conf")) o).
Proof. intros s o H. right. unfold fixup_options, set_syntax. cbn [o_syntax]. destruct H as [H|H]; rewrite H; [rewrite conf_syntax|]; reflexivity. Qed.

Lemma conf_missing : forall o b, conf_or_none o -> conf_or_none (set_missing o b).
Proof. intros o b H. exact H. Qed.

Section Ring.
Variable S : str -> Prop.
Hypothesis Ring : begins_with_cycle files S.

Lemma ring_never : forall n d file o o' next, S file -> (d < max_include_depth)%nat -> o_includer o = None -> o_includer o' = None -> conf_or_none o' ->
  parse_parseable n d (new_file file o) o' next = Stuck UFuel.
Proof.
  intro n. induction n as [|n IH]; intros d file o o' next HS D O O' C; [reflexivity|]. cbn [Include_Model.parse_parseable pred]. assert (D' := D). apply Nat.leb_gt in D. rewrite D. cbn zeta.
  destruct (Ring file HS) as [[s ->] [text [dir [name [target [F [Dir [B [R HT]]]]]]]]]. destruct B as [pre [skipped [cs [rest [post [E [Pre [Sk Nm]]]]]]]]. apply directory_unique in Dir. subst dir.
  destruct (Ring target HT) as [[s' ET] _].
  unfold parse_object_of. cbn zeta. cbn [Include_Model.new_file p_guess p_text]. rewrite (conf_flavor _ _ C), F. unfold parse_config. rewrite E. cbn [bind]. rewrite root_skip by exact Pre. rewrite root_object.
  match goal with |- context [parse_value CONF ?i _ _ _ _] => set (inc := i) end.
  assert (Call : inc KHeuristic name next = Stuck UFuel).
  { unfold inc. cbn [fixup_options set_syntax o_includer]. rewrite O'. cbn [run_includer]. unfold Include_Model.default_include, Include_Model.from_basename.
    destruct R as [[X ->]|[X R]].
    - assert (X' := X). apply extension_iff in X'. rewrite X'. cbn zeta. rewrite relative_eq, file_dir. rewrite ET in *. rewrite IH; [reflexivity|exact HT|exact D'|exact O|exact O|].
      cbn [Include_Model.new_file p_options]. apply conf_missing, conf_fixed. left. reflexivity.
    - assert (X' := X). apply extension_not in X'. rewrite X'. cbn zeta. destruct R as [->| ->]; [|destruct (conf_not_json s' name); symmetry; exact ET].
      cbn [context_options clear_for_include set_missing set_origin set_syntax o_syntax o_origin o_missing o_includer p_options].
      rewrite IH; [reflexivity|exact HT|exact D'|exact O|exact O|right; reflexivity]. }
  assert (Obj : parse_value CONF inc (NObject (skipped ++ NInclude cs KHeuristic :: rest)) [] 0 next = Stuck UFuel).
  { change (parse_object_nodes CONF inc (parse_value CONF inc) (skipped ++ NInclude cs KHeuristic :: rest) [] [] 0 next = Stuck UFuel). generalize (@nil (str * value)) as values. intro values. clear - Sk Nm Call.
    induction Sk as [|k skipped [K1 K2] Sk IHs]; cbn [app parse_object_nodes is_json].
    - unfold parse_include. rewrite Nm. cbn [bind]. rewrite Call. reflexivity.
    - destruct k; try exact IHs; [destruct (K1 children); reflexivity|destruct (K2 children kind); reflexivity]. }
  rewrite Obj. reflexivity.
Qed.
Lemma ring_file_never : forall n file o next, S file -> o_includer o = None -> o_syntax o <> Some JSON ->
  parse_file_any_syntax files environment resolve_depth n file o next = Stuck UFuel.
Proof.
  intros n file o next HS O C. destruct (Ring file HS) as [[s ->] _]. unfold parse_file_any_syntax, Include_Model.from_basename.
  assert (X : ends_with (lit ".conf") (s ++ lit ".conf") = true) by (apply ends_iff; eauto). rewrite X. cbn [orb]. cbn zeta. apply ring_never; [exact HS|unfold max_include_depth; lia|exact O|exact O|].
  assert (C' : conf_or_none o) by (destruct (o_syntax o) as [[|]|] eqn:E; [right; exact E|congruence|left; exact E]). destruct (conf_fixed s o C') as [H|H]; [left|right]; exact H.
Qed.
End Ring.

Section Cycle.
Variable S : str -> Prop.
Hypothesis Cycle : has_cycle files S.
Lemma cycle_never_ok : forall n d file o o' next r, S file -> o_includer o = None -> o_includer o' = None -> conf_or_none o' ->
  parse_parseable n d (new_file file o) o' next <> Ok r.
Proof.
  intro n. induction n as [|n IH]; intros d file o o' next r HS O O' C H; [discriminate H|]. cbn [Include_Model.parse_parseable pred] in H. destruct (max_include_depth <=? d)%nat; [discriminate H|]. cbn zeta in H.
  destruct (Cycle file HS) as [[s ->] [text [dir [name [F [Dir [B [X HT]]]]]]]]. destruct B as [pre [cs [ics [post [E [Pre [Hin Nm]]]]]]]. apply directory_unique in Dir. subst dir.
  destruct (Cycle _ HT) as [[s' ET] _].
  unfold parse_object_of in H. cbn zeta in H. cbn [Include_Model.new_file p_guess p_text] in H. rewrite (conf_flavor _ _ C), F in H. unfold parse_config in H. rewrite E in H. cbn [bind] in H. rewrite root_skip in H by exact Pre. rewrite root_object in H.
  match type of H with context [parse_value CONF ?i _ _ _ _] => set (inc := i) in H end.
  destruct (parse_value CONF inc (NObject cs) [] 0 next) as [[v n1]|e|u] eqn:V; [|discriminate H|discriminate H].
  destruct (object_includes _ _ _ _ _ _ _ V) as [defs [D _]].
  assert (Q : exists ds, contributes inc [] 0 (NInclude ics KHeuristic) ds).
  { clear - D Hin. induction D as [|c ds cs defs Cd D IHd]; [destruct Hin|]. destruct Hin as [->|Hin]; eauto. }
  destruct Q as [ds Q]. inversion Q as [|i2 k2 name' n2 n3 r' i' m Nm' _ G|x N1 N2]; subst; [|destruct (N2 ics KHeuristic); reflexivity].
  rewrite Nm in Nm'. injection Nm' as <-. unfold inc in G. cbn [fixup_options set_syntax o_includer] in G. rewrite O' in G. cbn [run_includer] in G. unfold Include_Model.default_include, Include_Model.from_basename in G.
  apply extension_iff in X. rewrite X in G. cbn zeta in G. rewrite relative_eq in G. cbn [p_dir Include_Model.new_file] in G.
  match type of G with bind ?x _ = _ => destruct x as [[obj n4]|e|u] eqn:P; [|discriminate G|discriminate G] end. revert P. rewrite ET in HT. rewrite ET. apply IH; [exact HT|exact O|exact O|]. apply conf_missing, conf_fixed. left. reflexivity.
Qed.
End Cycle.

(** ** Missing files *)

Lemma empty_conf : forall includer next, parse_config CONF includer [] next = Ok (Some (new_object []), next).
Proof. intros. reflexivity. Qed.
Lemma empty_json : forall includer next, parse_config JSON includer [] next = Throw EParse.
Proof. intros. reflexivity. Qed.

Lemma missing_conf_file : forall n d s o o' next, files (s ++ lit ".conf") = None -> (d < max_include_depth)%nat -> conf_or_none o' ->
  parse_parseable (S n) d (new_file (s ++ lit ".conf") o) o' next = Ok (new_object [], next).
Proof.
  intros n d s o o' next F D C. cbn [Include_Model.parse_parseable pred]. apply Nat.leb_gt in D. rewrite D. cbn zeta. unfold parse_object_of. cbn zeta. cbn [Include_Model.new_file p_guess p_text]. rewrite (conf_flavor _ _ C), F, empty_conf. reflexivity.
Qed.
Lemma missing_json_file : forall n d file o o' next, files file = None -> (d < max_include_depth)%nat -> o_syntax o' = Some JSON ->
  parse_parseable (S n) d (new_file file o) o' next = Throw EParse.
Proof.
  intros n d file o o' next F D C. cbn [Include_Model.parse_parseable pred]. apply Nat.leb_gt in D. rewrite D. cbn zeta. unfold parse_object_of. cbn zeta. cbn [Include_Model.new_file p_guess p_text fixup_options set_syntax o_syntax]. rewrite C, F, empty_json. reflexivity.
Qed.

(** none of the files an include of [name] reads is there, and the name is not that of a .json file *)
Lemma missing_basename : forall n d c name next, (d < max_include_depth)%nat -> (forall file, reads_file (p_dir c) name file -> files file = None) -> ~ (exists s, name = s ++ lit ".json") ->
  from_basename (parse_parseable (S n) d) (Some c) name (context_options c) next = Ok (new_object [], next).
Proof.
  intros n d c name next D M J. unfold Include_Model.from_basename. destruct (ends_with (lit ".conf") name || ends_with (lit ".json") name) eqn:X.
  - apply extension_iff in X. assert (X' := X). destruct X' as [[s ->]|[s ->]]; [|destruct J; eauto]. cbn zeta. rewrite relative_eq.
    assert (Q : exists t, seen_from (p_dir c) (s ++ lit ".conf") = t ++ lit ".conf").
    { unfold seen_from. destruct (s ++ lit ".conf") as [|a b] eqn:E; [destruct s; discriminate E|]. destruct (Ascii.eqb a "/"); [exists s; congruence|]. rewrite <- E. exists (p_dir c ++ s). rewrite app_assoc. reflexivity. }
    specialize (M _ (or_introl (conj X eq_refl))). destruct Q as [t Q]. rewrite Q in *. apply missing_conf_file; [exact M|exact D|]. destruct (conf_fixed t (context_options c)) as [H|H]; [left; reflexivity|left; exact H|right; exact H].
  - apply extension_not in X. cbn zeta. cbn [context_options clear_for_include set_missing set_origin set_syntax o_syntax o_origin o_missing o_includer].
    assert (M1 := M _ (or_intror (conj X (or_introl eq_refl)))). assert (M2 := M _ (or_intror (conj X (or_intror eq_refl)))).
    rewrite missing_conf_file; [|exact M1|exact D|right; reflexivity]. cbn [caught bind]. rewrite missing_json_file; [|exact M2|exact D|reflexivity]. reflexivity.
Qed.
Lemma missing_include : forall n d c kind name next, (0 < resolve_depth)%nat -> (d < max_include_depth)%nat -> (forall file, reads_file (p_dir c) name file -> files file = None) -> ~ (exists s, name = s ++ lit ".json") ->
  default_include (parse_parseable (S n) d) c kind name next = Ok (new_object [], next).
Proof.
  intros n d c kind name next R D M J. unfold Include_Model.default_include. rewrite missing_basename by assumption. cbn [bind]. destruct kind; try reflexivity. destruct resolve_depth as [|k]; [inversion R|reflexivity].
Qed.
Lemma missing_json : forall n d c s next, (d < max_include_depth)%nat -> files (seen_from (p_dir c) (s ++ lit ".json")) = None ->
  forall kind, default_include (parse_parseable (S n) d) c kind (s ++ lit ".json") next = Throw EParse.
Proof.
  intros n d c s next D M kind. unfold Include_Model.default_include, Include_Model.from_basename.
  assert (X : ends_with (lit ".conf") (s ++ lit ".json") || ends_with (lit ".json") (s ++ lit ".json") = true) by (apply extension_iff; right; eauto). rewrite X. cbn zeta. rewrite relative_eq.
  assert (Q : exists t, seen_from (p_dir c) (s ++ lit ".json") = t ++ lit ".json").
  { unfold seen_from. destruct (s ++ lit ".json") as [|a b] eqn:E; [destruct s; discriminate E|]. destruct (Ascii.eqb a "/"); [exists s; congruence|]. rewrite <- E. exists (p_dir c ++ s). rewrite app_assoc. reflexivity. }
  destruct Q as [t Q]. rewrite Q in *. rewrite missing_json_file; [reflexivity|exact M|exact D|]. cbn [Include_Model.new_file p_options set_missing o_syntax fixup_options set_syntax]. rewrite json_syntax. reflexivity.
Qed.

(** An include statement that contributes nothing *)
Lemma empty_include : forall includer before after ics kind name s ac next, include_name ics = Ok name -> (kind = KFile \/ kind = KHeuristic) ->
  (forall n, includer kind name n = Ok (new_object [], n)) ->
  parse_value CONF includer (NObject (before ++ NInclude ics kind :: after)) s ac next = parse_value CONF includer (NObject (before ++ after)) s ac next.
Proof.
  intros includer before after ics kind name s ac next N K G.
  change (parse_object_nodes CONF includer (parse_value CONF includer) (before ++ NInclude ics kind :: after) [] s ac next = parse_object_nodes CONF includer (parse_value CONF includer) (before ++ after) [] s ac next).
  generalize (@nil (str * value)). revert next. induction before as [|b before IH]; intros next values; cbn [app].
  - cbn [parse_object_nodes is_json].
    assert (I : parse_include includer values ics kind s ac next = Ok (values, next)).
    { unfold parse_include. rewrite N. cbn [bind]. assert (Q : (match kind with KFile | KHeuristic => includer kind name next | _ => Throw EConfig end) = Ok (new_object [], next)) by (destruct K as [->| ->]; apply G). rewrite Q. cbn [bind]. rewrite andb_false_r, below_match. reflexivity. }
    rewrite I. reflexivity.
  - destruct b; try (cbn [parse_object_nodes]; apply IH); cbn [parse_object_nodes is_json].
    + destruct (parse_field _ children s ac next) as [[[p v] n1]|e|u]; cbn [bind]; [|reflexivity|reflexivity]. destruct (add_field CONF values p v) as [values'|e|u]; cbn [bind]; [|reflexivity|reflexivity]. apply IH.
    + destruct (parse_include includer values children kind0 s ac next) as [[values' n1]|e|u]; cbn [bind]; [|reflexivity|reflexivity]. apply IH.
Qed.
Lemma missing_contributes_nothing : forall n c before after ics kind name s ac next, (0 < resolve_depth)%nat -> include_name ics = Ok name -> (kind = KFile \/ kind = KHeuristic) ->
  (forall file, reads_file (p_dir c) name file -> files file = None) -> ~ (exists s, name = s ++ lit ".json") ->
  let includer := run_includer files environment resolve_depth (parse_parseable (S n) 0) None c in
  parse_value CONF includer (NObject (before ++ NInclude ics kind :: after)) s ac next = parse_value CONF includer (NObject (before ++ after)) s ac next.
Proof.
  intros n c before after ics kind name s ac next R N K M J includer. eapply empty_include; [exact N|exact K|]. intro k. unfold includer. cbn [run_includer]. apply missing_include; [exact R|unfold max_include_depth; lia|exact M|exact J].
Qed.

(** ** The options of a text *)

Lemma string_options : forall n text o o' next, o_includer o = o_includer o' -> parse_string files environment resolve_depth n text o next = parse_string files environment resolve_depth n text o' next.
Proof. intros n text [s d m i] [s' d' m' i'] next H. cbn [o_includer] in H. subst i'. reflexivity. Qed.

Lemma string_no_includes : forall n n' text o o' next, (forall kind name, ~ text_includes text kind name) ->
  parse_string files environment resolve_depth n text o next = parse_string files environment resolve_depth n' text o' next.
Proof.
  intros n n' text o o' next H. unfold parse_string, parse_object_of. cbn zeta. cbn [p_guess p_text new_string fixup_options set_syntax o_syntax no_options o_includer].
  match goal with |- bind (parse_config CONF ?a _ _) _ = bind (parse_config CONF ?b _ _) _ => assert (Q : fin (parse_config CONF a text next) (parse_config CONF b text next)) end.
  { apply agree_config. intros ns E. apply Forall_forall. intros [cs kind] Hin _ name k Nm. destruct (H kind name). exists ns, cs. auto. }
  destruct Q as [Q _]. rewrite Q. reflexivity.
Qed.
End Files.

(** ** Loading a file *)
Section Load.
Variable files : str -> option str.
Variable environment : list (str * str).
Variable resolve_depth : nat.
Notation new_file := (new_file files).
Notation parse_parseable := (parse_parseable files environment resolve_depth).
Notation load := (parse_file_any_syntax files environment resolve_depth).

(** The options that matter: the syntax, once the name had its say, and the includer *)
Lemma same_file_object : forall parse file o1 o2 o1' o2' next, o_includer o1 = o_includer o1' -> o_includer o2 = o_includer o2' ->
  o_syntax (fixup_options (syntax_from_extension file) o2) = o_syntax (fixup_options (syntax_from_extension file) o2') ->
  parse_object_of files environment resolve_depth parse (new_file file o1) o2 next = parse_object_of files environment resolve_depth parse (new_file file o1') o2' next.
Proof.
  intros parse file [s1 d1 m1 i1] [s2 d2 m2 i2] [s1' d1' m1' i1'] [s2' d2' m2' i2'] next. cbn [o_includer]. intros <- <- E. unfold parse_object_of. cbn zeta. cbn [Include_Model.new_file p_guess p_text fixup_options set_syntax o_syntax o_includer] in *.
  injection E as E. rewrite E. reflexivity.
Qed.
Lemma same_file : forall n d file o1 o2 o1' o2' next, o_includer o1 = o_includer o1' -> o_includer o2 = o_includer o2' ->
  o_syntax (fixup_options (syntax_from_extension file) o2) = o_syntax (fixup_options (syntax_from_extension file) o2') ->
  parse_parseable n d (new_file file o1) o2 next = parse_parseable n d (new_file file o1') o2' next.
Proof. intros [|n] d file o1 o2 o1' o2' next A B C; [reflexivity|]. cbn [Include_Model.parse_parseable pred]. destruct (max_include_depth <=? d)%nat; [reflexivity|]. apply same_file_object; assumption. Qed.

Lemma include_loads : forall n c name next, o_includer (p_options c) = None -> has_extension name ->
  run_includer files environment resolve_depth (parse_parseable n 0) None c KHeuristic name next = load n (seen_from (p_dir c) name) default_options next.
Proof.
  intros n c name next O X. cbn [run_includer]. unfold default_include, parse_file_any_syntax, from_basename.
  assert (X2 : has_extension (seen_from (p_dir c) name)).
  { destruct name as [|a s] eqn:E; [destruct X as [[t X]|[t X]]; destruct t; discriminate X|]. cbn [seen_from]. destruct (Ascii.eqb a "/"); [exact X|]. destruct X as [[t ->]|[t ->]]; [left|right]; exists (p_dir c ++ t); rewrite app_assoc; reflexivity. }
  apply extension_iff in X. apply extension_iff in X2. rewrite X, X2. cbn zeta. rewrite relative_eq.
  rewrite (same_file n 0 _ _ _ default_options (set_missing (p_options (new_file (seen_from (p_dir c) name) default_options)) true)); [|exact O|exact O|reflexivity].
  match goal with |- bind ?r _ = ?r' => change r' with r; destruct r as [[v k]|e|u]; reflexivity end.
Qed.
Lemma include_basename : forall n c name next, o_includer (p_options c) = None -> ~ has_extension name ->
  run_includer files environment resolve_depth (parse_parseable n 0) None c KHeuristic name next = load n name default_options next.
Proof.
  intros n c name next O X. cbn [run_includer]. unfold default_include, parse_file_any_syntax, from_basename. apply extension_not in X. rewrite X. cbn zeta.
  cbn [context_options clear_for_include set_missing set_origin set_syntax o_syntax o_origin o_missing o_includer default_options].
  rewrite (same_file n 0 (name ++ lit ".conf") (context_options c) _ default_options (set_syntax (set_missing (p_options (new_file (name ++ lit ".conf") default_options)) false) (Some CONF))); [|exact O|exact O|reflexivity].
  match goal with |- bind ?r ?k = ?r' => transitivity r end.
  - match goal with |- bind ?r ?k = _ => destruct r as [[v j]|e|u]; reflexivity end.
  - apply bind_same. intros [obj n1].
    rewrite (same_file n 0 (name ++ lit ".json") (context_options c) _ default_options (set_syntax (set_missing (p_options (new_file (name ++ lit ".json") default_options)) false) (Some JSON))); [|exact O|exact O|reflexivity].
    reflexivity.
Qed.

(** A name without extension: the .conf file over the .json file *)
Lemma load_both : forall n name o next vc n1 vj n2 w, ~ has_extension name -> o_syntax o = None ->
  load n (name ++ lit ".conf") o next = Ok (vc, n1) -> load n (name ++ lit ".json") o n1 = Ok (vj, n2) -> with_fallback vc vj = Ok w -> is_object w = true ->
  load n name o next = Ok (w, n2).
Proof.
  intros n name o next vc n1 vj n2 w X S C J W Ob. unfold parse_file_any_syntax, from_basename in *. apply extension_not in X. rewrite X. cbn zeta in *. rewrite S.
  assert (X1 : ends_with (lit ".conf") (name ++ lit ".conf") || ends_with (lit ".json") (name ++ lit ".conf") = true) by (apply extension_iff; left; eauto).
  assert (X2 : ends_with (lit ".conf") (name ++ lit ".json") || ends_with (lit ".json") (name ++ lit ".json") = true) by (apply extension_iff; right; eauto).
  rewrite X1 in C. rewrite X2 in J.
  rewrite (same_file n 0 _ o _ o (set_missing (p_options (new_file (name ++ lit ".conf") o)) (o_missing o))); [|reflexivity|reflexivity|].
  - rewrite C. cbn [caught bind].
    rewrite (same_file n 0 _ o _ o (set_missing (p_options (new_file (name ++ lit ".json") o)) (o_missing o))); [|reflexivity|reflexivity|].
    + rewrite J. cbn [bind]. rewrite W. cbn [bind caught]. rewrite andb_false_r, Ob. reflexivity.
    + cbn [fixup_options set_syntax set_missing o_syntax Include_Model.new_file p_options]. rewrite S, json_syntax. reflexivity.
  - cbn [fixup_options set_syntax set_missing o_syntax Include_Model.new_file p_options]. rewrite S, conf_syntax. reflexivity.
Qed.
Lemma load_conf_only : forall n name o next vc n1, ~ has_extension name -> o_syntax o = None -> o_missing o = true -> files (name ++ lit ".json") = None ->
  load n (name ++ lit ".conf") o next = Ok (vc, n1) -> load n name o next = Ok (vc, n1).
Proof.
  intros n name o next vc n1 X S M F C. unfold parse_file_any_syntax, from_basename in *. apply extension_not in X. rewrite X. cbn zeta in *. rewrite S.
  assert (X1 : ends_with (lit ".conf") (name ++ lit ".conf") || ends_with (lit ".json") (name ++ lit ".conf") = true) by (apply extension_iff; left; eauto). rewrite X1 in C.
  destruct n as [|n]; [discriminate C|].
  rewrite (same_file (Datatypes.S n) 0 _ o _ o (set_missing (p_options (new_file (name ++ lit ".conf") o)) (o_missing o))); [|reflexivity|reflexivity|].
  - rewrite C. cbn [caught bind]. rewrite missing_json_file; [|exact F|unfold max_include_depth; lia|reflexivity]. cbn [bind caught is_config_exn]. rewrite M. cbn [negb andb].
    assert (Ob : is_object vc = true).
    { cbn [Include_Model.parse_parseable pred] in C. change (max_include_depth <=? 0)%nat with false in C. cbn iota zeta in C. unfold parse_object_of in C. inv_bind C. destruct a as [[v|] k]; cbn [force_parsed_to_object] in Hk; [|discriminate]. destruct (is_object v) eqn:Q; [|discriminate]. congruence. }
    rewrite Ob. reflexivity.
  - cbn [fixup_options set_syntax set_missing o_syntax Include_Model.new_file p_options]. rewrite S, conf_syntax. reflexivity.
Qed.
End Load.

(** ** Finding the first include of a text *)
Fixpoint first_include_in (cs : list node) : option str :=
  match cs with
  | [] | NField _ :: _ => None
  | NInclude ics KHeuristic :: _ => match include_name ics with Ok name => Some name | _ => None end
  | NInclude _ _ :: _ => None
  | _ :: cs' => first_include_in cs'
  end.
Fixpoint first_include_of (ns : list node) : option str :=
  match ns with
  | [] => None
  | NObject cs :: _ => first_include_in cs
  | n :: ns' => if is_complex n then None else first_include_of ns'
  end.
Definition first_include (text : str) : option str := match parse_document CONF text with Ok ns => first_include_of ns | _ => None end.

Lemma first_in : forall cs name, first_include_in cs = Some name -> exists skipped ics rest, cs = skipped ++ NInclude ics KHeuristic :: rest /\
  Forall (fun n => (forall fcs, n <> NField fcs) /\ (forall ics kind, n <> NInclude ics kind)) skipped /\ include_name ics = Ok name.
Proof.
  intro cs. induction cs as [|c cs IH]; intros name H; [discriminate H|].
  assert (Skip : (forall fcs, c <> NField fcs) /\ (forall ics kind, c <> NInclude ics kind) -> first_include_in cs = Some name ->
    exists skipped ics rest, c :: cs = skipped ++ NInclude ics KHeuristic :: rest /\ Forall (fun n => (forall fcs, n <> NField fcs) /\ (forall ics kind, n <> NInclude ics kind)) skipped /\ include_name ics = Ok name).
  { intros C E. destruct (IH name E) as [skipped [ics [rest [-> [F N]]]]]. exists (c :: skipped), ics, rest. repeat split; [|exact N]. constructor; assumption. }
  destruct c; cbn [first_include_in] in H; try discriminate H; try (apply Skip; [split; intros; discriminate|exact H]).
  destruct kind; try discriminate H. destruct (include_name children) as [x|e|u] eqn:E; try discriminate H. injection H as <-. exists [], children, cs. repeat split; [constructor|exact E].
Qed.
Lemma first_of : forall ns name, first_include_of ns = Some name -> exists pre cs post, ns = pre ++ NObject cs :: post /\ Forall (fun n => is_complex n = false) pre /\ first_include_in cs = Some name.
Proof.
  intro ns. induction ns as [|n ns IH]; intros name H; [discriminate H|]. destruct (is_complex n) eqn:C.
  - destruct n; cbn [first_include_of is_complex] in *; try discriminate. exists [], children, ns. repeat split; [constructor|exact H].
  - assert (Q : first_include_of ns = Some name) by (destruct n; cbn [first_include_of is_complex] in *; try exact H; discriminate C).
    destruct (IH name Q) as [pre [cs [post [-> [F E]]]]]. exists (n :: pre), cs, post. repeat split; [constructor; assumption|exact E].
Qed.
Lemma first_begins : forall text name, first_include text = Some name -> begins_with_include text name.
Proof.
  intros text name H. unfold first_include in H. destruct (parse_document CONF text) as [ns|e|u] eqn:E; try discriminate H. destruct (first_of _ _ H) as [pre [cs [post [-> [F G]]]]].
  destruct (first_in _ _ G) as [skipped [ics [rest [-> [K N]]]]]. exists pre, skipped, ics, rest, post. repeat split; assumption.
Qed.
Lemma begins_has : forall text name, begins_with_include text name -> has_include text name.
Proof.
  intros text name [pre [skipped [ics [rest [post [E [F [_ N]]]]]]]]. exists pre, (skipped ++ NInclude ics KHeuristic :: rest), ics, post. repeat split; try assumption. apply in_or_app. right. left. reflexivity.
Qed.
Lemma first_has : forall text name, first_include text = Some name -> has_include text name.
Proof. intros. apply begins_has, first_begins. assumption. Qed.

(** ** Checking a given file system *)
Definition includes_of (text : str) : list (include_kind * str) :=
  match parse_document CONF text with
  | Ok ns => flat_map (fun st => match include_name (fst st) with Ok name => [(snd st, name)] | _ => [] end) (flat_map include_statements ns)
  | _ => []
  end.
Lemma includes_of_right : forall text kind name, text_includes text kind name -> In (kind, name) (includes_of text).
Proof.
  intros text kind name [ns [cs [E [Hin N]]]]. unfold includes_of. rewrite E. apply in_flat_map. exists (cs, kind). split; [exact Hin|]. cbn [fst snd]. rewrite N. left. reflexivity.
Qed.
Definition targets_of (dir name : str) : list str :=
  if ends_with (lit ".conf") name || ends_with (lit ".json") name then [seen_from dir name] else [name ++ lit ".conf"; name ++ lit ".json"].
Lemma targets_of_right : forall dir name file, reads_file dir name file -> In file (targets_of dir name).
Proof.
  intros dir name file [[X ->]|[X R]]; unfold targets_of.
  - apply extension_iff in X. rewrite X. left. reflexivity.
  - apply extension_not in X. rewrite X. destruct R as [->| ->]; [left|right; left]; reflexivity.
Qed.
Definition is_heuristic (k : include_kind) : bool := match k with KHeuristic => true | _ => false end.
Definition ranked (rank : str -> nat) (entry : string * string) : bool :=
  forallb (fun kn => is_heuristic (fst kn) && forallb (fun t => (rank t <? rank (lit (fst entry)))%nat) (targets_of (directory (lit (fst entry))) (snd kn))) (includes_of (quoted (snd entry))).
Lemma disk_entry : forall entries file text, disk entries file = Some text -> exists e, In e entries /\ file = lit (fst e) /\ text = quoted (snd e).
Proof.
  intro entries. induction entries as [|[n t] entries IH]; intros file text H; [discriminate H|]. cbn [disk] in H. destruct (str_eqb file (lit n)) eqn:E.
  - apply str_eqb_eq in E. injection H as <-. exists (n, t). split; [left; reflexivity|]. split; [exact E|reflexivity].
  - destruct (IH _ _ H) as [e [Hin Q]]. exists e. split; [right; exact Hin|exact Q].
Qed.
Lemma ranked_right : forall entries rank, forallb (ranked rank) entries = true -> no_include_cycle (disk entries) rank /\ only_plain_includes (disk entries).
Proof.
  intros entries rank H. rewrite forallb_forall in H. split.
  - intros file text dir kind name target F D T R. apply directory_unique in D. subst dir. destruct (disk_entry _ _ _ F) as [e [Hin [-> ->]]]. specialize (H e Hin). unfold ranked in H. rewrite forallb_forall in H.
    specialize (H _ (includes_of_right _ _ _ T)). apply andb_true_iff in H. destruct H as [_ H]. rewrite forallb_forall in H. specialize (H _ (targets_of_right _ _ _ R)). apply Nat.ltb_lt, H.
  - intros file text kind name F T. destruct (disk_entry _ _ _ F) as [e [Hin [-> ->]]]. specialize (H e Hin). unfold ranked in H. rewrite forallb_forall in H.
    specialize (H _ (includes_of_right _ _ _ T)). apply andb_true_iff in H. destruct H as [H _]. destruct kind; try discriminate H. reflexivity.
Qed.

Definition tower_step (i : nat) : bool :=
  match tower (repeat "a"%char (S i) ++ lit "b.conf") with
  | Some text => match first_include text with Some name => str_eqb name (repeat "a"%char i ++ lit "b.conf") | None => false end
  | None => false
  end.
Lemma tower_steps : forallb tower_step (seq 0 60) = true.
Proof. vm_compute. reflexivity. Qed.
Lemma tower_read : exists files file,
  (forall i, (i < 60)%nat -> exists text, files (repeat "a"%char (S i) ++ lit "b.conf") = Some text /\ has_include text (repeat "a"%char i ++ lit "b.conf")) /\
  file = repeat "a"%char 60 ++ lit "b.conf" /\
  exists v, parse_file_any_syntax files [] 0 61 file default_options 0 = Ok (v, 0%nat) /\ get [lit "x"] v = Some (VScalar (SInt 1 (lit "1"))).
Proof.
  exists tower, (repeat "a"%char 60 ++ lit "b.conf"). split; [|split; [reflexivity|]].
  - intros i L. assert (T := tower_steps). rewrite forallb_forall in T. specialize (T i). assert (Hin : In i (seq 0 60)) by (apply in_seq; lia). specialize (T Hin). unfold tower_step in T.
    destruct (tower (repeat "a"%char (S i) ++ lit "b.conf")) as [text|]; [|discriminate T]. exists text. split; [reflexivity|]. destruct (first_include text) as [name|] eqn:F; [|discriminate T]. apply str_eqb_eq in T. subst name. apply first_has, F.
  - exists (VObj true false [(lit "x", VScalar (SInt 1 (lit "1")))]). split; vm_compute; reflexivity.
Qed.
