(** Files that include each other. *)
From Verif Require Import Base BaseLemmas Util_Model Num_Model Path_Model Token_Model Token_Spec PathParser_Model Doc_Model Edit_Model Value_Model Value_Spec
  Value_Lemmas Value_Lemmas2 Concat_Model Concat_Lemmas ConfigParser_Model ConfigParser_Spec ConfigParser_Lemmas Resolve_Model Resolve_Spec Resolve_Lemmas5 Include_Model Include_Spec Include_Lemmas.

(** ** Names *)

Lemma starts_iff : forall p s, starts p s = true <-> exists t, s = p ++ t.
Proof.
  intro p. induction p as [|c p IH]; intro s; cbn [starts].
  - split; [intros _; exists s; reflexivity|reflexivity].
  - destruct s as [|d s]; [split; [discriminate|intros [t E]; discriminate]|]. rewrite andb_true_iff, Ascii.eqb_eq, IH. split.
    + intros [-> [t ->]]. exists t. reflexivity.
    + intros [t E]. injection E as -> ->. eauto.
Qed.
Lemma ends_iff : forall suffix s, ends_with suffix s = true <-> exists t, s = t ++ suffix.
Proof.
  intros suffix s. unfold ends_with. rewrite starts_iff. split; intros [t E].
  - exists (rev t). rewrite <- (rev_involutive s), E, rev_app_distr, rev_involutive. reflexivity.
  - exists (rev t). rewrite E, rev_app_distr. reflexivity.
Qed.
Lemma extension_iff : forall name, ends_with (lit ".conf") name || ends_with (lit ".json") name = true <-> has_extension name.
Proof. intro name. rewrite orb_true_iff, !ends_iff. reflexivity. Qed.
Lemma extension_not : forall name, ends_with (lit ".conf") name || ends_with (lit ".json") name = false <-> ~ has_extension name.
Proof. intro name. rewrite <- extension_iff. destruct (ends_with (lit ".conf") name || ends_with (lit ".json") name); split; intros; congruence. Qed.

Lemma conf_not_json : forall a b : str, a ++ lit ".conf" <> b ++ lit ".json".
Proof. intros a b E. apply (f_equal (@rev ascii)) in E. rewrite !rev_app_distr in E. discriminate E. Qed.
Lemma conf_syntax : forall s, syntax_from_extension (s ++ lit ".conf") = Some CONF.
Proof.
  intro s. unfold syntax_from_extension. destruct (ends_with (lit ".json") (s ++ lit ".conf")) eqn:E; [apply ends_iff in E; destruct E as [t E]; destruct (conf_not_json _ _ E)|].
  assert (Q : ends_with (lit ".conf") (s ++ lit ".conf") = true) by (apply ends_iff; eauto). rewrite Q. reflexivity.
Qed.
Lemma json_syntax : forall s, syntax_from_extension (s ++ lit ".json") = Some JSON.
Proof.
  intro s. unfold syntax_from_extension. assert (Q : ends_with (lit ".json") (s ++ lit ".json") = true) by (apply ends_iff; eauto). rewrite Q. reflexivity.
Qed.

Lemma after_slash_spec : forall s, exists b, s = b ++ after_slash s /\ ~ In "/"%char b /\ (after_slash s = [] \/ exists d, after_slash s = "/"%char :: d).
Proof.
  intro s. induction s as [|c s [b [E [N D]]]]; [exists []; cbn; repeat split; auto|]. cbn [after_slash]. destruct (Ascii.eqb c "/") eqn:Q.
  - apply Ascii.eqb_eq in Q. subst c. exists []. repeat split; [intros []|eauto].
  - exists (c :: b). split; [cbn; rewrite <- E; reflexivity|]. split; [|exact D]. intros [->|H]; [discriminate Q|exact (N H)].
Qed.
Lemma directory_right : forall name, directory_of name (directory name).
Proof.
  intro name. unfold directory, directory_of. destruct (after_slash_spec (rev name)) as [b [E [N D]]]. exists (rev b). split.
  - rewrite <- rev_app_distr, <- E, rev_involutive. reflexivity.
  - split; [rewrite <- in_rev; exact N|]. destruct D as [->|[d ->]]; [left; reflexivity|right; exists (rev d); reflexivity].
Qed.
Lemma after_slash_skip : forall b s, ~ In "/"%char b -> after_slash (b ++ s) = after_slash s.
Proof. intro b. induction b as [|c b IH]; intros s N; [reflexivity|]. cbn [app after_slash]. destruct (Ascii.eqb c "/") eqn:Q; [apply Ascii.eqb_eq in Q; subst c; destruct N; left; reflexivity|]. apply IH. intro H. apply N. right. exact H. Qed.
Lemma directory_unique : forall name dir, directory_of name dir -> dir = directory name.
Proof.
  intros name dir [base [-> [N D]]]. unfold directory. rewrite rev_app_distr, after_slash_skip by (rewrite <- in_rev; exact N).
  destruct D as [->|[d ->]]; [reflexivity|]. rewrite rev_app_distr. cbn [rev app after_slash]. change (Ascii.eqb "/" "/") with true. cbn iota. cbn [rev]. rewrite rev_involutive. reflexivity.
Qed.

(** ** Outcomes *)

Lemma fin_caught : forall A (r1 r2 : result A), fin r1 r2 -> fin (caught r1) (caught r2).
Proof. intros A r1 r2 [<- N]. destruct r1 as [a|e|u]; cbn [caught]; auto with fin; [destruct (is_config_exn e); auto with fin|split; [reflexivity|congruence]]. Qed.

Section Files.
Variable files : str -> option str.
Variable environment : list (str * str).
Variable resolve_depth : nat.
Notation new_file := (new_file files).
Notation parse_parseable := (parse_parseable files environment resolve_depth).
Notation from_basename := (from_basename files).

Lemma relative_eq : forall p name, relative_to files p name = new_file (seen_from (p_dir p) name) (context_options p).
Proof. intros p [|c name]; reflexivity. Qed.
Lemma file_dir : forall name o, p_dir (new_file name o) = directory name.
Proof. reflexivity. Qed.

(** from_basename with two parse functions that agree on the files read *)
Lemma basename_fin : forall parse1 parse2 context name o next,
  (forall file o1 o2 n, reads_file (match context with Some c => p_dir c | None => [] end) name file -> o_includer o1 = o_includer o -> o_includer o2 = o_includer o ->
     fin (parse1 (new_file file o1) o2 n) (parse2 (new_file file o1) o2 n)) ->
  (forall c, context = Some c -> o_includer (p_options c) = o_includer o) ->
  fin (from_basename parse1 context name o next) (from_basename parse2 context name o next).
Proof.
  intros parse1 parse2 context name o next H C. unfold Include_Model.from_basename.
  destruct (ends_with (lit ".conf") name || ends_with (lit ".json") name) eqn:X.
  - apply extension_iff in X. cbn zeta. destruct context as [c|].
    + rewrite relative_eq. apply H; [left; auto| |]; apply (C c eq_refl).
    + apply H; [left; split; [exact X|]|reflexivity|reflexivity]. destruct name as [|a name]; [reflexivity|]. cbn [seen_from app]. destruct (Ascii.eqb a "/"); reflexivity.
  - apply extension_not in X. cbn zeta.
    assert (F1 : forall o1 o2 n, o_includer o1 = o_includer o -> o_includer o2 = o_includer o -> fin (parse1 (new_file (name ++ lit ".conf") o1) o2 n) (parse2 (new_file (name ++ lit ".conf") o1) o2 n)) by (intros; apply H; auto; right; auto).
    assert (F2 : forall o1 o2 n, o_includer o1 = o_includer o -> o_includer o2 = o_includer o -> fin (parse1 (new_file (name ++ lit ".json") o1) o2 n) (parse2 (new_file (name ++ lit ".json") o1) o2 n)) by (intros; apply H; auto; right; auto).
    apply fin_bind.
    + assert (Q : fin (r <- caught (parse1 (new_file (name ++ lit ".conf") o) (set_syntax (set_missing (p_options (new_file (name ++ lit ".conf") o)) false) (Some CONF)) next) ;; Ok (match r with Some x => x | None => (new_object [], next) end))
                      (r <- caught (parse2 (new_file (name ++ lit ".conf") o) (set_syntax (set_missing (p_options (new_file (name ++ lit ".conf") o)) false) (Some CONF)) next) ;; Ok (match r with Some x => x | None => (new_object [], next) end))).
      { apply fin_bind; [apply fin_caught, F1; reflexivity|]. intros. auto with fin. }
      destruct (o_syntax o) as [[|]|]; auto with fin.
    + intros [obj n1] _. apply fin_bind.
      * destruct (o_syntax o) as [[|]|]; [auto with fin| |];
          (apply fin_bind; [|intros [[w n]|] _; auto with fin]; apply fin_caught, fin_bind; [apply F2; reflexivity|]; intros [v n] _; apply fin_bind; [apply fin_neat, fallback_neat|]; intros; auto with fin).
      * intros [[w n2] got] _. destruct (negb (o_missing o) && negb got); auto with fin. destruct (is_object w); auto with fin.
Qed.

Lemma force_fin : forall r, fin (force_parsed_to_object r) (force_parsed_to_object r).
Proof. intros [[v|] n]; cbn [force_parsed_to_object]; auto with fin. destruct (is_object v); auto with fin. Qed.

(** parse_value(options) with two parse functions that agree on the files the text includes *)
Lemma object_of_fin : forall parse1 parse2 p o next, o_includer o = None -> o_includer (p_options p) = None ->
  (forall kind name, text_includes (p_text p) kind name -> kind = KHeuristic) ->
  (forall kind name file o1 o2 n, text_includes (p_text p) kind name -> reads_file (p_dir p) name file -> o_includer o1 = None -> o_includer o2 = None ->
     fin (parse1 (new_file file o1) o2 n) (parse2 (new_file file o1) o2 n)) ->
  fin (parse_object_of files environment resolve_depth parse1 p o next) (parse_object_of files environment resolve_depth parse2 p o next).
Proof.
  intros parse1 parse2 p o next O P K H. unfold parse_object_of. cbn zeta. apply fin_bind; [|intros; apply force_fin].
  match goal with |- fin (parse_config ?f _ _ _) _ => set (flavor := f) end. apply agree_config. intros ns E. apply Forall_forall. intros [cs kind] Hin J name n N.
  assert (T : text_includes (p_text p) kind name). { exists ns, cs. destruct flavor; [|discriminate J]. repeat split; assumption. }
  cbn [fixup_options set_syntax o_includer]. rewrite O. cbn [run_includer]. cbn [fst snd] in *. assert (Kd := K kind name T). subst kind. unfold default_include.
  apply fin_bind; [|intros [obj n1] _; auto with fin]. apply basename_fin.
  - intros file o1 o2 m R O1 O2. apply (H KHeuristic name); auto; [rewrite O1|rewrite O2]; exact P.
  - intros c Ec. injection Ec as <-. reflexivity.
Qed.

Lemma empty_includes_nothing : forall kind name, ~ text_includes [] kind name.
Proof. intros kind name [ns [cs [E [Hin _]]]]. vm_compute in E. injection E as <-. exact Hin. Qed.

Variable rank : str -> nat.
Hypothesis Acyclic : no_include_cycle files rank.
Hypothesis Plain : only_plain_includes files.

Lemma file_ends : forall n1 n2 d1 d2 file o o' next, (rank file < n1)%nat -> (rank file < n2)%nat -> (d1 < max_include_depth)%nat -> (d2 < max_include_depth)%nat ->
  o_includer o = None -> o_includer o' = None -> fin (parse_parseable n1 d1 (new_file file o) o' next) (parse_parseable n2 d2 (new_file file o) o' next).
Proof.
  intro n1. induction n1 as [|n1 IH]; intros n2 d1 d2 file o o' next L1 L2 D1 D2 O O'; [inversion L1|]. destruct n2 as [|n2]; [inversion L2|]. cbn [Include_Model.parse_parseable pred].
  apply Nat.leb_gt in D1. apply Nat.leb_gt in D2. rewrite D1, D2. apply Nat.leb_gt in D1. apply Nat.leb_gt in D2. cbn zeta. apply object_of_fin; [exact O'|exact O| |].
  - intros kind name T. cbn [Include_Model.new_file p_text] in T. destruct (files file) as [text|] eqn:F; [exact (Plain _ _ _ _ F T)|destruct (empty_includes_nothing _ _ T)].
  - intros kind name target o1 o2 n T R O1 O2. cbn [Include_Model.new_file p_text p_dir] in T, R. destruct (files file) as [text|] eqn:F; [|destruct (empty_includes_nothing _ _ T)].
    assert (Lt := Acyclic _ _ _ _ _ _ F (directory_right file) T R). apply IH; try assumption; lia.
Qed.

Lemma any_syntax_ends : forall name o next, o_includer o = None -> exists n, forall m, (n <= m)%nat ->
  parse_file_any_syntax files environment resolve_depth m name o next = parse_file_any_syntax files environment resolve_depth n name o next /\
  parse_file_any_syntax files environment resolve_depth m name o next <> Stuck UFuel.
Proof.
  intros name o next O. set (n := S (Nat.max (rank name) (Nat.max (rank (name ++ lit ".conf")) (rank (name ++ lit ".json"))))). exists n. intros m L. apply basename_fin; [|intros c E; discriminate E].
  intros file o1 o2 k R O1 O2.
  assert (B : (rank file < n)%nat). { unfold n. destruct R as [[_ ->]|[_ [->| ->]]]; [|lia|lia]. assert (Q : seen_from [] name = name) by (destruct name as [|a s]; [reflexivity|]; cbn [seen_from app]; destruct (Ascii.eqb a "/"); reflexivity). rewrite Q. lia. }
  apply file_ends; try lia; congruence || (unfold max_include_depth; lia).
Qed.

Lemma bounded_targets : forall dir (sts : list (list node * include_kind)), exists N, forall cs kind name file, In (cs, kind) sts -> include_name cs = Ok name -> reads_file dir name file -> (rank file < N)%nat.
Proof.
  intros dir sts. induction sts as [|[cs kind] sts [N IH]]; [exists 0%nat; intros ? ? ? ? []|].
  destruct (include_name cs) as [name|e|u] eqn:E.
  - exists (S (Nat.max N (Nat.max (rank (seen_from dir name)) (Nat.max (rank (name ++ lit ".conf")) (rank (name ++ lit ".json")))))). intros cs' kind' name' file [Q|Hin] E' R.
    + injection Q as <- <-. rewrite E in E'. injection E' as <-. destruct R as [[_ ->]|[_ [->| ->]]]; lia.
    + specialize (IH _ _ _ _ Hin E' R). lia.
  - exists N. intros cs' kind' name' file [Q|Hin] E' R; [injection Q as <- <-; congruence|exact (IH _ _ _ _ Hin E' R)].
  - exists N. intros cs' kind' name' file [Q|Hin] E' R; [injection Q as <- <-; congruence|exact (IH _ _ _ _ Hin E' R)].
Qed.

Lemma string_ends : forall text o next, o_includer o = None -> (forall kind name, text_includes text kind name -> kind = KHeuristic) -> exists n, forall m, (n <= m)%nat ->
  parse_string files environment resolve_depth m text o next = parse_string files environment resolve_depth n text o next /\
  parse_string files environment resolve_depth m text o next <> Stuck UFuel.
Proof.
  intros text o next O K. assert (B : exists N, forall kind name file, text_includes text kind name -> reads_file [] name file -> (rank file < N)%nat).
  { destruct (parse_document CONF text) as [ns|e|u] eqn:E.
    - destruct (bounded_targets [] (flat_map include_statements ns)) as [N B]. exists N. intros kind name file [ns' [cs [E' [Hin Nm]]]] R. rewrite E in E'. injection E' as <-. exact (B _ _ _ _ Hin Nm R).
    - exists 0%nat. intros kind name file [ns' [cs [E' _]]]. congruence.
    - exists 0%nat. intros kind name file [ns' [cs [E' _]]]. congruence. }
  destruct B as [N B]. exists N. intros m L. apply object_of_fin; [reflexivity|exact O|exact K|]. intros kind name file o1 o2 n T R O1 O2. cbn [new_string p_text p_dir] in *. specialize (B kind name file T R).
  apply file_ends; try assumption; try lia; unfold max_include_depth; lia.
Qed.
End Files.
