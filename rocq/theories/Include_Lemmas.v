(** What parsing takes from the includer. *)
From Verif Require Import Base BaseLemmas Util_Model Num_Model Path_Model Token_Model Token_Spec PathParser_Model Doc_Model Doc_Lemmas3 Edit_Model Value_Model Value_Spec
  Value_Lemmas Value_Lemmas2 Concat_Model Concat_Lemmas ConfigParser_Model ConfigParser_Spec ConfigParser_Lemmas Resolve_Model Resolve_Spec Resolve_Lemmas5 Include_Model Include_Spec.

(** ** The fields an include statement contributes *)

Lemma add_included_history : forall m values values' defs, add_included values m = Ok values' ->
  (forall k, history (definitions_of k defs) = Ok (find_key k values)) ->
  forall k, history (definitions_of k (defs ++ map (fun kv => ([fst kv], snd kv)) m)) = Ok (find_key k values').
Proof.
  intro m. induction m as [|[key v] m IH]; intros values values' defs H I k; cbn [add_included map] in *.
  - injection H as <-. rewrite app_nil_r. apply I.
  - cbn [fst snd]. change (([key], v) :: map (fun kv : str * value => ([fst kv], snd kv)) m) with ([([key], v)] ++ map (fun kv : str * value => ([fst kv], snd kv)) m). rewrite app_assoc.
    destruct (find_key key values) as [old|] eqn:F.
    + inv_bind H. refine (IH _ _ _ Hk _ k). intro k'. rewrite definitions_app. cbn [definitions_of]. rewrite find_set_key. destruct (str_eqb k' key) eqn:E.
      * apply str_eqb_eq in E. subst k'. rewrite history_snoc, I, F. cbn [bind under]. rewrite Hb. reflexivity.
      * rewrite app_nil_r. apply I.
    + refine (IH _ _ _ H _ k). intro k'. rewrite definitions_app. cbn [definitions_of]. rewrite find_key_app. destruct (str_eqb k' key) eqn:E.
      * apply str_eqb_eq in E. subst k'. rewrite history_snoc, I, F. cbn [bind under find_key]. rewrite str_eqb_refl. reflexivity.
      * rewrite app_nil_r, I. cbn [find_key]. rewrite E. destruct (find_key k' values); reflexivity.
Qed.

Lemma include_gives : forall includer values ics kind s ac next values' next', parse_include includer values ics kind s ac next = Ok (values', next') ->
  exists name n1 r i m, include_name ics = Ok name /\ (kind = KFile \/ kind = KHeuristic) /\ includer kind name next = Ok (VObj r i m, n1) /\
    add_included values m = Ok values' /\ next' = n1.
Proof.
  intros includer values ics kind s ac next values' next' H. unfold parse_include in H. inv_bind H. destruct a as [obj n1].
  destruct ((0 <? ac) && negb (is_resolved obj)); [discriminate|]. rewrite below_match in Hk. destruct obj as [| |r i m| | | |]; try discriminate. inv_bind Hk. injection Hk0 as <- <-.
  assert (Q : (kind = KFile \/ kind = KHeuristic) /\ (name <- include_name ics ;; includer kind name next) = Ok (VObj r i m, n1)) by (destruct kind; try discriminate Hb; split; auto).
  destruct Q as [K Q]. inv_bind Q. exists a0, n1, r, i, m. repeat split; assumption.
Qed.

Lemma object_history_includes : forall includer cs values path_stack ac next v next' defs,
  parse_object_nodes CONF includer (parse_value CONF includer) cs values path_stack ac next = Ok (v, next') ->
  (forall k, history (definitions_of k defs) = Ok (find_key k values)) ->
  exists more, Forall2 (contributes includer path_stack ac) cs more /\ simple_object v /\
    forall k, history (definitions_of k (defs ++ List.concat more)) = Ok (get [k] v).
Proof.
  intros includer cs. induction cs as [|c cs IH]; intros values path_stack ac next v next' defs H I.
  - cbn [parse_object_nodes] in H. injection H as <- <-. exists []. split; [constructor|]. split; [repeat eexists|]. intro k. cbn [List.concat]. rewrite app_nil_r, I. cbn [get]. unfold new_object. destruct (find_key k values); reflexivity.
  - assert (Skip : parse_object_nodes CONF includer (parse_value CONF includer) cs values path_stack ac next = Ok (v, next') -> contributes includer path_stack ac c [] ->
              exists more, Forall2 (contributes includer path_stack ac) (c :: cs) more /\ simple_object v /\
                forall k, history (definitions_of k (defs ++ List.concat more)) = Ok (get [k] v)).
    { intros HS C. destruct (IH _ _ _ _ _ _ _ HS I) as [more [M1 [M2 M3]]]. exists ([] :: more). split; [constructor; assumption|]. split; assumption. }
    destruct c; try (apply Skip; [exact H|constructor; intros; discriminate]); cbn [parse_object_nodes is_json] in H.
    + inv_bind H. destruct a as [[p w] n1]. inv_bind Hk. rename a into values'.
      destruct (IH values' path_stack ac n1 v next' (defs ++ [(p, w)]) Hk0) as [more [M1 [M2 M3]]]; [eapply add_field_history; eassumption|].
      exists ([(p, w)] :: more). split; [constructor; [constructor; unfold defines; cbn [fst snd]; eauto|exact M1]|]. split; [exact M2|]. intro k. specialize (M3 k). rewrite <- app_assoc in M3. exact M3.
    + inv_bind H. destruct a as [values' n1]. destruct (include_gives _ _ _ _ _ _ _ _ _ Hb) as [name [n2 [r [i [m [N [K [G [A ->]]]]]]]]].
      destruct (IH values' path_stack ac n2 v next' _ Hk (add_included_history _ _ _ _ A I)) as [more [M1 [M2 M3]]].
      exists (map (fun kv => ([fst kv], snd kv)) m :: more). split; [constructor; [econstructor; eassumption|exact M1]|]. split; [exact M2|]. intro k. specialize (M3 k). rewrite <- app_assoc in M3. exact M3.
Qed.

Lemma object_includes : forall includer cs path_stack ac next v next',
  parse_value CONF includer (NObject cs) path_stack ac next = Ok (v, next') ->
  exists defs, Forall2 (contributes includer path_stack ac) cs defs /\ simple_object v /\
    forall k, history (definitions_of k (List.concat defs)) = Ok (get [k] v).
Proof.
  intros includer cs path_stack ac next v next' H. change (parse_object_nodes CONF includer (parse_value CONF includer) cs [] path_stack ac next = Ok (v, next')) in H.
  destruct (object_history_includes includer cs [] path_stack ac next v next' [] H) as [more M]; [reflexivity|]. exists more. exact M.
Qed.

Lemma object_includes_last : forall includer cs path_stack ac next v next',
  parse_value CONF includer (NObject cs) path_stack ac next = Ok (v, next') ->
  exists defs, Forall2 (contributes includer path_stack ac) cs defs /\
    (forall k, definitions_of k (List.concat defs) = [] -> get [k] v = None) /\
    (forall k before last, definitions_of k (List.concat defs) = before ++ [last] -> plain last -> is_object last = false -> get [k] v = Some last) /\
    (forall k, definitions_of k (List.concat defs) <> [] -> Forall plain (definitions_of k (List.concat defs)) ->
       exists w, get [k] v = Some w /\ stack_of (rev (definitions_of k (List.concat defs))) = Ok w).
Proof.
  intros includer cs path_stack ac next v next' H. destruct (object_includes _ _ _ _ _ _ _ H) as [defs [D [_ M]]]. exists defs. split; [exact D|]. set (ds := List.concat defs) in *. repeat split.
  - intros k E. specialize (M k). rewrite E in M. cbn [history] in M. congruence.
  - intros k before last E P O. specialize (M k). rewrite E in M. destruct (get [k] v) as [w|] eqn:G.
    + f_equal. apply (history_last before last w P O M).
    + rewrite history_snoc in M. inv_bind M. destruct a as [old|]; [|discriminate]. inv_bind Hk. discriminate.
  - intros k N P. specialize (M k). destruct (history_plain _ N P) as [w [E S]]. rewrite E in M. injection M as M. exists w. auto.
Qed.

(** ** Parsing depends on the includer only through the include statements in the text *)

Definition fin {A} (r1 r2 : result A) : Prop := r1 = r2 /\ r1 <> Stuck UFuel.
Lemma fin_bind : forall A B (r1 r2 : result A) (k1 k2 : A -> result B), fin r1 r2 -> (forall x, r1 = Ok x -> fin (k1 x) (k2 x)) -> fin (bind r1 k1) (bind r2 k2).
Proof. intros A B r1 r2 k1 k2 [<- N] K. destruct r1 as [x|e|u]; cbn [bind]; [apply K; reflexivity|split; [reflexivity|discriminate]|split; [reflexivity|congruence]]. Qed.
Lemma fin_neat : forall A (r : result A), neat r -> fin r r.
Proof. intros A r H. split; [reflexivity|]. intros ->. exact H. Qed.
Lemma fin_ok : forall A (a : A), fin (Ok a) (Ok a).
Proof. intros. split; [reflexivity|discriminate]. Qed.
Lemma fin_throw : forall A e, fin (Throw e : result A) (Throw e).
Proof. intros. split; [reflexivity|discriminate]. Qed.
Lemma fin_null : forall A, fin (Stuck UNullDeref : result A) (Stuck UNullDeref).
Proof. intros. split; [reflexivity|discriminate]. Qed.
#[global] Hint Resolve fin_ok fin_throw fin_null : fin.

Lemma path_tokens_neat : forall ts flavor buff acc, neat (path_tokens_loop true flavor buff acc ts).
Proof.
  intro ts. induction ts as [|t ts IH]; intros flavor buff acc; cbn [path_tokens_loop]; [exact I|]. destruct t; try apply IH; try reflexivity. match goal with |- neat (match ?x with _ => _ end) => destruct x; apply IH end.
Qed.
Lemma build_path_neat : forall es b, neat (build_path true es b).
Proof. intro es. induction es as [|[x c] es IH]; intro b; cbn [build_path]; [exact I|]. match goal with |- neat (if ?q then _ else _) => destruct q; [reflexivity|apply IH] end. Qed.
Lemma path_expression_neat : forall ts, neat (parse_path_expression true CONF ts LEnd).
Proof.
  intro ts. unfold parse_path_expression. destruct ts as [|t ts]; [reflexivity|]. apply neat_bind; [apply path_tokens_neat|]. intros [buff acc] _. cbn [raise_end].
  apply neat_bind; [apply build_path_neat|]. intros. exact I.
Qed.
Lemma token_value_neat : forall t next, neat (token_value t next).
Proof. intros t next. destruct t; try exact I; try reflexivity. cbn [token_value]. apply neat_bind; [apply path_expression_neat|]. intros [p q] _. exact I. Qed.
Lemma include_name_neat : forall cs, neat (include_name cs).
Proof. intro cs. induction cs as [|c cs IH]; [exact I|]. destruct c; try exact IH. cbn [include_name]. apply neat_bind; [apply token_value_neat|]. intros [v n] _. exact I. Qed.
Lemma concatenate_neat : forall ps, neat (concatenate ps).
Proof.
  intro ps. unfold concatenate. apply neat_bind; [apply consolidate_neat|]. intros vs _. destruct vs as [|a [|b vs]]; try exact I. apply neat_bind; [apply new_concat_neat|]. intros. exact I.
Qed.
Lemma add_included_neat : forall m values, neat (add_included values m).
Proof. intro m. induction m as [|[k v] m IH]; intro values; cbn [add_included]; [exact I|]. destruct (find_key k values); [|apply IH]. apply neat_bind; [apply fallback_neat|]. intros. apply IH. Qed.
Lemma neat_fin : forall A (r : result A), neat r -> fin r r.
Proof. exact fin_neat. Qed.
Lemma add_field_fin : forall flavor values p v, fin (add_field flavor values p v) (add_field flavor values p v).
Proof.
  intros flavor values p v. unfold add_field. destruct p as [|k [|k2 p]]; auto with fin.
  - destruct (find_key k values); auto with fin. destruct flavor; auto with fin. apply fin_neat, neat_bind; [apply fallback_neat|]. intros. exact I.
  - destruct flavor; auto with fin. cbn zeta. destruct (find_key k values); auto with fin. apply fin_bind; [apply fin_neat, fallback_neat|]. intros x _. destruct (is_object x); auto with fin.
Qed.
Lemma appended_fin : forall s v next, fin (appended s v next) (appended s v next).
Proof.
  intros s v next. unfold appended. apply fin_bind; [destruct s; cbn [full_current_path]; auto with fin|]. intros p _. apply fin_bind; [apply fin_neat, concatenate_neat|]. intros [w|] _; auto with fin.
Qed.
Lemma field_path_fin : forall cs, fin (field_path cs) (field_path cs).
Proof. intro cs. split; [reflexivity|]. induction cs as [|c cs IH]; [discriminate|]. destruct c; try exact IH; discriminate. Qed.

Section Agree.
Variable flavor : syntax.
Variables inc1 inc2 : include_kind -> str -> nat -> result (value * nat).
Definition agree_at (st : list node * include_kind) : Prop := is_json flavor = false -> forall name next, include_name (fst st) = Ok name -> fin (inc1 (snd st) name next) (inc2 (snd st) name next).
Definition agree (n : node) : Prop := Forall agree_at (include_statements n) ->
  forall s ac next, fin (parse_value flavor inc1 n s ac next) (parse_value flavor inc2 n s ac next).
Definition agree_fields (n : node) : Prop := match n with NField cs => Forall agree cs | _ => True end.

Lemma agree_app : forall cs, Forall agree_at (flat_map include_statements cs) -> Forall (fun c => Forall agree_at (include_statements c)) cs.
Proof. intro cs. induction cs as [|c cs IH]; intro H; [constructor|]. cbn [flat_map] in H. apply Forall_app in H. destruct H. constructor; auto. Qed.

Lemma agree_values : forall cs, Forall agree cs -> Forall (fun c => Forall agree_at (include_statements c)) cs -> forall s ac next,
  fin (parse_values (parse_value flavor inc1) cs s ac next) (parse_values (parse_value flavor inc2) cs s ac next).
Proof.
  intros cs F. induction F as [|c cs Hc F IH]; intros G s ac next; cbn [parse_values]; auto with fin. inversion G as [|? ? G1 G2]; subst. destruct (is_value_node c); [|apply IH, G2].
  apply fin_bind; [apply Hc, G1|]. intros [v n1] _. apply fin_bind; [apply IH, G2|]. intros [vs n2] _. auto with fin.
Qed.
Lemma agree_field_value : forall cs, Forall agree cs -> Forall (fun c => Forall agree_at (include_statements c)) cs -> forall s ac next,
  fin (parse_field_value (parse_value flavor inc1) cs s ac next) (parse_field_value (parse_value flavor inc2) cs s ac next).
Proof.
  intros cs F. induction F as [|c cs Hc F IH]; intros G s ac next; cbn [parse_field_value]; auto with fin. inversion G as [|? ? G1 G2]; subst. destruct (is_value_node c); [apply Hc, G1|apply IH, G2].
Qed.
Lemma agree_field : forall cs, Forall agree cs -> Forall (fun c => Forall agree_at (include_statements c)) cs -> forall s ac next,
  fin (parse_field (parse_value flavor inc1) cs s ac next) (parse_field (parse_value flavor inc2) cs s ac next).
Proof.
  intros cs F G s ac next. unfold parse_field. apply fin_bind; [apply field_path_fin|]. intros [p ts] _. cbn zeta. destruct (is_plus_equals cs && (0 <? ac)); auto with fin.
  apply fin_bind; [apply agree_field_value; assumption|]. intros [v n1] _. apply fin_bind; [destruct (is_plus_equals cs); [apply appended_fin|auto with fin]|]. intros [w n2] _. auto with fin.
Qed.
Lemma agree_include : forall values cs kind s ac next, is_json flavor = false -> agree_at (cs, kind) -> fin (parse_include inc1 values cs kind s ac next) (parse_include inc2 values cs kind s ac next).
Proof.
  intros values cs kind s ac next J H. specialize (H J). unfold parse_include. apply fin_bind.
  - assert (Q : fin (name <- include_name cs ;; inc1 kind name next) (name <- include_name cs ;; inc2 kind name next)) by (apply fin_bind; [apply fin_neat, include_name_neat|]; intros name N; apply (H name next N)).
    destruct kind; auto with fin.
  - intros [obj n1] _. destruct ((0 <? ac) && negb (is_resolved obj)); auto with fin. rewrite !below_match. destruct obj; auto with fin. apply fin_bind; [apply fin_neat, add_included_neat|]. intros. auto with fin.
Qed.
Lemma agree_object : forall cs, Forall agree cs -> Forall agree_fields cs -> Forall (fun c => Forall agree_at (include_statements c)) cs -> forall values s ac next,
  fin (parse_object_nodes flavor inc1 (parse_value flavor inc1) cs values s ac next) (parse_object_nodes flavor inc2 (parse_value flavor inc2) cs values s ac next).
Proof.
  intros cs F. induction F as [|c cs Hc F IH]; intros G K values s ac next; cbn [parse_object_nodes]; auto with fin. inversion G as [|? ? G1 G2]; inversion K as [|? ? K1 K2]; subst.
  destruct c; try apply (IH G2 K2).
  - apply fin_bind; [apply agree_field; [exact G1|apply agree_app, K1]|]. intros [[p v] n1] _. apply fin_bind; [apply add_field_fin|]. intros values' _. apply (IH G2 K2).
  - destruct (is_json flavor) eqn:J; [apply (IH G2 K2)|]. apply fin_bind; [apply agree_include; [exact J|inversion K1; assumption]|]. intros [values' n1] _. apply (IH G2 K2).
Qed.
Lemma all_agree : forall n, agree n /\ agree_fields n.
Proof.
  intro n. induction n as [t|t|p|t|cs F|cs k F|cs F|cs F|cs F] using node_induction; (split; [intros K s ac next; cbn [parse_value]; auto with fin|try exact I]).
  - apply fin_neat, token_value_neat.
  - cbn [agree_fields]. refine (Forall_impl _ _ F). intros a [A _]. exact A.
  - destruct flavor eqn:Fl; auto with fin. apply fin_bind.
    + rewrite <- Fl. apply agree_values; [refine (Forall_impl _ _ F); intros a [A _]; exact A|apply agree_app, K].
    + intros [vs n1] _. apply fin_bind; [apply fin_neat, concatenate_neat|]. intros [w|] _; auto with fin.
  - apply fin_bind; [apply agree_values; [refine (Forall_impl _ _ F); intros a [A _]; exact A|apply agree_app, K]|]. intros [vs n1] _. auto with fin.
  - apply agree_object; [refine (Forall_impl _ _ F); intros a [A _]; exact A|refine (Forall_impl _ _ F); intros a [_ A]; exact A|apply agree_app, K].
Qed.
Lemma agree_root : forall ns found next, Forall agree_at (flat_map include_statements ns) -> fin (parse_root_nodes flavor inc1 found ns next) (parse_root_nodes flavor inc2 found ns next).
Proof.
  intro ns. induction ns as [|n ns IH]; intros found next K; cbn [parse_root_nodes]; auto with fin. cbn [flat_map] in K. apply Forall_app in K. destruct K as [K1 K2].
  assert (Q : fin (if is_complex n then '(v, next') <- parse_value flavor inc1 n [] 0 next ;; parse_root_nodes flavor inc1 (Some v) ns next' else parse_root_nodes flavor inc1 found ns next)
                  (if is_complex n then '(v, next') <- parse_value flavor inc2 n [] 0 next ;; parse_root_nodes flavor inc2 (Some v) ns next' else parse_root_nodes flavor inc2 found ns next)).
  { destruct (is_complex n); [|apply IH, K2]. apply fin_bind; [apply all_agree, K1|]. intros [v n1] _. apply IH, K2. }
  destruct n; try exact Q. destruct t; try exact Q. destruct found; auto with fin.
Qed.
Lemma document_fin : forall f text, fin (parse_document f text) (parse_document f text).
Proof.
  intros f text. split; [reflexivity|]. intro E. assert (T := document_total f text). rewrite E in T. destruct T as [T|[[_ [T|T]]|[_ T]]]; discriminate T.
Qed.
(** Two includers that agree, and end, on what the text includes *)
Lemma agree_config : forall text next, (forall ns, parse_document flavor text = Ok ns -> Forall agree_at (flat_map include_statements ns)) ->
  fin (parse_config flavor inc1 text next) (parse_config flavor inc2 text next).
Proof. intros text next K. unfold parse_config. apply fin_bind; [apply document_fin|]. intros ns E. apply agree_root, K, E. Qed.
End Agree.
