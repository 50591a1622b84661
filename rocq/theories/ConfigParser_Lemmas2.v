(** The identities of references do not matter to the parser; appending. *)
From Verif Require Import Base BaseLemmas Util_Model Num_Model Path_Model Token_Model PathParser_Model Doc_Model Edit_Model Value_Model Value_Spec
  Value_Lemmas Value_Lemmas2 Duration_Model Config_Model Concat_Model Concat_Lemmas ConfigParser_Model ConfigParser_Spec ConfigParser_Lemmas.

Definition anon_fields (m : fields) : fields := map (fun kv => (fst kv, anonymous (snd kv))) m.

Lemma rmap_bind : forall A B C (f : B -> C) (r : result A) (k : A -> result B), rmap f (bind r k) = bind r (fun x => rmap f (k x)).
Proof. intros A B C f [a|e|u] k; reflexivity. Qed.
Lemma bind_rmap : forall A B C (f : A -> B) (r : result A) (k : B -> result C), bind (rmap f r) k = bind r (fun x => k (f x)).
Proof. intros A B C f [a|e|u] k; reflexivity. Qed.
Lemma bind_same : forall A B (r : result A) (k k' : A -> result B), (forall x, k x = k' x) -> bind r k = bind r k'.
Proof. intros A B [a|e|u] k k' H; cbn; auto. Qed.

Lemma anon_resolved : forall v, is_resolved (anonymous v) = is_resolved v.
Proof.
  intro v. induction v as [s|vs IH|r i m IH|n p o l|vs IH|vs IH|vs IH] using value_induction; try reflexivity.
  cbn [anonymous is_resolved]. induction IH as [|v vs Hv F IH']; [reflexivity|]. cbn [map forallb]. rewrite Hv, IH'. reflexivity.
Qed.
Lemma anon_lists_resolved : forall vs, forallb is_resolved (map anonymous vs) = forallb is_resolved vs.
Proof. intro vs. induction vs as [|v vs IH]; [reflexivity|]. cbn [map forallb]. rewrite anon_resolved, IH. reflexivity. Qed.
Lemma anon_fields_resolved : forall m, fields_resolved (anon_fields m) = fields_resolved m.
Proof. intro m. unfold fields_resolved, anon_fields. induction m as [|[k v] m IH]; [reflexivity|]. cbn [map forallb snd]. rewrite anon_resolved, IH. reflexivity. Qed.
Lemma anon_new_object : forall m, anonymous (new_object m) = new_object (anon_fields m).
Proof. intro m. unfold new_object. cbn [anonymous]. fold (anon_fields m). rewrite anon_fields_resolved. reflexivity. Qed.
Lemma anon_object : forall v, is_object (anonymous v) = is_object v.
Proof. intros []; reflexivity. Qed.
Lemma anon_unmergeable : forall v, is_unmergeable (anonymous v) = is_unmergeable v.
Proof. intros []; reflexivity. Qed.
Lemma anon_delayed : forall v, is_delayed (anonymous v) = is_delayed v.
Proof. intros []; reflexivity. Qed.
Lemma anon_list : forall v, is_list (anonymous v) = is_list v.
Proof. intros []; reflexivity. Qed.
Lemma anon_concat : forall v, is_concat (anonymous v) = is_concat v.
Proof. intros []; reflexivity. Qed.
Lemma anon_ws : forall v, is_ignored_whitespace (anonymous v) = is_ignored_whitespace v.
Proof. intros []; reflexivity. Qed.
Lemma anon_text : forall v, transform_to_string (anonymous v) = transform_to_string v.
Proof. intros []; reflexivity. Qed.
Lemma anon_exists : forall (f : value -> bool) vs, (forall v, f (anonymous v) = f v) -> existsb f (map anonymous vs) = existsb f vs.
Proof. intros f vs H. induction vs as [|v vs IH]; [reflexivity|]. cbn [map existsb]. rewrite H, IH. reflexivity. Qed.

Lemma anon_ignores : forall v, ignores_fallbacks (anonymous v) = ignores_fallbacks v.
Proof.
  intro v. induction v as [s|vs IH|r i m IH|n p o l|vs IH|vs IH|vs IH] using value_induction; try reflexivity.
  - cbn [anonymous ignores_fallbacks]. apply anon_lists_resolved.
  - cbn [anonymous ignores_fallbacks]. induction IH as [|v [|v2 vs] Hv F IH']; [reflexivity|exact Hv|exact IH'].
  - cbn [anonymous ignores_fallbacks]. induction IH as [|v [|v2 vs] Hv F IH']; [reflexivity|exact Hv|exact IH'].
Qed.

Lemma anon_find : forall m k, find_key k (anon_fields m) = option_map anonymous (find_key k m).
Proof. intros m k. induction m as [|[q v] m IH]; [reflexivity|]. cbn [anon_fields map find_key fst snd]. destruct (str_eqb k q); [reflexivity|exact IH]. Qed.

Lemma anon_unmerged : forall v, unmerged_values (anonymous v) = map anonymous (unmerged_values v).
Proof. intros []; reflexivity. Qed.

Lemma anon_construct : forall this stack, construct_delayed_merge (anonymous this) (map anonymous stack) = rmap anonymous (construct_delayed_merge this stack).
Proof.
  intros this stack. unfold construct_delayed_merge, new_delayed_merge_object, new_delayed_merge. rewrite anon_object. destruct (is_object this).
  - destruct stack as [|v stack]; [reflexivity|]. cbn [map]. change (anonymous v :: map anonymous stack) with (map anonymous (v :: stack)).
    rewrite anon_object, anon_exists by apply anon_delayed. destruct (is_object v); cbn [negb]; [|reflexivity]. destruct (existsb is_delayed (v :: stack)); reflexivity.
  - destruct stack; reflexivity.
Qed.

Lemma anon_non_object : forall this other, merged_with_non_object (anonymous this) (anonymous other) = rmap anonymous (merged_with_non_object this other).
Proof.
  intros this other. unfold merged_with_non_object. rewrite anon_ignores, anon_resolved. destruct (ignores_fallbacks this) eqn:I; [reflexivity|]. destruct (is_resolved this).
  - unfold with_fallbacks_ignored. destruct this; cbn [anonymous]; try reflexivity; try (cbn in I; discriminate).
    + change (VList (map anonymous vs)) with (anonymous (VList vs)). rewrite anon_ignores, I. reflexivity.
    + change (VMerge (map anonymous stack)) with (anonymous (VMerge stack)). rewrite anon_ignores, I. reflexivity.
    + change (VMergeObj (map anonymous stack)) with (anonymous (VMergeObj stack)). rewrite anon_ignores, I. reflexivity.
  - apply (anon_construct this [this; other]).
Qed.

Lemma anon_only : forall m f, only_fallback (anon_fields m) (anon_fields f) = anon_fields (only_fallback m f).
Proof.
  intros m f. unfold only_fallback. induction f as [|[k v] f IH]; [reflexivity|]. cbn [anon_fields map filter fst]. fold (anon_fields m). rewrite anon_find.
  destruct (find_key k m); cbn [option_map]; [exact IH|]. cbn [anon_fields map fst snd]. f_equal. exact IH.
Qed.

Lemma anon_merge : forall m f, Forall (fun kv => forall b, with_fallback (anonymous (snd kv)) (anonymous b) = rmap anonymous (with_fallback (snd kv) b)) m ->
  merge_ours with_fallback (anon_fields m) (anon_fields f) = rmap anon_fields (merge_ours with_fallback m f).
Proof.
  intros m f F. induction F as [|[k v] m Hv F IH]; [reflexivity|]. cbn [anon_fields map merge_ours fst snd] in *. fold (anon_fields f) (anon_fields m) in *. rewrite anon_find, IH.
  destruct (find_key k f) as [w|]; cbn [option_map]; [rewrite Hv; destruct (with_fallback v w); cbn [rmap bind]; [|reflexivity|reflexivity]|cbn [bind]]; destruct (merge_ours with_fallback m f); reflexivity.
Qed.

Lemma anon_fallback : forall a b, with_fallback (anonymous a) (anonymous b) = rmap anonymous (with_fallback a b).
Proof.
  intro a. induction a as [s|vs IH|r i m IH|n p o l|vs IH|vs IH|vs IH] using value_induction; intro b;
    match goal with |- with_fallback (anonymous ?a) _ = _ => rewrite (with_fallback_eq (anonymous a)), (with_fallback_eq a), anon_ignores, anon_unmergeable; destruct (ignores_fallbacks a) eqn:I; [reflexivity|] end;
    (destruct (is_unmergeable b) eqn:U;
     [match goal with |- merged_with_the_unmergeable (anonymous ?a) _ = _ => unfold merged_with_the_unmergeable; rewrite anon_ignores, I, anon_unmerged; exact (anon_construct a (a :: unmerged_values b)) end|]).
  - discriminate.
  - destruct b; try discriminate U; exact (anon_non_object (VList vs) _).
  - destruct b; try discriminate U; try exact (anon_non_object (VObj r i m) _). cbn [anonymous]. fold (anon_fields m) (anon_fields m0). rewrite anon_merge by exact IH.
    destruct (merge_ours with_fallback m m0) as [ours|e|u]; cbn [rmap bind]; [|reflexivity|reflexivity]. cbn [anonymous]. rewrite anon_only. unfold anon_fields. rewrite <- map_app.
    fold (anon_fields (ours ++ only_fallback m m0)). rewrite anon_fields_resolved. reflexivity.
  - destruct b; try discriminate U; exact (anon_non_object (VRef n p o l) _).
  - destruct b; try discriminate U; exact (anon_non_object (VConcat vs) _).
  - destruct b; try discriminate U; exact (anon_non_object (VMerge vs) _).
  - destruct b; try discriminate U; try exact (anon_non_object (VMergeObj vs) _). reflexivity.
Qed.

(** ** Joining *)

Lemma anon_transform : forall v, is_object v = true -> transform (anonymous v) TList = rmap anonymous (transform v TList).
Proof. intros [] H; try discriminate H; reflexivity. Qed.

Lemma anon_join : forall a b, join_values (anonymous a) (anonymous b) = rmap (option_map anonymous) (join_values a b).
Proof.
  intros a b. unfold join_values. rewrite !anon_object, !anon_list.
  assert (L : (if is_object a && is_list b then transform (anonymous a) TList else Ok (anonymous a)) = rmap anonymous (if is_object a && is_list b then transform a TList else Ok a)).
  { destruct (is_object a) eqn:O; [destruct (is_list b); [apply anon_transform, O|reflexivity]|reflexivity]. }
  assert (R : (if is_list a && is_object b then transform (anonymous b) TList else Ok (anonymous b)) = rmap anonymous (if is_list a && is_object b then transform b TList else Ok b)).
  { destruct (is_object b) eqn:O; [destruct (is_list a); [apply anon_transform, O|reflexivity]|rewrite !andb_false_r; reflexivity]. }
  rewrite L, R, bind_rmap, rmap_bind. apply bind_same. intro x. rewrite bind_rmap, rmap_bind. apply bind_same. intro y.
  rewrite !anon_object. destruct (is_object x && is_object y) eqn:O; [rewrite anon_fallback, bind_rmap, rmap_bind; apply bind_same; reflexivity|].
  set (plainly := fun left right : value => if (is_list left || is_object left) && is_ignored_whitespace right then Ok (Some left)
      else if is_concat left || is_concat right then Throw EConfig
      else if is_unmergeable left || is_unmergeable right then Ok None
      else
        let s1 := transform_to_string left in
        let s2 := transform_to_string right in
        match s1, s2 with
        | [], _ | _, [] => Throw EConfig
        | _, _ => Ok (Some (VScalar (SStr (s1 ++ s2) true)))
        end).
  assert (P : plainly (anonymous x) (anonymous y) = rmap (option_map anonymous) (plainly x y)).
  { unfold plainly. rewrite !anon_list, !anon_object, !anon_concat, !anon_unmergeable, anon_ws, !anon_text. destruct ((is_list x || is_object x) && is_ignored_whitespace y); [reflexivity|].
    destruct (is_concat x || is_concat y); [reflexivity|]. destruct (is_unmergeable x || is_unmergeable y); [reflexivity|]. cbn zeta. destruct (transform_to_string x), (transform_to_string y); reflexivity. }
  destruct x; try exact P. destruct y; try exact P. unfold rmap, option_map. cbn [anonymous]. cbn [bind anonymous]. rewrite map_app. reflexivity.
Qed.

Lemma anon_flattened : forall ps, flattened (map anonymous ps) = map anonymous (flattened ps).
Proof.
  intro ps. induction ps as [|p ps IH]; [reflexivity|]. unfold flattened in *. destruct p; cbn [map flat_map anonymous app]; rewrite IH; try reflexivity. symmetry. apply map_app.
Qed.

Lemma anon_join_all : forall ps b, join_all (map anonymous b) (map anonymous ps) = rmap (map anonymous) (join_all b ps).
Proof.
  intro ps. induction ps as [|v ps IH]; intro b; [cbn; rewrite map_rev; reflexivity|]. destruct b as [|x b]; [apply (IH [v])|]. cbn [map join_all]. rewrite anon_join, bind_rmap, rmap_bind.
  apply bind_same. intros [j|]; cbn [option_map]; [apply (IH (j :: b))|apply (IH (v :: x :: b))].
Qed.

Lemma anon_concatenate : forall ps, concatenate (map anonymous ps) = rmap (option_map anonymous) (concatenate ps).
Proof.
  intro ps. unfold concatenate. assert (C : consolidate (map anonymous ps) = rmap (map anonymous) (consolidate ps)).
  { destruct ps as [|a [|b ps]]; try reflexivity. unfold consolidate. change (join_all [] (flattened (map anonymous (a :: b :: ps))) = rmap (map anonymous) (join_all [] (flattened (a :: b :: ps)))).
    rewrite anon_flattened. apply (anon_join_all _ []). }
  rewrite C, bind_rmap, rmap_bind. apply bind_same. intros [|a [|b vs]]; try reflexivity. cbn [map]. change (anonymous a :: anonymous b :: map anonymous vs) with (map anonymous (a :: b :: vs)).
  unfold new_concatenation. rewrite map_length, (anon_exists is_concat) by apply anon_concat. rewrite (anon_exists is_unmergeable) by apply anon_unmergeable.
  destruct ((List.length (a :: b :: vs) <? 2)%nat); [reflexivity|]. destruct (existsb is_concat (a :: b :: vs)); [reflexivity|]. destruct (existsb is_unmergeable (a :: b :: vs)); reflexivity.
Qed.

(** ** Parsing *)

Definition vanon (x : value * nat) : value := anonymous (fst x).
Definition lanon (x : list value * nat) : list value := map anonymous (fst x).
Definition fanon (x : fields * nat) : fields := anon_fields (fst x).
Definition panon (x : path * value * nat) : path * value := (fst (fst x), anonymous (snd (fst x))).

(** Two results that differ in identities only *)
Definition like {A B} (f : A -> B) (r1 r2 : result A) : Prop := rmap f r1 = rmap f r2.

Lemma like_bind : forall A B A' B' (f : A -> A') (g : B -> B') r1 r2 (k1 k2 : A -> result B), like f r1 r2 ->
  (forall x y, r1 = Ok x -> r2 = Ok y -> f x = f y -> like g (k1 x) (k2 y)) -> like g (bind r1 k1) (bind r2 k2).
Proof. intros A B A' B' f g [a|e|u] [a'|e'|u'] k1 k2 H K; unfold like in *; cbn in *; try discriminate; try (injection H as H; subst; reflexivity). apply K; auto. injection H; auto. Qed.

Lemma anon_set_key : forall m k v, anon_fields (set_key m k v) = set_key (anon_fields m) k (anonymous v).
Proof. intros m k v. induction m as [|[q w] m IH]; [reflexivity|]. cbn [set_key anon_fields map fst snd]. destruct (str_eqb k q); [reflexivity|]. cbn [anon_fields map fst snd]. f_equal. exact IH. Qed.

Lemma anon_create : forall p v, anonymous (create_value_under_path p v) = create_value_under_path p (anonymous v).
Proof. intros p v. induction p as [|k p IH]; [reflexivity|]. cbn [create_value_under_path]. rewrite anon_new_object. cbn [anon_fields map fst snd]. rewrite IH. reflexivity. Qed.

Lemma anon_add_field : forall flavor m p v, add_field flavor (anon_fields m) p (anonymous v) = rmap anon_fields (add_field flavor m p v).
Proof.
  intros flavor m p v. destruct p as [|k [|k2 p]]; [reflexivity| |]; cbn [add_field]; rewrite anon_find.
  - destruct (find_key k m) as [w|]; cbn [option_map]; [|cbn [rmap bind]; rewrite anon_set_key; reflexivity]. destruct flavor; [|reflexivity]. rewrite anon_fallback, bind_rmap, rmap_bind.
    apply bind_same. intro x. cbn [rmap bind]. rewrite anon_set_key. reflexivity.
  - destruct flavor; [|reflexivity]. rewrite <- anon_create. destruct (find_key k m) as [w|]; cbn [option_map]; [|cbn [rmap bind]; rewrite anon_set_key; reflexivity].
    rewrite anon_fallback, bind_rmap, rmap_bind. apply bind_same. intro x. rewrite anon_object. destruct (is_object x); [cbn [rmap bind]; rewrite anon_set_key; reflexivity|reflexivity].
Qed.

Lemma anon_add_included : forall m values, add_included (anon_fields values) (anon_fields m) = rmap anon_fields (add_included values m).
Proof.
  intro m. induction m as [|[k v] m IH]; intro values; [reflexivity|]. cbn [anon_fields map fst snd add_included]. fold (anon_fields values) (anon_fields m). rewrite anon_find.
  destruct (find_key k values) as [w|]; cbn [option_map].
  - rewrite anon_fallback, bind_rmap, rmap_bind. apply bind_same. intro x. rewrite <- anon_set_key. apply IH.
  - rewrite <- IH. unfold anon_fields. rewrite map_app. reflexivity.
Qed.

Section Numbers.
Variable flavor : syntax.
Variable includer : include_kind -> str -> nat -> result (value * nat).
Hypothesis Steady : steady includer.

Lemma steady_like : forall kind name n1 n2, like vanon (includer kind name n1) (includer kind name n2).
Proof.
  intros kind name n1 n2. specialize (Steady kind name n1 n2). unfold like. destruct (includer kind name n1) as [[a ?]|?|?], (includer kind name n2) as [[b ?]|?|?]; try contradiction; cbn; [|congruence|congruence].
  unfold vanon. cbn [fst]. f_equal. exact Steady.
Qed.

Definition numberless (n : node) : Prop := forall s ac n1 n2, like vanon (parse_value flavor includer n s ac n1) (parse_value flavor includer n s ac n2).
Definition fields_numberless (n : node) : Prop := match n with NField fcs => Forall numberless fcs | _ => True end.

Lemma like_token : forall t n1 n2, like vanon (token_value t n1) (token_value t n2).
Proof. intros t n1 n2. destruct t; try reflexivity. unfold like. cbn [token_value]. destruct (parse_path_expression _ _ _ _) as [[p ts]|e|u]; reflexivity. Qed.

Lemma like_values : forall cs, Forall numberless cs -> forall s ac n1 n2, like lanon (parse_values (parse_value flavor includer) cs s ac n1) (parse_values (parse_value flavor includer) cs s ac n2).
Proof.
  intros cs F. induction F as [|c cs Hc F IH]; intros s ac n1 n2; [reflexivity|]. cbn [parse_values]. destruct (is_value_node c); [|apply IH].
  eapply like_bind; [apply Hc|]. intros [x m1] [y m2] _ _ E. eapply like_bind; [apply IH|]. intros [xs k1] [ys k2] _ _ E2. unfold like. cbn. unfold vanon, lanon in *. cbn [fst map] in *. congruence.
Qed.

Lemma like_field_value : forall cs, Forall numberless cs -> forall s ac n1 n2, like vanon (parse_field_value (parse_value flavor includer) cs s ac n1) (parse_field_value (parse_value flavor includer) cs s ac n2).
Proof. intros cs F. induction F as [|c cs Hc F IH]; intros s ac n1 n2; [reflexivity|]. cbn [parse_field_value]. destruct (is_value_node c); [apply Hc|apply IH]. Qed.

Lemma like_concatenate : forall vs ws n1 n2, map anonymous vs = map anonymous ws ->
  like vanon (v <- concatenate vs ;; match v with Some v => Ok (v, n1) | None => Stuck UNullDeref end) (v <- concatenate ws ;; match v with Some v => Ok (v, n2) | None => Stuck UNullDeref end).
Proof.
  intros vs ws n1 n2 H. eapply (like_bind _ _ _ _ (option_map anonymous)); [unfold like; rewrite <- !anon_concatenate, H; reflexivity|].
  intros [x|] [y|] _ _ E; cbn in E; try discriminate; [|reflexivity]. unfold like. cbn. unfold vanon. cbn [fst]. congruence.
Qed.

Lemma like_appended : forall s v w n1 n2, anonymous v = anonymous w -> like vanon (appended s v n1) (appended s w n2).
Proof.
  intros s v w n1 n2 H. unfold appended. destruct (full_current_path s) as [p|e|u]; cbn [bind]; [|reflexivity|reflexivity].
  apply like_concatenate. cbn [map anonymous]. rewrite H. reflexivity.
Qed.

Lemma like_field : forall cs, Forall numberless cs -> forall s ac n1 n2, like panon (parse_field (parse_value flavor includer) cs s ac n1) (parse_field (parse_value flavor includer) cs s ac n2).
Proof.
  intros cs F s ac n1 n2. unfold parse_field. destruct (field_path cs) as [[p ts]|e|u]; cbn [bind]; [|reflexivity|reflexivity]. destruct (is_plus_equals cs && (0 <? ac)); [reflexivity|].
  eapply like_bind; [apply like_field_value, F|]. intros [x m1] [y m2] _ _ E. eapply (like_bind _ _ _ _ vanon).
  - destruct (is_plus_equals cs); [apply like_appended, E|]. unfold like. cbn. f_equal. exact E.
  - intros [x2 k1] [y2 k2] _ _ E2. unfold like. cbn. unfold panon, vanon in *. cbn [fst snd] in *. congruence.
Qed.

Lemma like_include : forall values1 values2 cs kind s ac n1 n2, anon_fields values1 = anon_fields values2 ->
  like fanon (parse_include includer values1 cs kind s ac n1) (parse_include includer values2 cs kind s ac n2).
Proof.
  intros values1 values2 cs kind s ac n1 n2 H. unfold parse_include. eapply (like_bind _ _ _ _ vanon).
  - destruct kind; try reflexivity; (destruct (include_name cs) as [name|e|u]; cbn [bind]; [apply steady_like|reflexivity|reflexivity]).
  - intros [x m1] [y m2] _ _ E. unfold vanon in E. cbn [fst] in E. rewrite <- (anon_resolved x), <- (anon_resolved y), E. destruct ((0 <? ac) && negb (is_resolved (anonymous y))); [reflexivity|]. rewrite !below_match.
    destruct x, y; try discriminate E; try reflexivity. cbn [anonymous] in E. injection E as E1 E2 E3. fold (anon_fields m) (anon_fields m0) in E3.
    eapply (like_bind _ _ _ _ anon_fields); [unfold like; rewrite <- !anon_add_included, H, E3; reflexivity|]. intros a b _ _ E. exact (f_equal Ok E).
Qed.

Lemma like_object : forall cs, Forall numberless cs -> Forall fields_numberless cs -> forall values1 values2 s ac n1 n2, anon_fields values1 = anon_fields values2 ->
  like vanon (parse_object_nodes flavor includer (parse_value flavor includer) cs values1 s ac n1) (parse_object_nodes flavor includer (parse_value flavor includer) cs values2 s ac n2).
Proof.
  intros cs F. induction F as [|c cs Hc F IH]; intros G values1 values2 s ac n1 n2 H.
  - cbn [parse_object_nodes]. unfold like, rmap. cbn [bind]. unfold vanon. cbn [fst]. rewrite !anon_new_object, H. reflexivity.
  - inversion G as [|? ? G1 G2]; subst. destruct c; try (cbn [parse_object_nodes]; apply (IH G2), H); cbn [parse_object_nodes].
    + eapply like_bind; [apply like_field, G1|]. intros [[p x] m1] [[q y] m2] _ _ E. unfold panon in E. cbn [fst snd] in E. injection E as <- E.
      eapply (like_bind _ _ _ _ anon_fields); [unfold like; rewrite <- !anon_add_field, H, E; reflexivity|]. intros v1 v2 _ _ E2. apply (IH G2), E2.
    + destruct (is_json flavor); [apply (IH G2), H|]. eapply like_bind; [apply like_include, H|]. intros [v1 m1] [v2 m2] _ _ E2. apply (IH G2), E2.
Qed.

Lemma numbers_irrelevant : forall n, numberless n /\ fields_numberless n.
Proof.
  intro n. induction n as [t|t|p|t|cs F|cs k F|cs F|cs F|cs F] using node_induction; (split; [|try exact I]); try (intros s ac n1 n2; reflexivity).
  - intros s ac n1 n2. apply like_token.
  - exact (Forall_impl _ (fun a H => proj1 H) F).
  - intros s ac n1 n2. cbn [parse_value]. destruct flavor eqn:FL; [|reflexivity]. rewrite <- FL in *. eapply like_bind; [apply like_values, (Forall_impl _ (fun a H => proj1 H) F)|].
    intros [xs m1] [ys m2] _ _ E. apply like_concatenate, E.
  - intros s ac n1 n2. cbn [parse_value]. eapply like_bind; [apply like_values, (Forall_impl _ (fun a H => proj1 H) F)|]. intros [xs m1] [ys m2] _ _ E.
    unfold like. cbn. unfold vanon, lanon in *. cbn [fst anonymous] in *. congruence.
  - intros s ac n1 n2. cbn [parse_value]. apply like_object; [exact (Forall_impl _ (fun a H => proj1 H) F)|exact (Forall_impl _ (fun a H => proj2 H) F)|reflexivity].
Qed.
End Numbers.

(** ** Appending *)

Lemma append_field : forall includer fcs p ts n ets ets' s1 next, steady includer -> field_path fcs = Ok (p, ts) -> is_plus_equals fcs = true -> field_value fcs = Ok n ->
  parse_path_expression true CONF ets LEnd = Ok (p, ets') -> s1 = [] ->
  like panon (parse_field (parse_value CONF includer) fcs s1 0 next)
    (parse_field (parse_value CONF includer) [NPath (p, ts); NTok TEquals; NConcat [NSimple (TSubst true ets); NArray [NTok TOpenSquare; n; NTok TCloseSquare]]] s1 0 next).
Proof.
  intros includer fcs p ts n ets ets' s1 next St Hp Hpl Hv He ->. unfold parse_field. rewrite Hp, Hpl. cbn [bind andb field_path is_plus_equals]. rewrite Z.ltb_irrefl.
  rewrite (field_value_first CONF includer fcs n Hv). cbn [parse_field_value is_value_node app]. cbn [parse_value parse_values is_value_node token_value]. rewrite He, (field_value_node _ _ Hv). cbn [bind].
  pose proof (proj1 (numbers_irrelevant CONF includer St n) [p] (0 + 1) next (S next)) as L. unfold like in *.
  destruct (parse_value CONF includer n [p] (0 + 1) next) as [[v m1]|e|u], (parse_value CONF includer n [p] (0 + 1) (S next)) as [[w m2]|e'|u']; cbn [rmap bind] in *; try discriminate; try congruence.
  injection L as L. unfold vanon in L. cbn [fst] in L.
  pose proof (like_concatenate [VRef m1 p true 0; VList [v]] [VRef next p true 0; VList [w]] (S m1) m2) as C. unfold like in C. unfold appended. cbn [full_current_path bind].
  specialize (C ltac:(cbn [map anonymous]; rewrite L; reflexivity)).
  destruct (concatenate [VRef m1 p true 0; VList [v]]) as [[x|]|e|u], (concatenate [VRef next p true 0; VList [w]]) as [[y|]|e'|u']; cbn [rmap bind] in *; try discriminate; try congruence.
  injection C as C. unfold vanon, panon in *. cbn [fst snd] in *. congruence.
Qed.

Lemma append_object : forall includer before after fcs p ts n ets ets' next, steady includer -> field_path fcs = Ok (p, ts) -> is_plus_equals fcs = true -> field_value fcs = Ok n ->
  parse_path_expression true CONF ets LEnd = Ok (p, ets') ->
  like vanon (parse_value CONF includer (NObject (before ++ NField fcs :: after)) [] 0 next)
    (parse_value CONF includer (NObject (before ++ NField [NPath (p, ts); NTok TEquals; NConcat [NSimple (TSubst true ets); NArray [NTok TOpenSquare; n; NTok TCloseSquare]]] :: after)) [] 0 next).
Proof.
  intros includer before after fcs p ts n ets ets' next St Hp Hpl Hv He. cbn [parse_value].
  generalize (@nil (str * value)). revert next. induction before as [|b before IH]; intros next values; cbn [app].
  - cbn [parse_object_nodes]. eapply like_bind; [eapply append_field; eauto|]. intros [[q x] m1] [[q' y] m2] _ _ E. unfold panon in E. cbn [fst snd] in E. injection E as <- E.
    eapply (like_bind _ _ _ _ anon_fields); [unfold like; rewrite <- !anon_add_field, E; reflexivity|]. intros v1 v2 _ _ E2.
    apply like_object; [exact St| | |exact E2]; apply Forall_forall; intros a _; apply (numbers_irrelevant CONF includer St a).
  - destruct b; try (cbn [parse_object_nodes]; apply IH); cbn [parse_object_nodes].
    + destruct (parse_field _ children [] 0 next) as [[[q v] n1]|e|u]; cbn [bind]; [|reflexivity|reflexivity].
      destruct (add_field CONF values q v) as [values'|e|u]; cbn [bind]; [|reflexivity|reflexivity]. apply IH.
    + cbn [is_json]. destruct (parse_include includer values children kind [] 0 next) as [[values' n1]|e|u]; cbn [bind]; [|reflexivity|reflexivity]. apply IH.
Qed.

Lemma like_same : forall r1 r2, like vanon r1 r2 -> same_outcome r1 r2.
Proof. intros [[a n]|e|u] [[b m]|e'|u'] H; unfold like in H; cbn in H; try discriminate; unfold same_outcome, alike; [injection H as H; exact H|congruence|congruence]. Qed.

Lemma append_same : forall includer before after fcs p ts n ets ets' next, steady includer -> field_path fcs = Ok (p, ts) -> is_plus_equals fcs = true -> field_value fcs = Ok n ->
  parse_path_expression true CONF ets LEnd = Ok (p, ets') ->
  same_outcome (parse_value CONF includer (NObject (before ++ NField fcs :: after)) [] 0 next) (parse_value CONF includer (NObject (before ++ self_append p ts ets n :: after)) [] 0 next).
Proof. intros. apply like_same. eapply append_object; eassumption. Qed.

Lemma numbers_same : forall flavor includer, steady includer -> forall n s ac n1 n2, same_outcome (parse_value flavor includer n s ac n1) (parse_value flavor includer n s ac n2).
Proof. intros. apply like_same, numbers_irrelevant, H. Qed.
