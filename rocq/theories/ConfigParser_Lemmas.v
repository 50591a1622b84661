(** The meaning of parsed objects. *)
From Verif Require Import Base BaseLemmas Util_Model Num_Model Path_Model Token_Model PathParser_Model Doc_Model Edit_Model Value_Model Value_Spec
  Value_Lemmas Value_Lemmas2 Concat_Model Concat_Lemmas ConfigParser_Model ConfigParser_Spec.

(** ** Maps *)

Lemma find_set_key : forall m k v k', find_key k' (set_key m k v) = if str_eqb k' k then Some v else find_key k' m.
Proof.
  intros m k v k'. induction m as [|[q w] m IH]; cbn [set_key find_key]; [destruct (str_eqb k' k); reflexivity|].
  destruct (str_eqb k q) eqn:E; cbn [find_key].
  - apply str_eqb_eq in E. subst q. destruct (str_eqb k' k); reflexivity.
  - rewrite IH. destruct (str_eqb k' q) eqn:E'; [|reflexivity]. apply str_eqb_eq in E'. subst q. destruct (str_eqb k' k) eqn:E2; [|reflexivity].
    apply str_eqb_eq in E2. subst k'. rewrite str_eqb_refl in E. discriminate.
Qed.

Lemma under_resolved : forall p v, is_resolved (under p v) = is_resolved v.
Proof. intros [|k p] v; reflexivity. Qed.
Lemma under_eq : forall p v, create_value_under_path p v = under p v.
Proof.
  intros p v. induction p as [|k p IH]; [reflexivity|]. cbn [create_value_under_path under]. unfold new_object, fields_resolved. cbn [forallb snd].
  rewrite IH, under_resolved, andb_true_r. reflexivity.
Qed.

(** ** Histories *)

Lemma after_app : forall a v b, after v (a ++ b) = (w <- after v a ;; after w b).
Proof. intro a. induction a as [|x a IH]; intros v b; [reflexivity|]. cbn [app after]. destruct (with_fallback x v); cbn [bind]; auto. Qed.

Lemma history_snoc : forall vs v, history (vs ++ [v]) =
  (old <- history vs ;; match old with None => Ok (Some v) | Some w => u <- with_fallback v w ;; Ok (Some u) end).
Proof.
  intros [|x vs] v; [reflexivity|]. cbn [app history]. rewrite after_app. destruct (after x vs) as [w|e|u]; cbn [bind after]; [|reflexivity|reflexivity].
  destruct (with_fallback v w); reflexivity.
Qed.

Lemma definitions_app : forall k a b, definitions_of k (a ++ b) = definitions_of k a ++ definitions_of k b.
Proof.
  intros k a b. induction a as [|[[|k' p] v] a IH]; [reflexivity|exact IH|]. cbn [app definitions_of]. destruct (str_eqb k k'); [cbn; rewrite IH; reflexivity|exact IH].
Qed.

Lemma add_field_history : forall values p v values' defs, add_field CONF values p v = Ok values' ->
  (forall k, history (definitions_of k defs) = Ok (find_key k values)) ->
  forall k, history (definitions_of k (defs ++ [(p, v)])) = Ok (find_key k values').
Proof.
  intros values p v values' defs H I k. rewrite definitions_app. unfold add_field in H. destruct p as [|key rest]; [discriminate|].
  cbn [definitions_of].
  assert (Q : exists w, values' = set_key values key w /\
               match find_key key values with None => w = under rest v | Some old => with_fallback (under rest v) old = Ok w end).
  { destruct rest as [|k2 rest].
    - destruct (find_key key values) as [old|]; [inv_bind H; injection Hk as <-; eauto|injection H as <-; eauto].
    - rewrite under_eq in H. destruct (find_key key values) as [old|]; [inv_bind H; destruct (is_object a); [|discriminate]; injection Hk as <-; eauto|injection H as <-; eauto]. }
  destruct Q as [w [-> Q]]. rewrite find_set_key. destruct (str_eqb k key) eqn:E.
  - apply str_eqb_eq in E. subst k. rewrite history_snoc, I. cbn [bind]. destruct (find_key key values) as [old|]; [rewrite Q; reflexivity|subst w; reflexivity].
  - rewrite app_nil_r. apply I.
Qed.

Lemma add_field_ok : forall values p v values', add_field CONF values p v = Ok values' -> p <> [].
Proof. intros values [|k p] v values' H; [discriminate|discriminate]. Qed.

Lemma object_history : forall includer cs values path_stack ac next v next' defs, Forall no_include cs ->
  parse_object_nodes CONF includer (parse_value CONF includer) cs values path_stack ac next = Ok (v, next') ->
  (forall k, history (definitions_of k defs) = Ok (find_key k values)) ->
  exists more, Forall2 (fun fcs pv => exists n1 n2, parse_field (parse_value CONF includer) fcs path_stack ac n1 = Ok (fst pv, snd pv, n2)) (field_nodes cs) more /\
    simple_object v /\ forall k, history (definitions_of k (defs ++ more)) = Ok (get [k] v).
Proof.
  intros includer cs. induction cs as [|c cs IH]; intros values path_stack ac next v next' defs F H I.
  - cbn [parse_object_nodes] in H. injection H as <- <-. exists []. split; [constructor|]. split; [repeat eexists|]. intro k. rewrite app_nil_r, I. cbn [get]. unfold new_object. destruct (find_key k values); reflexivity.
  - inversion F as [|? ? F1 F2]; subst.
    assert (Skip : parse_object_nodes CONF includer (parse_value CONF includer) cs values path_stack ac next = Ok (v, next') -> field_nodes (c :: cs) = field_nodes cs ->
              exists more, Forall2 (fun fcs pv => exists n1 n2, parse_field (parse_value CONF includer) fcs path_stack ac n1 = Ok (fst pv, snd pv, n2)) (field_nodes (c :: cs)) more /\
    simple_object v /\ forall k, history (definitions_of k (defs ++ more)) = Ok (get [k] v)) by (intros HS ->; eapply IH; eassumption).
    destruct c; try (apply Skip; [exact H|reflexivity]); [|destruct F1].
    cbn [parse_object_nodes] in H. inv_bind H. destruct a as [[p w] n1]. inv_bind Hk. rename a into values'.
    destruct (IH values' path_stack ac n1 v next' (defs ++ [(p, w)]) F2 Hk0) as [more [M1 [M2 M3]]]; [eapply add_field_history; eassumption|].
    exists ((p, w) :: more). split; [constructor; [cbn [fst snd]; eauto|exact M1]|]. split; [exact M2|]. intro k. specialize (M3 k). rewrite <- app_assoc in M3. exact M3.
Qed.

Lemma object_meaning : forall includer cs path_stack ac next v next', Forall no_include cs ->
  parse_value CONF includer (NObject cs) path_stack ac next = Ok (v, next') ->
  exists defs, Forall2 (fun fcs pv => exists n1 n2, parse_field (parse_value CONF includer) fcs path_stack ac n1 = Ok (fst pv, snd pv, n2)) (field_nodes cs) defs /\
    simple_object v /\ forall k, history (definitions_of k defs) = Ok (get [k] v).
Proof.
  intros includer cs path_stack ac next v next' F H. change (parse_object_nodes CONF includer (parse_value CONF includer) cs [] path_stack ac next = Ok (v, next')) in H.
  destruct (object_history includer cs [] path_stack ac next v next' [] F H) as [more M]; [reflexivity|]. exists more. exact M.
Qed.

(** ** Resolved definitions *)

Lemma after_plain : forall later v, plain v -> Forall plain later -> exists w, after v later = Ok w /\ plain w /\ stack_of (rev later ++ [v]) = Ok w.
Proof.
  intro later. induction later as [|x later IH]; intros v P F; [exists v; auto|]. inversion F as [|? ? F1 F2]; subst.
  destruct (plain_merge x v F1 P) as [u [E Pu]]. destruct (IH u Pu F2) as [w [A [Pw S]]]. exists w. cbn [after]. rewrite E. cbn [bind]. split; [exact A|]. split; [exact Pw|].
  cbn [rev]. rewrite <- app_assoc. cbn [app].
  rewrite (stack_of_app (rev later) [x; v] u); [exact S|discriminate|apply Forall_rev, F2|constructor; [exact F1|constructor; [exact P|constructor]]|].
  cbn [stack_of with_fallbacks]. rewrite E. reflexivity.
Qed.

Lemma history_plain : forall vs, vs <> [] -> Forall plain vs -> exists w, history vs = Ok (Some w) /\ stack_of (rev vs) = Ok w.
Proof.
  intros [|v vs] N F; [contradiction|]. inversion F as [|? ? F1 F2]; subst. destruct (after_plain vs v F1 F2) as [w [A [_ S]]]. exists w. cbn [history rev]. rewrite A. split; [reflexivity|exact S].
Qed.

Lemma history_last : forall vs v w, plain v -> is_object v = false -> history (vs ++ [v]) = Ok (Some w) -> w = v.
Proof.
  intros vs v w P O H. rewrite history_snoc in H. inv_bind H. destruct a as [old|]; [|injection Hk as <-; reflexivity].
  assert (I : ignores_fallbacks v = true) by (destruct (plain_ignores v P) as [I|[m ->]]; [exact I|discriminate]).
  rewrite (fallback_ignored v old I) in Hk. cbn [bind] in Hk. injection Hk as <-. reflexivity.
Qed.

Lemma last_wins : forall includer cs path_stack ac next v next', Forall no_include cs ->
  parse_value CONF includer (NObject cs) path_stack ac next = Ok (v, next') ->
  exists defs, Forall2 (fun fcs pv => exists n1 n2, parse_field (parse_value CONF includer) fcs path_stack ac n1 = Ok (fst pv, snd pv, n2)) (field_nodes cs) defs /\
    (forall k, definitions_of k defs = [] -> get [k] v = None) /\
    (forall k before last, definitions_of k defs = before ++ [last] -> plain last -> is_object last = false -> get [k] v = Some last) /\
    (forall k, definitions_of k defs <> [] -> Forall plain (definitions_of k defs) ->
       exists w, get [k] v = Some w /\ stack_of (rev (definitions_of k defs)) = Ok w).
Proof.
  intros includer cs path_stack ac next v next' F H. destruct (object_meaning _ _ _ _ _ _ _ F H) as [defs [D [_ M]]]. exists defs. split; [exact D|]. repeat split.
  - intros k E. specialize (M k). rewrite E in M. cbn [history] in M. congruence.
  - intros k before last E P O. specialize (M k). rewrite E in M. destruct (get [k] v) as [w|] eqn:G.
    + f_equal. apply (history_last before last w P O M).
    + rewrite history_snoc in M. inv_bind M. destruct a as [old|]; [|discriminate]. inv_bind Hk. discriminate.
  - intros k N P. specialize (M k). destruct (history_plain _ N P) as [w [E S]]. rewrite E in M. injection M as M. exists w. auto.
Qed.

(** ** Dotted keys *)

Section NodeInd.
Variable P : node -> Prop.
Hypothesis Htok : forall t, P (NTok t).
Hypothesis Hcom : forall t, P (NComment t).
Hypothesis Hpath : forall p, P (NPath p).
Hypothesis Hsim : forall t, P (NSimple t).
Hypothesis Hfield : forall cs, Forall P cs -> P (NField cs).
Hypothesis Hinc : forall cs k, Forall P cs -> P (NInclude cs k).
Hypothesis Hcat : forall cs, Forall P cs -> P (NConcat cs).
Hypothesis Harr : forall cs, Forall P cs -> P (NArray cs).
Hypothesis Hobj : forall cs, Forall P cs -> P (NObject cs).
Fixpoint node_induction (n : node) : P n :=
  let all := fix all (ns : list node) : Forall P ns :=
    match ns with [] => Forall_nil _ | m :: ms => Forall_cons _ (node_induction m) (all ms) end in
  match n with
  | NTok t => Htok t | NComment t => Hcom t | NPath p => Hpath p | NSimple t => Hsim t
  | NField cs => Hfield cs (all cs) | NInclude cs k => Hinc cs k (all cs) | NConcat cs => Hcat cs (all cs)
  | NArray cs => Harr cs (all cs) | NObject cs => Hobj cs (all cs)
  end.
End NodeInd.

(** An included object is never changed by the path it is included at. *)
Lemma below_object : forall s v, is_object v = true -> below_path s v = v.
Proof. intros [|p s] [| | | | | |] H; try discriminate H; reflexivity. Qed.
Lemma below_match : forall A s v (f : fields -> A) g b, match below_path s v with VObj _ _ m => f m | VMergeObj _ => g | _ => b end = match v with VObj _ _ m => f m | VMergeObj _ => g | _ => b end.
Proof. intros A [|p s] [| | | | | |] f g b; reflexivity. Qed.
Lemma include_free : forall includer values cs kind s1 s2 ac next, parse_include includer values cs kind s1 ac next = parse_include includer values cs kind s2 ac next.
Proof.
  intros includer values cs kind s1 s2 ac next. unfold parse_include. match goal with |- bind ?r _ = _ => destruct r as [[obj n1]|e|u]; cbn [bind]; [|reflexivity|reflexivity] end.
  destruct ((0 <? ac) && negb (is_resolved obj)); [reflexivity|]. rewrite !below_match. reflexivity.
Qed.

(** Without += the path stack does not matter. *)
Definition stack_free (flavor : syntax) includer (n : node) : Prop := no_append n = true ->
  forall s1 s2 ac next, parse_value flavor includer n s1 ac next = parse_value flavor includer n s2 ac next.
Definition fields_stack_free (flavor : syntax) includer (n : node) : Prop :=
  match n with NField fcs => Forall (stack_free flavor includer) fcs | _ => True end.

Lemma field_value_free : forall flavor includer fcs, Forall (stack_free flavor includer) fcs -> forallb no_append fcs = true ->
  forall s1 s2 ac next, parse_field_value (parse_value flavor includer) fcs s1 ac next = parse_field_value (parse_value flavor includer) fcs s2 ac next.
Proof.
  intros flavor includer fcs F. induction F as [|c fcs Hc F IH]; intros N s1 s2 ac next; [reflexivity|]. cbn [forallb] in N. apply andb_true_iff in N. destruct N as [N1 N2].
  cbn [parse_field_value]. destruct (is_value_node c); [apply Hc, N1|apply IH, N2].
Qed.

Lemma values_free : forall flavor includer cs, Forall (stack_free flavor includer) cs -> forallb no_append cs = true ->
  forall s1 s2 ac next, parse_values (parse_value flavor includer) cs s1 ac next = parse_values (parse_value flavor includer) cs s2 ac next.
Proof.
  intros flavor includer cs F. induction F as [|c cs Hc F IH]; intros N s1 s2 ac next; [reflexivity|]. cbn [forallb] in N. apply andb_true_iff in N. destruct N as [N1 N2].
  cbn [parse_values]. destruct (is_value_node c); [|apply IH, N2]. rewrite (Hc N1 s1 s2). destruct (parse_value flavor includer c s2 ac next) as [[v n1]|e|u]; cbn [bind]; [|reflexivity|reflexivity].
  rewrite (IH N2 s1 s2). reflexivity.
Qed.

Lemma field_free : forall flavor includer fcs, Forall (stack_free flavor includer) fcs -> no_append (NField fcs) = true ->
  forall s1 s2 ac next, parse_field (parse_value flavor includer) fcs s1 ac next = parse_field (parse_value flavor includer) fcs s2 ac next.
Proof.
  intros flavor includer fcs F N s1 s2 ac next. cbn [no_append] in N. apply andb_true_iff in N. destruct N as [N1 N2]. unfold parse_field.
  destruct (field_path fcs) as [[p ts]|e|u]; cbn [bind]; [|reflexivity|reflexivity]. destruct (is_plus_equals fcs); [discriminate|]. cbn [andb].
  rewrite (field_value_free flavor includer fcs F N2 (s1 ++ [p]) (s2 ++ [p])). reflexivity.
Qed.

Lemma object_free_stack : forall flavor includer cs, Forall (stack_free flavor includer) cs -> Forall (fields_stack_free flavor includer) cs -> forallb no_append cs = true ->
  forall values s1 s2 ac next, parse_object_nodes flavor includer (parse_value flavor includer) cs values s1 ac next = parse_object_nodes flavor includer (parse_value flavor includer) cs values s2 ac next.
Proof.
  intros flavor includer cs F. induction F as [|c cs Hc F IH]; intros G N values s1 s2 ac next; [reflexivity|]. inversion G as [|? ? G1 G2]; subst. cbn [forallb] in N. apply andb_true_iff in N. destruct N as [N1 N2].
  destruct c; try (cbn [parse_object_nodes]; apply (IH G2 N2)).
  - cbn [parse_object_nodes]. rewrite (field_free flavor includer children G1 N1 s1 s2). destruct (parse_field _ children s2 ac next) as [[[p v] n1]|e|u]; cbn [bind]; [|reflexivity|reflexivity].
    destruct (add_field flavor values p v) as [values'|e|u]; cbn [bind]; [|reflexivity|reflexivity]. apply (IH G2 N2).
  - cbn [parse_object_nodes]. destruct (is_json flavor); [apply (IH G2 N2)|]. rewrite (include_free includer values children kind s1 s2). destruct (parse_include includer values children kind s2 ac next) as [[values' n1]|e|u]; cbn [bind]; [|reflexivity|reflexivity].
    apply (IH G2 N2).
Qed.

Lemma stack_irrelevant : forall flavor includer n, stack_free flavor includer n /\ fields_stack_free flavor includer n.
Proof.
  intros flavor includer n. induction n as [t|t|p|t|cs F|cs k F|cs F|cs F|cs F] using node_induction; (split; [|try exact I]); try (intros N s1 s2 ac next; reflexivity).
  - cbn [fields_stack_free]. apply Forall_forall. rewrite Forall_forall in F. intros c Hc. apply F, Hc.
  - intros N s1 s2 ac next. cbn [parse_value no_append] in *. destruct flavor; [|reflexivity]. rewrite (values_free _ includer cs (Forall_impl _ (fun a H => proj1 H) F) N s1 s2). reflexivity.
  - intros N s1 s2 ac next. cbn [parse_value no_append] in *. rewrite (values_free _ includer cs (Forall_impl _ (fun a H => proj1 H) F) N s1 s2). reflexivity.
  - intros N s1 s2 ac next. cbn [parse_value no_append] in *. exact (object_free_stack _ includer cs (Forall_impl _ (fun a H => proj1 H) F) (Forall_impl _ (fun a H => proj2 H) F) N [] s1 s2 ac next).
Qed.

Lemma field_value_first : forall flavor includer fcs n, field_value fcs = Ok n -> forall s ac next,
  parse_field_value (parse_value flavor includer) fcs s ac next = parse_value flavor includer n s ac next.
Proof.
  intros flavor includer fcs n. induction fcs as [|c fcs IH]; intros H s ac next; [discriminate|]. cbn [field_value parse_field_value] in *. destruct (is_value_node c); [injection H as <-; reflexivity|auto].
Qed.
Lemma field_value_node : forall fcs n, field_value fcs = Ok n -> is_value_node n = true.
Proof. intros fcs n. induction fcs as [|c fcs IH]; intro H; [discriminate|]. cbn [field_value] in H. destruct (is_value_node c) eqn:E; [injection H as <-; exact E|auto]. Qed.

Lemma dotted_nested : forall includer before after k rest ts ts1 ts2 fcs n s ac next,
  field_path fcs = Ok (k :: rest, ts) -> rest <> [] -> is_plus_equals fcs = false -> field_value fcs = Ok n -> no_append n = true ->
  parse_value CONF includer (NObject (before ++ NField fcs :: after)) s ac next =
  parse_value CONF includer (NObject (before ++ NField [NPath ([k], ts1); NTok TColon; NObject [NField [NPath (rest, ts2); NTok TColon; n]]] :: after)) s ac next.
Proof.
  intros includer before after k rest ts ts1 ts2 fcs n s ac next Hp Hr Hpl Hv Hn. cbn [parse_value].
  set (nested := NField [NPath ([k], ts1); NTok TColon; NObject [NField [NPath (rest, ts2); NTok TColon; n]]]).
  assert (Q : forall values next, parse_object_nodes CONF includer (parse_value CONF includer) (NField fcs :: after) values s ac next =
                parse_object_nodes CONF includer (parse_value CONF includer) (nested :: after) values s ac next).
  { clear next. intros values next. cbn [parse_object_nodes]. unfold nested. cbn [parse_object_nodes].
    unfold parse_field at 1. rewrite Hp. cbn [bind]. rewrite Hpl. cbn [andb]. rewrite (field_value_first CONF includer fcs n Hv).
    unfold parse_field at 1. cbn [field_path bind is_plus_equals andb parse_field_value is_value_node]. cbn [parse_value parse_object_nodes]. unfold parse_field at 1.
    cbn [field_path bind is_plus_equals andb parse_field_value]. assert (Vn : is_value_node n = true) by (eapply field_value_node, Hv).
    cbn [is_value_node]. rewrite Vn. assert (ST : forall st, parse_value CONF includer n st ac next = parse_value CONF includer n [] ac next) by (intro st; apply (proj1 (stack_irrelevant CONF includer n) Hn)).
    remember (parse_value CONF includer n [] ac next) as X eqn:EX. rewrite !ST. clear EX ST. destruct X as [[v n1]|e|u]; cbn [bind]; [|reflexivity|reflexivity].
    destruct rest as [|k2 rest]; [contradiction|].
    assert (E : exists o, add_field CONF [] (k2 :: rest) v = Ok o /\ new_object o = under (k2 :: rest) v).
    { destruct rest as [|k3 rest]; cbn [add_field find_key]; [exists [(k2, v)]|exists [(k2, create_value_under_path (k3 :: rest) v)]].
      - split; [reflexivity|]. unfold new_object, fields_resolved. cbn [forallb snd under]. rewrite andb_true_r. reflexivity.
      - split; [reflexivity|]. rewrite under_eq. unfold new_object, fields_resolved. cbn [forallb snd]. rewrite under_resolved, andb_true_r. reflexivity. }
    destruct E as [o [E1 E2]]. rewrite E1. cbn [bind]. rewrite E2. cbn [add_field]. rewrite !under_eq.
    destruct (find_key k values) as [old|]; [|reflexivity].
    destruct (with_fallback (under (k2 :: rest) v) old) as [w|e|u] eqn:W; cbn [bind]; [|reflexivity|reflexivity].
    assert (O : is_object w = true); [|rewrite O; reflexivity].
    rewrite with_fallback_eq in W. cbn [under ignores_fallbacks] in W. destruct (is_unmergeable old) eqn:U.
    - unfold merged_with_the_unmergeable, construct_delayed_merge, new_delayed_merge_object in W. cbn [ignores_fallbacks is_object negb] in W.
      destruct (existsb is_delayed _); [discriminate|]. injection W as <-. reflexivity.
    - destruct old; try discriminate.
      + unfold merged_with_non_object in W. cbn [ignores_fallbacks is_resolved] in W. destruct (is_resolved v); cbn in W; [injection W as <-; reflexivity|].
        unfold construct_delayed_merge in W. cbn in W. injection W as <-. reflexivity.
      + unfold merged_with_non_object in W. cbn [ignores_fallbacks is_resolved] in W. destruct (is_resolved v); cbn in W; [injection W as <-; reflexivity|].
        unfold construct_delayed_merge in W. cbn in W. injection W as <-. reflexivity.
      + inv_bind W. injection Hk as <-. reflexivity. }
  generalize (@nil (str * value)). revert next. induction before as [|b before IH]; intros next values; [apply Q|]. cbn [app].
  destruct b; try (cbn [parse_object_nodes]; apply IH).
  - cbn [parse_object_nodes]. destruct (parse_field _ children s ac next) as [[[p v] n1]|e|u]; cbn [bind]; [|reflexivity|reflexivity].
    destruct (add_field CONF values p v) as [values'|e|u]; cbn [bind]; [|reflexivity|reflexivity]. apply IH.
  - cbn [parse_object_nodes is_json]. destruct (parse_include includer values children kind s ac next) as [[values' n1]|e|u]; cbn [bind]; [|reflexivity|reflexivity]. apply IH.
Qed.
