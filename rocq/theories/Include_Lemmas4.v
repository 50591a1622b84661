(** [include file(...)] of files without substitutions. *)
From Verif Require Import Base BaseLemmas Util_Model Num_Model Path_Model Token_Model PathParser_Model Doc_Model Edit_Model Value_Model Value_Spec
  ConfigParser_Model ConfigParser_Spec Resolve_Model Resolve_Lemmas Include_Model Include_Spec Include_Lemmas Include_Lemmas2 Include_Lemmas3.

Lemma parse_is_object : forall files environment depth n d p o next v k, parse_parseable files environment depth n d p o next = Ok (v, k) -> is_object v = true.
Proof.
  intros files environment depth n d p o next v k H. destruct n as [|n]; [discriminate|]. cbn [parse_parseable] in H. cbn zeta in H. destruct (max_include_depth <=? d)%nat; [discriminate|].
  unfold parse_object_of in H. inv_bind H. destruct a as [[w|] k']; cbn [force_parsed_to_object] in Hk; [|discriminate]. destruct (is_object w) eqn:Q; [|discriminate]. congruence.
Qed.
Lemma basename_is_object : forall files environment depth n d c name o next v k, from_basename files (parse_parseable files environment depth n d) c name o next = Ok (v, k) -> is_object v = true.
Proof.
  intros files environment depth n d c name o next v k H. unfold from_basename in H. destruct (ends_with (lit ".conf") name || ends_with (lit ".json") name); [exact (parse_is_object _ _ _ _ _ _ _ _ _ _ H)|]. cbn zeta in H.
  inv_bind H. destruct a as [obj next1]. inv_bind Hk. destruct a as [[obj2 next2] got]. destruct (negb (o_missing o) && negb got); [discriminate|]. destruct (is_object obj2) eqn:Q; [|discriminate]. congruence.
Qed.
Lemma file_is_plain : forall files environment depth n d context name next,
  match run_includer files environment (S depth) (parse_parseable files environment (S depth) n d) None context KHeuristic name next with Ok (v, _) => is_resolved v = true | _ => True end ->
  run_includer files environment (S depth) (parse_parseable files environment (S depth) n d) None context KFile name next =
  run_includer files environment (S depth) (parse_parseable files environment (S depth) n d) None context KHeuristic name next.
Proof.
  intros files environment depth n d context name next H. cbn [run_includer] in *. unfold default_include in *.
  destruct (from_basename files (parse_parseable files environment (S depth) n d) (Some context) name (context_options context) next) as [[v k]|e|u] eqn:E; cbn [bind] in *; [|reflexivity|reflexivity].
  unfold resolve_config. rewrite (resolve_settled_again _ _ _ _ _ _ H). cbn [bind]. rewrite (basename_is_object _ _ _ _ _ _ _ _ _ _ _ E). reflexivity.
Qed.
