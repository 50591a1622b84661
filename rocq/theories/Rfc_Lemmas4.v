(** A JSON text whose value is an object or an array is parsed to its value. *)
From Verif Require Import Base BaseLemmas Util_Model Num_Model Path_Model Token_Model Token_Spec PathParser_Model Doc_Model Edit_Model Value_Model Value_Spec Concat_Model ConfigParser_Model Json_Lemmas Json_Lemmas2 Json_Lemmas3
  Escape_Spec Round_Spec Render_Lemmas3 Render_Lemmas6 Rfc_Spec Rfc_Lemmas Rfc_Lemmas2 Rfc_Lemmas3.

Definition container (j : json) : Prop := match j with JArray _ | JObject _ => True | _ => False end.
Lemma container_starts : forall j tv, spelled j tv -> container j -> exists t tl, tv = t :: tl /\ (t = TOpenCurly \/ t = TOpenSquare).
Proof. intros j tv S D. destruct S as [s t L| | | |]; [destruct L; destruct D| | | |]; eauto 10. Qed.
Lemma root_before : forall inc g ns next, layout g -> parse_root_nodes JSON inc None (map kept_blank g ++ ns) next = parse_root_nodes JSON inc None ns next.
Proof. intros inc g ns next G. induction G; cbn [map app]; try reflexivity; assumption. Qed.
Lemma root_after : forall inc g v next, layout g -> parse_root_nodes JSON inc (Some v) (map kept_blank g) next = Ok (Some v, next).
Proof. intros inc g v next G. destruct G; reflexivity. Qed.
Lemma json_root : forall inc j g tv g', layout g -> spelled j tv -> container j -> layout g' ->
  exists ns w, parse_root JSON LEnd (g ++ tv ++ g' ++ [TEnd]) = Ok ns /\ (forall next, parse_root_nodes JSON inc None ns next = Ok (Some w, next)) /\ denotes j w.
Proof.
  intros inc j g tv g' G S D G'. destruct (container_starts j tv S D) as [t [tl [-> O]]].
  destruct (proj1 (spelled_parsed LEnd inc) j _ S) as [t' [tl' [n [w [E [[T1 [T2 T3]] [N [M [C P]]]]]]]]]. injection E as <- <-.
  assert (R : Doc_Model.parse_value (Datatypes.S (List.length (g ++ (t :: tl) ++ g' ++ [TEnd]))) JSON LEnd t (tl ++ g' ++ [TEnd]) = Ok (n, g' ++ [TEnd])).
  { apply P. rewrite !app_length. lia. }
  pose proof (opened_complex _ _ _ _ _ _ O R) as X.
  pose proof (collect_layout LEnd g' TEnd [] G' eq_refl eq_refl) as L.
  exists ((map kept_blank g ++ [n]) ++ map kept_blank g'), w. split; [|split; [|exact C]].
  - unfold parse_root. cbn [app]. rewrite collect_layout by assumption. cbn [bind]. cbn [app] in R. rewrite R. destruct O as [-> | ->]; cbn [bind]; rewrite L; reflexivity.
  - intro next. rewrite <- app_assoc, root_before by exact G. cbn [app parse_root_nodes]. destruct n; try discriminate X; rewrite X, M; cbn [bind]; apply root_after, G'.
Qed.
Lemma json_parses : forall inc s j next, json_document s j -> exists v, parse_config JSON inc s next = Ok (Some v, next) /\ denotes j v.
Proof.
  assert (K : forall inc a s b j next, blank a -> written blank json_string json_number j s -> blank b -> container j -> exists v, parse_config JSON inc (a ++ s ++ b) next = Ok (Some v, next) /\ denotes j v).
  { intros inc a s b j next A W B D. destruct (blank_layout a A) as [g [G <-]]. destruct (blank_layout b B) as [g' [G' <-]]. destruct (proj1 written_spelled j s W) as [tv [S <-]].
    destruct (json_root inc j g tv g' G S D G') as [ns [w [P [V C]]]]. exists w. split; [|exact C]. rewrite <- !render_app.
    unfold parse_config, parse_document, after_start. cbn [is_json negb]. rewrite (json_lex false j g tv g' G S G'). cbn [delivered]. rewrite P. cbn [bind]. apply V. }
  intros inc s j next H. destruct H; apply K; (assumption || exact I).
Qed.
Lemma json_accepted : forall f inc s j next, f = JSON \/ f = CONF -> json_document s j -> exists v, parse_config f inc s next = Ok (Some v, next) /\ denotes j v.
Proof.
  intros f inc s j next [-> | ->] H; destruct (json_parses inc s j next H) as [v [P D]]; exists v; (split; [|exact D]); [exact P|]. exact (config_same inc inc s next _ P).
Qed.
