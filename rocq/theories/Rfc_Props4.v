(** C77: JSON documents as fallbacks of each other. *)
From Verif Require Import Base Util_Model Num_Model Path_Model Token_Model PathParser_Model Doc_Model Value_Model Concat_Model ConfigParser_Model Escape_Spec Round_Spec Duration_Model Config_Model
  Resolve_Model Include_Model Layers_Model Rfc_Spec Rfc_Spec2 Rfc_Spec3 Rfc_Lemmas8.

(** The first document over the others, in their order, is read as [overlays] says of the JSON values: see C76 for [gives] and [absent].
    Partial: the texts are those of C74. *)
Theorem json_layers_read_partial : forall files environment first others ms mss,
  loaded files environment first ms -> Forall2 (loaded files environment) others mss ->
  exists merged, config_with_fallbacks first others = Ok merged /\
    (forall ps p, new_path ps = Ok p ->
      (forall j, found (overlays (JObject ms) (map JObject mss)) p j -> gives merged ps j) /\
      ((forall j, ~ found (overlays (JObject ms) (map JObject mss)) p j) -> absent merged ps)) /\
    (forall allow_unresolved use_environment environment' k, resolve_config allow_unresolved use_environment environment' (S k) merged = Ok (Some merged)).
Proof. exact json_layers. Qed.
Print Assumptions json_layers_read_partial.

(** Three layers, the third a file: the null of the second keeps the object of the third from joining that of the first. *)
Definition the_first : str := lit "{""a"":{""p"":true}}".
Definition the_second : str := lit "{""a"":null,""b"":[]}".
Definition the_third : str := lit "{""a"":{""q"":true},""c"":false}".
Definition files (name : str) : option str := if str_eqb name (lit "x.json") then Some the_third else None.
Definition first_members : list (str * json) := [(lit "a", JObject [(lit "p", JBool true)])].
Definition second_members : list (str * json) := [(lit "a", JNull); (lit "b", JArray [])].
Definition third_members : list (str * json) := [(lit "a", JObject [(lit "q", JBool true)]); (lit "c", JBool false)].
Ltac name := constructor; apply s_plain; [vm_compute; split; discriminate|discriminate|discriminate|constructor].
Ltac names := repeat constructor; cbn; intuition discriminate.
Example first_written : json_document the_first (JObject first_members).
Proof.
  apply (document_object _ _ _ [] the_first []); [constructor| |constructor]. apply (written_object _ _ _ _ (lit """a"":{""p"":true}")); [|names].
  apply (members_one _ _ _ [] (between_quotes (lit "a")) (lit "a") [] [] _ (lit "{""p"":true}") []); [constructor|name|constructor|constructor| |constructor]. apply (written_object _ _ _ _ (lit """p"":true")); [|names].
  apply (members_one _ _ _ [] (between_quotes (lit "p")) (lit "p") [] [] _ (lit "true") []); [constructor|name|constructor|constructor|constructor|constructor].
Qed.
Example second_written : json_document the_second (JObject second_members).
Proof.
  apply (document_object _ _ _ [] the_second []); [constructor| |constructor]. apply (written_object _ _ _ _ (lit """a"":null,""b"":[]")); [|names].
  apply (members_more _ _ _ [] (between_quotes (lit "a")) (lit "a") [] [] _ (lit "null") [] _ (lit """b"":[]")); [constructor|name|constructor|constructor|constructor|constructor|].
  apply (members_one _ _ _ [] (between_quotes (lit "b")) (lit "b") [] [] _ (lit "[]") []); [constructor|name|constructor|constructor| |constructor]. apply (written_no_items _ _ _ []). constructor.
Qed.
Example third_written : json_document the_third (JObject third_members).
Proof.
  apply (document_object _ _ _ [] the_third []); [constructor| |constructor]. apply (written_object _ _ _ _ (lit """a"":{""q"":true},""c"":false")); [|names].
  apply (members_more _ _ _ [] (between_quotes (lit "a")) (lit "a") [] [] _ (lit "{""q"":true}") [] _ (lit """c"":false")); [constructor|name|constructor|constructor| |constructor|].
  - apply (written_object _ _ _ _ (lit """q"":true")); [|names]. apply (members_one _ _ _ [] (between_quotes (lit "q")) (lit "q") [] [] _ (lit "true") []); [constructor|name|constructor|constructor|constructor|constructor].
  - apply (members_one _ _ _ [] (between_quotes (lit "c")) (lit "c") [] [] _ (lit "false") []); [constructor|name|constructor|constructor|constructor|constructor].
Qed.
Example layers_read : exists first second third merged,
  parse_string files [] 0 0 the_first no_options 0 = Ok (first, 0%nat) /\ parse_string files [] 0 0 the_second no_options 0 = Ok (second, 0%nat) /\
  parse_file_any_syntax files [] 0 1 (lit "x.json") no_options 0 = Ok (third, 0%nat) /\ config_with_fallbacks first [second; third] = Ok merged /\
  get_bool merged (lit "a.p") = Ok true /\ has_path merged (lit "a.q") = Ok false /\ get_bool merged (lit "c") = Ok false.
Proof.
  assert (P1 : exists v, parse_string files [] 0 0 the_first no_options 0 = Ok (v, 0%nat)) by (eexists; vm_compute; reflexivity).
  assert (P2 : exists v, parse_string files [] 0 0 the_second no_options 0 = Ok (v, 0%nat)) by (eexists; vm_compute; reflexivity).
  assert (P3 : exists v, parse_file_any_syntax files [] 0 1 (lit "x.json") no_options 0 = Ok (v, 0%nat)) by (eexists; vm_compute; reflexivity).
  destruct P1 as [v1 P1], P2 as [v2 P2], P3 as [v3 P3].
  destruct (json_layers_read_partial files [] v1 [v2; v3] first_members [second_members; third_members]) as [merged [M [R _]]].
  { exact (loaded_string _ _ 0 0 _ _ _ _ _ _ first_written P1). }
  { constructor; [exact (loaded_string _ _ 0 0 _ _ _ _ _ _ second_written P2)|]. constructor; [|constructor]. exact (loaded_file _ _ 0 0 (lit "x.json") _ _ _ _ _ _ third_written eq_refl eq_refl P3). }
  exists v1, v2, v3, merged. repeat (split; [assumption|]).
  destruct (R (lit "a.p") [lit "a"; lit "p"] eq_refl) as [R1 _]. destruct (R (lit "a.q") [lit "a"; lit "q"] eq_refl) as [_ R2]. destruct (R (lit "c") [lit "c"] eq_refl) as [R3 _].
  split; [|split].
  - apply (R1 (JBool true)). eapply found_member; [left; reflexivity|]. eapply found_member; [left; reflexivity|]. constructor.
  - apply R2. intros j H. inversion H as [|? ? ? ? ? I1 H1]; subst. destruct I1 as [I1|[I1|[I1|[]]]]; try discriminate. injection I1 as <-. inversion H1 as [|? ? ? ? ? I2 H2]; subst. destruct I2 as [I2|[]]. discriminate.
  - apply (R3 (JBool false)). eapply found_member; [right; right; left; reflexivity|]. constructor.
Qed.
