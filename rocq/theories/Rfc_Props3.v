(** C76: a JSON document, read from a string or a file, can be looked up by path with every getter. *)
From Verif Require Import Base Util_Model Num_Model Path_Model Token_Model PathParser_Model Doc_Model Value_Model Concat_Model ConfigParser_Model Escape_Spec Round_Spec Duration_Model Config_Model
  Resolve_Model Include_Model Rfc_Spec Rfc_Spec2 Rfc_Lemmas7 Rfc_Props.

(** Whatever the options, the files and the environment.  Where names lead from the value of the text to another, [gives] says what each
    getter returns for it; where they lead nowhere, all getters say so.  Resolving changes nothing.  Partial: the texts are those of C74. *)
Theorem json_config_read_partial : forall files environment depth n text ms options next, json_document text (JObject ms) ->
  exists self, parse_string files environment depth n text options next = Ok (self, next) /\
    (forall ps p, new_path ps = Ok p -> (forall j, found (JObject ms) p j -> gives self ps j) /\ ((forall j, ~ found (JObject ms) p j) -> absent self ps)) /\
    (forall allow_unresolved use_environment environment' k, resolve_config allow_unresolved use_environment environment' (S k) self = Ok (Some self)).
Proof. exact json_string_read. Qed.
Print Assumptions json_config_read_partial.

Theorem json_file_read_partial : forall files environment depth n name text ms options next, json_document text (JObject ms) ->
  files name = Some text -> ends_with (lit ".json") name = true ->
  exists self, parse_file_any_syntax files environment depth (S n) name options next = Ok (self, next) /\
    (forall ps p, new_path ps = Ok p -> (forall j, found (JObject ms) p j -> gives self ps j) /\ ((forall j, ~ found (JObject ms) p j) -> absent self ps)) /\
    (forall allow_unresolved use_environment environment' k, resolve_config allow_unresolved use_environment environment' (S k) self = Ok (Some self)).
Proof. exact json_file_read. Qed.
Print Assumptions json_file_read_partial.

(** A JSON text with a list is not a config. *)
Theorem json_list_no_config : forall files environment depth n text js options next, json_document text (JArray js) ->
  parse_string files environment depth n text options next = Throw EWrongType.
Proof. exact json_list_rejected. Qed.
Print Assumptions json_list_no_config.

(** The document [sample] of Rfc_Props.v meets the hypothesis.  Its empty name and the name with a line feed are read with quoted path expressions. *)
Definition no_files (name : str) : option str := None.
Example sample_read : exists self, parse_string no_files [] 0 0 sample no_options 0 = Ok (self, 0%nat) /\
  get_config self (lit """"".""q\""""") = Ok (new_object []) /\
  has_path self (lit """"".q") = Ok false /\ (exists vs, get_list self (lit """a\n""") = Ok (Some vs)) /\ get_string self (lit """a\n"".x") = Throw EConfig.
Proof.
  destruct (json_config_read_partial no_files [] 0 0 sample _ no_options 0 sample_document) as [self [P [R _]]]. exists self. split; [exact P|].
  destruct (R (lit """"".""q\""""") [[]; ["q"%char; ch 34]] eq_refl) as [R1 _]. destruct (R (lit """"".q") [[]; lit "q"] eq_refl) as [_ R2]. destruct (R (lit """a\n""") [["a"%char; nl]] eq_refl) as [R3 _].
  destruct (R (lit """a\n"".x") [["a"%char; nl]; lit "x"] eq_refl) as [_ R4].
  assert (N2 : forall j, ~ found sample_value [[]; lit "q"] j).
  { intros j H. inversion H as [|? ? ? ? ? I1 H1]; subst. destruct I1 as [I1|[I1|[]]]; [discriminate|]. injection I1 as <-. inversion H1 as [|? ? ? ? ? I2 H2]; subst. destruct I2 as [I2|[]]. discriminate. }
  assert (N4 : forall j, ~ found sample_value [["a"%char; nl]; lit "x"] j).
  { intros j H. inversion H as [|? ? ? ? ? I1 H1]; subst. destruct I1 as [I1|[I1|[]]]; [|discriminate]. injection I1 as <-. inversion H1. }
  assert (F3 : found sample_value [["a"%char; nl]] (JArray [JNumber (lit "-2.5e3") (-25) 2; JNull; JBool true])) by (eapply found_member; [left; reflexivity|constructor]).
  split; [|split; [exact (proj1 (R2 N2))|split; [|exact (proj1 (proj2 (proj2 (proj2 (R4 N4)))))]]].
  - vm_compute in P. injection P as <-. vm_compute. reflexivity.
  - destruct (R3 _ F3) as [_ [_ [_ [[vs [G _]] _]]]]. eauto.
Qed.
