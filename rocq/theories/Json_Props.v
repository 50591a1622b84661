(** C27: what is accepted as JSON is accepted as HOCON and means the same. *)
From Verif Require Import Base Util_Model Num_Model Path_Model Token_Model PathParser_Model Doc_Model Edit_Model Value_Model Concat_Model ConfigParser_Model Json_Lemmas3.

(** Whatever the includer of the HOCON parse: no include is read. *)
Theorem json_is_hocon : forall includer includer' text next v next',
  parse_config JSON includer text next = Ok (v, next') -> parse_config CONF includer' text next = Ok (v, next').
Proof. intros. apply config_same with (incj := includer). assumption. Qed.
Print Assumptions json_is_hocon.

(** The same for the document, and so for every edit made to it, ... *)
Theorem json_document_is_hocon_document : forall text root, parse_document JSON text = Ok root -> parse_document CONF text = Ok root.
Proof. intros text root H. exact (proj1 (document_same text root H)). Qed.
Print Assumptions json_document_is_hocon_document.

(** ... and for the text of a single value. *)
Theorem json_value_is_hocon_value : forall text v, parse_value_text JSON text = Ok v -> parse_value_text CONF text = Ok v.
Proof. exact value_text_same. Qed.
Print Assumptions json_value_is_hocon_value.

(** A text that meets the hypothesis: whitespace of every kind, nested values, separators with newlines. *)
Definition text_json : str :=
  lit "{ ""a"" : [ 1 , true , null, ""x y"", [ ], -2.5e3" ++ [nl] ++ lit " ]," ++ [nl] ++ lit """include"" : {""b.c"":{}, ""// no comment"":0}" ++ [nl] ++ lit "} " ++ [nl].
Example json_is_hocon_case : exists v, parse_config JSON no_includes text_json 0 = Ok (Some v, 0%nat) /\ parse_config CONF no_includes text_json 0 = Ok (Some v, 0%nat)
  /\ is_object v = true.
Proof. eexists. split; [vm_compute; reflexivity|split; vm_compute; reflexivity]. Qed.
Example json_value_case : exists n, parse_value_text JSON (lit "[1 , {""a"":2}" ++ [nl] ++ lit "]") = Ok (Some n).
Proof. eexists. vm_compute. reflexivity. Qed.

(** The converse fails, so the two parsers differ. *)
Example hocon_is_not_json : (exists r, parse_config CONF no_includes (lit "{a:1}") 0 = Ok r) /\ forall r, parse_config JSON no_includes (lit "{a:1}") 0 <> Ok r.
Proof. split; [eexists; vm_compute; reflexivity|]. intros r H. vm_compute in H. discriminate. Qed.
