(** C74: a JSON text whose value is an object or an array is accepted, and means what RFC 8259 says. *)
From Verif Require Import Base Util_Model Num_Model Path_Model Token_Model PathParser_Model Doc_Model Edit_Model Value_Model Concat_Model ConfigParser_Model Escape_Spec Round_Spec Rfc_Spec Rfc_Lemmas4.

(** As JSON and as HOCON, whatever the includer.  Partial: the texts are those of [json_document], in which strings
    have no bytes above 127, no NUL and no surrogate escapes, names are unique and numbers stay below 2^63. *)
Theorem json_text_accepted_partial : forall syntax includer text j next, json_document text j ->
  exists v, parse_config syntax includer text next = Ok (Some v, next) /\ denotes j v.
Proof. intros f inc s j next. apply json_accepted. destruct f; auto. Qed.
Print Assumptions json_text_accepted_partial.

(** A text that meets the hypothesis: blanks of all kinds, escapes in names and strings, an empty name, nested values. *)
Definition sample : str :=
  [ch 13; nl] ++ lit "{ ""\u0061\n"" " ++ [ch 9] ++ lit ":[ -2.5e3 ,null," ++ [nl] ++ lit "true],""""" ++ lit ": {""q\"""":{ } } }" ++ [nl; " "%char].
Definition sample_value : json :=
  JObject [(["a"%char; nl], JArray [JNumber (lit "-2.5e3") (-25) 2; JNull; JBool true]); ([], JObject [(["q"%char; ch 34], JObject [])])].
Ltac blank_by_list := repeat (constructor; [cbn; auto 10|]); constructor.
Example sample_document : json_document sample sample_value.
Proof.
  apply (document_object _ _ _ [ch 13; nl] (lit "{ ""\u0061\n"" " ++ [ch 9] ++ lit ":[ -2.5e3 ,null," ++ [nl] ++ lit "true],""""" ++ lit ": {""q\"""":{ } } }") [nl; " "%char]); [blank_by_list| |blank_by_list].
  apply (written_object _ _ _ _ (lit " ""\u0061\n"" " ++ [ch 9] ++ lit ":[ -2.5e3 ,null," ++ [nl] ++ lit "true],""""" ++ lit ": {""q\"""":{ } } ")).
  - apply (members_more _ _ _ [" "%char] (between_quotes (lit "\u0061\n")) ["a"%char; nl] [" "%char; ch 9] [] _ (lit "[ -2.5e3 ,null," ++ [nl] ++ lit "true]") [] _ (lit """"": {""q\"""":{ } } ")).
    + blank_by_list.
    + constructor. apply (s_unicode "0" "0" "6" "1" 0 0 6 1 ["a"%char] (lit "\n") [nl]); try (left; split; [reflexivity|lia]); try lia; [unfold surrogate; lia|apply (one_byte _ "a"); [reflexivity|lia]|].
      apply (s_short "n" nl [] []); [cbn; auto 10|constructor].
    + blank_by_list.
    + constructor.
    + apply (written_array _ _ _ _ (lit " -2.5e3 ,null," ++ [nl] ++ lit "true")).
      apply (items_more _ _ _ [" "%char] _ (lit "-2.5e3") [" "%char] _ (lit "null," ++ [nl] ++ lit "true")); [blank_by_list| |blank_by_list|].
      * apply written_number, (a_json_number "-" (lit "2.5e3")); [|right; reflexivity|left; vm_compute; reflexivity].
        exact (numeral_text (lit "-") true (lit "2") (lit ".5") (lit "5") (lit "e3") 3
          sign_minus ltac:(repeat constructor) (point_some (lit "5") ltac:(repeat constructor)) ltac:(discriminate)
          (exponent_some "e" [] false (lit "3") ltac:(left; reflexivity) sign_none ltac:(repeat constructor) ltac:(discriminate))).
      * apply (items_more _ _ _ [] _ (lit "null") [] _ ([nl] ++ lit "true")); [constructor|constructor|constructor|].
        apply (items_one _ _ _ [nl] _ (lit "true") []); [blank_by_list|constructor|constructor].
    + constructor.
    + apply (members_one _ _ _ [] (between_quotes []) [] [] [" "%char] _ (lit "{""q\"""":{ } }") [" "%char]); [constructor|constructor; constructor|constructor|blank_by_list| |blank_by_list].
      apply (written_object _ _ _ _ (lit """q\"""":{ } ")); [|repeat constructor; intros []].
      apply (members_one _ _ _ [] (between_quotes (lit "q\""")) ["q"%char; ch 34] [] [] _ (lit "{ }") [" "%char]); [constructor| |constructor|constructor| |blank_by_list].
      * constructor. apply s_plain; [vm_compute; split; discriminate|discriminate|discriminate|]. apply (s_short (ch 34) (ch 34) [] []); [cbn; auto 10|constructor].
      * apply (written_no_members _ _ _ [" "%char]). blank_by_list.
  - repeat constructor; cbn; intuition discriminate.
Qed.

Example sample_accepted : exists v, parse_config JSON no_includes sample 0 = Ok (Some v, 0%nat) /\ parse_config CONF no_includes sample 0 = Ok (Some v, 0%nat) /\ denotes sample_value v.
Proof.
  destruct (json_text_accepted_partial JSON no_includes sample sample_value 0 sample_document) as [v [P D]]. exists v. split; [exact P|]. split; [|exact D].
  vm_compute in P. injection P as <-. vm_compute. reflexivity.
Qed.

(** Without the restrictions the claim fails.  A document may not be a single value (config_document_parser.cc:536-542);
    bytes above 127, which is how every other character is written in UTF-8, count as control characters
    (config_util.cc:27-29 compares signed characters); surrogate escapes are not joined, and what each half
    gives is left to the C++ library; an escaped NUL is dropped; a
    name may not be repeated; numbers of 2^63 and more are either rejected or undefined behaviour. *)
Definition quoted (w : str) : str := [ch 34] ++ w ++ [ch 34].
Theorem json_text_accepted_refuted :
  let json text := parse_config JSON no_includes text 0 in
  json (lit "1") = Throw EParse /\
  json (lit "[" ++ quoted [ch 195; ch 169] ++ lit "]") = Throw EConfig /\
  json (lit "[" ++ quoted (lit "\ud83d\ude00") ++ lit "]") = Stuck UUnspecified /\
  json (lit "[" ++ quoted (lit "\u0000") ++ lit "]") = Ok (Some (VList [VScalar (SStr [] true)]), 0%nat) /\
  json (lit "{""a"":1,""a"":2}") = Throw EParse /\
  json (lit "[9223372036854775808]") = Throw EParse /\
  json (lit "[1e300]") = Stuck UFloatCast.
Proof. repeat split; vm_compute; reflexivity. Qed.
Print Assumptions json_text_accepted_refuted.

(** Texts that are not JSON are rejected ... *)
Example not_json_rejected : forall text, In text [lit "[1,]"; lit "{""a"":1,}"; lit "[1 2]"; lit "[,]"; lit "[1"; lit "[1]]"; lit "{a:1}"; lit "{""a"" 1}"; lit "[+1]"; lit "[""a"" ""b""]"; lit "[1] //"; []] ->
  exists x, parse_config JSON no_includes text 0 = Throw x.
Proof. intros text H. repeat (destruct H as [<-|H]; [eexists; vm_compute; reflexivity|]). destruct H. Qed.
(** ... but not all: numbers may have leading zeros and no digits after the point, and strings may have three quotes. *)
Example not_json_accepted : forall text, In text [lit "[01]"; lit "[1.]"; lit "[""""""a""""""]"] -> exists v, parse_config JSON no_includes text 0 = Ok (Some (VList [v]), 0%nat).
Proof. intros text H. repeat (destruct H as [<-|H]; [eexists; vm_compute; reflexivity|]). destruct H. Qed.
