(** C78, C79: a HOCON document is read as what its fields define, each over those before it; a document with fallbacks as if it stood behind them. *)
From Verif Require Import Base Util_Model Num_Model Path_Model Token_Model PathParser_Model PathParser_Spec Doc_Model Value_Model Concat_Model ConfigParser_Model Escape_Spec Round_Spec Duration_Model Config_Model
  Resolve_Model Include_Model Layers_Model ConfText_Spec Rfc_Spec Rfc_Spec2 Rfc_Spec3 Hocon_Spec Key_Lemmas Hocon_Lemmas5.

(** Whatever the options, the files and the environment.  See C76 for [gives] and [absent].  Partial: texts without includes, substitutions, [+=] and
    concatenations other than lists, objects, or words, numbers and strings that are not empty, with blanks between them or touching as [lead] says, with keys that are words and strings with just periods between them and begin with a string or a letter, without commas that begin a line, and with # before a comment just behind a value. *)
Theorem hocon_config_read_partial : forall files environment depth n text ds options next, hocon_text text ds ->
  exists self, parse_string files environment depth n text options next = Ok (self, next) /\
    (forall ps p, new_path ps = Ok p -> (forall j, found (defined ds) p j -> gives self ps j) /\ ((forall j, ~ found (defined ds) p j) -> absent self ps)) /\
    (forall allow_unresolved use_environment environment' k, resolve_config allow_unresolved use_environment environment' (S k) self = Ok (Some self)).
Proof. exact hocon_string_read. Qed.
Print Assumptions hocon_config_read_partial.

Theorem hocon_file_read_partial : forall files environment depth n name text ds options next, hocon_text text ds ->
  files name = Some text -> ends_with (lit ".conf") name = true -> o_syntax options <> Some JSON ->
  exists self, parse_file_any_syntax files environment depth (S n) name options next = Ok (self, next) /\
    (forall ps p, new_path ps = Ok p -> (forall j, found (defined ds) p j -> gives self ps j) /\ ((forall j, ~ found (defined ds) p j) -> absent self ps)) /\
    (forall allow_unresolved use_environment environment' k, resolve_config allow_unresolved use_environment environment' (S k) self = Ok (Some self)).
Proof. exact hocon_file_read. Qed.
Print Assumptions hocon_file_read_partial.

(** The definitions of the last fallback come first, and those of the first document last. *)
Theorem hocon_layers_read_partial : forall files environment first others ds dss,
  hocon_loaded files environment first ds -> Forall2 (hocon_loaded files environment) others dss ->
  exists merged, config_with_fallbacks first others = Ok merged /\
    (forall ps p, new_path ps = Ok p ->
      (forall j, found (defined (List.concat (rev dss) ++ ds)) p j -> gives merged ps j) /\
      ((forall j, ~ found (defined (List.concat (rev dss) ++ ds)) p j) -> absent merged ps)) /\
    (forall allow_unresolved use_environment environment' k, resolve_config allow_unresolved use_environment environment' (S k) merged = Ok (Some merged)).
Proof. exact hocon_layers. Qed.
Print Assumptions hocon_layers_read_partial.

(** A text with a comment, paths as keys, a field defined three times, braces without a separator, a list and words. *)
Definition settings : str := lit "#top" ++ nl :: lit "a.b=true" ++ nl :: lit "a {c:word ,b = null,}#more" ++ nl :: lit "a.b = ""x""" ++ nl :: lit "d:[{e=off},]".
Definition settings_made : list definition :=
  [([lit "a"; lit "b"], JBool true); ([lit "a"], JObject []); ([lit "a"; lit "c"], JString (lit "word")); ([lit "a"; lit "b"], JNull); ([lit "a"; lit "b"], JString (lit "x"));
   ([lit "d"], JArray [JObject [(lit "e", JString (lit "off"))]])].
Ltac plain_word := split; [discriminate|repeat (constructor; [left; reflexivity|]); constructor].
Ltac wordy := right; split; [left; reflexivity|split; [|split]; intros r E; discriminate E].
Ltac letters := constructor; [split; [plain_word|split; [wordy|discriminate]]|].
Ltac words := match goal with |- key_text _ (?k :: ?p) => apply (key_words k p); repeat letters; constructor end.
Ltac elsewhere := let K := fresh in intro K; cbn in K; intuition discriminate.
Ltac no_slashes := let a := fresh in let b := fresh in let E := fresh in
  intros a b E; repeat (destruct a as [|? a]; [discriminate E|cbn [app] in E; first [discriminate E|injection E as _ E]]).
Ltac no_keyword := let w := fresh in let r := fresh in let E := fresh in intros w r [<-|[<-|[<-|[]]]] E; discriminate E.
Ltac bare := split; [discriminate|split; [repeat (constructor; [split; [vm_compute; split; discriminate|elsewhere]|]); constructor|split; [no_slashes|split; [elsewhere|no_keyword]]]].
Ltac word := apply value_word; bare.
Ltac layout t := eapply (fields_layout _ t); [discriminate|reflexivity|].
Ltac gapless := left; reflexivity.
Ltac gap := right; reflexivity.
Example settings_written : hocon_text settings settings_made.
Proof.
  apply (hocon_bare _ _ Behind). unfold settings, settings_made. layout (TComment false (lit "top")). layout TNewline.
  apply (fields_field [_] (lit "a.b=true")).
  { apply (field_value (lit "a.b") [lit "a"; lit "b"] [] (lit "=") []); [words|gapless|right; reflexivity|gapless|constructor|exact I]. }
  layout TNewline.
  apply (fields_field [_; _; _] (lit "a {c:word ,b = null,}")).
  { apply (field_braces (lit "a") [lit "a"] (lit " ") [([lit "c"], _); ([lit "b"], _)] (lit "c:word ,b = null,") Before); [words|gap| |discriminate].
    apply (fields_field [_] (lit "c:word")).
    { apply (field_value (lit "c") [lit "c"] [] (lit ":") []); [words|gapless|left; reflexivity|gapless|word|exact I]. }
    layout (TIgnored (lit " ")). layout TComma.
    apply (fields_field [_] (lit "b = null")).
    { apply (field_value (lit "b") [lit "b"] (lit " ") (lit "=") (lit " ")); [words|gap|right; reflexivity|gap|constructor|exact I]. }
    layout TComma. constructor. }
  layout (TComment false (lit "more")). layout TNewline.
  apply (fields_field [_] (lit "a.b = ""x""")).
  { apply (field_value (lit "a.b") [lit "a"; lit "b"] (lit " ") (lit "=") (lit " ")); [words|gap|right; reflexivity|gap| |exact I].
    apply value_string. change (json_string (between_quotes (lit "x")) (lit "x")). constructor. apply s_plain; [vm_compute; split; discriminate|discriminate|discriminate|constructor]. }
  layout TNewline.
  apply (fields_field [_] (lit "d:[{e=off},]") [] []); [|constructor].
  apply (field_value (lit "d") [lit "d"] [] (lit ":") []); [words|gapless|left; reflexivity|gapless| |exact I].
  apply (value_array _ (lit "{e=off},") Before); [|discriminate].
  apply (elements_value _ (lit "{e=off}")).
  { apply (value_object [([lit "e"], JString (lit "off"))] (lit "e=off") Behind); [|discriminate]. apply (fields_field [_] (lit "e=off") [] []); [|constructor].
    apply (field_value (lit "e") [lit "e"] [] (lit "=") []); [words|gapless|right; reflexivity|gapless|word|exact I]. }
  apply (elements_layout _ TComma Before); [discriminate|reflexivity|constructor].
Qed.
(** What the theorem then says: the third definition of a.b counts, a.c is there too, and there is no a.e. *)
Ltac leads := repeat (eapply found_member; [repeat (first [left; reflexivity|right])|]); constructor.
Definition no_files (name : str) : option str := None.
Example settings_read : exists self, parse_string no_files [] 0 0 settings no_options 0 = Ok (self, 0%nat) /\
  get_string self (lit "a.b") = Ok (lit "x") /\ get_string self (lit "a.c") = Ok (lit "word") /\ has_path self (lit "a.e") = Ok false.
Proof.
  destruct (hocon_config_read_partial no_files [] 0 0 settings settings_made no_options 0 settings_written) as [self [P [R _]]]. exists self. split; [exact P|].
  destruct (R (lit "a.b") [lit "a"; lit "b"] eq_refl) as [R1 _]. destruct (R (lit "a.c") [lit "a"; lit "c"] eq_refl) as [R2 _]. destruct (R (lit "a.e") [lit "a"; lit "e"] eq_refl) as [_ R3].
  split; [|split].
  - apply (R1 (JString (lit "x"))). vm_compute. leads.
  - apply (R2 (JString (lit "word"))). vm_compute. leads.
  - apply R3. intros j H. vm_compute in H. inversion H as [|? ? ? ? ? I1 H1]; subst. destruct I1 as [I1|[I1|[]]]; try discriminate I1. injection I1 as <-. inversion H1 as [|? ? ? ? ? I2 H2]; subst. destruct I2 as [I2|[I2|[]]]; discriminate I2.
Qed.

(** A value of several parts, with a number that stays as it is written. *)
Definition trees : str := lit "a = 1.50  ""tall, ""  trees and true #".
Definition trees_said : str := lit "1.50  tall,   trees and true".
Example trees_written : hocon_text trees [([lit "a"], JString trees_said)].
Proof.
  apply (hocon_bare _ _ Remark). apply (fields_field [_] (lit "a = 1.50  ""tall, ""  trees and true") [] (lit " #")).
  - apply (field_value (lit "a") [lit "a"] (lit " ") (lit "=") (lit " ")); [words|gap|right; reflexivity|gap| |exact I].
    apply (value_phrase (lit "1.50  ") (lit "1.50  ") (lit """tall, ""  trees and true") (lit "tall,   trees and true")); [apply (lead_blank (lit "1.50") (lit "1.50") (lit "  ")); [|reflexivity]|].
    + apply (part_number _ 150 (-2)). apply (a_json_number "1"%char (lit ".50")); [|left; reflexivity|left; vm_compute; reflexivity].
      exact (numeral_text [] false (lit "1") (lit ".50") (lit "50") [] 0 sign_none ltac:(repeat constructor) (point_some (lit "50") ltac:(repeat constructor)) ltac:(discriminate) exponent_none).
    + apply (phrase_more (lit """tall, ""  ") (lit "tall,   ") (lit "trees and true") (lit "trees and true")); [apply (lead_blank (lit """tall, """) (lit "tall, ") (lit "  ")); [|reflexivity]|].
      { apply part_string; [|discriminate]. change (json_string (between_quotes (lit "tall, ")) (lit "tall, ")). constructor. repeat (apply s_plain; [vm_compute; split; discriminate|discriminate|discriminate|]). constructor. }
      apply (phrase_more (lit "trees ") (lit "trees ") (lit "and true") (lit "and true")); [apply (lead_blank (lit "trees") (lit "trees") (lit " ")); [apply part_word; bare|reflexivity]|].
      apply (phrase_more (lit "and ") (lit "and ") (lit "true") (lit "true")); [apply (lead_blank (lit "and") (lit "and") (lit " ")); [apply part_word; bare|reflexivity]|]. constructor. apply part_literal. left. reflexivity.
  - layout (TIgnored (lit " ")). layout (TComment false []). constructor.
Qed.
Example trees_read : exists self, parse_string no_files [] 0 0 trees no_options 0 = Ok (self, 0%nat) /\ get_string self (lit "a") = Ok trees_said.
Proof.
  destruct (hocon_config_read_partial no_files [] 0 0 trees _ no_options 0 trees_written) as [self [P [R _]]]. exists self. split; [exact P|].
  destruct (R (lit "a") [lit "a"] eq_refl) as [R1 _]. apply (R1 (JString trees_said)). vm_compute. leads.
Qed.

(** Keys of words and strings. *)
Definition hosts : str := lit "hosts.""a.b c"".1 = on" ++ nl :: lit """hosts"".""""=off".
Definition hosts_made : list definition := [([lit "hosts"; lit "a.b c"; lit "1"], JString (lit "on")); ([lit "hosts"; []], JString (lit "off"))].
Ltac quoted w := change (json_string (between_quotes w) w); constructor; repeat (apply s_plain; [vm_compute; split; discriminate|discriminate|discriminate|]); constructor.
Example hosts_written : hocon_text hosts hosts_made.
Proof.
  apply (hocon_bare _ _ Behind). apply (fields_field [_] (lit "hosts.""a.b c"".1 = on")).
  - apply (field_value (lit "hosts.""a.b c"".1") [lit "hosts"; lit "a.b c"; lit "1"] (lit " ") (lit "=") (lit " ")); [|gap|right; reflexivity|gap|word|exact I].
    apply (key_of (lit "hosts") (lit "hosts") (lit ".""a.b c"".1")); [apply start_word; [plain_word|wordy|discriminate]|].
    apply (rest_string (lit """a.b c""") (lit "a.b c") (lit ".1")); [quoted (lit "a.b c")|]. apply (rest_word (lit "1") []); [plain_word|constructor].
  - layout TNewline. apply (fields_field [_] (lit """hosts"".""""=off") [] []); [|constructor].
    apply (field_value (lit """hosts"".""""") [lit "hosts"; []] [] (lit "=") []); [|gapless|right; reflexivity|gapless|word|exact I].
    apply (key_of (lit """hosts""") (lit "hosts") (lit ".""""")); [apply start_string; quoted (lit "hosts")|]. apply (rest_string (lit """""") [] []); [quoted (lit "")|constructor].
Qed.
Example hosts_read : exists self, parse_string no_files [] 0 0 hosts no_options 0 = Ok (self, 0%nat) /\
  get_string self (lit "hosts.""a.b c"".1") = Ok (lit "on") /\ get_string self (lit "hosts.""""") = Ok (lit "off") /\ has_path self (lit "hosts.a") = Ok false.
Proof.
  destruct (hocon_config_read_partial no_files [] 0 0 hosts _ no_options 0 hosts_written) as [self [P [R _]]]. exists self. split; [exact P|].
  destruct (R (lit "hosts.""a.b c"".1") [lit "hosts"; lit "a.b c"; lit "1"] eq_refl) as [R1 _]. destruct (R (lit "hosts.""""") [lit "hosts"; []] eq_refl) as [R2 _]. destruct (R (lit "hosts.a") [lit "hosts"; lit "a"] eq_refl) as [_ R3].
  split; [|split].
  - apply (R1 (JString (lit "on"))). vm_compute. leads.
  - apply (R2 (JString (lit "off"))). vm_compute. leads.
  - apply R3. intros j H. vm_compute in H. inversion H as [|? ? ? ? ? I1 H1]; subst. destruct I1 as [I1|[]]; injection I1 as <-. inversion H1 as [|? ? ? ? ? I2 H2]; subst. destruct I2 as [I2|[I2|[]]]; discriminate I2.
Qed.

(** Words with other characters, and parts that touch: a duration and a file name. *)
Definition service : str := lit "wait:10s" ++ nl :: lit "log = /var/log/""my app""x/a.log~".
Definition service_made : list definition := [([lit "wait"], JString (lit "10s")); ([lit "log"], JString (lit "/var/log/my appx/a.log~"))].
Example service_written : hocon_text service service_made.
Proof.
  apply (hocon_bare _ _ Behind). apply (fields_field [_] (lit "wait:10s")).
  - apply (field_value (lit "wait") [lit "wait"] [] (lit ":") []); [words|gapless|left; reflexivity|gapless| |exact I].
    apply (value_phrase (lit "10") (lit "10") (lit "s") (lit "s")); [|constructor; apply part_word; bare]. apply (lead_number _ 10 0); [|exists "s"%char, []; split; [reflexivity|split; [reflexivity|elsewhere]]].
    apply (a_json_number "1"%char (lit "0")); [|left; reflexivity|left; vm_compute; reflexivity].
    exact (numeral_text [] false (lit "10") [] [] [] 0 sign_none ltac:(repeat constructor) point_none ltac:(discriminate) exponent_none).
  - layout TNewline. apply (fields_field [_] (lit "log = /var/log/""my app""x/a.log~") [] []); [|constructor].
    apply (field_value (lit "log") [lit "log"] (lit " ") (lit "=") (lit " ")); [words|gap|right; reflexivity|gap| |exact I].
    apply (value_phrase (lit "/var/log/") (lit "/var/log/") (lit """my app""x/a.log~") (lit "my appx/a.log~")); [apply (lead_word _ (lit "my app""x/a.log~")); bare|].
    apply (phrase_more (lit """my app""") (lit "my app") (lit "x/a.log~") (lit "x/a.log~")); [|constructor; apply part_word; bare].
    apply lead_string; [quoted (lit "my app")|discriminate|]. exists "x"%char, (lit "/a.log~"). split; [reflexivity|split; [reflexivity|elsewhere]].
Qed.
Example service_read : exists self, parse_string no_files [] 0 0 service no_options 0 = Ok (self, 0%nat) /\ get_string self (lit "wait") = Ok (lit "10s") /\ get_string self (lit "log") = Ok (lit "/var/log/my appx/a.log~").
Proof.
  destruct (hocon_config_read_partial no_files [] 0 0 service _ no_options 0 service_written) as [self [P [R _]]]. exists self. split; [exact P|].
  destruct (R (lit "wait") [lit "wait"] eq_refl) as [R1 _]. destruct (R (lit "log") [lit "log"] eq_refl) as [R2 _]. split.
  - apply (R1 (JString (lit "10s"))). vm_compute. leads.
  - apply (R2 (JString (lit "/var/log/my appx/a.log~"))). vm_compute. leads.
Qed.

(** A string in three quotes over two lines, with a backslash and a quote at its end. *)
Definition poem : str := lit "\n said ""I""" ++ nl :: lit "you""".
Definition poems : str := lit "p = " ++ three_quotes ++ poem ++ three_quotes.
Example poems_written : hocon_text poems [([lit "p"], JString poem)].
Proof.
  apply (hocon_bare _ _ Behind). apply (fields_field [_] poems [] []); [|constructor].
  apply (field_value (lit "p") [lit "p"] (lit " ") (lit "=") (lit " ") (JString poem) (three_quotes ++ poem ++ three_quotes)); [words|gap|right; reflexivity|gap| |exact I].
  apply value_raw. split; [reflexivity|]. split; [elsewhere|]. intros a c b E. unfold poem in E. cbn [lit app three_quotes] in E.
  repeat (destruct a as [|? a]; cbn [app] in E; [first [discriminate E|injection E; intros; subst; reflexivity]|first [discriminate E|injection E as _ E]]).
Qed.
Example poems_read : exists self, parse_string no_files [] 0 0 poems no_options 0 = Ok (self, 0%nat) /\ get_string self (lit "p") = Ok poem.
Proof.
  destruct (hocon_config_read_partial no_files [] 0 0 poems _ no_options 0 poems_written) as [self [P [R _]]]. exists self. split; [exact P|].
  destruct (R (lit "p") [lit "p"] eq_refl) as [R1 _]. apply (R1 (JString poem)). vm_compute. leads.
Qed.

(** Three lists that become one; the second is empty and the third goes over two lines. *)
Definition rows : str := lit "p = [a] [][b" ++ nl :: lit "c] ".
Example rows_written : hocon_text rows [([lit "p"], JArray (map JString [lit "a"; lit "b"; lit "c"]))].
Proof.
  apply (hocon_bare _ _ Apart). apply (fields_field [_] (lit "p = [a] [][b" ++ nl :: lit "c]") [] (lit " ")); [|layout (TIgnored (lit " ")); constructor].
  apply (field_value (lit "p") [lit "p"] (lit " ") (lit "=") (lit " ")); [words|gap|right; reflexivity|gap| |exact I].
  apply (value_lists [_] (lit "a") Behind (lit " ") [_; _] (lit "[][b" ++ nl :: lit "c]")); [|discriminate|gap|].
  { apply (elements_value _ (lit "a") [] []); [word|constructor]. }
  apply (lists_more [] [] Before [] [_; _] (lit "[b" ++ nl :: lit "c]")); [constructor|discriminate|gapless|].
  apply (lists_one [_; _] (lit "b" ++ nl :: lit "c") Behind); [|discriminate].
  apply (elements_value _ (lit "b")); [word|]. apply (elements_layout _ TNewline Before); [discriminate|reflexivity|]. apply (elements_value _ (lit "c") [] []); [word|constructor].
Qed.
Example rows_read : exists self, parse_string no_files [] 0 0 rows no_options 0 = Ok (self, 0%nat) /\ get_string_list self (lit "p") = Ok [lit "a"; lit "b"; lit "c"].
Proof.
  destruct (hocon_config_read_partial no_files [] 0 0 rows _ no_options 0 rows_written) as [self [P [R _]]]. exists self. split; [exact P|].
  destruct (R (lit "p") [lit "p"] eq_refl) as [R1 _]. apply (R1 (JArray (map JString [lit "a"; lit "b"; lit "c"]))); [vm_compute; leads|reflexivity].
Qed.

(** Two objects that become one, and two more below it: the second definition of b counts, and c and d are both there. *)
Definition pair : str := lit "a = {b=x,c:{}} {b=y}" ++ nl :: lit "a.c:{d=x}{e=z}".
Definition pair_made : list definition :=
  [([lit "a"], JObject []); ([lit "a"; lit "b"], JString (lit "x")); ([lit "a"; lit "c"], JObject []); ([lit "a"], JObject []); ([lit "a"; lit "b"], JString (lit "y"));
   ([lit "a"; lit "c"], JObject []); ([lit "a"; lit "c"; lit "d"], JString (lit "x")); ([lit "a"; lit "c"], JObject []); ([lit "a"; lit "c"; lit "e"], JString (lit "z"))].
Example pair_written : hocon_text pair pair_made.
Proof.
  apply (hocon_bare _ _ Behind). apply (fields_field [_; _; _; _; _] (lit "a = {b=x,c:{}} {b=y}") [_; _; _; _]).
  - apply (field_objects (lit "a") [lit "a"] (lit " ") (lit "=") (lit " ") [([lit "b"], _); ([lit "c"], _)] (lit "b=x,c:{}") Behind (lit " ") [([], _); ([lit "b"], _)] (lit "{b=y}")); [words|gap|right; reflexivity|gap| |discriminate|gap|].
    + apply (fields_field [_] (lit "b=x") [_]); [apply (field_value (lit "b") [lit "b"] [] (lit "=") []); [words|gapless|right; reflexivity|gapless|word|exact I]|]. layout TComma.
      apply (fields_field [_] (lit "c:{}") [] []); [|constructor]. apply (field_sep_braces (lit "c") [lit "c"] [] (lit ":") [] [] [] Before); [words|gapless|left; reflexivity|gapless|constructor|discriminate].
    + apply (objects_one [_] (lit "b=y") Behind); [|discriminate]. apply (fields_field [_] (lit "b=y") [] []); [|constructor]. apply (field_value (lit "b") [lit "b"] [] (lit "=") []); [words|gapless|right; reflexivity|gapless|word|exact I].
  - layout TNewline. apply (fields_field [_; _; _; _] (lit "a.c:{d=x}{e=z}") [] []); [|constructor].
    apply (field_objects (lit "a.c") [lit "a"; lit "c"] [] (lit ":") [] [([lit "d"], _)] (lit "d=x") Behind [] [([], _); ([lit "e"], _)] (lit "{e=z}")); [words|gapless|left; reflexivity|gapless| |discriminate|gapless|].
    + apply (fields_field [_] (lit "d=x") [] []); [|constructor]. apply (field_value (lit "d") [lit "d"] [] (lit "=") []); [words|gapless|right; reflexivity|gapless|word|exact I].
    + apply (objects_one [_] (lit "e=z") Behind); [|discriminate]. apply (fields_field [_] (lit "e=z") [] []); [|constructor]. apply (field_value (lit "e") [lit "e"] [] (lit "=") []); [words|gapless|right; reflexivity|gapless|word|exact I].
Qed.
Example pair_read : exists self, parse_string no_files [] 0 0 pair no_options 0 = Ok (self, 0%nat) /\
  get_string self (lit "a.b") = Ok (lit "y") /\ get_string self (lit "a.c.d") = Ok (lit "x") /\ get_string self (lit "a.c.e") = Ok (lit "z").
Proof.
  destruct (hocon_config_read_partial no_files [] 0 0 pair _ no_options 0 pair_written) as [self [P [R _]]]. exists self. split; [exact P|].
  destruct (R (lit "a.b") [lit "a"; lit "b"] eq_refl) as [R1 _]. destruct (R (lit "a.c.d") [lit "a"; lit "c"; lit "d"] eq_refl) as [R2 _]. destruct (R (lit "a.c.e") [lit "a"; lit "c"; lit "e"] eq_refl) as [R3 _]. split; [|split].
  - apply (R1 (JString (lit "y"))). vm_compute. leads.
  - apply (R2 (JString (lit "x"))). vm_compute. leads.
  - apply (R3 (JString (lit "z"))). vm_compute. leads.
Qed.

(** A document in braces with the one above as its fallback, which is in a file: its a.b is hidden by an object, and then a.c is still there. *)
Definition more : str := lit " {a.b.f=on} #end".
Definition more_made : list definition := [([lit "a"; lit "b"; lit "f"], JString (lit "on"))].
Example more_written : hocon_text more more_made.
Proof.
  apply (hocon_braces (lit " ") _ (lit "a.b.f=on") Behind (lit " #end") Remark); [|  |discriminate|].
  - apply (around_more Before (TIgnored (lit " ")) Before [] Before); [discriminate|discriminate|reflexivity|constructor].
  - apply (fields_field [_] (lit "a.b.f=on") [] []); [|constructor]. apply (field_value (lit "a.b.f") [lit "a"; lit "b"; lit "f"] [] (lit "=") []); [words|gapless|right; reflexivity|gapless|word|exact I].
  - apply (around_more Behind (TIgnored (lit " ")) Apart (lit "#end") Remark); [discriminate|discriminate|reflexivity|]. apply (around_more Apart (TComment false (lit "end")) Remark [] Remark); [discriminate|discriminate|reflexivity|constructor].
Qed.
Definition one_file (name : str) : option str := if str_eqb name (lit "x.conf") then Some settings else None.
Example layers_read : exists first second merged, parse_string one_file [] 0 0 more no_options 0 = Ok (first, 0%nat) /\
  parse_file_any_syntax one_file [] 0 1 (lit "x.conf") no_options 0 = Ok (second, 0%nat) /\ config_with_fallbacks first [second] = Ok merged /\
  get_string merged (lit "a.b.f") = Ok (lit "on") /\ get_string merged (lit "a.c") = Ok (lit "word").
Proof.
  destruct (hocon_config_read_partial one_file [] 0 0 more more_made no_options 0 more_written) as [v1 [P1 _]].
  destruct (hocon_file_read_partial one_file [] 0 0 (lit "x.conf") settings settings_made no_options 0 settings_written eq_refl eq_refl ltac:(discriminate)) as [v2 [P2 _]].
  destruct (hocon_layers_read_partial one_file [] v1 [v2] more_made [settings_made]) as [merged [M [R _]]].
  { exact (hocon_string _ _ 0 0 _ _ _ _ _ _ more_written P1). }
  { constructor; [|constructor]. exact (hocon_file _ _ 0 0 (lit "x.conf") _ _ no_options _ _ _ settings_written eq_refl eq_refl ltac:(discriminate) P2). }
  exists v1, v2, merged. repeat (split; [assumption|]).
  destruct (R (lit "a.b.f") [lit "a"; lit "b"; lit "f"] eq_refl) as [R1 _]. destruct (R (lit "a.c") [lit "a"; lit "c"] eq_refl) as [R2 _].
  split.
  - apply (R1 (JString (lit "on"))). vm_compute. leads.
  - apply (R2 (JString (lit "word"))). vm_compute. leads.
Qed.
