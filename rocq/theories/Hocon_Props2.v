(** C81: a HOCON document with include statements is read as if what the included files define stood in their places. *)
From Verif Require Import Base Util_Model Num_Model Path_Model Token_Model PathParser_Model PathParser_Spec Doc_Model Value_Model Concat_Model ConfigParser_Model Escape_Spec Round_Spec Duration_Model Config_Model
  Resolve_Model Include_Model Include_Spec Layers_Model ConfText_Spec Rfc_Spec Rfc_Spec2 Rfc_Spec3 Hocon_Spec Key_Lemmas Hocon_Lemmas5.

(** Includes may be anywhere fields may be, also in braces and lists, and nested.  The application has no includer of its own.
    Partial: as C78, and include statements are a name in quotes with the extension .conf or .json, and files do not include each other in circles. *)
Theorem including_config_read_partial : forall files environment depth n m text ds options next, text_makes files n text ds -> (n <= m)%nat -> o_includer options = None ->
  exists self, parse_string files environment depth m text options next = Ok (self, next) /\
    (forall ps p, new_path ps = Ok p -> (forall j, found (defined ds) p j -> gives self ps j) /\ ((forall j, ~ found (defined ds) p j) -> absent self ps)) /\
    (forall allow_unresolved use_environment environment' k, resolve_config allow_unresolved use_environment environment' (S k) self = Ok (Some self)).
Proof. exact including_string_read. Qed.
Print Assumptions including_config_read_partial.

Theorem including_file_read_partial : forall files environment depth n m name ds options next, file_makes files n name ds -> (n <= m)%nat ->
  o_includer options = None -> o_syntax options <> Some JSON ->
  exists self, parse_file_any_syntax files environment depth m name options next = Ok (self, next) /\
    (forall ps p, new_path ps = Ok p -> (forall j, found (defined ds) p j -> gives self ps j) /\ ((forall j, ~ found (defined ds) p j) -> absent self ps)) /\
    (forall allow_unresolved use_environment environment' k, resolve_config allow_unresolved use_environment environment' (S k) self = Ok (Some self)).
Proof. exact including_file_read. Qed.
Print Assumptions including_file_read_partial.

(** A file that includes one, which includes a JSON file in another directory and one that is not there. *)
Definition app_text : str := lit "include ""base.conf""" ++ nl :: lit "a.b=on".
Definition base_text : str := lit "a {b=off,include ""sub/d.json"" }" ++ nl :: lit "include ""/none.conf""".
Definition json_text : str := lit "{""c"":true}".
Definition the_files (name : str) : option str :=
  if str_eqb name (lit "/etc/app.conf") then Some app_text else if str_eqb name (lit "/etc/base.conf") then Some base_text
  else if str_eqb name (lit "/etc/sub/d.json") then Some json_text else None.
Definition app_made : list definition := [([lit "a"], JObject []); ([lit "a"; lit "b"], JString (lit "off")); ([lit "a"; lit "c"], JBool true); ([lit "a"; lit "b"], JString (lit "on"))].
Ltac plain_word := split; [discriminate|repeat (constructor; [left; reflexivity|]); constructor].
Ltac wordy := right; split; [left; reflexivity|split; [|split]; intros r E; discriminate E].
Ltac letters := constructor; [split; [plain_word|split; [wordy|discriminate]]|].
Ltac words := match goal with |- key_text _ (?k :: ?p) => apply (key_words k p); repeat letters; constructor end.
Ltac elsewhere := let K := fresh in intro K; cbn in K; intuition discriminate.
Ltac no_slashes := let a := fresh in let b := fresh in let E := fresh in
  intros a b E; repeat (destruct a as [|? a]; [discriminate E|cbn [app] in E; first [discriminate E|injection E as _ E]]).
Ltac no_keyword := let w := fresh in let r := fresh in let E := fresh in intros w r [<-|[<-|[<-|[]]]] E; discriminate E.
Ltac bare := split; [discriminate|split; [repeat (constructor; [split; [vm_compute; split; discriminate|elsewhere]|]); constructor|split; [no_slashes|split; [elsewhere|no_keyword]]]].
Ltac word := apply value_word; bare.
Ltac layout t := eapply (fields_layout _ t); [discriminate|reflexivity|].
Ltac quoted := match goal with |- json_string _ ?s => change (json_string (between_quotes s) s) end; constructor; repeat (apply s_plain; [vm_compute; split; discriminate|discriminate|discriminate|]); constructor.
Ltac in_etc b := exists b; split; [reflexivity|split; [cbn; intuition discriminate|right; exists (lit "/etc"); reflexivity]].
Example json_made : file_makes the_files 1 (lit "/etc/sub/d.json") [([lit "c"], JBool true)].
Proof.
  right. exists (lit "/etc/sub/d"), [(lit "c", JBool true)]. split; [reflexivity|]. split; [|reflexivity]. change (contents the_files (lit "/etc/sub/d.json")) with json_text.
  apply (document_object _ _ _ [] json_text []); [constructor| |constructor]. apply (written_object _ _ _ _ (lit """c"":true")); [|repeat constructor; intros []].
  apply (members_one _ _ _ [] (between_quotes (lit "c")) (lit "c") [] [] _ (lit "true") []); [constructor|quoted|constructor|constructor|constructor|constructor].
Qed.
Example base_made : file_makes the_files 2 (lit "/etc/base.conf") [([lit "a"], JObject []); ([lit "a"; lit "b"], JString (lit "off")); ([lit "a"; lit "c"], JBool true)].
Proof.
  left. exists (lit "/etc/base"), (lit "/etc/"). split; [reflexivity|]. split; [in_etc (lit "base.conf")|]. change (contents the_files (lit "/etc/base.conf")) with base_text.
  apply (hocon_bare _ _ Behind). apply (fields_field [_; _; _] (lit "a {b=off,include ""sub/d.json"" }") [] (nl :: lit "include ""/none.conf""")).
  - apply (field_braces (lit "a") [lit "a"] (lit " ") [([lit "b"], _); ([lit "c"], _)] (lit "b=off,include ""sub/d.json"" ") Apart); [words|right; reflexivity| |discriminate].
    apply (fields_field [_] (lit "b=off")).
    { apply (field_value (lit "b") [lit "b"] [] (lit "=") []); [words|left; reflexivity|right; reflexivity|left; reflexivity|word|exact I]. }
    layout TComma. apply (fields_include (lit " ") (lit """sub/d.json""") (lit "sub/d.json") [_] [] (lit " ") Apart); [reflexivity|quoted|split; [right; exists (lit "sub/d"); reflexivity|exact json_made]|].
    layout (TIgnored (lit " ")). constructor.
  - layout TNewline. apply (fields_include (lit " ") (lit """/none.conf""") (lit "/none.conf") [] [] [] Behind); [reflexivity|quoted| |constructor]. split; [left; exists (lit "/none"); reflexivity|].
    left. exists (lit "/none"), (lit "/"). split; [reflexivity|]. split; [exists (lit "none.conf"); split; [reflexivity|split; [cbn; intuition discriminate|right; exists []; reflexivity]]|].
    apply (hocon_bare _ _ Before). constructor.
Qed.
Example app_file : file_makes the_files 3 (lit "/etc/app.conf") app_made.
Proof.
  left. exists (lit "/etc/app"), (lit "/etc/"). split; [reflexivity|]. split; [in_etc (lit "app.conf")|]. change (contents the_files (lit "/etc/app.conf")) with app_text.
  apply (hocon_bare _ _ Behind). apply (fields_include (lit " ") (lit """base.conf""") (lit "base.conf") [_; _; _] [_] (nl :: lit "a.b=on") Behind); [reflexivity|quoted|split; [left; exists (lit "base"); reflexivity|exact base_made]|].
  layout TNewline. apply (fields_field [_] (lit "a.b=on") [] []); [|constructor].
  apply (field_value (lit "a.b") [lit "a"; lit "b"] [] (lit "=") []); [words|left; reflexivity|right; reflexivity|left; reflexivity|word|exact I].
Qed.
(** What the theorem then says: the field behind the include counts, and those of the included files are there. *)
Ltac leads := repeat (eapply found_member; [repeat (first [left; reflexivity|right])|]); constructor.
Example app_read : exists self, parse_file_any_syntax the_files [] 0 3 (lit "/etc/app.conf") default_options 0 = Ok (self, 0%nat) /\
  get_string self (lit "a.b") = Ok (lit "on") /\ get_bool self (lit "a.c") = Ok true /\ has_path self (lit "a.d") = Ok false.
Proof.
  destruct (including_file_read_partial the_files [] 0 3 3 (lit "/etc/app.conf") app_made default_options 0 app_file (le_n 3) eq_refl ltac:(discriminate)) as [self [P [R _]]]. exists self. split; [exact P|].
  destruct (R (lit "a.b") [lit "a"; lit "b"] eq_refl) as [R1 _]. destruct (R (lit "a.c") [lit "a"; lit "c"] eq_refl) as [R2 _]. destruct (R (lit "a.d") [lit "a"; lit "d"] eq_refl) as [_ R3].
  split; [|split].
  - apply (R1 (JString (lit "on"))). vm_compute. leads.
  - apply (R2 (JBool true)). vm_compute. leads.
  - apply R3. intros j H. vm_compute in H. inversion H as [|? ? ? ? ? I1 H1]; subst. destruct I1 as [I1|[]]. injection I1 as <-. inversion H1 as [|? ? ? ? ? I2 H2]; subst. destruct I2 as [I2|[I2|[]]]; discriminate I2.
Qed.
(** The same file included by a text. *)
Example text_made : text_makes the_files 3 (lit "{include ""/etc/app.conf""}") app_made.
Proof.
  apply (hocon_braces [] _ (lit "include ""/etc/app.conf""") Behind [] Behind); [constructor| |discriminate|constructor].
  apply (fields_include (lit " ") (lit """/etc/app.conf""") (lit "/etc/app.conf") app_made [] [] Behind); [reflexivity|quoted|split; [left; exists (lit "/etc/app"); reflexivity|exact app_file]|constructor].
Qed.
