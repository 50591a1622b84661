(** Specification vocabulary for HOCON texts: how fields are written, and what all of them together mean. *)
From Verif Require Import Base Util_Model Num_Model Path_Model Token_Model Token_Spec PathParser_Model PathParser_Spec Value_Model Doc_Model Include_Model Include_Spec ConfText_Spec Rfc_Spec Rfc_Spec3.

(** ** Definitions: a path, and what is put there *)
Definition definition : Type := (path * json)%type.
Definition below (p : path) (d : definition) : definition := (p ++ fst d, snd d).
Fixpoint nested (p : path) (j : json) : json :=
  match p with
  | [] => j
  | k :: p' => JObject [(k, nested p' j)]
  end.
(** Definitions one after the other: each is put over what the ones before it give. *)
Definition defined (ds : list definition) : json := fold_left (fun before d => overlay (nested (fst d) (snd d)) before) ds (JObject []).

(** ** Texts *)
(** A key: words and strings with periods between them. *)
Inductive key_start : str -> str -> Prop :=
| start_string : forall t k, json_string t k -> key_start t k
| start_word : forall k, plain_key k -> word_key k -> k <> lit "include" -> key_start k k.
Inductive key_rest : str -> path -> Prop :=
| rest_none : key_rest [] []
| rest_string : forall t k r p, json_string t k -> key_rest r p -> key_rest (lit "." ++ t ++ r) (k :: p)
| rest_word : forall k r p, plain_key k -> key_rest r p -> key_rest (lit "." ++ k ++ r) (k :: p).
Inductive key_text : str -> path -> Prop :=
| key_of : forall t k r p, key_start t k -> key_rest r p -> key_text (t ++ r) (k :: p).
(** Nothing or blanks. *)
Definition gap_text (g : str) : Prop := g = [] \/ blank_text g = true.
Definition separator (s : str) : Prop := s = lit ":" \/ s = lit "=".

(** A word without quotes: printable characters other than those with a meaning of their own; it neither looks like a number, nor begins with true, false or null, nor has a comment in it. *)
Definition bare_char (c : ascii) : Prop := (33 <= N_of_ascii c <= 126)%N /\ ~ In c (ch 34 :: lit "$+#{}[]:=,`^?!@*&\").
Definition bare_word (s : str) : Prop :=
  s <> [] /\ Forall bare_char s /\ (forall a b, s <> a ++ lit "//" ++ b) /\ ~ In (hd nl s) (lit "0123456789-") /\
  forall w r, In w [lit "true"; lit "false"; lit "null"] -> s <> w ++ r.

(** A string in three quotes: everything up to the last three quotes in a row, as it stands; NUL bytes are left out. *)
Definition raw_string (t s : str) : Prop :=
  t = three_quotes ++ s ++ three_quotes /\ ~ In (ch 0) s /\ forall a c b, s ++ three_quotes = a ++ three_quotes ++ c :: b -> c = ch 34.

(** Part of a text value, and what it contributes: a word, a number, true, false or null as it stands, or a string. *)
Inductive part : str -> str -> Prop :=
| part_word : forall s, bare_word s -> part s s
| part_number : forall t n x, json_number t n x -> part t t
| part_literal : forall t, In t [lit "true"; lit "false"; lit "null"] -> part t t
| part_string : forall t s, json_string t s -> s <> [] -> part t s
| part_raw : forall t s, raw_string t s -> s <> [] -> part t s.
(** A part and what stands between it and the next text: blanks, which are kept, or nothing if it is plain where the part ends. *)
Definition starts_with_letter (next : str) : Prop := exists c r, next = c :: r /\ isalpha c = true /\ ~ In c (lit "eE").
Inductive lead : str -> str -> str -> Prop :=
| lead_blank : forall t s g next, part t s -> blank_text g = true -> lead (t ++ g) (s ++ g) next
| lead_number : forall t n x next, json_number t n x -> starts_with_letter next -> lead t t next
| lead_string : forall t s next, json_string t s -> s <> [] -> starts_with_letter next -> lead t s next
| lead_word : forall t r, bare_word t -> lead t t (ch 34 :: r).
(** Parts on one line, and what they say together. *)
Inductive phrase : str -> str -> Prop :=
| phrase_end : forall t s, part t s -> phrase t s
| phrase_more : forall t s t' s', lead t s t' -> phrase t' s' -> phrase (t ++ t') (s ++ s').

(** Blanks, newlines and comments. *)
Inductive around : place -> str -> place -> Prop :=
| around_end : forall p, around p [] p
| around_more : forall p t q s e, t <> TCloseCurly -> t <> TComma -> pass p t = Some q -> around q s e -> around p (token_text t ++ s) e.

(** Layout between fields or elements: a comma may also have blanks before it. *)
Definition layout_step (p : place) (t : token) : option place := match p, t with Apart, TComma => Some Before | _, _ => pass p t end.

Section Texts.
(** What the file of a name makes, as seen from this text. *)
Variable included : str -> list definition -> Prop.

(** [value_text j s]: s is a way to write j.  Values may be words without quotes, and several parts on one line.
    [lists js s]: s is a list, or several with only blanks between them, and js are the elements of them all.
    [objects ds s]: s is an object, or several with only blanks between them, and ds are the definitions of them all.
    [elements p js s e]: s is layout and values, those values are js; s begins at a place like p and ends at a place like e.
    [fields p ds s e]: s is layout and fields, and ds are the definitions that the fields make.
    An include statement makes what the file makes.
    [field ds s]: s is one field.  A field with braces defines what it has between the braces, and that there is an object. *)
Inductive value_text : json -> str -> Prop :=
| value_null : value_text JNull (lit "null")
| value_true : value_text (JBool true) (lit "true")
| value_false : value_text (JBool false) (lit "false")
| value_number : forall t n x, json_number t n x -> value_text (JNumber t n x) t
| value_string : forall t s, json_string t s -> value_text (JString s) t
| value_raw : forall t s, raw_string t s -> value_text (JString s) t
| value_word : forall s, bare_word s -> value_text (JString s) s
| value_phrase : forall t s t' s', lead t s t' -> phrase t' s' -> value_text (JString (s ++ s')) (t ++ t')
| value_array : forall js s e, elements Before js s e -> e <> Remark -> value_text (JArray js) (lit "[" ++ s ++ lit "]")
| value_lists : forall js s e g js' s', elements Before js s e -> e <> Remark -> gap_text g -> lists js' s' -> value_text (JArray (js ++ js')) (lit "[" ++ s ++ lit "]" ++ g ++ s')
| value_object : forall ds s e, fields Before ds s e -> e <> Remark -> value_text (defined ds) (lit "{" ++ s ++ lit "}")
| value_objects : forall ds s e g ds' s', fields Before ds s e -> e <> Remark -> gap_text g -> objects ds' s' -> value_text (defined (ds ++ ds')) (lit "{" ++ s ++ lit "}" ++ g ++ s')
with lists : list json -> str -> Prop :=
| lists_one : forall js s e, elements Before js s e -> e <> Remark -> lists js (lit "[" ++ s ++ lit "]")
| lists_more : forall js s e g js' s', elements Before js s e -> e <> Remark -> gap_text g -> lists js' s' -> lists (js ++ js') (lit "[" ++ s ++ lit "]" ++ g ++ s')
with objects : list definition -> str -> Prop :=
| objects_one : forall ds s e, fields Before ds s e -> e <> Remark -> objects (([], JObject []) :: ds) (lit "{" ++ s ++ lit "}")
| objects_more : forall ds s e g ds' s', fields Before ds s e -> e <> Remark -> gap_text g -> objects ds' s' -> objects (([], JObject []) :: ds ++ ds') (lit "{" ++ s ++ lit "}" ++ g ++ s')
with elements : place -> list json -> str -> place -> Prop :=
| elements_end : forall p, elements p [] [] p
| elements_layout : forall p t q js s e, t <> TCloseCurly -> layout_step p t = Some q -> elements q js s e -> elements p js (token_text t ++ s) e
| elements_value : forall j t js s e, value_text j t -> elements Behind js s e -> elements Before (j :: js) (t ++ s) e
with fields : place -> list definition -> str -> place -> Prop :=
| fields_end : forall p, fields p [] [] p
| fields_layout : forall p t q ds s e, t <> TCloseCurly -> layout_step p t = Some q -> fields q ds s e -> fields p ds (token_text t ++ s) e
| fields_field : forall ds1 t ds2 s e, field ds1 t -> fields Behind ds2 s e -> fields Before (ds1 ++ ds2) (t ++ s) e
| fields_include : forall g t named ds1 ds2 s e, blank_text g = true -> json_string t named -> included named ds1 -> fields Behind ds2 s e ->
    fields Before (ds1 ++ ds2) ((lit "include" ++ g ++ t) ++ s) e
with field : list definition -> str -> Prop :=
| field_value : forall kt p g1 sep g2 j s, key_text kt p -> gap_text g1 -> separator sep -> gap_text g2 -> value_text j s ->
    match j with JObject _ => False | _ => True end -> field [(p, j)] (kt ++ g1 ++ sep ++ g2 ++ s)
| field_braces : forall kt p g1 ds s e, key_text kt p -> gap_text g1 -> fields Before ds s e -> e <> Remark ->
    field (map (below p) (([], JObject []) :: ds)) (kt ++ g1 ++ lit "{" ++ s ++ lit "}")
| field_sep_braces : forall kt p g1 sep g2 ds s e, key_text kt p -> gap_text g1 -> separator sep -> gap_text g2 -> fields Before ds s e -> e <> Remark ->
    field (map (below p) (([], JObject []) :: ds)) (kt ++ g1 ++ sep ++ g2 ++ lit "{" ++ s ++ lit "}")
| field_objects : forall kt p g1 sep g2 ds s e g ds' s', key_text kt p -> gap_text g1 -> separator sep -> gap_text g2 -> fields Before ds s e -> e <> Remark -> gap_text g -> objects ds' s' ->
    field (map (below p) (([], JObject []) :: ds ++ ds')) (kt ++ g1 ++ sep ++ g2 ++ lit "{" ++ s ++ lit "}" ++ g ++ s').

(** A document, without braces around it or with them. *)
Inductive document : str -> list definition -> Prop :=
| hocon_bare : forall ds s e, fields Before ds s e -> document s ds
| hocon_braces : forall a ds s e b e', around Before a Before -> fields Before ds s e -> e <> Remark -> around Behind b e' ->
    document (a ++ lit "{" ++ s ++ lit "}" ++ b) ds.
End Texts.
Arguments value_null {included}. Arguments value_true {included}. Arguments value_false {included}. Arguments value_number {included}. Arguments value_string {included}. Arguments value_raw {included}. Arguments value_word {included}. Arguments value_phrase {included}. Arguments value_array {included}. Arguments value_lists {included}. Arguments lists_one {included}. Arguments lists_more {included}. Arguments value_object {included}. Arguments value_objects {included}. Arguments objects_one {included}. Arguments objects_more {included}. Arguments field_objects {included}. Arguments elements_end {included}. Arguments elements_layout {included}. Arguments elements_value {included}. Arguments fields_end {included}. Arguments fields_layout {included}. Arguments fields_field {included}. Arguments fields_include {included}. Arguments field_value {included}. Arguments field_braces {included}. Arguments field_sep_braces {included}. Arguments hocon_bare {included}. Arguments hocon_braces {included}.
(** A document without includes. *)
Definition hocon_text : str -> list definition -> Prop := document (fun _ _ => False).

(** ** Documents with includes *)
Section Includes.
Variable files : str -> option str.
(** A file that is not there counts as empty. *)
Definition contents (name : str) : str := match files name with Some text => text | None => [] end.
(** The file [name] makes [ds]; includes are less than [n] deep.  It is a HOCON document, with names as seen from its directory, or a JSON object. *)
Fixpoint file_makes (n : nat) (name : str) (ds : list definition) : Prop :=
  match n with
  | O => False
  | S n' =>
      (exists base dir, name = base ++ lit ".conf" /\ directory_of name dir /\
         document (fun named made => has_extension named /\ file_makes n' (seen_from dir named) made) (contents name) ds) \/
      (exists base ms, name = base ++ lit ".json" /\ json_document (contents name) (JObject ms) /\ ds = map (fun '(k, j) => ([k], j)) ms)
  end.
(** A text that is not in a file. *)
Definition text_makes (n : nat) (text : str) (ds : list definition) : Prop :=
  document (fun named made => has_extension named /\ file_makes n (seen_from [] named) made) text ds.
End Includes.

(** The config comes from such a text, given as a string or in a .conf file; with includes, if the application has no includer of its own. *)
Inductive hocon_loaded (files : str -> option str) (environment : list (str * str)) : value -> list definition -> Prop :=
| hocon_string : forall depth n text ds options next next' self, hocon_text text ds ->
    parse_string files environment depth n text options next = Ok (self, next') -> hocon_loaded files environment self ds
| hocon_file : forall depth n name text ds options next next' self, hocon_text text ds -> files name = Some text -> ends_with (lit ".conf") name = true -> o_syntax options <> Some JSON ->
    parse_file_any_syntax files environment depth (S n) name options next = Ok (self, next') -> hocon_loaded files environment self ds
| hocon_including_string : forall depth n m text ds options next next' self, text_makes files n text ds -> (n <= m)%nat -> o_includer options = None ->
    parse_string files environment depth m text options next = Ok (self, next') -> hocon_loaded files environment self ds
| hocon_including_file : forall depth n m name ds options next next' self, file_makes files n name ds -> (n <= m)%nat -> o_includer options = None -> o_syntax options <> Some JSON ->
    parse_file_any_syntax files environment depth m name options next = Ok (self, next') -> hocon_loaded files environment self ds.
