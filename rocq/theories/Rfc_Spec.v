(** Specification vocabulary for JSON texts (RFC 8259): JSON values, how they are written, and which config value
    has the contents of a JSON value. *)
From Verif Require Import Base Util_Model Num_Model Token_Model Value_Model Escape_Spec Round_Spec.

(** A number is its text and the decimal number n * 10^x that it stands for. *)
Inductive json : Type :=
| JNull
| JBool (b : bool)
| JNumber (t : str) (n x : Z)
| JString (s : str)
| JArray (js : list json)
| JObject (ms : list (str * json)).

Definition between_quotes (w : str) : str := [ch 34] ++ w ++ [ch 34].

(** ** The grammar of RFC 8259, over the texts that count as blank, as a string and as a number *)
Section Grammar.
Variable blank : str -> Prop.
(** the text, with its quotes, and what it stands for *)
Variable string_text : str -> str -> Prop.
(** the text, and the n and x of the number n * 10^x *)
Variable number_text : str -> Z -> Z -> Prop.

(** [written j s]: s is a way to write j.  Names are unique. *)
Inductive written : json -> str -> Prop :=
| written_null : written JNull (lit "null")
| written_true : written (JBool true) (lit "true")
| written_false : written (JBool false) (lit "false")
| written_number : forall t n x, number_text t n x -> written (JNumber t n x) t
| written_string : forall t s, string_text t s -> written (JString s) t
| written_no_items : forall a, blank a -> written (JArray []) (lit "[" ++ a ++ lit "]")
| written_array : forall js s, items js s -> written (JArray js) (lit "[" ++ s ++ lit "]")
| written_no_members : forall a, blank a -> written (JObject []) (lit "{" ++ a ++ lit "}")
| written_object : forall ms s, members ms s -> NoDup (map fst ms) -> written (JObject ms) (lit "{" ++ s ++ lit "}")
with items : list json -> str -> Prop :=
| items_one : forall a j s b, blank a -> written j s -> blank b -> items [j] (a ++ s ++ b)
| items_more : forall a j s b js r, blank a -> written j s -> blank b -> items js r -> items (j :: js) (a ++ s ++ b ++ lit "," ++ r)
with members : list (str * json) -> str -> Prop :=
| members_one : forall a t k b c j s d, blank a -> string_text t k -> blank b -> blank c -> written j s -> blank d ->
    members [(k, j)] (a ++ t ++ b ++ lit ":" ++ c ++ s ++ d)
| members_more : forall a t k b c j s d ms r, blank a -> string_text t k -> blank b -> blank c -> written j s -> blank d -> members ms r ->
    members ((k, j) :: ms) (a ++ t ++ b ++ lit ":" ++ c ++ s ++ d ++ lit "," ++ r).

(** A text whose value is an object or an array. *)
Inductive document_of : str -> json -> Prop :=
| document_array : forall a s b js, blank a -> written (JArray js) s -> blank b -> document_of (a ++ s ++ b) (JArray js)
| document_object : forall a s b ms, blank a -> written (JObject ms) s -> blank b -> document_of (a ++ s ++ b) (JObject ms).
End Grammar.

(** ** JSON *)
(** Blanks: space, tab, line feed and carriage return. *)
Definition blank (s : str) : Prop := Forall (fun c => In c [" "%char; ch 9; ch 10; ch 13]) s.
Definition integer_text (t : str) : Prop := forall a, In a t -> a <> "."%char /\ a <> "e"%char /\ a <> "E"%char.
(** The numbers that are read: integers of 64 bits, and other numbers below the last double before 2^63. *)
Definition readable (t : str) (n x : Z) : Prop :=
  upper (Z.abs n) x < (2 ^ 63 - 1024) * lower_part x \/ integer_text t /\ - 2 ^ 63 <= n < 2 ^ 63.
Inductive json_string : str -> str -> Prop :=
| a_json_string : forall w s, stands_for w s -> json_string (between_quotes w) s.
(** Numbers begin with a digit or a minus sign. *)
Inductive json_number : str -> Z -> Z -> Prop :=
| a_json_number : forall c more n x, numeral (c :: more) n x -> (isdigit c = true \/ c = "-"%char) -> readable (c :: more) n x ->
    json_number (c :: more) n x.
Definition json_document : str -> json -> Prop := document_of blank json_string json_number.

(** ** What is accepted as JSON *)
(** Vertical tabs and form feeds are blank, too. *)
Definition lax_blank (s : str) : Prop := Forall (fun c => In c [" "%char; ch 9; ch 10; ch 11; ch 12; ch 13]) s.
(** Any four characters are taken for the digits behind a backslash and u, and may stand for anything unless they are
    digits; a NUL vanishes. *)
Inductive lax_escaped : str -> str -> Prop :=
| lax_end : lax_escaped [] []
| lax_plain : forall c w v, 32 <= byte_of c <= 127 -> c <> ch 34 -> c <> ch 92 -> lax_escaped w v -> lax_escaped (c :: w) (c :: v)
| lax_short : forall e c w v, In (e, c) short_escapes -> lax_escaped w v -> lax_escaped (ch 92 :: e :: w) (c :: v)
| lax_unicode : forall c1 c2 c3 c4 bs w v,
    (forall d1 d2 d3 d4, hex_digit c1 d1 -> hex_digit c2 d2 -> hex_digit c3 d3 -> hex_digit c4 d4 ->
       let z := ((d1 * 16 + d2) * 16 + d3) * 16 + d4 in z = 0 /\ bs = [] \/ 0 < z /\ ~ surrogate z /\ encodes z bs) ->
    lax_escaped w v -> lax_escaped (ch 92 :: "u"%char :: c1 :: c2 :: c3 :: c4 :: w) (bs ++ v).
(** Strings may be in three quotes, with nothing escaped; they end at the last quote of the first three or more in a
    row.  The first two of the opening quotes may have escaped NULs between them. *)
Definition three_quotes : str := [ch 34; ch 34; ch 34].
Inductive lax_string : str -> str -> Prop :=
| lax_quoted : forall w s, lax_escaped w s -> lax_string (between_quotes w) s
| lax_raw : forall w s, lax_escaped w [] -> (forall a c b, s ++ three_quotes = a ++ three_quotes ++ c :: b -> c = ch 34) ->
    lax_string (between_quotes w ++ [ch 34] ++ s ++ three_quotes) s.
(** Numbers may have leading zeros, and a point without digits behind it or, after a minus sign, before it. *)
Inductive lax_number : str -> Z -> Z -> Prop :=
| a_lax_number : forall c more n x, numeral (c :: more) n x -> (isdigit c = true \/ c = "-"%char) -> lax_number (c :: more) n x.
Definition lax_document : str -> json -> Prop := document_of lax_blank lax_string lax_number.

(** ** Contents *)
(** The config value has the contents of the JSON value.  Numbers keep their text and are within half a unit in the
    last place of what is written; integers are exact, and of type int if they fit into one. *)
Inductive denotes : json -> value -> Prop :=
| denotes_null : denotes JNull (VScalar SNull)
| denotes_bool : forall b, denotes (JBool b) (VScalar (SBool b))
| denotes_number : forall t n x v, is_number v = true -> scalar_text v = t -> half_unit (double_value v) n x ->
    (integer_text t -> v = if (-2147483648 <=? n) && (n <=? 2147483647) then SInt n t else SLong n t) -> denotes (JNumber t n x) (VScalar v)
| denotes_string : forall s q, denotes (JString s) (VScalar (SStr s q))
| denotes_array : forall js vs, Forall2 denotes js vs -> denotes (JArray js) (VList vs)
| denotes_object : forall ms r i m, NoDup (map fst m) -> (forall k, In k (map fst m) -> In k (map fst ms)) ->
    (forall k j, In (k, j) ms -> exists v, find_key k m = Some v /\ denotes j v) -> denotes (JObject ms) (VObj r i m).
