(** Specification vocabulary for editing JSON documents. *)
From Verif Require Import Base Util_Model Num_Model Path_Model Path_Spec Token_Model Token_Spec PathParser_Model PathParser_Spec Doc_Model Edit_Model Value_Model Value_Spec Concat_Model ConfigParser_Model.

(** The text is accepted as JSON and means [v]. *)
Definition json_text (text : str) (v : value) : Prop :=
  forall inc next, parse_config JSON inc text next = Ok (Some v, next).

(** The value text is accepted as JSON and means [v]; [n] is the node read from it. *)
Definition json_value_text (text : str) (n : node) (v : value) : Prop :=
  parse_value_text JSON text = Ok (Some n) /\
  forall inc st ac next, ConfigParser_Model.parse_value JSON inc n st ac next = Ok (v, next).

(** A path expression with every key in quotes: "a"."b c" *)
Fixpoint quoted_path (p : path) : str :=
  match p with
  | [] => []
  | k :: p' => render_json_string k ++ match p' with [] => [] | _ :: _ => lit "." ++ quoted_path p' end
  end.

(** The path expressions considered: every key in quotes, or no key in quotes, all of them plain, and the first one
    a word (not starting like a number or true, false or null): "a b"."c" or a.b.1 *)
Inductive path_text : str -> path -> Prop :=
| text_quoted : forall p, p <> [] -> Forall (Forall quotable) p -> path_text (quoted_path p) p
| text_plain : forall k p, Forall plain_key (k :: p) -> word_key k -> path_text (dotted (k :: p)) (k :: p).

(** Every comma in an object follows its field on the same line: [close] says that nothing but blanks came since
    the field. *)
Fixpoint commas_close (close : bool) (cs : list node) : bool :=
  match cs with
  | [] => true
  | c :: cs' =>
      match c with
      | NField _ => commas_close true cs'
      | NTok (TIgnored _) => commas_close close cs'
      | NTok TComma => close && commas_close false cs'
      | _ => commas_close false cs'
      end
  end.
Fixpoint neat (n : node) : bool :=
  match n with
  | NObject cs => commas_close false cs && forallb neat cs
  | NArray cs | NConcat cs | NField cs => forallb neat cs
  | _ => true
  end.

(** On the way to [p] there is nothing but objects. *)
Definition way_open (p : path) (v : value) : Prop :=
  forall a b u, p = a ++ b -> a <> [] -> b <> [] -> get a v = Some u -> simple_object u.

(** A document read from a JSON text and edited any number of times. *)
Inductive json_document : list node -> Prop :=
| json_parsed : forall s ns, ~ In (ch 0) s -> parse_document JSON s = Ok ns -> forallb neat ns = true -> json_document ns
| json_set : forall ns ps p text n w v ns', json_document ns -> json_text (render_document ns) v ->
    path_text ps p -> way_open p v ->
    ~ In (ch 0) text -> json_value_text text n w -> neat n = true ->
    with_value_text JSON ns ps text = Ok ns' -> json_document ns'
| json_removed : forall ns ps p ns', json_document ns -> path_text ps p ->
    Edit_Model.without_path JSON ns ps = Ok ns' -> json_document ns'.
