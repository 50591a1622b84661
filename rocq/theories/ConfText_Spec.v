(** Specification vocabulary for the text of HOCON documents: a way to write them, and documents written so and edited. *)
From Verif Require Import Base Util_Model Num_Model Path_Model Token_Model PathParser_Model PathParser_Spec Token_Spec Doc_Model Doc_Spec Edit_Model Edit_Spec JsonEdit_Spec.

(** Blanks that are not newlines; a text without newlines. *)
Definition blank_text (w : str) : bool := match w with [] => false | _ :: _ => forallb is_whitespace_not_newline w end.
Definition line_text (s : str) : bool := forallb (fun c => negb (Ascii.eqb c nl)) s.

(** Where one stands among the children of an object: where a field may begin; just behind the value of a field; behind it
    and a blank; behind a comment; behind the closing brace. *)
Inductive place : Set := Before | Behind | Apart | Remark | Closed.

(** Blanks, newlines, commas and comments.  A comma stands just behind a value, a comment is ended by a newline, and a
    comment just behind a value starts with [#]. *)
Definition pass (p : place) (t : token) : option place :=
  match p, t with
  | Closed, _ => None
  | _, TNewline => Some Before
  | Before, TIgnored w => if blank_text w then Some Before else None
  | (Behind | Apart), TIgnored w => if blank_text w then Some Apart else None
  | Behind, TComma => Some Before
  | (Before | Apart), TComment _ c => if line_text c then Some Remark else None
  | Behind, TComment false c => if line_text c then Some Remark else None
  | (Before | Behind | Apart), TCloseCurly => Some Closed
  | _, _ => None
  end.

(** What an edit has put in front of the key of a new field. *)
Fixpoint lead_of (fc : list node) : list node := match fc with NPath _ :: _ | [] => [] | c :: fc' => c :: lead_of fc' end.
Fixpoint core_of (fc : list node) : list node := match fc with NPath _ :: _ => fc | [] => [] | _ :: fc' => core_of fc' end.
Definition is_gap (c : node) : bool := match c with NTok (TIgnored w) => blank_text w | _ => false end.
Definition inline_lead (l : list node) : bool := forallb is_gap l.
Definition line_lead (l : list node) : bool := match l with NTok TNewline :: l' => forallb (fun c => is_newline c || is_gap c) l' | _ => false end.

(** From child to child.  A field on a line of its own ([held]) is followed by a newline, another such field or the end. *)
Definition step (s : place * bool) (c : node) : option (place * bool) :=
  let '(p, held) := s in
  match c with
  | NTok (TComment _ _) => None
  | NTok t =>
      match pass p t with
      | Some p' => if held then match t with TNewline | TCloseCurly => Some (p', false) | _ => None end else Some (p', false)
      | None => None
      end
  | NComment (TComment d c) => if held then None else match pass p (TComment d c) with Some p' => Some (p', false) | None => None end
  | NField fc =>
      match p with
      | Closed => None
      | _ => if line_lead (lead_of fc) then Some (p, true)
             else if inline_lead (lead_of fc) && negb held then match p with Before => Some (Behind, false) | _ => None end else None
      end
  | _ => None
  end.
Fixpoint walk (s : place * bool) (cs : list node) : option (place * bool) :=
  match cs with [] => Some s | c :: cs' => match step s c with Some s' => walk s' cs' | None => None end end.

(** An object written on one line has no comments. *)
Definition one_line_child (c : node) : bool := match c with NComment _ => false | NField fc => negb (line_lead (lead_of fc)) | _ => true end.
Definition lines (cs : list node) : bool := existsb is_newline cs || forallb one_line_child cs.

(** The children of an object, with braces or not. *)
Definition braced (cs : list node) : bool :=
  match cs with NTok TOpenCurly :: cs' => match walk (Before, false) cs' with Some (Closed, _) => true | _ => false end && lines cs' | _ => false end.
Definition unbraced (cs : list node) : bool :=
  match walk (Before, false) cs with Some (Closed, _) | None => false | Some _ => true end && lines cs.

(** A field: what is in front of the key, the key, a blank or not, and an object with braces or a separator, a blank or not,
    and a value. *)
Definition after_gap (fc : list node) : list node := match fc with NTok (TIgnored w) :: fc' => if blank_text w then fc' else fc | _ => fc end.
Definition field_object (n : node) : bool := match n with NObject cs => braced cs | _ => false end.
Definition field_thing (n : node) : bool := match n with NSimple _ | NConcat _ | NArray _ => true | _ => field_object n end.
Definition field_shape (fc : list node) : bool :=
  match core_of fc with
  | NPath _ :: r =>
      match after_gap r with
      | [v] => field_object v
      | NTok (TColon | TEquals) :: r' => match after_gap r' with [v] => field_thing v | _ => false end
      | _ => false
      end
  | _ => false
  end.

(** All fields, also those of the objects in fields, are written so; the other values are without includes of the kind with
    parentheses. *)
Fixpoint tidy (n : node) : bool :=
  match n with
  | NObject cs => forallb (fun c => match c with NField fc => field_shape fc && forallb tidy fc | _ => true end) cs
  | _ => paren_free n
  end.

(** A document: an object without braces, or one with braces between blanks, newlines and comments. *)
Definition root_layout (ns : list node) : bool := forallb (fun c => match c with NTok (TIgnored _ | TNewline) | NComment _ => true | _ => false end) ns.
Fixpoint tidy_around (s : place * bool) (ns : list node) : bool :=
  match ns with
  | NObject cs :: post =>
      tidy (NObject cs) && braced cs && root_layout post &&
      match s with (Before, _) => match walk (Behind, false) post with Some _ => true | None => false end | _ => false end
  | c :: ns' => root_layout [c] && match step s c with Some s' => tidy_around s' ns' | None => false end
  | [] => false
  end.
Definition tidy_document (ns : list node) : bool :=
  match ns with [NObject cs] => tidy (NObject cs) && (braced cs || unbraced cs) | _ => tidy_around (Before, false) ns end.

(** A field at the path has no separator: a {...} *)
Inductive bare : path -> list node -> Prop :=
| bare_field : forall cs fc p ts, In (NField fc) cs -> In (NPath (p, ts)) fc -> ~ In (NTok TColon) fc -> ~ In (NTok TEquals) fc -> bare p cs
| bare_below : forall cs fc p ts ocs q, In (NField fc) cs -> In (NPath (p, ts)) fc -> In (NObject ocs) fc -> bare q ocs -> bare (p ++ q) cs.

(** The path expressions considered: every key in quotes, or no key in quotes, all of them plain words and not "include". *)
Inductive conf_path_text : str -> path -> Prop :=
| conf_quoted : forall p, p <> [] -> Forall (Forall quotable) p -> conf_path_text (quoted_path p) p
| conf_plain : forall k p, Forall (fun k => plain_key k /\ word_key k /\ k <> lit "include") (k :: p) -> conf_path_text (dotted (k :: p)) (k :: p).

(** No newline between the parts of the node. *)
Fixpoint newline_free (n : node) : bool :=
  match n with
  | NTok TNewline => false
  | NField cs | NConcat cs | NArray cs | NObject cs => forallb newline_free cs
  | _ => true
  end.

(** The text of a value for an edit: without a NUL, it is read as one value on one line, written tidily,
    an object with its braces. *)
Definition tidy_value (text : str) (v : node) : Prop :=
  ~ In (ch 0) text /\ parse_value_text CONF text = Ok (Some v) /\ tidy v = true /\ newline_free v = true /\ field_thing v = true.

(** Tidy documents and what comes of them by edits. *)
Inductive tidily_edited : list node -> Prop :=
| tidy_parsed : forall text ns, ~ In (ch 0) text -> parse_document CONF text = Ok ns -> tidy_document ns = true -> tidily_edited ns
| tidy_set : forall ns ps p text v ns', tidily_edited ns -> conf_path_text ps p -> tidy_value text v -> field_object v = true \/ ~ bare p (root_object ns) ->
    with_value_text CONF ns ps text = Ok ns' -> tidily_edited ns'
| tidy_removed : forall ns ps ns', tidily_edited ns -> without_path CONF ns ps = Ok ns' -> tidily_edited ns'.
