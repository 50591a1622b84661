(** Transcription of what lib/src/config_parser.cc does with comments and line numbers.

    Simplifications:
    - only the comments (and below, the lines) are computed here, the values are in ConfigParser_Model: which
      comments a value gets depends on the kinds of the nodes around it only;
    - the comments of a value are those of the definition at hand: the origins of merged definitions are
      merged afterwards (Origin_Model);
    - the file or text itself has no comments (its origin is made by simple_config_origin's constructor), so
      the values that parse_value starts from have none;
    - exceptions are left out: this is what happens when parsing succeeds. *)
From Verif Require Import Base Util_Model Num_Model Path_Model Token_Model PathParser_Model Doc_Model Origin_Model.

(** config_node_comment.cc:10-12 with tokens.cc: comment::text *)
Definition text_of_comment (t : token) : str := match t with TComment _ s => s | _ => [] end.

(** config_node_field.cc:69-78 *)
Fixpoint field_comments (fcs : list node) : list str :=
  match fcs with
  | [] => []
  | NComment t :: fcs' => text_of_comment t :: field_comments fcs'
  | _ :: fcs' => field_comments fcs'
  end.

(** config_parser.cc:231-256: the search for a comment behind a field *)
Fixpoint trailing_comment (cs : list node) : list str :=
  match cs with
  | NComment t :: _ => [text_of_comment t]
  | NTok TComma :: cs' | NTok (TIgnored _) :: cs' => trailing_comment cs'
  | _ => []
  end.

(** The comments of a field: those put before the value's (217, 76-82) and those put behind (240). *)
Definition noted : Type := (list node * list str * list str)%type.

(** config_parser.cc:165-296.  [newline] is last_was_newline, [comments] is comments.  [searching]: the search
    behind a field (231-256) goes on, so that a comment met is the one it takes. *)
Fixpoint object_comments (newline searching : bool) (comments : list str) (cs : list node) : list noted :=
  match cs with
  | [] => []
  | NComment t :: cs' =>
      if searching then object_comments newline false comments cs'
      else object_comments false false (comments ++ [text_of_comment t]) cs'
  | NTok TNewline :: cs' => object_comments true false (if newline then [] else comments) cs'
  | NTok TComma :: cs' | NTok (TIgnored _) :: cs' => object_comments newline searching comments cs'
  | NInclude _ _ :: cs' => object_comments false false comments cs'
  | NField fcs :: cs' => (fcs, comments ++ field_comments fcs, trailing_comment cs') :: object_comments false true [] cs'
  | _ :: cs' => object_comments newline false comments cs'
  end.

(** The comments of an element of a list: before and behind. *)
Definition noted_element : Type := (node * list str * list str)%type.

(** config_parser.cc:306-349; [v] is the element not yet pushed *)
Fixpoint array_comments (newline : bool) (comments : list str) (v : option (node * list str)) (cs : list node) : list noted_element :=
  match cs with
  | [] => match v with Some (n, before) => [(n, before, comments)] | None => [] end
  | NComment t :: cs' => array_comments false (comments ++ [text_of_comment t]) v cs'
  | NTok TNewline :: cs' =>
      match v with
      | None => array_comments true (if newline then [] else comments) None cs'
      | Some (n, before) => (n, before, comments) :: array_comments true [] None cs'
      end
  | c :: cs' =>
      if is_value_node c then
        match v with
        | Some (n, before) => (n, before, comments) :: array_comments false [] (Some (c, [])) cs'
        | None => array_comments false [] (Some (c, comments)) cs'
        end
      else array_comments newline comments v cs'
  end.

(** config_parser.cc:367-398; [result] is the value with the comments before it *)
Fixpoint root_comments (newline : bool) (comments : list str) (result : option (node * list str)) (cs : list node) : option noted_element :=
  match cs with
  | [] => match result with Some (n, before) => Some (n, before, []) | None => None end
  | NComment t :: cs' => root_comments false (comments ++ [text_of_comment t]) result cs'
  | NTok TNewline :: cs' =>
      match result with
      | None => root_comments true (if newline then [] else comments) None cs'
      | Some (n, before) => Some (n, before, comments)
      end
  | NObject _ as c :: cs' | NArray _ as c :: cs' | NConcat _ as c :: cs' => root_comments false [] (Some (c, comments)) cs'
  | _ :: cs' => root_comments newline comments result cs'
  end.

(** config_parser.cc:76-82 and 240 (also 327, 336, 345, 386): the origin with the comments *)
Definition annotate (o : origin) (before behind : list str) : origin :=
  let o1 := match before with [] => o | _ => prepend_comments o before end in
  append_comments o1 behind.

(** ** Lines *)
(** config_parser.cc: _line_number, 180, 323 and 380, and the lines given to objects and lists (168, 309) in
    the order in which parse_object and parse_array are entered.  The first of the pair is _line_number
    afterwards. *)
Section Children.
Variable walk : node -> Z -> Z * list Z.
(** config_node_field.cc:39-46: the first value node *)
Fixpoint walk_value (fcs : list node) (line : Z) : Z * list Z :=
  match fcs with
  | [] => (line, [])
  | c :: fcs' => if is_value_node c then walk c line else walk_value fcs' line
  end.
(** 173-293 *)
Fixpoint walk_object (cs : list node) (line : Z) : Z * list Z :=
  match cs with
  | [] => (line, [])
  | NTok TNewline :: cs' => walk_object cs' (line + 1)
  | NField fcs :: cs' =>
      let '(line1, ls1) := walk_value fcs line in
      let '(line2, ls2) := walk_object cs' line1 in (line2, ls1 ++ ls2)
  | _ :: cs' => walk_object cs' line
  end.
(** 317-341; 357-362 counts no newline *)
Fixpoint walk_elements (counting : bool) (cs : list node) (line : Z) : Z * list Z :=
  match cs with
  | [] => (line, [])
  | NTok TNewline :: cs' => walk_elements counting cs' (if counting then line + 1 else line)
  | c :: cs' =>
      if is_value_node c then
        let '(line1, ls1) := walk c line in
        let '(line2, ls2) := walk_elements counting cs' line1 in (line2, ls1 ++ ls2)
      else walk_elements counting cs' line
  end.
End Children.
Fixpoint walk (n : node) (line : Z) : Z * list Z :=
  match n with
  | NObject cs => let '(line', ls) := walk_object walk cs line in (line', line :: ls)
  | NArray cs => let '(line', ls) := walk_elements walk true cs line in (line', line :: ls)
  | NConcat cs => walk_elements walk false cs line
  | _ => (line, [])
  end.
(** 373-395 *)
Fixpoint walk_root (found : bool) (ns : list node) (line : Z) : list Z :=
  match ns with
  | [] => []
  | NTok TNewline :: ns' => if found then [] else walk_root found ns' (line + 1)
  | NObject _ as n :: ns' | NArray _ as n :: ns' | NConcat _ as n :: ns' =>
      let '(line', ls) := walk n line in ls ++ walk_root true ns' line'
  | _ :: ns' => walk_root found ns' line
  end.
