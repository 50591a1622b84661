(** Specification vocabulary for comments and line numbers.  Nothing here follows the parser's loop: the
    comments above something are found by walking up from it, those behind it by walking on. *)
From Verif Require Import Base Token_Model PathParser_Model Doc_Model.

(** The comment nodes in order. *)
Definition comment_texts (ns : list node) : list str :=
  flat_map (fun n => match n with NComment (TComment _ s) => [s] | NComment _ => [[]] | _ => [] end) ns.

(** Only commas and blanks between here and the statement before: [l] is what comes before, nearest first. *)
Fixpoint beside_field (l : list node) : bool :=
  match l with
  | NField _ :: _ => true
  | NTok TComma :: l' | NTok (TIgnored _) :: l' => beside_field l'
  | _ => false
  end.
(** The comments directly above, nearest first: walking up, until another statement, a blank line, or a comment
    that stands behind a field.  [newline]: the end of a line was passed and nothing on the line above yet. *)
Fixpoint above_field (newline : bool) (l : list node) : list str :=
  match l with
  | [] => []
  | NField _ :: _ | NInclude _ _ :: _ => []
  | NComment _ as c :: l' => if beside_field l' then [] else comment_texts [c] ++ above_field false l'
  | NTok TNewline :: l' => if newline then [] else above_field true l'
  | _ :: l' => above_field newline l'
  end.
(** The comment behind a field on its line, with commas and blanks at most before it; [l] is what follows. *)
Fixpoint behind_field (l : list node) : list str :=
  match l with
  | NComment _ as c :: _ => comment_texts [c]
  | NTok TComma :: l' | NTok (TIgnored _) :: l' => behind_field l'
  | _ => []
  end.

(** No end of line between here and the element before. *)
Fixpoint beside_element (l : list node) : bool :=
  match l with
  | [] => false
  | NTok TNewline :: _ => false
  | n :: l' => is_value_node n || beside_element l'
  end.
(** As above, for the elements of a list. *)
Fixpoint above_element (newline : bool) (l : list node) : list str :=
  match l with
  | [] => []
  | NComment _ as c :: l' => if beside_element l' then [] else comment_texts [c] ++ above_element false l'
  | NTok TNewline :: l' => if newline then [] else above_element true l'
  | n :: l' => if is_value_node n then [] else above_element newline l'
  end.
(** The comments behind an element, up to the end of the line or the next element. *)
Fixpoint behind_element (l : list node) : list str :=
  match l with
  | [] => []
  | NComment _ as c :: l' => comment_texts [c] ++ behind_element l'
  | NTok TNewline :: _ => []
  | n :: l' => if is_value_node n then [] else behind_element l'
  end.

(** [a] is [b] with some items left out. *)
Inductive subsequence {A} : list A -> list A -> Prop :=
| subsequence_nil : subsequence [] []
| subsequence_keep : forall x a b, subsequence a b -> subsequence (x :: a) (x :: b)
| subsequence_drop : forall x a b, subsequence a b -> subsequence a (x :: b).

(** All comments of an object in the order of the text: those between its fields and those inside them before
    the value. *)
Definition all_comments (cs : list node) : list str :=
  flat_map (fun n => match n with NField fcs => comment_texts fcs | _ => comment_texts [n] end) cs.

(** How many fields or elements there are. *)
Definition fields_in (cs : list node) : nat := List.length (filter (fun c => match c with NField _ => true | _ => false end) cs).
Definition elements_in (cs : list node) : nat := List.length (filter is_value_node cs).
Definition no_include (cs : list node) : Prop := Forall (fun c => match c with NInclude _ _ => False | _ => True end) cs.
(** What stands around the value of a document: tokens and comments. *)
Definition plain (n : node) : bool := match n with NTok _ | NComment _ => true | _ => false end.
Definition has_newline (ns : list node) : bool := existsb (fun n => match n with NTok TNewline => true | _ => false end) ns.
(** The comments given to fields, field by field. *)
Definition attached (ns : list (list node * list str * list str)) : list str :=
  flat_map (fun x => let '(_, before, behind) := x in before ++ behind) ns.

(** ** Lines *)
(** The line on which something begins that comes after [before] in the text. *)
Definition newlines (s : str) : Z := Z.of_nat (count_occ ascii_dec s nl).
Definition line_after (before : str) : Z := 1 + newlines before.
(** The lines on which the objects and lists of a document begin, in the order of the text. *)
Fixpoint begins (before : str) (n : node) : list Z :=
  let children := fix children (before : str) (cs : list node) : list Z :=
    match cs with
    | [] => []
    | c :: cs' => begins before c ++ children (before ++ render_node c) cs'
    end in
  match n with
  | NObject cs | NArray cs => line_after before :: children before cs
  | NConcat cs | NField cs | NInclude cs _ => children before cs
  | _ => []
  end.
Fixpoint begins_all (before : str) (ns : list node) : list Z :=
  match ns with [] => [] | n :: ns' => begins before n ++ begins_all (before ++ render_node n) ns' end.

(** Ends of lines only between the fields of objects, between the elements of lists and around the whole. *)
Fixpoint regular (n : node) : bool :=
  match n with
  | NObject cs | NArray cs => forallb (fun c => match c with NTok TNewline => true | _ => regular c end) cs
  | NConcat cs | NField cs => forallb regular cs
  | _ => newlines (render_node n) =? 0
  end.
Definition regular_document (root : list node) : bool :=
  forallb (fun c => match c with NTok TNewline => true | _ => regular c end) root.
