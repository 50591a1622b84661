(** Specification vocabulary for document editing. *)
From Verif Require Import Base Path_Model Path_Spec Token_Model PathParser_Model Doc_Model Edit_Model.

(** Neither path is the start of the other. *)
Definition unrelated (p q : path) : Prop := ~ is_prefix p q /\ ~ is_prefix q p.

(** How the key of a field relates to a path: equal, longer than it, above it (with the rest of the
    path below the key), or none of these. *)
Inductive relation : Set := Same | Longer | Above (rest : path) | Apart.
Fixpoint relate (key p : path) : relation :=
  match key, p with
  | [], [] => Same
  | [], _ :: _ => Above p
  | _ :: _, [] => Longer
  | a :: key', b :: p' => if str_eqb a b then relate key' p' else Apart
  end.

(** Key and value of a field node: its first path child and its first value child. *)
Fixpoint key_of (cs : list node) : path :=
  match cs with NPath p :: _ => fst p | _ :: cs' => key_of cs' | [] => [] end.
Fixpoint value_of (cs : list node) : option node :=
  match cs with
  | (NSimple _ | NField _ | NConcat _ | NArray _ | NObject _) as v :: _ => Some v
  | _ :: cs' => value_of cs'
  | [] => None
  end.

(** The texts of everything in an object that an edit of the path [p] is not about: comments,
    includes, and the fields whose key is not [p] and not below [p]; of a field whose key is above [p] and
    whose value is an object, what that object has besides the rest of [p].  [n] bounds the depth. *)
Fixpoint others (n : nat) (p : path) (cs : list node) : list str :=
  match n with
  | O => []
  | S k =>
      flat_map (fun c =>
        match c with
        | NComment _ | NInclude _ _ => [render_node c]
        | NField fc =>
            match relate (key_of fc) p with
            | Same | Longer => []
            | Apart => [render_node c]
            | Above rest =>
                match value_of fc with
                | Some (NObject ocs) => others k rest ocs
                | _ => [render_node c]
                end
            end
        | _ => []
        end) cs
  end.

(** The object of a document: the first object among the children of the root. *)
Fixpoint root_object (root : list node) : list node :=
  match root with NObject cs :: _ => cs | _ :: r => root_object r | [] => [] end.

(** The children of the root other than that object. *)
Fixpoint outside (root : list node) : list node :=
  match root with NObject _ :: r => r | c :: r => c :: outside r | [] => [] end.

(** The documents of a syntax: a parsed text, possibly edited any number of times. *)
Inductive document (f : syntax) : list node -> Prop :=
| parsed_document : forall s root, parse_document f s = Ok root -> document f root
| set_document : forall root p text root', document f root ->
    with_value_text f root p text = Ok root' -> document f root'
| removed_document : forall root p root', document f root ->
    without_path f root p = Ok root' -> document f root'.

(** The object at the top of a document, when that is no list, and whether it is written in braces. *)
Fixpoint top_object (root : list node) : option (list node) :=
  match root with NObject cs :: _ => Some cs | NArray _ :: _ => None | _ :: r => top_object r | [] => None end.
Definition in_braces (cs : list node) : bool := match cs with NTok TOpenCurly :: _ => true | _ => false end.
