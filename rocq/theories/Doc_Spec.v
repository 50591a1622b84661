(** Specification vocabulary for the document parser. *)
From Verif Require Import Base Token_Model Doc_Model.

(** The text a node stands for: the texts of its tokens in order, plus the closing parenthesis that
    ends an include of the form [file("...")], [url("...")] or [classpath("...")]. *)
Fixpoint full_text (n : node) : str :=
  match n with
  | NTok t | NComment t | NSimple t => token_text t
  | NPath (_, ts) => render_tokens ts
  | NField cs | NConcat cs | NArray cs | NObject cs => concat (map full_text cs)
  | NInclude cs KHeuristic => concat (map full_text cs)
  | NInclude cs _ => concat (map full_text cs) ++ lit ")"
  end.
Definition full_texts (ns : list node) : str := concat (map full_text ns).

(** No include with parentheses anywhere in the node. *)
Fixpoint paren_free (n : node) : bool :=
  match n with
  | NTok _ | NComment _ | NSimple _ | NPath _ => true
  | NField cs | NConcat cs | NArray cs | NObject cs => forallb paren_free cs
  | NInclude cs KHeuristic => forallb paren_free cs
  | NInclude _ _ => false
  end.

(** A key of the kind that is written in a document: tokens that make a key. *)
Definition key_token (t : token) : Prop :=
  match t with TValue _ _ | TUnquoted _ => True | _ => False end.
