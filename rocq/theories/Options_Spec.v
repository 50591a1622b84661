(** Specification vocabulary for the options of documents, and for includers. *)
From Verif Require Import Base Util_Model Num_Model Path_Model Token_Model PathParser_Model Doc_Model Edit_Model Value_Model Include_Model Include_Spec Options_Model.

(** The syntax a caller asks for: by the options, or else by the name of the file, or else HOCON. *)
Inductive asks_for (o : parse_options) (file : option str) : syntax -> Prop :=
| asks_option : forall s, o_syntax o = Some s -> asks_for o file s
| asks_json : forall stem, o_syntax o = None -> file = Some (stem ++ lit ".json") -> asks_for o file JSON
| asks_conf : o_syntax o = None -> (forall stem, file <> Some (stem ++ lit ".json")) -> asks_for o file CONF.

(** A document got from another by setting values and removing paths. *)
Inductive edited : document -> document -> Prop :=
| edited_not : forall d, edited d d
| edited_set : forall d e e' path text, edited d e -> document_set e path text = Ok e' -> edited d e'
| edited_remove : forall d e e' path, edited d e -> document_remove e path = Ok e' -> edited d e'.

(** The includers asked when [i] is, in order, and their addresses. *)
Fixpoint order (i : includer) : list behaviour :=
  match i with
  | Own _ own None => [own]
  | Own _ own (Some f) => own :: order f
  | Proxy _ d => order d
  end.
Fixpoint members (i : includer) : list nat :=
  match i with
  | Own n _ None => [n]
  | Own n _ (Some f) => n :: members f
  | Proxy n d => n :: members d
  end.
(** No proxy made by the parser in between. *)
Fixpoint proxy_free (i : includer) : Prop :=
  match i with
  | Own _ _ None => True
  | Own _ _ (Some f) => proxy_free f
  | Proxy _ _ => False
  end.

(** What includers asked in order contribute: each one's object over those of the later ones. *)
Inductive contribute (dir name : str) : list asked -> nat -> value -> nat -> Prop :=
| contribute_last : forall own next v next', own dir name next = Ok (v, next') -> contribute dir name [own] next v next'
| contribute_over : forall own rest next v next1 w next2 u, rest <> [] -> own dir name next = Ok (v, next1) ->
    contribute dir name rest next1 w next2 -> with_fallback v w = Ok u -> contribute dir name (own :: rest) next u next2.
