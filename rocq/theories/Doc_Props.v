(** Properties of the document parser. *)
From Verif Require Import Base Token_Model Token_Spec PathParser_Model Doc_Model Doc_Spec Token_Lemmas2 Doc_Lemmas3.

(** C09.  For an accepted document without NUL bytes the text its nodes stand for is the input, except
    that blanks directly before a closing brace may be lost (tokenizer_lossless_partial); nothing is lost when
    the input has no "$" or no blank before a "}".  render() yields that text when the document has no
    include with parentheses (whose closing parenthesis the parser drops). *)
Theorem document_lossless_partial : forall f s root, ~ In (ch 0) s -> parse_document f s = Ok root ->
  lost_blanks s (full_texts root) /\
  ((~ In "$"%char s \/ no_blank_before_close s) -> full_texts root = s) /\
  (forallb paren_free root = true -> render_nodes root = full_texts root).
Proof. exact document_lossless. Qed.
Print Assumptions document_lossless_partial.

Example document_lossless_ex :
  let s := lit "# c" ++ [nl] ++ lit " a.b = { x : [1, 2 3 ] } , include ""f"" " ++ [nl] ++ lit "a += ${?z}  // d" in
  exists root, parse_document CONF s = Ok root /\ forallb paren_free root = true /\ render_nodes root = s.
Proof. eexists. vm_compute. repeat split; reflexivity. Qed.

Example document_lossless_paren_ex :
  let s := lit "a = 1, include url( ""u"" ), b = 2" in
  exists root, parse_document CONF s = Ok root /\ forallb paren_free root = false /\ full_texts root = s.
Proof. eexists. vm_compute. repeat split; reflexivity. Qed.

(** C09, refuted as stated: [include file("x")] loses its closing parenthesis. *)
Theorem document_lossless_refuted : exists s root, ~ In (ch 0) s /\ ~ In "$"%char s /\
  parse_document CONF s = Ok root /\ render_nodes root <> s.
Proof. exact document_lossless_bad. Qed.
Print Assumptions document_lossless_refuted.

(** C49.  Parsing a document, or a single value, ends: with a tree, with a parse or config exception,
    with the null dereference of the key parser, or with one of the tokenizer's kinds of undefined
    behaviour.  It never reads past the end of the tokens. *)
Theorem document_parser_total_partial : forall f s,
  match parse_document f s with
  | Ok _ => True
  | Throw x => x = EParse \/ x = EConfig
  | Stuck u => u = UNullDeref \/ stuck_cause s u
  end /\
  match parse_value_text f s with
  | Ok _ => True
  | Throw x => x = EParse \/ x = EConfig
  | Stuck u => u = UNullDeref \/ stuck_cause s u
  end.
Proof. exact (fun f s => conj (document_total f s) (value_text_total f s)). Qed.
Print Assumptions document_parser_total_partial.

Example document_parser_total_ex :
  parse_document CONF (lit "a = {b = [1") = Throw EParse /\ parse_document JSON (lit "{a:1}") = Throw EParse /\
  parse_document CONF (lit "a = ""b") = Throw EConfig /\ is_ok (parse_document JSON (lit "{""a"":[1,{}]}")) = true.
Proof. repeat split; vm_compute; reflexivity. Qed.

(** C49, refuted as stated: a key starting with a period dereferences a null origin. *)
Theorem document_parser_safe_refuted : exists s, parse_document CONF s = Stuck UNullDeref /\
  exists c, s = c :: lit "a=1" /\ c = "."%char.
Proof. exact document_null. Qed.
Print Assumptions document_parser_safe_refuted.
