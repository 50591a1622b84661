(** Properties of the tokenizer. *)
From Verif Require Import Base Util_Model Num_Model Token_Model Token_Spec Token_Lemmas2.

(** C05.  For an accepted input without NUL bytes the concatenated token texts are the input, except
    that blanks directly before a closing brace may be lost; nothing at all is lost when the input has
    no "$" or no blank before a "}". *)
Theorem tokenize_lossless_partial : forall ac s ts, ~ In (ch 0) s -> tokenize ac s = Ok ts ->
  lost_blanks s (render_tokens ts) /\
  ((~ In "$"%char s \/ no_blank_before_close s) -> render_tokens ts = s).
Proof. exact lossless_all. Qed.
Print Assumptions tokenize_lossless_partial.

Example tokenize_lossless_ex :
  let s := lit "a.b : [1e1, ""x\n"" ${?y z}] // c" in
  exists ts, tokenize true s = Ok ts /\ render_tokens ts = s /\ List.length ts = 16%nat.
Proof. eexists. vm_compute. repeat split; reflexivity. Qed.

(** C05, refuted as stated: [${a }] loses the blank. *)
Theorem tokenize_lossless_refuted :
  exists s ts, ~ In (ch 0) s /\ tokenize true s = Ok ts /\ render_tokens ts <> s.
Proof. exact lossless_refuted. Qed.
Print Assumptions tokenize_lossless_refuted.

(** C05, refuted as stated also for NUL bytes inside a \u escape. *)
Theorem tokenize_lossless_nul_refuted :
  exists s ts, ~ In "$"%char s /\ tokenize true s = Ok ts /\ render_tokens ts <> s.
Proof. exact lossless_nul_refuted. Qed.
Print Assumptions tokenize_lossless_nul_refuted.

(** C06.  A quoted string is read back exactly when every byte of it can stand in a quoted string;
    otherwise the tokenizer rejects it. *)
Theorem quote_round_trip : forall ac s,
  (Forall quotable s -> tokenize ac (render_json_string s)
     = Ok [TStart; TValue (SStr s true) (render_json_string s); TEnd]) /\
  (~ Forall quotable s -> tokenize ac (render_json_string s) = Throw EConfig).
Proof. exact quoting. Qed.
Print Assumptions quote_round_trip.

Example quote_round_trip_ex :
  let s := [ch 34; ch 92; nl; "u"%char; ch 9] in
  Forall quotable s /\ render_json_string s = [ch 34] ++ lit "\""\\\nu\t" ++ [ch 34].
Proof.
  split; [|reflexivity].
  repeat (constructor; [apply quotable_b_spec; reflexivity|]). constructor.
Qed.

(** C07.  Tokenizing ends after linearly many tokens with END (exactly one, last), with a config
    exception, or with undefined behaviour of one of three kinds: an uninitialised read or an
    unspecified conversion (needs a backslash in the input), or an out-of-range double to integer
    conversion (needs a digit in the input). *)
Theorem tokenizer_total_partial : forall ac s, exists ts e, lex ac s = (TStart :: ts, e) /\
  (List.length ts <= 2 * List.length s + 2)%nat /\
  match e with
  | LEnd => exists body, ts = body ++ [TEnd] /\ ~ In TEnd body /\ ~ In TStart body
  | LThrow x => x = EConfig
  | LStuck u => (In (ch 92) s /\ (u = UUninit \/ u = UUnspecified)) \/
                ((exists c, In c s /\ isdigit c = true) /\ u = UFloatCast)
  end.
Proof. exact tokenizer_total. Qed.
Print Assumptions tokenizer_total_partial.

(** C07, refuted as stated: the three kinds of undefined behaviour do occur. *)
Theorem tokenizer_safe_refuted :
  (exists s, tokenize true s = Stuck UUninit) /\
  (exists s, tokenize true s = Stuck UUnspecified) /\
  (exists s, tokenize true s = Stuck UFloatCast).
Proof. exact tokenizer_ub. Qed.
Print Assumptions tokenizer_safe_refuted.

Example tokenizer_total_ex :
  snd (lex true (lit "a = ""b")) = LThrow EConfig /\ snd (lex true (lit "{a : [${b}]}")) = LEnd.
Proof. split; vm_compute; reflexivity. Qed.

(** C08.  In every token stream delivered (also the one inside a substitution) a whitespace token is
    unquoted text exactly when both its neighbours are simple values, and ignorable otherwise. *)
Theorem whitespace_significance : forall ac s ts e st, lex ac s = (ts, e) -> stream_in ts st ->
  (forall pre x w y post, st = pre ++ x :: w :: y :: post ->
     token_text w <> [] -> Forall blank (token_text w) ->
     (w = TUnquoted (token_text w) /\ simple_token x /\ simple_token y) \/
     (w = TIgnored (token_text w) /\ ~ (simple_token x /\ simple_token y))) /\
  (forall w y post, st = w :: y :: post ->
     token_text w <> [] -> Forall blank (token_text w) -> w = TIgnored (token_text w)).
Proof. exact whitespace_all. Qed.
Print Assumptions whitespace_significance.

Example whitespace_significance_ex :
  fst (lex true (lit "a b : ${ c d}")) =
  [TStart; TUnquoted (lit "a"); TUnquoted (lit " "); TUnquoted (lit "b"); TIgnored (lit " "); TColon;
   TIgnored (lit " ");
   TSubst false [TIgnored (lit " "); TUnquoted (lit "c"); TUnquoted (lit " "); TUnquoted (lit "d")];
   TEnd].
Proof. vm_compute. reflexivity. Qed.
