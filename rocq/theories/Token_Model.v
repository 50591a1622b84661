(** Transcription of lib/src/tokenizer.cc and lib/src/tokens.cc.

    Simplifications:
    - tokens carry no origin and no line number (only used in messages and equality of newlines);
    - the input stream is the list of bytes still to be read.  A [get] at the end of the input puts
      the C++ stream into the failed state for good ([putback] is then a no-op) and every later
      pull returns END; a pull on an exhausted stream also returns END, so "nothing left to read"
      represents both. *)
From Verif Require Import Base Util_Model Num_Model.

Inductive token : Set :=
| TStart | TEnd | TComma | TEquals | TColon
| TOpenCurly | TCloseCurly | TOpenSquare | TCloseSquare | TPlusEquals
| TNewline
| TUnquoted (text : str)
| TIgnored (text : str)
| TComment (double_slash : bool) (text : str)
| TSubst (optional : bool) (expression : list token)
| TValue (v : scalar) (text : str).

(** config_{null,boolean,int,long,double,string}.cc: transform_to_string *)
Definition scalar_text (v : scalar) : str :=
  match v with
  | SNull => lit "null"
  | SBool true => lit "true"
  | SBool false => lit "false"
  | SInt z [] | SLong z [] => string_of_Z z
  | SInt _ t | SLong _ t => t
  | SDouble d [] => double_to_string d
  | SDouble _ t => t
  | SStr s _ => s
  end.

(** tokens.cc:14-168 and token.cc: token_text() *)
Fixpoint token_text (t : token) : str :=
  match t with
  | TStart | TEnd => []
  | TComma => lit ","
  | TEquals => lit "="
  | TColon => lit ":"
  | TOpenCurly => lit "{"
  | TCloseCurly => lit "}"
  | TOpenSquare => lit "["
  | TCloseSquare => lit "]"
  | TPlusEquals => lit "+="
  | TNewline => [nl]
  | TUnquoted s => s
  | TIgnored s => s
  | TComment true s => lit "//" ++ s
  | TComment false s => lit "#" ++ s
  | TSubst o e => lit "${" ++ (if o then lit "?" else []) ++ concat (map token_text e) ++ lit "}"
  | TValue _ s => s
  end.

(** tokenizer.cc:137-143, token_iterator::render *)
Definition render_tokens (ts : list token) : str := concat (map token_text ts).

(** tokens.cc:15-16, a value token whose text is the value's own *)
Definition value_token (v : scalar) : token := TValue v (scalar_text v).

(** tokenizer.cc:184 *)
Definition not_in_unquoted_text : str :=
  lit "$" ++ [ch 34] ++ lit "{}[]:=,+#`^?!@*&\".

(** tokenizer.cc:172-181 *)
Definition first_number_chars : str := lit "0123456789-".
Definition number_chars : str := lit "0123456789eE+-.".

(** tokenizer.cc:94-111; [s] is what follows [c] *)
Definition start_of_comment (allow_comments : bool) (c : ascii) (s : str) : bool :=
  allow_comments &&
  (Ascii.eqb c "#" ||
   (Ascii.eqb c "/" && match s with c' :: _ => Ascii.eqb c' "/" | [] => false end)).

(** tokenizer.cc:127-131 *)
Definition is_simple_value (t : token) : bool :=
  match t with TSubst _ _ | TValue _ _ | TUnquoted _ => true | _ => false end.

(** tokenizer.cc:28-79: the whitespace saver (pending whitespace, last token was a simple value) *)
Definition saver := (str * bool)%type.
Definition saver_init : saver := ([], false).

(** tokenizer.cc:67-79 *)
Definition create_whitespace_token (sv : saver) : option token :=
  let '(ws, last_simple) := sv in
  match ws with
  | [] => None
  | _ :: _ => Some (if last_simple then TUnquoted ws else TIgnored ws)
  end.

(** tokenizer.cc:34-65 *)
Definition saver_check (sv : saver) (t : token) : option token * saver :=
  let '(ws, last_simple) := sv in
  if is_simple_value t then (create_whitespace_token (ws, last_simple), ([], true))
  else (create_whitespace_token (ws, false), ([], false)).

(** tokenizer.cc:113-125; the whitespace read is added to the saver's pending text *)
Fixpoint next_char_after_whitespace (ws : str) (s : str) : str * option (ascii * str) :=
  match s with
  | [] => (ws, None)
  | c :: s' =>
      if is_whitespace_not_newline c then next_char_after_whitespace (ws ++ [c]) s'
      else (ws, Some (c, s'))
  end.

(** tokenizer.cc:155-163: text of a comment up to, not including, the newline *)
Fixpoint comment_text (s : str) : str * str :=
  match s with
  | [] => ([], [])
  | c :: s' => if Ascii.eqb c nl then ([], s) else let '(t, r) := comment_text s' in (c :: t, r)
  end.

(** tokenizer.cc:145-169 *)
Definition pull_comment (first_char : ascii) (s : str) : result (token * str) :=
  if Ascii.eqb first_char "/" then
    match s with
    | c :: s' =>
        if Ascii.eqb c "/" then let '(t, r) := comment_text s' in Ok (TComment true t, r)
        else Throw EConfig
    | [] => Throw EConfig
    end
  else let '(t, r) := comment_text s in Ok (TComment false t, r).

(** tokenizer.cc:192-225; [result] is the text read so far *)
Fixpoint pull_unquoted_text (ac : bool) (result : str) (s : str) : token * str :=
  match s with
  | [] => (TUnquoted result, [])
  | c :: s' =>
      if mem c not_in_unquoted_text || is_whitespace c || start_of_comment ac c s'
      then (TUnquoted result, s)
      else
        let result' := result ++ [c] in
        if str_eqb result' (lit "true") then (value_token (SBool true), s')
        else if str_eqb result' (lit "null") then (value_token SNull, s')
        else if str_eqb result' (lit "false") then (value_token (SBool false), s')
        else pull_unquoted_text ac result' s'
  end.

(** tokenizer.cc:231-241: the characters of a number *)
Fixpoint span_number (s : str) : str * str :=
  match s with
  | [] => ([], [])
  | c :: s' => if mem c number_chars then let '(t, r) := span_number s' in (c :: t, r) else ([], s)
  end.

(** tokenizer.cc:251-260: not a number after all *)
Definition number_fallback (text : str) : result token :=
  if existsb (fun c => mem c not_in_unquoted_text) text then Throw EConfig
  else Ok (TUnquoted text).

(** tokenizer.cc:233-235: contained_decimal_or_E *)
Definition has_decimal_or_e (t : str) : bool :=
  existsb (fun c => Ascii.eqb c "." || Ascii.eqb c "e" || Ascii.eqb c "E") t.

(** tokenizer.cc:243-260: the token for the text of a number *)
Definition number_token (more text : str) : result token :=
  if has_decimal_or_e more then
    match lexical_cast_double text with
    | Some d => v <- new_number_double d text ;; Ok (value_token v)
    | None => number_fallback text
    end
  else
    match lexical_cast_int64 text with
    | Some z => Ok (value_token (new_number_int z text))
    | None => number_fallback text
    end.

(** tokenizer.cc:227-261 *)
Definition pull_number (first_char : ascii) (s : str) : result (token * str) :=
  let '(more, r) := span_number s in
  t <- number_token more (first_char :: more) ;; Ok (t, r).

Definition is_xdigit (c : ascii) : bool :=
  isdigit c || ((97 <=? byte_of c) && (byte_of c <=? 102)) || ((65 <=? byte_of c) && (byte_of c <=? 70)).
Definition xdigit_val (c : ascii) : Z :=
  if isdigit c then byte_of c - 48
  else if byte_of c <? 97 then byte_of c - 55 else byte_of c - 87.
Fixpoint span_xdigits (s : str) : str :=
  match s with
  | c :: s' => if is_xdigit c then c :: span_xdigits s' else []
  | [] => []
  end.
Fixpoint skip_space (s : str) : str :=
  match s with
  | c :: s' => if isspace c then skip_space s' else s
  | [] => []
  end.
(** The bytes before the first NUL. *)
Fixpoint c_string (s : str) : str :=
  match s with
  | c :: s' => if Ascii.eqb c (ch 0) then [] else c :: c_string s'
  | [] => []
  end.

(** tokenizer.cc:308-309: sscanf(utf, "%hx", &character).  No digits: [character] stays
    uninitialised and is then read.  "0x" without digits: accepted by some C libraries only. *)
Definition sscanf_hx (utf : str) : result Z :=
  let s := skip_space (c_string utf) in
  let '(neg, s) := take_sign s in
  let digits :=
    match s with
    | c0 :: x :: s' =>
        if Ascii.eqb c0 "0" && (Ascii.eqb x "x" || Ascii.eqb x "X") then
          match span_xdigits s' with
          | [] => Stuck UUnspecified
          | ds => Ok ds
          end
        else match span_xdigits s with [] => Stuck UUninit | ds => Ok ds end
    | _ => match span_xdigits s with [] => Stuck UUninit | ds => Ok ds end
    end in
  ds <- digits ;;
  let v := fold_left (fun a c => a * 16 + xdigit_val c) ds 0 in
  Ok ((if neg : bool then - v else v) mod 65536).

(** tokenizer.cc:310-311: boost::nowide::narrow of a one-character wide string.  For a surrogate the
    result depends on the version of boost. *)
Definition utf8 (z : Z) : result str :=
  let b n := ch (Z.to_nat n) in
  if z =? 0 then Ok []
  else if z <? 128 then Ok [b z]
  else if z <? 2048 then Ok [b (192 + z / 64); b (128 + z mod 64)]
  else if (55296 <=? z) && (z <=? 57343) then Stuck UUnspecified
  else Ok [b (224 + z / 4096); b (128 + (z / 64) mod 64); b (128 + z mod 64)].

(** tokenizer.cc:263-317: (text appended to parsed, text appended to original, rest).
    With fewer than four characters left after "\u" the stream fails: either here, or (three left)
    at the next iteration of pull_quoted_string, tokenizer.cc:355-357. *)
Definition pull_escape_sequence (s : str) : result (str * str * str) :=
  match s with
  | [] => Throw EConfig
  | e :: s' =>
      let simple c := Ok ([c], [ch 92; e], s') in
      if Ascii.eqb e (ch 34) then simple (ch 34)
      else if Ascii.eqb e (ch 92) then simple (ch 92)
      else if Ascii.eqb e "/" then simple "/"%char
      else if Ascii.eqb e "b" then simple (ch 8)
      else if Ascii.eqb e "f" then simple (ch 12)
      else if Ascii.eqb e "n" then simple (ch 10)
      else if Ascii.eqb e "r" then simple (ch 13)
      else if Ascii.eqb e "t" then simple (ch 9)
      else if Ascii.eqb e "u" then
        match s' with
        | u1 :: u2 :: u3 :: u4 :: s'' =>
            z <- sscanf_hx [u1; u2; u3; u4] ;;
            p <- utf8 z ;;
            Ok (p, [ch 92; e] ++ c_string [u1; u2; u3; u4], s'')
        | [u1; u2; u3] => _ <- sscanf_hx [u1; u2; u3; ch 255] ;; Throw EConfig
        | _ => Throw EConfig
        end
      else Throw EConfig
  end.

(** tokenizer.cc:319-343: (parsed, original, rest).  [parsed] and [original] grow by the same
    characters; at the end the last three characters of [parsed] are dropped. *)
Fixpoint append_triple_quoted_string (quotes : nat) (parsed original : str) (s : str)
  : result (str * str * str) :=
  match s with
  | [] => if (3 <=? quotes)%nat
          then Ok (firstn (List.length parsed - 3) parsed, original, [])
          else Throw EConfig
  | c :: s' =>
      if Ascii.eqb c (ch 34) then
        append_triple_quoted_string (S quotes) (parsed ++ [c]) (original ++ [c]) s'
      else if (3 <=? quotes)%nat then
        Ok (firstn (List.length parsed - 3) parsed, original, s)
      else append_triple_quoted_string 0 (parsed ++ [c]) (original ++ [c]) s'
  end.

(** tokenizer.cc:354-371: the loop of pull_quoted_string; (parsed, original, rest).
    [fuel] bounds the number of iterations (an escape consumes several characters at once). *)
Fixpoint quoted_loop (fuel : nat) (parsed original : str) (s : str) : result (str * str * str) :=
  match fuel with
  | O => Stuck UFuel
  | S n =>
      match s with
      | [] => Throw EConfig
      | c :: s' =>
          if Ascii.eqb c (ch 92) then
            '(p, o, r) <- pull_escape_sequence s' ;;
            quoted_loop n (parsed ++ p) (original ++ o) r
          else if Ascii.eqb c (ch 34) then Ok (parsed, original ++ [c], s')
          else if is_C0_control c then Throw EConfig
          else quoted_loop n (parsed ++ [c]) (original ++ [c]) s'
      end
  end.

(** tokenizer.cc:345-386; the opening quote has been consumed *)
Definition pull_quoted_string (s : str) : result (token * str) :=
  '(parsed, original, r) <- quoted_loop (S (List.length s)) [] [ch 34] s ;;
  '(parsed', original', r') <-
    match parsed, r with
    | [], c :: r2 =>
        if Ascii.eqb c (ch 34)
        then append_triple_quoted_string 0 parsed (original ++ [c]) r2
        else Ok (parsed, original, r)
    | _, _ => Ok (parsed, original, r)
    end ;;
  Ok (TValue (SStr parsed' true) original', r').

(** tokenizer.cc:388-394 *)
Definition pull_plus_equals (s : str) : result (token * str) :=
  match s with
  | c :: s' => if Ascii.eqb c "=" then Ok (TPlusEquals, s') else Throw EConfig
  | [] => Throw EConfig
  end.

(** tokenizer.cc:399-410: "{" and the optional "?" after "$" *)
Definition subst_open (s : str) : result (bool * str) :=
  match s with
  | c :: s' =>
      if Ascii.eqb c "{" then
        match s' with
        | q :: s'' => if Ascii.eqb q "?" then Ok (true, s'') else Ok (false, s')
        | [] => Ok (false, [])
        end
      else Throw EConfig
  | [] => Throw EConfig
  end.

(** tokenizer.cc:439-507, 396-437.  The two C++ functions call each other; [fuel] bounds the calls. *)
Fixpoint pull_next_token (fuel : nat) (ac : bool) (sv : saver) (s : str)
  : result (token * saver * str) :=
  match fuel with
  | O => Stuck UFuel
  | S n =>
      let '(ws, last_simple) := sv in
      let '(ws', next) := next_char_after_whitespace ws s in
      let sv' := (ws', last_simple) in
      match next with
      | None => Ok (TEnd, sv', [])
      | Some (c, s') =>
          if Ascii.eqb c nl then Ok (TNewline, sv', s')
          else
            '(t, r) <-
              (if start_of_comment ac c s' then pull_comment c s'
               else if Ascii.eqb c (ch 34) then pull_quoted_string s'
               else if Ascii.eqb c "$" then
                 '(optional, s2) <- subst_open s' ;;
                 pull_substitution n ac optional saver_init [] s2
               else if Ascii.eqb c ":" then Ok (TColon, s')
               else if Ascii.eqb c "," then Ok (TComma, s')
               else if Ascii.eqb c "=" then Ok (TEquals, s')
               else if Ascii.eqb c "{" then Ok (TOpenCurly, s')
               else if Ascii.eqb c "}" then Ok (TCloseCurly, s')
               else if Ascii.eqb c "[" then Ok (TOpenSquare, s')
               else if Ascii.eqb c "]" then Ok (TCloseSquare, s')
               else if Ascii.eqb c "+" then pull_plus_equals s'
               else if mem c first_number_chars then pull_number c s'
               else if mem c not_in_unquoted_text then Throw EConfig
               else Ok (pull_unquoted_text ac [] (c :: s'))) ;;
            Ok (t, sv', r)
      end
  end

(** tokenizer.cc:412-436: the loop of pull_substitution *)
with pull_substitution (fuel : nat) (ac : bool) (optional : bool) (sv : saver)
       (expression : list token) (s : str) : result (token * str) :=
  match fuel with
  | O => Stuck UFuel
  | S n =>
      '(t, sv', r) <- pull_next_token n ac sv s ;;
      match t with
      | TCloseCurly => Ok (TSubst optional expression, r)
      | TEnd => Throw EConfig
      | _ =>
          let '(w, sv'') := saver_check sv' t in
          let expression' := expression ++ match w with Some wt => [wt] | None => [] end ++ [t] in
          pull_substitution n ac optional sv'' expression' r
      end
  end.

(** How the token stream ends: with an END token, or because pulling the next token raised. *)
Inductive lex_end : Set :=
| LEnd
| LThrow (e : exn)
| LStuck (u : ub).

(** tokenizer.cc:509-516 repeated until END *)
Fixpoint lex_loop (fuel : nat) (ac : bool) (sv : saver) (s : str) : list token * lex_end :=
  match fuel with
  | O => ([], LStuck UFuel)
  | S n =>
      match pull_next_token (S (List.length s)) ac sv s with
      | Throw e => ([], LThrow e)
      | Stuck u => ([], LStuck u)
      | Ok (t, sv', r) =>
          let '(w, sv'') := saver_check sv' t in
          let here := match w with Some wt => [wt] | None => [] end ++ [t] in
          match t with
          | TEnd => (here, LEnd)
          | _ => let '(ts, e) := lex_loop n ac sv'' r in (here ++ ts, e)
          end
      end
  end.

(** tokenizer.cc:84-89: all tokens of an input, beginning with START *)
Definition lex (ac : bool) (s : str) : list token * lex_end :=
  let '(ts, e) := lex_loop (S (List.length s)) ac saver_init s in (TStart :: ts, e).

(** tokenizer.cc:522-540: what the successive calls of next() deliver.  When the queue becomes empty
    next() pulls the following token before it returns the current one, so if that raises, the
    current token is lost: all tokens but the last are delivered. *)
Definition delivered (r : list token * lex_end) : list token * lex_end :=
  match r with
  | (ts, LEnd) => (ts, LEnd)
  | (ts, e) => (removelast ts, e)
  end.

(** Tokenizing a whole input: all tokens, or the exception. *)
Definition tokenize (ac : bool) (s : str) : result (list token) :=
  match lex ac s with
  | (ts, LEnd) => Ok ts
  | (_, LThrow e) => Throw e
  | (_, LStuck u) => Stuck u
  end.
