(** Transcription of the line numbers kept by lib/src/tokenizer.cc: [_line_number], and the line of the origin
    given to each token.

    Simplifications:
    - [_line_origin] always is [_origin->with_line_number(_line_number)] (tokenizer.cc:87, 335-336, 445-446), so
      only the number is kept;
    - what the tokens are is left to Token_Model, whose functions are called where no line changes;
    - the lines of the tokens inside a substitution are left out: only the text of those tokens is used later
      (config_node_simple_value.cc:38-46). *)
From Verif Require Import Base Util_Model Num_Model Token_Model.

(** A token with the line of its origin.  The tokens that are shared objects have no origin (tokens.cc:170-228):
    [None]. *)
Definition located := (token * option Z)%type.

(** tokenizer.cc:319-343: _line_number after the loop *)
Fixpoint triple_quoted_line (quotes : nat) (line : Z) (s : str) : Z :=
  match s with
  | [] => line
  | c :: s' =>
      if Ascii.eqb c (ch 34) then triple_quoted_line (S quotes) line s'
      else if (3 <=? quotes)%nat then line
      else triple_quoted_line 0 (if Ascii.eqb c nl then line + 1 else line) s'
  end.

(** tokenizer.cc:345-386: the token, _line_number afterwards and the rest.  The origin is made at the end
    (384), so it has that line. *)
Definition pull_quoted_string_at (line : Z) (s : str) : result (located * Z * str) :=
  '(parsed, original, r) <- quoted_loop (S (List.length s)) [] [ch 34] s ;;
  '(parsed', original', line', r') <-
    match parsed, r with
    | [], c :: r2 =>
        if Ascii.eqb c (ch 34)
        then '(p, o, r3) <- append_triple_quoted_string 0 parsed (original ++ [c]) r2 ;;
             Ok (p, o, triple_quoted_line 0 line r2, r3)
        else Ok (parsed, original, line, r)
    | _, _ => Ok (parsed, original, line, r)
    end ;;
  Ok ((TValue (SStr parsed' true) original', Some line'), line', r').

(** A token made on [line], and one of the shared tokens. *)
Definition on_line (line : Z) (x : token * str) : located * Z * str := let '(t, r) := x in ((t, Some line), line, r).
Definition shared (line : Z) (t : token) (r : str) : located * Z * str := ((t, None), line, r).

(** tokenizer.cc:439-507, 396-437 *)
Fixpoint pull_next_token_at (fuel : nat) (ac : bool) (line : Z) (sv : saver) (s : str)
  : result (located * saver * Z * str) :=
  match fuel with
  | O => Stuck UFuel
  | S n =>
      let '(ws, last_simple) := sv in
      let '(ws', next) := next_char_after_whitespace ws s in
      let sv' := (ws', last_simple) in
      match next with
      | None => Ok ((TEnd, None), sv', line, [])
      | Some (c, s') =>
          if Ascii.eqb c nl then Ok ((TNewline, Some line), sv', line + 1, s')
          else
            '(t, line', r) <-
              (if start_of_comment ac c s' then x <- pull_comment c s' ;; Ok (on_line line x)
               else if Ascii.eqb c (ch 34) then pull_quoted_string_at line s'
               else if Ascii.eqb c "$" then
                 '(optional, s2) <- subst_open s' ;;
                 pull_substitution_at n ac line optional saver_init [] s2
               else if Ascii.eqb c ":" then Ok (shared line TColon s')
               else if Ascii.eqb c "," then Ok (shared line TComma s')
               else if Ascii.eqb c "=" then Ok (shared line TEquals s')
               else if Ascii.eqb c "{" then Ok (shared line TOpenCurly s')
               else if Ascii.eqb c "}" then Ok (shared line TCloseCurly s')
               else if Ascii.eqb c "[" then Ok (shared line TOpenSquare s')
               else if Ascii.eqb c "]" then Ok (shared line TCloseSquare s')
               else if Ascii.eqb c "+" then '(t, r) <- pull_plus_equals s' ;; Ok (shared line t r)
               else if mem c first_number_chars then x <- pull_number c s' ;; Ok (on_line line x)
               else if mem c not_in_unquoted_text then Throw EConfig
               else Ok (on_line line (pull_unquoted_text ac [] (c :: s')))) ;;
            Ok (t, sv', line', r)
      end
  end

(** tokenizer.cc:412-436.  The origin of the substitution is made at the end (436). *)
with pull_substitution_at (fuel : nat) (ac : bool) (line : Z) (optional : bool) (sv : saver)
       (expression : list token) (s : str) : result (located * Z * str) :=
  match fuel with
  | O => Stuck UFuel
  | S n =>
      '(tl, sv', line', r) <- pull_next_token_at n ac line sv s ;;
      let t := fst tl in
      match t with
      | TCloseCurly => Ok ((TSubst optional expression, Some line'), line', r)
      | TEnd => Throw EConfig
      | _ =>
          let '(w, sv'') := saver_check sv' t in
          let expression' := expression ++ match w with Some wt => [wt] | None => [] end ++ [t] in
          pull_substitution_at n ac line' optional sv'' expression' r
      end
  end.

(** tokenizer.cc:509-516 repeated until END.  The whitespace before a token is given _line_number after the
    token was read (512). *)
Fixpoint lex_loop_at (fuel : nat) (ac : bool) (line : Z) (sv : saver) (s : str) : list located * lex_end :=
  match fuel with
  | O => ([], LStuck UFuel)
  | S n =>
      match pull_next_token_at (S (List.length s)) ac line sv s with
      | Throw e => ([], LThrow e)
      | Stuck u => ([], LStuck u)
      | Ok (tl, sv', line', r) =>
          let '(w, sv'') := saver_check sv' (fst tl) in
          let here := match w with Some wt => [(wt, Some line')] | None => [] end ++ [tl] in
          match fst tl with
          | TEnd => (here, LEnd)
          | _ => let '(ts, e) := lex_loop_at n ac line' sv'' r in (here ++ ts, e)
          end
      end
  end.

(** tokenizer.cc:84-89: _line_number begins with 1 *)
Definition tokenize_at (ac : bool) (s : str) : result (list located) :=
  match lex_loop_at (S (List.length s)) ac 1 saver_init s with
  | (ts, LEnd) => Ok ((TStart, None) :: ts)
  | (_, LThrow e) => Throw e
  | (_, LStuck u) => Stuck u
  end.
