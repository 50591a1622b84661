(** Transcription of lib/src/config_document_parser.cc and of the node classes in lib/src/nodes.

    The token source of a parse_context (the buffer of put-back tokens and the token_iterator) is one
    list: first the put-back tokens, then those the iterator still delivers; [e] tells how the
    iterator ends.  Line numbers are not modelled (they only appear in messages).  _equals_count is
    not modelled either: it selects the wording of messages, and the check at
    config_document_parser.cc:237 compares it before and after a value, between which every
    increment (395) is matched by a decrement (407). *)
From Verif Require Import Base Util_Model Num_Model Path_Model Token_Model PathParser_Model.

(** config_node_include.hpp:8 *)
Inductive include_kind : Set := KUrl | KFile | KClasspath | KHeuristic.

(** The subclasses of abstract_config_node, except config_node_root, which is only used at the top
    (a list of children). *)
Inductive node : Set :=
| NTok (t : token)                                (* config_node_single_token.cc *)
| NComment (t : token)                            (* config_node_comment.cc, also a single_token *)
| NPath (p : path_node)                           (* config_node_path.cc *)
| NSimple (t : token)                             (* config_node_simple_value.cc *)
| NField (children : list node)                   (* config_node_field.cc *)
| NInclude (children : list node) (kind : include_kind)
| NConcat (children : list node)
| NArray (children : list node)
| NObject (children : list node).

(** get_tokens() of every node class: config_node_single_token.cc:10, config_node_path.cc:15,
    config_node_simple_value.cc:24, config_node_field.cc:19-26, config_node_include.cc:12-19,
    config_node_complex_value.cc:17-26 *)
Fixpoint node_tokens (n : node) : list token :=
  match n with
  | NTok t | NComment t | NSimple t => [t]
  | NPath (_, ts) => ts
  | NField cs | NInclude cs _ | NConcat cs | NArray cs | NObject cs => flat_map node_tokens cs
  end.

(** abstract_config_node.cc:7-13 *)
Definition render_node (n : node) : str := render_tokens (node_tokens n).
Definition render_nodes (ns : list node) : str := render_tokens (flat_map node_tokens ns).

(** dynamic_cast to abstract_config_node_value: simple values, fields and complex values
    (abstract_config_node_value.hpp, config_node_field.hpp:18) *)
Definition is_value_node (n : node) : bool :=
  match n with NSimple _ | NField _ | NConcat _ | NArray _ | NObject _ => true | _ => false end.

(** config_document_parser.cc:274-286 *)
Definition is_unquoted_whitespace (t : token) : bool :=
  match t with TUnquoted s => forallb is_whitespace s | _ => false end.

Definition is_json (f : syntax) : bool := match f with JSON => true | CONF => false end.

(** config_document_parser.cc:54-60: tokens rejected in JSON *)
Definition json_forbids (f : syntax) (t : token) : bool :=
  is_json f &&
  match t with
  | TUnquoted _ => negb (is_unquoted_whitespace t)
  | TSubst _ _ => true
  | _ => false
  end.

(** config_document_parser.cc:43-62.  Reading past END is front() of an empty queue
    (tokenizer.cc:523). *)
Definition next_token (f : syntax) (e : lex_end) (ts : list token) : result (token * list token) :=
  match ts with
  | [] => raise_end e (Stuck UOutOfBounds)
  | t :: r => if json_forbids f t then Throw EParse else Ok (t, r)
  end.

(** config_document_parser.cc:64-82 *)
Fixpoint collect (f : syntax) (e : lex_end) (ts : list token) : result (list node * token * list token) :=
  match ts with
  | [] => raise_end e (Stuck UOutOfBounds)
  | t :: r =>
      if json_forbids f t then Throw EParse
      else if match t with TIgnored _ | TNewline => true | _ => is_unquoted_whitespace t end then
        '(ns, t', r') <- collect f e r ;; Ok (NTok t :: ns, t', r')
      else match t with
           | TComment _ _ => '(ns, t', r') <- collect f e r ;; Ok (NComment t :: ns, t', r')
           | _ => Ok ([], t, r)
           end
  end.

(** config_document_parser.cc:99-121 *)
Fixpoint separator_conf (saw_newline : bool) (f : syntax) (e : lex_end) (ts : list token)
  : result (list node * bool * list token) :=
  match ts with
  | [] => raise_end e (Stuck UOutOfBounds)
  | t :: r =>
      if json_forbids f t then Throw EParse
      else if match t with TIgnored _ => true | _ => is_unquoted_whitespace t end then
        '(ns, b, r') <- separator_conf saw_newline f e r ;; Ok (NTok t :: ns, b, r')
      else match t with
           | TComment _ _ => '(ns, b, r') <- separator_conf saw_newline f e r ;; Ok (NComment t :: ns, b, r')
           | TNewline => '(ns, b, r') <- separator_conf true f e r ;; Ok (NTok t :: ns, b, r')
           | TComma => Ok ([NTok t], true, r)
           | _ => Ok ([], saw_newline, t :: r)
           end
  end.

(** config_document_parser.cc:88-122 *)
Definition check_element_separator (f : syntax) (e : lex_end) (ts : list token)
  : result (list node * bool * list token) :=
  match f with
  | JSON =>
      '(ns, t, r) <- collect f e ts ;;
      match t with
      | TComma => Ok (ns ++ [NTok t], true, r)
      | _ => Ok (ns, false, t :: r)
      end
  | CONF => separator_conf false f e ts
  end.

(** The token types that begin a value: config_document_parser.cc:142-144 and 612-618 *)
Definition is_value_start (t : token) : bool :=
  match t with TValue _ _ | TUnquoted _ | TSubst _ _ | TOpenCurly | TOpenSquare => true | _ => false end.

(** config_document_parser.cc:164-172: splitting the values of a list that holds at most one: the
    nodes before it, the value, and the tokens put back after it (each push goes on top). *)
Fixpoint single_value (v : option node) (ts : list token) (values : list node)
  : result (list node * option node * list token) :=
  match values with
  | [] => Ok ([], v, ts)
  | n :: ns =>
      if is_value_node n then single_value (Some n) ts ns
      else match v with
           | None => '(before, v', ts') <- single_value v ts ns ;; Ok (n :: before, v', ts')
           | Some _ =>
               match node_tokens n with
               | t :: _ => single_value v (t :: ts) ns
               | [] => Stuck UOutOfBounds
               end
           end
  end.

(** config_document_parser.cc:178-185: trailing single tokens go back to the token source.
    [values] is reversed. *)
Fixpoint put_back_trailing (values : list node) (ts : list token) : list node * list token :=
  match values with
  | NTok t :: vs | NComment t :: vs => put_back_trailing vs (t :: ts)
  | _ => (rev values, ts)
  end.

(** config_document_parser.cc:270-272 *)
Definition is_include_keyword (t : token) : bool :=
  match t with TUnquoted s => str_eqb s (lit "include") | _ => false end.

(** config_document_parser.cc:288-295 *)
Definition is_key_value_separator (f : syntax) (t : token) : bool :=
  match t with
  | TColon => true
  | TEquals | TPlusEquals => negb (is_json f)
  | _ => false
  end.

(** tokens.cc:249-255 with type STRING *)
Definition is_string_value (t : token) : bool :=
  match t with TValue (SStr _ _) _ => true | _ => false end.

(** config_document_parser.cc:255-258: the tokens of a key; the token after it is put back. *)
Fixpoint key_tokens (f : syntax) (e : lex_end) (t : token) (ts : list token) : result (list token * list token) :=
  match t with
  | TValue _ _ | TUnquoted _ =>
      match ts with
      | [] => raise_end e (Stuck UOutOfBounds)
      | t' :: r =>
          if json_forbids f t' then Throw EParse
          else '(ks, r') <- key_tokens f e t' r ;; Ok (t :: ks, r')
      end
  | _ => Ok ([], t :: ts)
  end.

(** config_document_parser.cc:244-268.  The origin handed to the path parser is null. *)
Definition parse_key (f : syntax) (e : lex_end) (t : token) (ts : list token) : result (path_node * list token) :=
  match f with
  | JSON =>
      if is_string_value t then
        p <- parse_path_expression false CONF [t] LEnd ;; Ok (p, ts)
      else Throw EParse
  | CONF =>
      '(expression, r) <- key_tokens f e t ts ;;
      match expression with
      | [] => Throw EParse
      | _ :: _ => p <- parse_path_expression false CONF expression LEnd ;; Ok (p, r)
      end
  end.

(** config_document_parser.cc:304-313 *)
Definition include_kind_of (s : str) : option include_kind :=
  if str_eqb s (lit "url(") then Some KUrl
  else if str_eqb s (lit "file(") then Some KFile
  else if str_eqb s (lit "classpath(") then Some KClasspath
  else None.

(** config_document_parser.cc:297-339.  [first] is the include keyword.  The closing parenthesis is
    checked and not kept. *)
Definition parse_include (f : syntax) (e : lex_end) (first : token) (ts : list token) : result (node * list token) :=
  '(ws1, t, r1) <- collect f e ts ;;
  match t with
  | TUnquoted kind_text =>
      match include_kind_of kind_text with
      | None => Throw EParse
      | Some kind =>
          '(ws2, t2, r2) <- collect f e r1 ;;
          if negb (is_string_value t2) then Throw EParse
          else
            '(ws3, t3, r3) <- collect f e r2 ;;
            if negb (str_eqb (token_text t3) (lit ")")) then Throw EParse
            else Ok (NInclude (NTok first :: ws1 ++ NTok t :: ws2 ++ NSimple t2 :: ws3) kind, r3)
      end
  | _ =>
      if is_string_value t then Ok (NInclude (NTok first :: ws1 ++ [NSimple t]) KHeuristic, r1)
      else Throw EParse
  end.

Section Values.

(** parse_value, the recursive call *)
Variable parse_value : token -> list token -> result (node * list token).
Variables (f : syntax) (e : lex_end).

(** config_document_parser.cc:136-157: the values, how many there are, the token that ended them *)
Fixpoint consolidate_loop (fuel : nat) (t : token) (ts : list token)
  : result (list node * nat * token * list token) :=
  match fuel with
  | O => Stuck UFuel
  | S k =>
      match t with
      | TIgnored _ =>
          '(t', r) <- next_token f e ts ;;
          '(vs, c, t'', r') <- consolidate_loop k t' r ;; Ok (NTok t :: vs, c, t'', r')
      | _ =>
          if is_value_start t then
            '(v, r) <- parse_value t ts ;;
            '(t', r') <- next_token f e r ;;
            '(vs, c, t'', r'') <- consolidate_loop k t' r' ;; Ok (v :: vs, S c, t'', r'')
          else Ok ([], O, t, ts)
      end
  end.

(** config_document_parser.cc:124-187: the nodes to append, the value if any, the rest *)
Definition consolidate_values (ts : list token) : result (list node * option node * list token) :=
  match f with
  | JSON => Ok ([], None, ts)
  | CONF =>
      '(nodes, t, r) <- collect f e ts ;;
      '(values, count, t', r') <- consolidate_loop (S (List.length r)) t r ;;
      if (count <? 2)%nat then
        '(before, v, r'') <- single_value None (t' :: r') values ;;
        Ok (nodes ++ before, v, r'')
      else
        let '(values', r'') := put_back_trailing (rev values) (t' :: r') in
        Ok (nodes, Some (NConcat values'), r'')
  end.

(** config_document_parser.cc:376-433: one field; [keys] are the single-element keys seen so far.
    Result: the field, the keys, the rest. *)
Definition parse_field (keys : list str) (t : token) (ts : list token)
  : result (node * list str * list token) :=
  '(pn, r1) <- parse_key f e t ts ;;
  '(ws, after_key, r2) <- collect f e r1 ;;
  '(nodes, r3) <-
    (if negb (is_json f) && match after_key with TOpenCurly => true | _ => false end then
       '(v, r3) <- parse_value after_key r2 ;; Ok (ws ++ [v], r3)
     else if negb (is_key_value_separator f after_key) then Throw EParse
     else
       '(ns, next, r3) <- consolidate_values r2 ;;
       match next with
       | Some v => Ok (ws ++ NTok after_key :: ns ++ [v], r3)
       | None =>
           '(ws', t', r4) <- collect f e r3 ;;
           '(v, r5) <- parse_value t' r4 ;;
           Ok (ws ++ NTok after_key :: ns ++ ws' ++ [v], r5)
       end) ;;
  let field := NField (NPath pn :: nodes) in
  match fst pn with
  | [] => Stuck UNullDeref
  | [key] =>
      if existsb (str_eqb key) keys then
        if is_json f then Throw EParse else Ok (field, keys, r3)
      else Ok (field, key :: keys, r3)
  | key :: _ =>
      if is_json f then Throw EConfig else Ok (field, key :: keys, r3)
  end.

(** config_document_parser.cc:354-461 *)
Fixpoint object_loop (fuel : nat) (had_open_curly after_comma : bool) (keys : list str) (ts : list token)
  : result (list node * list token) :=
  match fuel with
  | O => Stuck UFuel
  | S k =>
      '(ws, t, r) <- collect f e ts ;;
      match t, had_open_curly with
      | TCloseCurly, _ =>
          if is_json f && after_comma then Throw EParse
          else if negb had_open_curly then Throw EParse
          else Ok (ws ++ [NTok TCloseCurly], r)
      | TEnd, false => Ok (ws, t :: r)
      | _, _ =>
          '(item, keys', r2) <-
            (if negb (is_json f) && is_include_keyword t then
               '(inc, r2) <- parse_include f e t r ;; Ok (inc, keys, r2)
             else parse_field keys t r) ;;
          '(sn, separated, r3) <- check_element_separator f e r2 ;;
          if separated then
            '(rest, r4) <- object_loop k had_open_curly true keys' r3 ;;
            Ok (ws ++ item :: sn ++ rest, r4)
          else
            '(ws2, t2, r4) <- collect f e r3 ;;
            match t2, had_open_curly with
            | TCloseCurly, true => Ok (ws ++ item :: sn ++ ws2 ++ [NTok t2], r4)
            | TEnd, false => Ok (ws ++ item :: sn ++ ws2, t2 :: r4)
            | _, _ => Throw EParse
            end
      end
  end.

(** config_document_parser.cc:341-463 *)
Definition parse_object (had_open_curly : bool) (ts : list token) : result (node * list token) :=
  '(ns, r) <- object_loop (S (List.length ts)) had_open_curly false [] ts ;;
  Ok (NObject ((if had_open_curly then [NTok TOpenCurly] else []) ++ ns), r).

(** config_document_parser.cc:489-519, the loop just after a value *)
Fixpoint array_loop (fuel : nat) (ts : list token) : result (list node * list token) :=
  match fuel with
  | O => Stuck UFuel
  | S k =>
      '(sn, separated, r) <- check_element_separator f e ts ;;
      if negb separated then
        '(ws, t, r1) <- collect f e r ;;
        match t with
        | TCloseSquare => Ok (sn ++ ws ++ [NTok t], r1)
        | _ => Throw EParse
        end
      else
        '(ns, next, r1) <- consolidate_values r ;;
        match next with
        | Some v => '(rest, r2) <- array_loop k r1 ;; Ok (sn ++ ns ++ v :: rest, r2)
        | None =>
            '(ws, t, r2) <- collect f e r1 ;;
            if is_value_start t then
              '(v, r3) <- parse_value t r2 ;;
              '(rest, r4) <- array_loop k r3 ;; Ok (sn ++ ns ++ ws ++ v :: rest, r4)
            else if negb (is_json f) && match t with TCloseSquare => true | _ => false end then
              '(rest, r3) <- array_loop k (t :: r2) ;; Ok (sn ++ ns ++ ws ++ rest, r3)
            else Throw EParse
        end
  end.

(** config_document_parser.cc:465-520 *)
Definition parse_array (ts : list token) : result (node * list token) :=
  '(ns, next, r) <- consolidate_values ts ;;
  '(cs, r') <-
    (match next with
     | Some v => '(rest, r1) <- array_loop (S (List.length r)) r ;; Ok (ns ++ v :: rest, r1)
     | None =>
         '(ws, t, r1) <- collect f e r ;;
         match t with
         | TCloseSquare => Ok (ns ++ ws ++ [NTok t], r1)
         | _ =>
             if is_value_start t then
               '(v, r2) <- parse_value t r1 ;;
               '(rest, r3) <- array_loop (S (List.length r2)) r2 ;; Ok (ns ++ ws ++ v :: rest, r3)
             else Throw EParse
         end
     end) ;;
  Ok (NArray (NTok TOpenSquare :: cs), r').

End Values.

(** config_document_parser.cc:221-242; [fuel] bounds the nesting depth *)
Fixpoint parse_value (fuel : nat) (f : syntax) (e : lex_end) (t : token) (ts : list token)
  : result (node * list token) :=
  match fuel with
  | O => Stuck UFuel
  | S k =>
      match t with
      | TValue _ _ | TUnquoted _ | TSubst _ _ => Ok (NSimple t, ts)
      | TOpenCurly => parse_object (parse_value k f e) f e true ts
      | TOpenSquare => parse_array (parse_value k f e) f e ts
      | _ => Throw EParse
      end
  end.

(** config_document_parser.cc:522-573: the children of the root node, from the tokens after START *)
Definition parse_root (f : syntax) (e : lex_end) (ts : list token) : result (list node) :=
  let fuel := S (List.length ts) in
  '(ws, t, r) <- collect f e ts ;;
  '(missing_curly, children, r1) <-
    (match t with
     | TOpenCurly | TOpenSquare =>
         '(v, r1) <- parse_value fuel f e t r ;; Ok (false, ws ++ [v], r1)
     | _ =>
         if is_json f then Throw EParse
         else
           '(v, r1) <- parse_object (parse_value fuel f e) f e false (t :: r) ;;
           match v with
           | NObject cs => Ok (true, ws ++ cs, r1)
           | _ => Ok (true, ws ++ [v], r1)
           end
     end) ;;
  '(ws2, t2, _) <- collect f e r1 ;;
  match t2 with
  | TEnd => if missing_curly then Ok [NObject (children ++ ws2)] else Ok (children ++ ws2)
  | _ => Throw EParse
  end.

(** The tokens of a text for a syntax: comments are allowed unless it is JSON (tokenizer.cc:84-89).
    START is consumed by parse (524) and parse_single_value (576). *)
Definition after_start {A} (f : syntax) (s : str) (k : lex_end -> list token -> result A) : result A :=
  match delivered (lex (negb (is_json f)) s) with
  | (_ :: ts, e) => k e ts
  | ([], e) => raise_end e (Stuck UOutOfBounds)
  end.

(** config_document_parser.cc:20-25 as used by parseable.cc:226-231 and raw_parse_document: a
    document is the list of children of its root node *)
Definition parse_document (f : syntax) (s : str) : result (list node) :=
  after_start f s (parse_root f).

(** config_document_parser.cc:27-32 and 575-610 *)
Definition parse_single_value (f : syntax) (e : lex_end) (ts : list token) : result (option node) :=
  let fuel := S (List.length ts) in
  '(t, r) <- next_token f e ts ;;
  if match t with TIgnored _ | TNewline | TComment _ _ => true | _ => is_unquoted_whitespace t end then Throw EParse
  else match t with
       | TEnd => Throw EParse
       | _ =>
           if is_json f then
             '(v, r1) <- parse_value fuel f e t r ;;
             '(t1, _) <- next_token f e r1 ;;
             match t1 with TEnd => Ok (Some v) | _ => Throw EParse end
           else
             '(_, v, r1) <- consolidate_values (parse_value fuel f e) f e (t :: r) ;;
             '(t1, _) <- next_token f e r1 ;;
             match t1 with TEnd => Ok v | _ => Throw EParse end
       end.

Definition parse_value_text (f : syntax) (s : str) : result (option node) :=
  after_start f s (parse_single_value f).
