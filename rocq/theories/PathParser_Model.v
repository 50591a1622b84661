(** Transcription of lib/src/path_parser.cc and lib/src/nodes/config_node_path.cc. *)
From Verif Require Import Base Util_Model Num_Model Path_Model Token_Model.

(** config_syntax.hpp, the two syntaxes a document can have once the parser runs. *)
Inductive syntax : Set := CONF | JSON.

(** path_parser.hpp:36-44: an element, its text and whether it may be empty.  The C++ vector
    [elements] is kept reversed: the current element is the head. *)
Definition element := (str * bool)%type.

(** Split at every period; n periods give n+1 pieces (boost::split with is_any_of(".")). *)
Fixpoint split_dots (s : str) : list str :=
  match s with
  | [] => [[]]
  | c :: s' =>
      if Ascii.eqb c "." then [] :: split_dots s'
      else match split_dots s' with
           | p :: ps => (c :: p) :: ps
           | [] => [[c]]
           end
  end.

(** path_parser.cc:176-194.  The recursion of the unquoted case, which handles one period per call,
    is unrolled into a fold over the pieces. *)
Definition add_path_text (buff : list element) (was_quoted : bool) (new_text : str) : list element :=
  match buff with
  | [] => []
  | (value, can_be_empty) :: before =>
      if was_quoted then
        let value' := value ++ new_text in
        (value', can_be_empty || match value' with [] => true | _ => false end) :: before
      else
        match split_dots new_text with
        | [] => buff
        | p :: ps => fold_left (fun b q => (q, false) :: b) ps ((value ++ p, can_be_empty) :: before)
        end
  end.

(** boost::trim_right_if(s, is_any_of(".")) *)
Fixpoint trim_right_dots (s : str) : str :=
  match s with
  | [] => []
  | c :: s' =>
      match trim_right_dots s' with
      | [] => if Ascii.eqb c "." then [] else [c]
      | r => c :: r
      end
  end.

Definition ends_in_dot (s : str) : bool :=
  match rev s with c :: _ => Ascii.eqb c "." | [] => false end.

Definition dot_token : token := TUnquoted (lit ".").

(** path_parser.cc:157-164: the token of one piece.  In JSON the value token's text is that of a
    config_string whose content has the quotes in it. *)
Definition piece_token (flavor : syntax) (s : str) : token :=
  match flavor with
  | CONF => TUnquoted s
  | JSON => value_token (SStr ([ch 34] ++ s ++ [ch 34]) false)
  end.

(** path_parser.cc:140-174.  Simplification: back() of an empty token text (undefined) is taken as
    "not a period"; token texts are never empty here. *)
Definition split_token_on_period (t : token) (flavor : syntax) : list token :=
  let text := token_text t in
  if str_eqb text (lit ".") then [t]
  else
    let pieces := split_dots (trim_right_dots text) in
    let tokens := flat_map (fun s => [piece_token flavor s; dot_token]) pieces in
    if ends_in_dot text then tokens else removelast tokens.

(** bad_path_exception( *origin, ...): undefined when the origin is null. *)
Definition bad_path {A} (has_origin : bool) : result A :=
  if has_origin then Throw EBadPath else Stuck UNullDeref.

(** path_parser.cc:70-125: the loop over the tokens.  Result: elements and path tokens.
    config_value::render() of a number, boolean or null is its text (config_value.cc:80-83,
    config_null.cc:34-36). *)
Fixpoint path_tokens_loop (has_origin : bool) (flavor : syntax) (buff : list element)
    (acc : list token) (ts : list token) : result (list element * list token) :=
  match ts with
  | [] => Ok (buff, acc)
  | t :: ts' =>
      match t with
      | TIgnored _ => path_tokens_loop has_origin flavor buff (acc ++ [t]) ts'
      | TValue (SStr s _) _ => path_tokens_loop has_origin flavor (add_path_text buff true s) (acc ++ [t]) ts'
      | TEnd => path_tokens_loop has_origin flavor buff (acc ++ [t]) ts'
      | TValue v _ =>
          path_tokens_loop has_origin flavor (add_path_text buff false (scalar_text v))
                           (acc ++ split_token_on_period t flavor) ts'
      | TUnquoted s =>
          path_tokens_loop has_origin flavor (add_path_text buff false s)
                           (acc ++ split_token_on_period t flavor) ts'
      | _ => bad_path has_origin
      end
  end.

(** path_parser.cc:127-137: the elements, oldest first *)
Fixpoint build_path (has_origin : bool) (es : list element) (b : builder) : result path :=
  match es with
  | [] => Ok (builder_result b)
  | (value, can_be_empty) :: es' =>
      if match value with [] => negb can_be_empty | _ :: _ => false end then bad_path has_origin
      else build_path has_origin es' (append_key b value)
  end.

(** A token iterator: the tokens it will deliver and how it ends (path_parser.cc and
    tokenizer.cc:522-540); raising at the end happens instead of delivering a further token. *)
Definition raise_end {A} (e : lex_end) (k : result A) : result A :=
  match e with LEnd => k | LThrow x => Throw x | LStuck u => Stuck u end.

(** path_parser.cc:59-138 *)
Definition parse_path_expression (has_origin : bool) (flavor : syntax) (ts : list token) (e : lex_end)
  : result (path * list token) :=
  match ts, e with
  | [], LEnd => bad_path has_origin
  | _, _ =>
      '(buff, acc) <- path_tokens_loop has_origin flavor [([], false)] [] ts ;;
      raise_end e
        (p <- build_path has_origin (rev buff) [] ;; Ok (p, acc))
  end.

(** config_node_path.hpp: a path and its tokens *)
Definition path_node := (path * list token)%type.

(** path_parser.cc:27-34 *)
Definition parse_path_node (path_string : str) (flavor : syntax) : result path_node :=
  match delivered (lex (match flavor with JSON => false | CONF => true end) path_string) with
  | (_ :: ts, e) => parse_path_expression true flavor ts e
  | ([], e) => raise_end e (Stuck UNullDeref)
  end.

(** boost::trim: std::isspace in the classic locale, at both ends *)
Fixpoint trim_left (s : str) : str :=
  match s with c :: s' => if isspace c then trim_left s' else s | [] => [] end.
Definition trim (s : str) : str := rev (trim_left (rev (trim_left s))).

(** path_parser.cc:209-228: the loop and the final return *)
Fixpoint unsafe_loop (last_was_dot : bool) (s : str) : bool :=
  match s with
  | [] => last_was_dot
  | c :: s' =>
      if ((97 <=? byte_of c) && (byte_of c <=? 122)) || ((65 <=? byte_of c) && (byte_of c <=? 90))
         || Ascii.eqb c "_" then unsafe_loop false s'
      else if Ascii.eqb c "." then if last_was_dot then true else unsafe_loop true s'
      else if Ascii.eqb c "-" then if last_was_dot then true else unsafe_loop last_was_dot s'
      else true
  end.

(** path_parser.cc:196-229 *)
Definition looks_unsafe_for_fast_parser (s : str) : bool :=
  match s with
  | [] => true
  | c :: _ => if Ascii.eqb c "." then true else if ends_in_dot s then true else unsafe_loop true s
  end.

(** find_last_of('.'): text before and after the last period *)
Fixpoint rsplit_dot (s : str) : option (str * str) :=
  match s with
  | [] => None
  | c :: s' =>
      match rsplit_dot s' with
      | Some (a, b) => Some (c :: a, b)
      | None => if Ascii.eqb c "." then Some ([], s') else None
      end
  end.

(** path_parser.cc:231-241; each call removes at least one character, [fuel] bounds the calls *)
Fixpoint fast_path_build (fuel : nat) (tail : path) (s : str) : result path :=
  match fuel with
  | O => Stuck UFuel
  | S n =>
      match rsplit_dot s with
      | None => Ok (s :: tail)
      | Some (a, b) => fast_path_build n (b :: tail) a
      end
  end.

(** path_parser.cc:243-251 *)
Definition speculative_fast_parse_path (path_string : str) : result path :=
  let s := trim path_string in
  if looks_unsafe_for_fast_parser s then Ok []
  else fast_path_build (S (List.length s)) [] s.

(** path_parser.cc:42-46, the part of parse_path after the shortcut *)
Definition full_parse_path (path_string : str) : result path :=
  match delivered (lex true path_string) with
  | (_ :: ts, e) => rmap fst (parse_path_expression true CONF ts e)
  | ([], e) => raise_end e (Stuck UNullDeref)
  end.

(** path_parser.cc:36-47 *)
Definition parse_path (path_string : str) : result path :=
  speculated <- speculative_fast_parse_path path_string ;;
  if negb (path_eq speculated []) then Ok speculated else full_parse_path path_string.

(** path.cc:216-218 *)
Definition new_path (path_string : str) : result path := parse_path path_string.

(** config_node_path.cc:23-37.  [to_remove] = 0 is only reached with period_count = 0 at the first
    token, which is dropped. *)
Fixpoint skip_periods (period_count : Z) (to_remove : Z) (ts : list token) : option (list token) :=
  match ts with
  | [] => None
  | t :: ts' =>
      let n := if match t with TUnquoted s => str_eqb s (lit ".") | _ => false end
               then period_count + 1 else period_count in
      if n =? to_remove then Some ts' else skip_periods n to_remove ts'
  end.
Definition path_node_sub_path (n : path_node) (to_remove : Z) : result path_node :=
  match skip_periods 0 to_remove (snd n) with
  | Some ts => Ok (sub_path (fst n) to_remove, ts)
  | None => Throw EConfig
  end.

(** config_node_path.cc:39-47 *)
Fixpoint before_period (ts : list token) : option (list token) :=
  match ts with
  | [] => None
  | t :: ts' =>
      if match t with TUnquoted s => str_eqb s (lit ".") | _ => false end then Some []
      else match before_period ts' with Some r => Some (t :: r) | None => None end
  end.
Definition path_node_first (n : path_node) : result path_node :=
  match before_period (snd n) with
  | Some ts => p <- sub_path2 (fst n) 0 1 ;; Ok (p, ts)
  | None => Ok n
  end.
