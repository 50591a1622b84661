(** Transcription of lib/src/config_parser.cc: from the nodes of a document to a value.

    Simplifications:
    - values carry no origin, so comments and line numbers are left out; the search for trailing comments
      (parse_object, 233-258) only moves over comments, commas and whitespace;
    - a new reference gets the next free number as its identity (see Value_Model): [next] is threaded
      through, in the order in which references are created. *)
From Verif Require Import Base Util_Model Num_Model Path_Model Token_Model PathParser_Model Doc_Model Edit_Model Value_Model Concat_Model.

(** config_node_simple_value.cc:29-51 *)
Definition token_value (t : token) (next : nat) : result (value * nat) :=
  match t with
  | TValue s _ => Ok (VScalar s, next)
  | TUnquoted s => Ok (VScalar (SStr s false), next)
  | TSubst optional expression =>
      '(p, _) <- parse_path_expression true CONF expression LEnd ;;
      Ok (VRef next p optional 0, S next)
  | _ => Throw EConfig
  end.

(** config_node_include.cc:30-37 *)
Fixpoint include_name (cs : list node) : result str :=
  match cs with
  | [] => Ok []
  | NSimple t :: _ => '(v, _) <- token_value t 0 ;; Ok (transform_to_string v)
  | _ :: cs' => include_name cs'
  end.

(** config_node_field.cc:57-67: whether the first separator is += *)
Fixpoint is_plus_equals (cs : list node) : bool :=
  match cs with
  | [] => false
  | NTok TPlusEquals :: _ => true
  | NTok TColon :: _ | NTok TEquals :: _ => false
  | _ :: cs' => is_plus_equals cs'
  end.

(** values[key] = v *)
Fixpoint set_key (m : fields) (key : str) (v : value) : fields :=
  match m with
  | [] => [(key, v)]
  | (k, w) :: m' => if str_eqb key k then (k, v) :: m' else (k, w) :: set_key m' key v
  end.

(** config_parser.cc:88-119; [p] is not empty *)
Fixpoint create_value_under_path (p : path) (v : value) : value :=
  match p with
  | [] => v
  | k :: p' => new_object [(k, create_value_under_path p' v)]
  end.

(** config_parser.cc:50-57: the front of the vector is the outermost field *)
Definition full_current_path (path_stack : list path) : result path :=
  match path_stack with [] => Throw EBug | p :: _ => Ok p end.

(** config_parser.cc:152-162: adding the fields of an included object *)
Fixpoint add_included (values : fields) (m : fields) : result fields :=
  match m with
  | [] => Ok values
  | (k, v) :: m' =>
      match find_key k values with
      | Some existing => v' <- with_fallback v existing ;; add_included (set_key values k v') m'
      | None => add_included (values ++ [(k, v)]) m'
      end
  end.

(** config_parser.cc:260-294: adding a field *)
Definition add_field (flavor : syntax) (values : fields) (p : path) (new_value : value) : result fields :=
  match p with
  | [] => Stuck UNullDeref
  | [key] =>
      match find_key key values with
      | Some existing =>
          match flavor with
          | JSON => Throw EParse
          | CONF => v <- with_fallback new_value existing ;; Ok (set_key values key v)
          end
      | None => Ok (set_key values key new_value)
      end
  | key :: remaining =>
      match flavor with
      | JSON => Throw EThrownPointer
      | CONF =>
          let obj := create_value_under_path remaining new_value in
          match find_key key values with
          | Some existing =>
              v <- with_fallback obj existing ;;
              (* dynamic_pointer_cast<const config_object>, then an assertion *)
              if is_object v then Ok (set_key values key v) else Stuck UNullDeref
          | None => Ok (set_key values key obj)
          end
      end
  end.

(** config_parser.cc:219-231: the value of a [+=] field *)
Definition appended (path_stack : list path) (new_value : value) (next : nat) : result (value * nat) :=
  p <- full_current_path path_stack ;;
  v <- concatenate [VRef next p true 0; VList [new_value]] ;;
  match v with Some v => Ok (v, S next) | None => Stuck UNullDeref end.

(** relativized(): config_value.hpp:181, overridden by simple_config_list (simple_config_list.cc:75-79) and
    config_concatenation (config_concatenation.cc:158-166) only *)
Fixpoint relativized (prefix : path) (v : value) : value :=
  match v with
  | VList vs => VList (map (relativized prefix) vs)
  | VConcat ps => VConcat (map (relativized prefix) ps)
  | _ => v
  end.
(** config_parser.cc:147-150: the included object below the current path *)
Definition below_path (path_stack : list path) (obj : value) : value :=
  match path_stack with [] => obj | prefix :: _ => relativized prefix obj end.

Section Parse.
Variable flavor : syntax.
(** full_includer::include_file and include: the object, and the next free number *)
Variable includer : include_kind -> str -> nat -> result (value * nat).

(** config_parser.cc:121-162 *)
Definition parse_include (values : fields) (cs : list node) (kind : include_kind) (path_stack : list path) (array_count : Z) (next : nat)
  : result (fields * nat) :=
  '(obj, next1) <- (match kind with
                    | KFile | KHeuristic => name <- include_name cs ;; includer kind name next
                    | KClasspath | KUrl => Throw EConfig
                    end) ;;
  if (0 <? array_count) && negb (is_resolved obj) then Throw EConfig
  else match below_path path_stack obj with
       | VObj _ _ m => values' <- add_included values m ;; Ok (values', next1)
       | VMergeObj _ => Throw ENotResolved
       | _ => Stuck UNullDeref
       end.

Section Loops.
(** parse_value: node, path stack, array count, next free number *)
Variable rec : node -> list path -> Z -> nat -> result (value * nat).

(** config_node_field.cc:39-46 and the call of parse_value, config_parser.cc:213-215 *)
Fixpoint parse_field_value (fcs : list node) (path_stack : list path) (array_count : Z) (next : nat) : result (value * nat) :=
  match fcs with
  | [] => Throw EConfig
  | c :: fcs' => if is_value_node c then rec c path_stack array_count next else parse_field_value fcs' path_stack array_count next
  end.

(** config_parser.cc:187-231: the path and the value of a field *)
Definition parse_field (fcs : list node) (path_stack : list path) (array_count : Z) (next : nat) : result (path * value * nat) :=
  '(p, _) <- field_path fcs ;;
  let plus := is_plus_equals fcs in
  let stack := path_stack ++ [p] in
  if plus && (0 <? array_count) then Throw EParse
  else
    '(v, next1) <- parse_field_value fcs stack (if plus then array_count + 1 else array_count) next ;;
    '(v', next2) <- (if plus then appended stack v next1 else Ok (v, next1)) ;;
    Ok (p, v', next2).

(** config_parser.cc:165-298 *)
Fixpoint parse_object_nodes (cs : list node) (values : fields) (path_stack : list path) (array_count : Z) (next : nat) : result (value * nat) :=
  match cs with
  | [] => Ok (new_object values, next)
  | NInclude ics kind :: cs' =>
      if is_json flavor then parse_object_nodes cs' values path_stack array_count next
      else
        '(values', next') <- parse_include values ics kind path_stack array_count next ;;
        parse_object_nodes cs' values' path_stack array_count next'
  | NField fcs :: cs' =>
      '(p, v, next') <- parse_field fcs path_stack array_count next ;;
      values' <- add_field flavor values p v ;;
      parse_object_nodes cs' values' path_stack array_count next'
  | _ :: cs' => parse_object_nodes cs' values path_stack array_count next
  end.

(** config_parser.cc:308-351 and 359-364: the values of the children *)
Fixpoint parse_values (cs : list node) (path_stack : list path) (array_count : Z) (next : nat) : result (list value * nat) :=
  match cs with
  | [] => Ok ([], next)
  | c :: cs' =>
      if is_value_node c then
        '(v, next1) <- rec c path_stack array_count next ;;
        '(vs, next2) <- parse_values cs' path_stack array_count next1 ;;
        Ok (v :: vs, next2)
      else parse_values cs' path_stack array_count next
  end.
End Loops.

(** config_parser.cc:59-86, with parse_array (308-351) and parse_concatenation (353-367) *)
Fixpoint parse_value (n : node) (path_stack : list path) (array_count : Z) (next : nat) {struct n} : result (value * nat) :=
  match n with
  | NSimple t => token_value t next
  | NObject cs => parse_object_nodes parse_value cs [] path_stack array_count next
  | NArray cs =>
      '(vs, next') <- parse_values parse_value cs path_stack (array_count + 1) next ;;
      Ok (VList vs, next')
  | NConcat cs =>
      match flavor with
      | JSON => Throw EBug
      | CONF =>
          '(vs, next') <- parse_values parse_value cs path_stack array_count next ;;
          v <- concatenate vs ;;
          match v with Some v => Ok (v, next') | None => Stuck UNullDeref end
      end
  | _ => Throw EParse
  end.

(** config_parser.cc:369-400: the value of a document; [None] is a null pointer *)
Fixpoint parse_root_nodes (found : option value) (ns : list node) (next : nat) : result (option value * nat) :=
  match ns with
  | [] => Ok (found, next)
  | NTok TNewline :: ns' =>
      match found with Some _ => Ok (found, next) | None => parse_root_nodes found ns' next end
  | n :: ns' =>
      if is_complex n then '(v, next') <- parse_value n [] 0 next ;; parse_root_nodes (Some v) ns' next'
      else parse_root_nodes found ns' next
  end.

(** parseable.cc:226-231 with config_parser.cc:27-36: the value of a text *)
Definition parse_config (text : str) (next : nat) : result (option value * nat) :=
  ns <- parse_document flavor text ;;
  parse_root_nodes None ns next.
End Parse.

(** A text without includes: an includer that finds nothing *)
Definition no_includes (kind : include_kind) (name : str) (next : nat) : result (value * nat) := Throw EConfig.
