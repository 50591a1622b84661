(** Transcription of lib/src/parseable.cc, lib/src/simple_includer.cc, lib/src/simple_include_context.cc,
    lib/src/config_parse_options.cc and the parse functions of lib/src/config.cc: from the name of a file, or a
    text, to the object it holds.

    Simplifications:
    - the file system does not change while parsing: [files] gives the contents of a file, [None] if it can not
      be opened;
    - an includer the application supplies is given by what the includer its with_fallback() returns does
      ([app_includer]); it is arbitrary otherwise;
    - origins: only their descriptions, see [initial_origin] and [final_origin]. *)
From Verif Require Import Base Util_Model Num_Model Path_Model Token_Model PathParser_Model Doc_Model Edit_Model Value_Model Concat_Model
  ConfigParser_Model Resolve_Model.

(** include() and, if it is a config_includer_file, include_file(): the directory of the context, the name, the
    next free number *)
Record app_includer : Type := AppIncluder {
  app_include : str -> str -> nat -> result (value * nat);
  app_include_file : option (str -> str -> nat -> result (value * nat)) }.

(** config_parse_options.hpp; a syntax of [None] is config_syntax::UNSPECIFIED, an includer of [None] a null
    pointer or the default includer *)
Record parse_options : Type := ParseOptions {
  o_syntax : option syntax;
  o_origin : option str;
  o_missing : bool;
  o_includer : option app_includer }.
(** config_parse_options.cc:18 *)
Definition no_options : parse_options := ParseOptions (Some CONF) None true None.
(** config_parse_options.cc:20-22 *)
Definition default_options : parse_options := ParseOptions None None true None.
Definition set_syntax (o : parse_options) (s : option syntax) : parse_options := ParseOptions s (o_origin o) (o_missing o) (o_includer o).
Definition set_missing (o : parse_options) (b : bool) : parse_options := ParseOptions (o_syntax o) (o_origin o) b (o_includer o).
Definition set_origin (o : parse_options) (d : str) : parse_options := ParseOptions (o_syntax o) (Some d) (o_missing o) (o_includer o).

(** parseable.cc:27-38 and 292-330: what is parsed, its directory, the syntax its name suggests, the origin it
    creates and its initial options *)
Record parseable : Type := Parseable {
  p_text : str;
  p_dir : str;
  p_guess : option syntax;
  p_created : str;
  p_options : parse_options }.

(** boost::algorithm::ends_with *)
Fixpoint starts (prefix s : str) : bool :=
  match prefix, s with
  | [], _ => true
  | c :: p, d :: s' => Ascii.eqb c d && starts p s'
  | _ :: _, [] => false
  end.
Definition ends_with (suffix name : str) : bool := starts (rev suffix) (rev name).
(** parseable.cc:56-64 *)
Definition syntax_from_extension (name : str) : option syntax :=
  if ends_with (lit ".json") name then Some JSON else if ends_with (lit ".conf") name then Some CONF else None.

(** parseable.cc:76-92; append_includer and make_full do not change what [o_includer] stands for *)
Definition fixup_options (guess : option syntax) (o : parse_options) : parse_options :=
  set_syntax o (Some (match o_syntax o with
                      | Some s => s
                      | None => match guess with Some s => s | None => CONF end
                      end)).

(** parseable.cc:44-54, 310-313 *)
Definition new_string (text : str) (o : parse_options) : parseable :=
  Parseable text [] None (lit "string") (fixup_options None o).

(** parseable.cc:129-139: the path up to the last slash *)
Fixpoint after_slash (reversed : str) : str :=
  match reversed with
  | [] => []
  | c :: s => if Ascii.eqb c "/" then reversed else after_slash s
  end.
Definition directory (name : str) : str := rev (after_slash (rev name)).

(** parseable.cc:49-53 *)
Definition initial_origin (p : parseable) : str :=
  match o_origin (p_options p) with Some d => d | None => p_created p end.
(** parseable.cc:190-193: the description of the origin parsing starts from *)
Definition final_origin (p : parseable) (o : parse_options) : str :=
  match o_origin o with Some d => d | None => initial_origin p end.

(** simple_includer.cc:72-76 *)
Definition clear_for_include (o : parse_options) : parse_options := set_missing (set_origin (set_syntax o None) []) true.

(** parseable.cc:145-151; [None] is a null pointer *)
Definition force_parsed_to_object (r : option value * nat) : result (value * nat) :=
  match r with
  | (None, _) => Stuck UNullDeref
  | (Some v, next) => if is_object v then Ok (v, next) else Throw EWrongType
  end.

(** parseable.hpp: MAX_INCLUDE_DEPTH *)
Definition max_include_depth : nat := 50.

(** catch (config_exception&) *)
Definition caught {A} (r : result A) : result (option A) :=
  match r with
  | Ok a => Ok (Some a)
  | Throw e => if is_config_exn e then Ok None else Throw e
  | Stuck u => Stuck u
  end.

Section Files.
Variable files : str -> option str.
Variable environment : list (str * str).
(** how deep a resolve may go, see [resolve_n] *)
Variable resolve_depth : nat.

(** parseable.cc:292-310: a stream on a file that can not be opened reads as empty, and nothing is thrown *)
Definition new_file (name : str) (o : parse_options) : parseable :=
  let guess := syntax_from_extension name in
  Parseable (match files name with Some text => text | None => [] end) (directory name) guess (lit "file: " ++ name) (fixup_options guess o).

(** parseable.cc:102-116 with simple_include_context.cc:15-17 *)
Definition context_options (p : parseable) : parse_options := clear_for_include (p_options p).
Definition relative_to (p : parseable) (name : str) : parseable :=
  new_file (match name with c :: _ => if Ascii.eqb c "/" then name else p_dir p ++ name | [] => p_dir p end) (context_options p).

Section Step.
(** parseable::parse(options) *)
Variable parse : parseable -> parse_options -> nat -> result (value * nat).

(** simple_includer.cc:83-146; [context] is the one of the name source, [None] if it was not initialized *)
Definition from_basename (context : option parseable) (name : str) (o : parse_options) (next : nat) : result (value * nat) :=
  if ends_with (lit ".conf") name || ends_with (lit ".json") name then
    let p := match context with Some c => relative_to c name | None => new_file name o end in
    parse p (set_missing (p_options p) (o_missing o)) next
  else
    let conf := new_file (name ++ lit ".conf") o in
    let json := new_file (name ++ lit ".json") o in
    let empty := (new_object [], next) in
    '(obj, next1) <- (match o_syntax o with
                      | Some JSON => Ok empty
                      | _ => r <- caught (parse conf (set_syntax (set_missing (p_options conf) false) (Some CONF)) next) ;;
                             Ok (match r with Some x => x | None => empty end)
                      end) ;;
    '(obj2, next2, got) <- (match o_syntax o with
                            | Some CONF => Ok (obj, next1, false)
                            | _ => r <- caught ('(v, n) <- parse json (set_syntax (set_missing (p_options json) false) (Some JSON)) next1 ;;
                                                w <- with_fallback obj v ;; Ok (w, n)) ;;
                                   Ok (match r with Some (w, n) => (w, n, true) | None => (obj, next1, false) end)
                            end) ;;
    if negb (o_missing o) && negb got then Throw EConfig
    else if is_object obj2 then Ok (obj2, next2) else Stuck UNullDeref.

(** simple_includer.cc:31-70, with the default includer, which has no fallback (config.cc:538-541) *)
Definition default_include (context : parseable) (kind : include_kind) (name : str) (next : nat) : result (value * nat) :=
  '(obj, next1) <- from_basename (Some context) name (context_options context) next ;;
  match kind with
  | KFile =>
      r <- resolve_config true true environment resolve_depth obj ;;
      match r with
      | Some v => if is_object v then Ok (v, next1) else Stuck UNullDeref
      | None => Stuck UNullDeref
      end
  | _ => Ok (obj, next1)
  end.

(** simple_includer.cc:192-202: the includer of the options *)
Definition run_includer (i : option app_includer) (context : parseable) (kind : include_kind) (name : str) (next : nat) : result (value * nat) :=
  match i with
  | None => default_include context kind name next
  | Some app =>
      match kind, app_include_file app with
      | KFile, Some f => f (p_dir context) name next
      | KFile, None => default_include context KFile name next
      | _, _ => app_include app (p_dir context) name next
      end
  end.

(** parseable.cc:187-232 and 145-151: parse_value(options), forced to an object *)
Definition parse_object_of (p : parseable) (o : parse_options) (next : nat) : result (value * nat) :=
  let final := fixup_options (p_guess p) o in
  r <- parse_config (match o_syntax final with Some s => s | None => CONF end) (run_includer (o_includer final) p) (p_text p) next ;;
  force_parsed_to_object r.
End Step.

(** parseable.cc:153-177.  [depth] is the size of the thread's parse_stack.  The scope_exit is a temporary, so
    what it was given to do at the end, popping the stack, is done at the end of its own statement. *)
Fixpoint parse_parseable (n : nat) (depth : nat) (p : parseable) (o : parse_options) (next : nat) : result (value * nat) :=
  match n with
  | O => Stuck UFuel
  | S n' =>
      if (max_include_depth <=? depth)%nat then Throw EParse
      else
        let pushed := S depth in
        let popped := pred pushed in
        parse_object_of (parse_parseable n' popped) p o next
  end.

(** config.cc:41-49 with parseable.cc:179-181: the options given make the parseable, but it is parsed with
    others *)
Definition parse_string (n : nat) (text : str) (o : parse_options) (next : nat) : result (value * nat) :=
  parse_object_of (parse_parseable n 0) (new_string text o) no_options next.
Definition string_origin (text : str) (o : parse_options) : str := final_origin (new_string text o) no_options.

(** config.cc:31-39 *)
Definition parse_file_any_syntax (n : nat) (name : str) (o : parse_options) (next : nat) : result (value * nat) :=
  from_basename (parse_parseable n 0) None name o next.
End Files.
