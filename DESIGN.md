# Formal model of cpp-hocon: design

Source: `/repo` (puppetlabs/cpp-hocon at the pinned commit), read as text.  Model and proofs:
`/verif/rocq/theories`, Coq 8.16.1, logical root `Verif`.

## 1. Conventions

* `X_Model.v` holds the transcription of the C++ code, function by function; every definition cites
  file and lines and states its simplifications.  `X_Spec.v` holds specifications written without
  the model's helpers.  `X_Lemmas.v` holds proofs.  `X_Props.v` holds only the property theorems,
  each closed by `exact`, with a concrete non-trivial instance beside it and `Print Assumptions`.
* A computation is a value of `result`: `Ok v`, `Throw e` (a C++ exception of kind `e`, including
  "a raw pointer was thrown"), or `Stuck u` (undefined behaviour, behaviour left open by a library,
  or the fuel of a transcription that is not structurally recursive ran out).  Theorems that say
  "safe" say that no `Stuck` is reachable.
* A `std::string` is a `list ascii` (bytes).  `char` is signed, as on the supported platforms.
* `std::unordered_map` is an association list; where the C++ iterates over it in an unspecified
  order the theorem quantifies over the order, or speaks only of lookups.
* Where the statement of a property is false of the code as written, the model exhibits it: theorem
  `..._refuted` proves the existence of a counterexample, `..._partial` proves the strongest part
  that does hold, and the finding is listed in section 5.

## 2. Trusted base

* The Coq 8.16.1 kernel (and `vm_compute`, which is used for closed witnesses).
* Axioms: see section 6 (output of `Print Assumptions` for each theorem).
* The transcription of C++ into Gallina (section 3), done by hand; the semantics given to the C++
  standard library, boost (`lexical_cast`, `trim`, `split`, `nowide`) and leatherman.

## 3. What is modelled and what is not

| layer | source | model | property files |
|---|---|---|---|
| result monad, characters | - | `Base.v` | - |
| string helpers, JSON quoting | `config_util.cc` | `Util_Model.v` | `Token_Props` |
| numbers: literals, casts, doubles | `default_transformer.cc`, `config_number.cc`, boost `lexical_cast`, `strtod` | `Num_Model.v` | `Config_Props` |
| paths | `path.cc`, `path_builder.cc` | `Path_Model.v` | `Path_Props` |
| tokenizer, tokens | `tokenizer.cc`, `tokens.cc`, `token.cc` | `Token_Model.v` | `Token_Props`, `Escape_Props` |
| path expression parser | `path_parser.cc` | `PathParser_Model.v` | `PathParser_Props` |
| syntax tree, document parser | `nodes/*.cc`, `config_document_parser.cc` | `Doc_Model.v` | `Doc_Props`, `Json_Props` |
| document editing | `config_node_object.cc`, `config_node_root.cc`, `simple_config_document.cc` | `Edit_Model.v` | `Edit_Props` |
| values, merging, equality, path editing | `values/*.cc` | `Value_Model.v` | `Value_Props` |
| getters, durations, entry set | `config.cc`, `default_transformer.cc` | `Config_Model.v`, `Duration_Model.v` | `Config_Props`, `Round_Props`, `Round_Props2`, `Round_Props3`, `DurText_Props` |
| concatenation | `values/config_concatenation.cc` | `Concat_Model.v` | `Concat_Props` |
| document to value | `config_parser.cc` | `ConfigParser_Model.v` | `ConfigParser_Props` |
| substitution resolution | `resolve_context.cc`, `resolve_source.cc`, `config_reference.cc`, `config_delayed_merge*.cc`, ... | `Resolve_Model.v` | `Resolve_Props*` |
| rendering of values | `values/*.cc` (render), `config_render_options.cc` | `Render_Model.v` | `Render_Props*`, `RenderConf_Props`, `RenderRef_Props*` |
| includes, parse options | `parseable.cc`, `simple_includer.cc`, `simple_include_context.cc`, `config_parse_options.cc` | `Include_Model.v` | `Include_Props*` |
| documents of texts and files, chains of includers | `config_document_factory.cc`, `parseable.cc` (document half), `config_parse_options.cc`, `simple_includer.cc` (fallbacks, proxy) | `Options_Model.v` | `Options_Props` |
| comments, lines of objects and lists | `config_parser.cc` | `Comments_Model.v` | `Comments_Props` |
| lines of tokens and scalar values | `tokenizer.cc` | `Lines_Model.v` | `Lines_Props` |
| values from plain data, setting values in documents | `config_value_factory.cc`, `simple_config_document.cc` | `Factory_Model.v` | `Factory_Props` |
| meaning of edited JSON documents | document parser, editor and config parser together | (no new model) | `JsonEdit_Props` |
| meaning of edited HOCON documents | document parser, editor and config parser together | (no new model) | `ConfEdit_Props` |
| meaning of JSON texts | tokenizer, document parser and config parser together | `Layers_Model` (`config::with_fallback`) | `Rfc_Props`, `Rfc_Props2`, `Rfc_Props3`, `Rfc_Props4`, `Hocon_Props`, `Hocon_Props2`, `Forms_Props` |
| texts of edited HOCON documents, read again | tokenizer, document parser and editor together | (no new model) | `ConfText_Props` |
| origins | `simple_config_origin.cc` | `Origin_Model.v` | `Origin_Props` |
| persistent list | `functional_list.hpp` | `FList_Model.v` | `FList_Props` |
| program options | `program_options.hpp` | `ProgOpts_Model.v` | `ProgOpts_Props` |
| shared values and threads | the public operations of `config`, `config_object`, `config_value` on a heap | `Share_Model.v` | `Share_Props` |

Each model file starts with its own simplifications.  Over all:

* External calls are parameters: the files (`str -> option str`), the environment (an association
  list), an includer given by the application (a function), Boost's `find_nothrow` (a predicate).
  Theorems quantify over them.  None is an axiom.
* Recursion that the C++ does not bound (`resolve_context::resolve`, `parseable::parse`, the
  document parser) takes fuel; running out of it is the outcome `Stuck UFuel`, never a normal
  result.  Termination theorems give a fuel that is enough, non-termination theorems say that none is.
* Values carry no origins (only `Origin_Model`, `Comments_Model`, `Lines_Model`, and `Render_Model` by position, have them), so
  line numbers and texts of exceptions are not modelled; an exception is its class.
* Pointer equality of values is equality of contents plus, for references, an identity
  (`Value_Model.same`); `Share_Model` has addresses.
* Not modelled: memory allocation failure, stack overflow (unbounded recursion is `Stuck UFuel`),
  the C++ memory model, locale, translated messages (`_()`), the `__PRETTY_FUNCTION__` texts,
  the C API,
  the build system, the command line.

## 4. Plan per property

* C01 path render/parse round trip: path, JSON quoting, tokenizer, path parser models; induction on the key list through the tokenizer's text-level lemmas.
* C02 fast parser = full parser: both parsers modelled; characterise both on the safe alphabet.
* C03 path algebra: refinement of every `path` operation to list operations.
* C04 rejection of empty elements: invariant of the element accumulator over all token lists.
* C05 lossless tokenization: each `pull_*` function returns text equal to the consumed prefix; induction over the token loop.
* C06 quoting round trip: induction on the string through `pull_quoted_string`.
* C07 termination / safety: fuel bounded by input length suffices; no `Stuck` except for the listed ones.
* C08 whitespace: characterise whitespace tokens by neighbours, for all token lists.
* C09 document render = text: token-conservation invariant of every parser function.
* C10-C13 document edits: structural induction over the node tree.
* C14-C17 merging: induction over values, up to lookup.
* C18 equality: induction over values.
* C19-C22 path edits on values: refutations plus the part that holds.
* C23 render/parse round trip: composition through tokenizer, document parser and config parser.
* C69 the same for HOCON output: the rendered text is split into layout and chunks as for tidy documents (C67), and the nodes of the chunks are read by the config parser.
* C70 the same for unresolved values: substitution tokens by induction over the path, concatenations by induction over their pieces, merges by induction over their layers, each of which is a field with the same key that is merged with what was read before.
* C71 fractions as durations: a lemma on rounding (`rounded` in `Round_Lemmas.v`) relates any result of `binary_round_aux`
  to the exact quotient it stands for; decimal reading, division, `fmod` and multiplication are then error bounds between
  integers, and the truncated quotient is shown to be the exact floor
* C72 texts of doubles: the lemma `round_near` turns any result of `binary_round_aux` into a bound on an exact quotient, from
  subnormal numbers to overflow; the text of a double is shown to be the integer of millionths nearest to `m * 2^e`, split into
  its digits
* C73 numbers in documents: the token of a decimal number holds its text and a value that rounds it (C72); the text of a document
  with that number is lexed with the lemmas of C23
* C74 JSON texts: the grammar of RFC 8259 over texts (`Rfc_Spec`) is turned into one over tokens; tokenizer and parsers are followed
  through that grammar by mutual induction, as for rendered values (C23); HOCON follows by C27
* C75 nothing but JSON: each token is shown to say what its text is; the two parsers are inverted over such streams of tokens, by
  induction on the nesting, into the same grammar with a few extras
* C76 reading JSON documents: the values of C75 are also shown to be resolved, so that the theorems about getters (C35-C37, C51) apply to them
* C77 layers of JSON documents: merging follows the joining of JSON values by induction on the first, whose objects are still open to fallbacks;
  further layers by associativity (C14)
* C78 HOCON documents: a value parsed from some definitions is characterised by what it gives over any base, and this is kept by each field
  (associativity of merging, C14); mutual induction over the grammar, with the layout lemmas of C69;
  values of several parts are the concatenation of one token each, with the blanks between them as tokens of their own; keys by induction over
  their parts, words being gathered into one token up to the next string; lists and objects behind each other by
  induction over them
* C79 layers of HOCON documents: the same characterisation, the base being what the fallbacks define
* C80 texts that are refused as durations: by taking the text apart along the trims of parse_duration
* C81 includes in HOCON documents: the includer is assumed to give an object characterised as in C78, which adding its fields keeps; the
  assumption follows by induction on the depth of includes, for JSON files from C75
* C82 forms of include statements: the tokens of the statement with any blanks, then both parsers on them
* C24 key order: order laws of the comparator.
* C25-C27 config parser: induction over the field list; JSON/HOCON simulation between the two parser modes.
* C28-C34 resolver: fuel-indexed transcription with node identities; induction over fuel.
* C35-C40 getters: case analysis plus induction over the path; integer arithmetic for durations.
* C41-C44 includes, options: transcription with the file system as a parameter (section variable).
* C45 origins; C46 persistent list: algebraic laws.
* C47 immutability/threads: a small-step interleaving model over a heap of immutable nodes; C++ memory model not modelled.
* C48 program options: induction over entries.
* C54-C57 comments and lines: the parser's loop against a specification that walks up and down from a field; invariant of the loop state over the nodes passed.  Lines are counted in the rendering of the nodes, which is the text but for the `)` of includes (C09).
* C58 token lines: the located tokenizer erases to the plain one; invariant that the line counter is one more than the newlines consumed.
* C63 delayed merges: the loop invariant of C31, over all changed copies of the document in which the definitions are looked up; a copy agrees with the document on every path that the definition can come to.
* C59-C61 value factory: induction over plain data; getters agree by a relation on values; rendered values re-read as in C23, then C10.

## 5. Findings

Properties that are false of the code.  Every line names the theorem that exhibits it or, in
brackets, says that it was seen while transcribing and is part of the model but is not stated as a
theorem.

Tokens, paths and documents

* Keys `.a`, `a..b`, `a.` in a document dereference a null origin while the exception is built
  (`document_parser_safe_refuted`, `path_parser_safe_refuted`).
* `include file("x")` loses its `)`: the document does not render to its text (`document_lossless_refuted`).
* Blanks before the `}` of a substitution and NUL bytes in a unicode escape are lost
  (`tokenize_lossless_refuted`, `tokenize_lossless_nul_refuted`).
* Number texts such as `1e300` are cast out of range (`tokenizer_safe_refuted`, `path_round_trip_refuted`).
* `is_C0_control` on a signed `char` rejects every non-ASCII byte inside quotes (part of
  `quote_round_trip`, whose `quotable` excludes them).
* JSON texts that are rejected or misread: a single value at the root, UTF-8 in strings, surrogate pairs, an escaped NUL, repeated
  names, numbers from 2^63 on (`json_text_accepted_refuted`); texts accepted as JSON that are not: `[01]`, `[1.]`, strings in three
  quotes (`not_json_accepted`).
* The shortcut parser of paths accepts a leading newline (`fast_parser_refuted`).
* `path::length()` of the empty path is 1, `sub_path` never drops the last key, `starts_with` on the
  empty path dereferences null (`path_length_empty_refuted`, `sub_path_keeps_last_key`,
  `sub_path_full_range_refuted`, `path_starts_with_refuted`).

Editing documents

* `indent_text` lost an `i++` of the Java original: it does not end for a multi-line value
  (`edit_terminates_refuted`).  That is the only way an edit of an accepted document by an accepted path and value can
  fail: in JSON, for values without a newline and for objects in braces it succeeds (`edit_terminates_partial`,
  `remove_terminates`).
* After a trailing comma a second comma is inserted (`edited_text_parses_refuted`).  [After
  `include "foo"` on the same line no comma is inserted.]
* JSON documents: removing a member whose comma stands on the next line leaves that comma, and the
  text is then no JSON (`json_remove_value_refuted`); setting a path that runs through a scalar adds
  a second member with the key of the scalar (`json_set_value_refuted`); an unquoted path key such
  as `nullable` is split at the keyword and written as `"null""able"` (`json_set_key_refuted`).
* In HOCON documents a field added after a comment on the only line becomes part of the comment
  (`conf_set_value_refuted`); `a {b=1}` with `a` set to `2` is `a 2`, which is no HOCON
  (`conf_set_syntax_refuted`); a value set in an object is hidden by a later scalar with the key of the
  object (`conf_set_hidden_refuted`); concatenated objects are not looked into (`conf_remove_value_refuted`);
  a comma on the line after a removed field stays (`conf_remove_syntax_refuted`).
* In JSON documents `a//b` is a path for the editor, not for `has_path` (`set_path_present_refuted`).
* [An empty text is answered by `throw new`; `config_node_object.cc:104` compares a field with itself.]

Values

* `operator==` on objects returns the last comparison only, and `.at` throws for a missing key
  (`equality_of_objects_refuted`).
* `with_value` never overwrites, writes nested values on the wrong level and throws `bad_weak_ptr`
  for absent parents (`with_value_refuted`); it keeps a stale resolve status, so a later resolve
  leaves substitutions (`resolve_leaves_nothing_refuted`).
* `without_path` of a nested path drops siblings (`without_path_refuted`); `with_only_path` gives
  nothing or dereferences null (`with_only_path_refuted`); `at_key` and `at_path` always throw
  `bad_weak_ptr` (`at_path_wraps_refuted`).
* Merging is not associative when substitutions are involved (`fallback_associative_unresolved_refuted`).
  [`config_delayed_merge_object::with_fallback(object)` throws.]
* `relativized` is not overridden for references, objects and delayed merges, so substitutions of
  included files are never relativized (`included_substitution_refuted`, `include_ignores_path`).

Getters

* `throw ex;` slices: missing and wrong-type exceptions arrive as `config_exception`
  (`getter_exceptions_refuted`).
* `get_object_list` throws a raw pointer, `get_config_list` throws on every non-empty list, casts of
  doubles and durations overflow (`getters_well_behaved_refuted`, `get_long_range_refuted`).
* Durations: negative ones below a unit raise, `2.0 s` and `1.5 m` raise (`isnormal(0.0)` is false), `1.001 s` is 1000 ms
  (999999 ns after truncation), overflow is undefined, and so is the cast of a long fraction of ms, us or ns
  (`durations_refuted`).
* [`check_valid` is not implemented: it throws `runtime_error`.]

Concatenation and parsing to values

* Joining with an empty string throws, unquoted text after a list or object is dropped
  (`concatenation_rules_refuted`).
* `+=` below the root refers to the outermost key (`nested_append_refuted`, `dotted_append_refuted`).
  [`+=` inside a list throws; a path of several elements in JSON is answered by `throw new`.]

Resolving

* Contexts that were moved from lose their cycle markers: `a = ${?a.b} ${a}`, and with the
  environment `a = ${?undefined} ${a}`, recurse for ever (`resolve_terminates_refuted`,
  `resolve_terminates_refuted_again`).
* A list that starts with an undefined optional substitution throws (`optional_undefined_disappears_refuted`).
* The third definition of a field in terms of itself throws `bug_or_broken_exception`, so do three
  `+=` after a first definition (`lookback_fails_beyond_two`, `lookback_refuted`).
* `a = ${?a} {b = 2}` alone finds itself as a cycle and does not consult the environment; followed by
  another definition of `a` it does (`environment_never_overrides_refuted`).
* An object, a substitution, an object and another substitution as definitions of one key throw: the
  rest of the definitions is merged for the lookup, and a delayed merge object takes no object
  (`definitions_merge_refuted`).
* A substitution below one definition of an object and several definitions of the same key below the next make a merge
  of merges: `a={b=${d}}, a={b=${c}, b={y=2}}` is not read at all (`nested_definitions_refuted`).
* [`resolve_context.cc:46` looks up the full instead of the restricted key.
  `replace_child_in_list` compares iterators of different containers.
  `config_delayed_merge_object::replace_child` gives a `config_delayed_merge`.]

Rendering

* An empty key is not rendered (`json_round_trip_refuted`).
* As HOCON a list at the root renders the objects in it without braces: `[a=true]`, which is no document
  (`hocon_round_trip_refuted`).
* The quotes of strings are not kept when an unresolved config is rendered: `${b} ${c}` with lists is written
  `${b}" "${c}`, which no longer resolves, and `${b}"x"` is written `${b}x`, which resolves although the config does
  not; a description of several lines breaks the comments of a merge;
  a merge as a layer of a merge loses its key (`unresolved_round_trip_refuted`).
* The order of keys is not irreflexive on keys of digits, and orders them downwards (`key_order_refuted`).
* [Elements of a root list are rendered with `at_root`: outside JSON objects in it lose their braces.
  The messages of an unresolved merge are given under inverted conditions.  Control characters are
  not escaped.  A value without origin is dereferenced when comments are on.]

Includes and options

* The depth limit is never enforced: the scope guard is a temporary (`include_cycle_throws_refuted`,
  `include_depth_refuted`).
* `config_document_factory::parse_file(name)` reads `.json` files as HOCON, so edits make them invalid
  (`json_file_edit_refuted`); a missing file is an empty document whatever the options say
  (`missing_document_refuted`).
* What is appended to the includer of options taken from an include context is never asked
  (`appended_asked_last_refuted`).
* `parse_string` ignores syntax and includer of its options (`json_option_refuted`,
  `includer_option_refuted`, `text_options_ignored`).
* A missing `.json` file is a parse error, missing `.conf` files read as empty even when they are
  required (`missing_json_include_refuted`).
* `include file("f")` resolves f on its own, with the environment over the including document
  (`include_file_is_include_refuted`).
* An includer that cannot include files hides all includers after it from `include file(...)` (`files_asked_in_order_refuted`).
* A comment behind an element of a list that repeats the comments above is lost (`element_comments_equal_refuted`).
* Decimal numbers from 2^63 on are rejected, read as text or cast out of range (`number_in_document_refuted`).
* Names without extension are not relative to the including file (`basename_include_refuted`);
  errors in their `.conf` file are swallowed (`bad_conf_reported_refuted`); `.conf` alone does not
  count as found (`conf_alone_required_refuted`).

Comments and lines

* A comment above an include is given to the next field (`field_comments_refuted`); a comment behind a
  field that repeats the comments before it is dropped (`field_comments_equal_refuted`).
* A comment behind the closing brace is lost when no newline follows (`root_comments_refuted`).
* Newlines inside fields, concatenations and strings are not counted, so objects and lists below them
  get too small a line (`value_lines_refuted`, `value_lines_json_refuted`).
* A string over several lines gets the line of its end (`token_line_refuted`); a newline inside a `\u`
  escape is not counted, so all later lines are too small (`token_line_escape_refuted`).

Others

* `from_any_ref` gives an origin to the outermost value only: rendering a non-empty list or map with the
  default options dereferences null (`wrapped_data_renders_refuted`), so none can be set in a document
  (`data_set_refuted`); doubles lose all but six decimals (`wrapped_doubles_render_refuted`).
* A value with comments cannot be set in a JSON document (`commented_value_set_refuted`), and setting a
  list in a document of several lines without braces never ends (`value_set_terminates_refuted`).
* A number wrapped again has lost its text (`rewrapped_value_reads_refuted`).
* `functional_list::removed1` removes all later occurrences too (`remove_one_refuted`), insertion
  beyond the end dereferences null (`insert_beyond_end_refuted`).
* Merged origins start at the smaller END line (`merge_ranges_refuted`); adding comments resets the
  end line (`add_comments_refuted`).
* `program_options`: an empty list gives no option (`program_options_refuted`).
* [`config::operator==` compares pointers.]

## 6. Axioms per theorem

`Print Assumptions` stands beneath every theorem in the `*_Props*.v` files.  For every one of them it
prints `Closed under the global context`: no theorem depends on an axiom.  (The checker lists the
axioms of `Coq.ssr.ssrunder` as present: Coq's prelude loads that library, nothing here uses it.)

