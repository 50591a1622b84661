{
 "claims": [
  {
   "property": "C01",
   "status": "partial",
   "theorems": [
    "path_round_trip_partial",
    "path_round_trip_refuted"
   ],
   "note": "Round trip proved for all non-empty paths of quotable keys up to the undefined float cast on unquoted digit runs; unconditional when no unquoted key has a digit or the first key is word-like. Key 1e300 refutes the unconditional claim."
  },
  {
   "property": "C02",
   "status": "partial",
   "theorems": [
    "fast_parser_agrees_partial",
    "fast_parser_refuted"
   ],
   "note": "Proved for every string without newline; a leading newline makes the shortcut accept what the full parser rejects."
  },
  {
   "property": "C03",
   "status": "partial",
   "theorems": [
    "path_algebra_partial",
    "path_length_empty_refuted",
    "sub_path_keeps_last_key",
    "sub_path_full_range_refuted",
    "path_starts_with_refuted"
   ],
   "note": "Every path operation refines the list operation, except that length() of the empty path is 1, sub_path never drops the last key, and slices reaching the end or starts_with on the empty path misbehave (refuted)."
  },
  {
   "property": "C04",
   "status": "partial",
   "theorems": [
    "empty_elements_rejected_partial",
    "path_parser_safe_refuted"
   ],
   "note": "Everything but the tokenizer undefined behaviour, which is named exactly and shown to occur."
  },
  {
   "property": "C05",
   "status": "partial",
   "theorems": [
    "tokenize_lossless_partial",
    "tokenize_lossless_refuted",
    "tokenize_lossless_nul_refuted"
   ],
   "note": "Lossless except blanks directly before the closing brace of a substitution and NUL bytes inside a unicode escape; both losses are exhibited."
  },
  {
   "property": "C06",
   "status": "proved",
   "theorems": [
    "quote_round_trip"
   ],
   "note": "Both directions: exactly the quotable strings are read back."
  },
  {
   "property": "C07",
   "status": "partial",
   "theorems": [
    "tokenizer_total_partial",
    "tokenizer_safe_refuted"
   ],
   "note": "Termination, linear token count and exception kind proved; three kinds of undefined behaviour exist and are classified."
  },
  {
   "property": "C08",
   "status": "proved",
   "theorems": [
    "whitespace_significance"
   ],
   "note": "Also inside substitutions."
  },
  {
   "property": "C09",
   "status": "partial",
   "theorems": [
    "document_lossless_partial",
    "document_lossless_refuted"
   ],
   "note": "Exact for documents without NUL bytes, with no \"$\" or no blank before \"}\", and without parenthesised includes; the refutation shows the parenthesis lost by include file(\"x\")."
  },
  {
   "property": "C10",
   "status": "partial",
   "theorems": [
    "set_path_present_partial",
    "set_path_present_refuted"
   ],
   "note": "Proved for every document reachable by parsing and any number of edits; in JSON only for path texts has_path accepts (the editor reads // as text there, refuted otherwise)."
  },
  {
   "property": "C11",
   "status": "partial",
   "theorems": [
    "removed_path_absent_partial"
   ],
   "note": "Any number of duplicates in any notation; same restriction on JSON path texts as C10."
  },
  {
   "property": "C12",
   "status": "proved",
   "theorems": [
    "edit_unrelated_paths",
    "remove_absent_unchanged"
   ],
   "note": "Both halves for every document, parsed and edited any number of times, in both syntaxes."
  },
  {
   "property": "C13",
   "status": "proved",
   "theorems": [
    "edit_keeps_other_text"
   ],
   "note": "Comments, includes and other fields keep text and order at every depth."
  },
  {
   "property": "C14",
   "status": "proved",
   "theorems": [
    "fallback_associative",
    "fallback_associative_unresolved_refuted"
   ],
   "note": "Same value at every path for all resolved values; with substitutions it is false."
  },
  {
   "property": "C15",
   "status": "partial",
   "theorems": [
    "fallback_keywise_partial"
   ],
   "note": "All pairs of resolved objects, except a receiver that was itself merged with a non-object before: that one ignores fallbacks, as C17 asks."
  },
  {
   "property": "C16",
   "status": "proved",
   "theorems": [
    "fallback_neutral"
   ],
   "note": "Equality of the whole value."
  },
  {
   "property": "C17",
   "status": "proved",
   "theorems": [
    "non_object_hides_layers"
   ],
   "note": "All chains of resolved layers."
  },
  {
   "property": "C18",
   "status": "partial",
   "theorems": [
    "same_contents_equal_partial",
    "equality_without_objects_partial",
    "equality_of_objects_refuted"
   ],
   "note": "Equal contents compare equal; equivalence and exactness for values without objects; refuted for objects."
  },
  {
   "property": "C19",
   "status": "partial",
   "theorems": [
    "with_value_stores_partial",
    "with_value_keeps_partial",
    "with_value_refuted"
   ],
   "note": "Holds for a single absent key; refuted for present keys and longer paths."
  },
  {
   "property": "C20",
   "status": "partial",
   "theorems": [
    "without_path_removes",
    "without_path_keeps_siblings_partial",
    "without_path_refuted"
   ],
   "note": "Removal proved for all paths; the other paths are kept below the same parent only, refuted elsewhere."
  },
  {
   "property": "C21",
   "status": "partial",
   "theorems": [
    "with_only_path_nothing_else_partial",
    "with_only_path_refuted"
   ],
   "note": "Nothing else is kept, but neither is the path; absent nested paths dereference null."
  },
  {
   "property": "C22",
   "status": "partial",
   "theorems": [
    "at_path_wraps_refuted"
   ],
   "note": "Refuted for all inputs: at_key and at_path always throw."
  },
  {
   "property": "C23",
   "status": "partial",
   "theorems": [
    "json_round_trip_partial",
    "json_round_trip_refuted"
   ],
   "note": "For every value of nulls, booleans, 64-bit integers, numbers as the tokenizer reads them, strings and non-empty keys of quotable bytes, lists and objects: for all options with JSON output the text parses as HOCON to the same contents, and as JSON too when comments are off. Refuted for an object with an empty key: the key is not rendered."
  },
  {
   "property": "C24",
   "status": "partial",
   "theorems": [
    "rendering_ignores_order",
    "key_order_partial",
    "key_order_refuted"
   ],
   "note": "Rendering is independent of the stored order of entries at every depth, for all options. The key order is total, asymmetric and transitive on different keys; it is not irreflexive: a key consisting of digits (the empty key included) compares less than itself, so the precondition of std::sort is violated (refuted part)."
  },
  {
   "property": "C25",
   "status": "partial",
   "theorems": [
    "definitions_in_order",
    "last_definition_wins",
    "dotted_key_is_nested_partial",
    "dotted_append_refuted"
   ],
   "note": "Objects without include directives. The dotted form is proved for fields whose value contains no +=, and refuted otherwise, since += is wrong below the root (C26)."
  },
  {
   "property": "C26",
   "status": "partial",
   "theorems": [
    "append_is_self_reference_partial",
    "identities_irrelevant",
    "nested_append_refuted"
   ],
   "note": "Proved for fields of the root object; refuted below the root, where the reference is to the outermost field (full_current_path takes the front of the stack)."
  },
  {
   "property": "C27",
   "status": "proved",
   "theorems": [
    "json_is_hocon",
    "json_document_is_hocon_document",
    "json_value_is_hocon_value"
   ],
   "note": "For every text: accepted with JSON syntax implies accepted with HOCON syntax with the same value (and the same nodes, and for the text of a single value). Values carry no origin in the model."
  },
  {
   "property": "C28",
   "status": "partial",
   "theorems": [
    "resolve_leaves_nothing_partial",
    "parser_is_truthful",
    "merging_is_truthful",
    "resolve_leaves_nothing_refuted"
   ],
   "note": "Proved for values whose objects claim to be resolved only if they are; parsing and merging make only such values. Refuted for values changed by with_value, which keeps the old claim."
  },
  {
   "property": "C29",
   "status": "proved",
   "theorems": [
    "resolve_resolved_is_identity",
    "resolve_twice_is_once"
   ],
   "note": "For every resolved value, source and options; idempotence for every result of a resolve without allow_unresolved."
  },
  {
   "property": "C30",
   "status": "partial",
   "theorems": [
    "resolve_terminates_partial",
    "resolve_terminates_refuted",
    "resolve_terminates_refuted_again",
    "required_cycle_throws",
    "required_cycle_never_resolves",
    "resolve_throws_config_exceptions",
    "required_cycle_never_resolves_with_merges"
   ],
   "note": "False as stated: moved-from contexts lose their cycle markers, so two kinds of config resolve for ever (refuted by theorem). Termination is proved when optional substitutions have one key and the environment is off, or there are none and the environment has no value for the required ones. Cycles of required substitutions raise a config exception, in documents without delayed merges."
  },
  {
   "property": "C31",
   "status": "partial",
   "theorems": [
    "result_is_meaning",
    "meaning_is_unique",
    "required_undefined_throws_partial",
    "all_defined_resolves",
    "required_undefined_never_resolves",
    "optional_undefined_disappears_partial",
    "optional_undefined_disappears_refuted",
    "result_is_meaning_with_merges",
    "required_undefined_never_resolves_with_merges"
   ],
   "note": "The result of resolving is what a separate big-step meaning says, for documents without delayed merges and for those with delayed merges that do not refer back to their own field. The exact exception is proved without concatenations and optional substitutions. False for lists that begin with an undefined optional element: refuted by theorem."
  },
  {
   "property": "C32",
   "status": "partial",
   "theorems": [
    "lookback_partial",
    "definitions_pile_up",
    "lookback_fails_beyond_two",
    "lookback_refuted"
   ],
   "note": "False in general: with three or more definitions of a field in terms of itself resolving throws bug_or_broken_exception (lookback_fails_beyond_two, for all such documents). Proved for one and two. Missing: fields below the root, other fields that are not plain, definitions with other substitutions."
  },
  {
   "property": "C33",
   "status": "partial",
   "theorems": [
    "concatenation_rules_partial",
    "concatenation_groups_left",
    "concatenation_groups_right_partial",
    "concatenation_before_resolving",
    "concatenation_rules_refuted"
   ],
   "note": "Every outcome on resolved pieces is characterised and grouping independence proved for texts, lists and objects. Refuted: joining with an empty string raises, unquoted text after a list or object is silently dropped."
  },
  {
   "property": "C34",
   "status": "partial",
   "theorems": [
    "environment_never_overrides_partial",
    "environment_is_fallback_partial",
    "environment_never_overrides_required",
    "environment_gives_only_its_values",
    "environment_never_overrides_refuted",
    "environment_is_fallback_with_merges"
   ],
   "note": "Proved for all documents, delayed merges and indirect paths included, whose substitutions are all required. With optional ones proved for documents without delayed merges and indirect paths; false beyond that (refuted): an optional self-reference in the first of two definitions takes the value of the environment. Missing: optional substitutions beside delayed merges that are not self-references."
  },
  {
   "property": "C35",
   "status": "partial",
   "theorems": [
    "get_int_exact",
    "get_int_range_partial",
    "integer_literals_exact",
    "get_long_range_refuted"
   ],
   "note": "Soundness of get_int, exactness within 64 bits and exactness of integer literals are proved. Refuted beyond 64 bits: a larger literal becomes a string and asking for its integer casts an out-of-range double (undefined behaviour)."
  },
  {
   "property": "C36",
   "status": "proved",
   "theorems": [
    "has_path_tells_get_value",
    "get_value_at_path"
   ],
   "note": "For every resolved configuration and every path expression."
  },
  {
   "property": "C37",
   "status": "partial",
   "theorems": [
    "getter_conversions_partial",
    "get_int_rejects_partial",
    "getter_exceptions_refuted"
   ],
   "note": "Conversions proved exactly. The class of exceptions is refuted: find_or_null rethrows by value (`throw ex;`), so missing and wrong-type exceptions arrive as config_exception."
  },
  {
   "property": "C38",
   "status": "partial",
   "theorems": [
    "get_duration_exact_partial",
    "duration_of_integer_partial",
    "durations_refuted"
   ],
   "note": "Any duration returned is exact. Refuted: negative durations under a second (or unit) raise although they fit; \"2.0 s\" raises; a duration that does not fit is signed overflow, not an exception."
  },
  {
   "property": "C39",
   "status": "proved",
   "theorems": [
    "entry_set_lists_leaves",
    "entry_set_paths_readable"
   ],
   "note": ""
  },
  {
   "property": "C40",
   "status": "partial",
   "theorems": [
    "getters_well_behaved_partial",
    "getters_well_behaved_refuted"
   ],
   "note": "17 getters proved; get_int/get_long within 64 bits; get_object_list for lists of objects. Refuted otherwise: get_object_list throws a raw pointer, casts and durations overflow."
  },
  {
   "property": "C41",
   "status": "partial",
   "theorems": [
    "include_cycle_throws_refuted",
    "include_depth_refuted",
    "include_cycle_never_parses",
    "acyclic_includes_end_partial",
    "acyclic_text_ends_partial"
   ],
   "note": "False of the code: the guard that should pop the parse stack at the end of the scope is a temporary and pops at once, so the limit of 50 is never reached: a file that includes itself recurses without bound (include_cycle_throws_refuted) and 60 nested files parse (include_depth_refuted). Proved: files whose first statement leads into such a cycle never give a value whatever the fuel; without a cycle parsing ends, for include statements without url/classpath/file kinds and no includer of the application."
  },
  {
   "property": "C42",
   "status": "partial",
   "theorems": [
    "includes_in_order",
    "included_overrides_earlier",
    "missing_include_contributes_nothing_partial",
    "missing_json_include_refuted"
   ],
   "note": "The order of fields and includes is proved for all objects. A missing file contributes nothing when its name ends in .conf or has no extension; a missing .json file is an error (missing_json_include_refuted)."
  },
  {
   "property": "C43",
   "status": "partial",
   "theorems": [
    "included_substitution_refuted",
    "include_ignores_path"
   ],
   "note": "False of the code: relativized is not overridden for references, so an included substitution means the same wherever the file is included."
  },
  {
   "property": "C44",
   "status": "partial",
   "theorems": [
    "text_options_ignored",
    "json_option_refuted",
    "text_options_ignored_without_includes",
    "includer_option_refuted",
    "origin_description_kept_partial"
   ],
   "note": "False of the code: the syntax and the includer in the options are not used for the text itself; only the origin description is."
  },
  {
   "property": "C45",
   "status": "partial",
   "theorems": [
    "merge_same_source_partial",
    "merge_end_line_covers",
    "merge_ranges_refuted",
    "merge_different_sources",
    "merge_keeps_comments",
    "merge_keeps_equal_comments",
    "merge_stack",
    "merge_stack_defined",
    "comments_added_in_order",
    "add_comments_refuted",
    "line_and_comments_set",
    "comments_cleared_refuted",
    "merge_names_neighbours_once_partial",
    "merge_names_neighbours_once_refuted",
    "origins_equal"
   ],
   "note": "The start of a merged range is computed from the end lines: refuted for ranges of several lines, proved for single lines. Neighbours of one source are named once, unless the line number of another source is the same (refuted: equal lines of different files count as similar, against the comment in the code)."
  },
  {
   "property": "C46",
   "status": "partial",
   "theorems": [
    "functional_list_laws_partial",
    "functional_list_map",
    "remove_one_refuted",
    "insert_beyond_end_refuted"
   ],
   "note": "All operations on a heap of immutable items; removed1 is refuted (it removes all later occurrences), insertion beyond the end dereferences null."
  },
  {
   "property": "C47",
   "status": "partial",
   "theorems": [
    "threads_as_if_alone_partial",
    "contents_never_change_partial",
    "contents_unique",
    "threads_end",
    "schedules_agree_partial"
   ],
   "note": "Proved for all files, environments, shared values, scripts and schedules. A thread is a script of with_fallback, with_value, without_path, with_only_path, at_path, at_key, getters, resolve, parse, ==, render and the like on one heap of cells; its steps are reads and creations of cells. Missing: reads of single members and constructor writes are one step; getters, render and resolve read the whole value first and then compute in one step; origins, config::operator== (compares addresses), the includer given by an application, and the C++ memory model (initialisation of function-local statics, shared_ptr counts) are left out."
  },
  {
   "property": "C48",
   "status": "partial",
   "theorems": [
    "program_options_partial",
    "program_options_nested_rejected",
    "program_options_refuted"
   ],
   "note": "Empty lists give no option (refuted). Rejection of unregistered options happens in Boost, outside the code."
  },
  {
   "property": "C49",
   "status": "partial",
   "theorems": [
    "document_parser_total_partial",
    "document_parser_safe_refuted"
   ],
   "note": "Termination and exhaustive outcomes for all texts; the statement \"no undefined behaviour\" is refuted by keys like \".a\"."
  },
  {
   "property": "C50",
   "status": "partial",
   "theorems": [
    "edit_terminates_refuted",
    "edit_terminates_partial",
    "remove_terminates",
    "edited_text_parses_refuted",
    "json_edits_parse_partial",
    "json_set_value_partial",
    "json_remove_value_refuted",
    "json_set_value_refuted",
    "json_set_key_refuted",
    "conf_set_syntax_refuted",
    "conf_remove_syntax_refuted",
    "conf_edits_reread_partial"
   ],
   "note": "Refuted as stated: indent_text loops for ever for a multi-line value in a braceless multi-line document; a trailing comma makes the editor insert a second comma; in JSON, a comma on the next line, a path through a scalar and a key like nullable all give invalid text; in HOCON, a field without separator and a comma on the next line do. Proved for JSON documents edited any number of times with commas next to their fields, common path texts and paths through objects only. Proved for HOCON documents parsed from tidy text and edited any number of times (ConfText_Spec.v: fields on their own lines or separated by commas on one line, a separator or braced object after each key; values set on one line, keys all quoted or all plain words; a field without separator set to an object only). Termination and success are proved for every document with an object at the top (parsed, then edited any number of times), every accepted path and every accepted value text: for JSON, for values without a newline and for objects in braces; removals always succeed. Missing: acceptance of the edited text for untidy HOCON documents."
  },
  {
   "property": "C51",
   "status": "proved",
   "theorems": [
    "list_getters_exact"
   ],
   "note": ""
  },
  {
   "property": "C52",
   "status": "partial",
   "theorems": [
    "conf_over_json",
    "conf_alone",
    "conf_alone_required_refuted",
    "bad_conf_reported_refuted"
   ],
   "note": "The .conf file is over the .json file. False of the code: errors in the .conf file are swallowed, and a .conf file alone does not count as something found when missing files are not allowed."
  },
  {
   "property": "C53",
   "status": "partial",
   "theorems": [
    "include_is_relative_partial",
    "directory_is_before_last_slash",
    "basename_include_is_not_relative",
    "basename_include_refuted"
   ],
   "note": "Proved for names with an extension, included from files. False of the code for names without one, which are looked up from the working directory."
  },
  {
   "property": "C54",
   "status": "partial",
   "theorems": [
    "field_comments_partial",
    "field_comments_once",
    "field_comments_refuted",
    "field_comments_equal_refuted"
   ],
   "note": "False of the code: a comment above an include goes to the field below it, and a comment behind a field that repeats the comments before it is lost. Proved for objects without includes above the field, and (once, in order) for all."
  },
  {
   "property": "C55",
   "status": "partial",
   "theorems": [
    "element_comments_partial",
    "element_comments_equal_refuted"
   ],
   "note": "All elements of all lists: exact, also if the comments behind repeat those above, which are then dropped (refuted)."
  },
  {
   "property": "C56",
   "status": "partial",
   "theorems": [
    "root_comments_partial",
    "root_comments_refuted"
   ],
   "note": "False of the code: the comment behind the end is lost if no newline follows. Proved otherwise."
  },
  {
   "property": "C57",
   "status": "partial",
   "theorems": [
    "value_lines_partial",
    "value_lines_refuted",
    "value_lines_json_refuted"
   ],
   "note": "False of the code: newlines in fields, concatenations, includes and strings are not counted. Proved for all documents without those."
  },
  {
   "property": "C58",
   "status": "partial",
   "theorems": [
    "located_tokens_are_the_tokens",
    "token_line_partial",
    "token_line_is_its_end",
    "blank_line_is_the_next",
    "token_line_refuted",
    "token_line_escape_refuted"
   ],
   "note": "False of the code for strings over several lines, which get the line of their end, and after a \\u escape with an end of line in it. Proved for all others; texts with NUL bytes are left out."
  },
  {
   "property": "C59",
   "status": "partial",
   "theorems": [
    "wrapped_data_unwraps",
    "unwrapped_value_rewraps",
    "rewrapped_value_equal",
    "rewrapped_value_reads_partial",
    "rewrapped_value_reads_refuted"
   ],
   "note": "Everything but get_string, which differs for numbers (refuted): the rewrapped number has lost its text. Equality for values whose numbers can be compared (no NaN, integer part of 64 bits)."
  },
  {
   "property": "C60",
   "status": "partial",
   "theorems": [
    "wrapped_data_renders_partial",
    "wrapped_data_renders_refuted",
    "wrapped_doubles_render_refuted"
   ],
   "note": "Proved without comments and doubles. Refuted with comments on (the default), for every non-empty list and map: the null origin of the parts is dereferenced. Refuted for doubles: six decimals."
  },
  {
   "property": "C61",
   "status": "partial",
   "theorems": [
    "value_set_present_partial",
    "value_set_means_value_partial",
    "value_set_succeeds_partial",
    "data_set_refuted",
    "commented_value_set_refuted",
    "value_set_terminates_refuted"
   ],
   "note": "Proved: the path is present if the call returns; the text written is accepted and means the value; the call succeeds at every accepted path, in HOCON if the object of the document is in braces, in JSON if the value has no comments. Refuted: success, for values of the value factory, for commented values in JSON, and in documents of several lines without braces."
  },
  {
   "property": "C62",
   "status": "partial",
   "theorems": [
    "json_set_value_partial",
    "json_remove_value_partial",
    "json_has_path_partial",
    "json_remove_value_refuted",
    "json_set_value_refuted",
    "json_set_key_refuted"
   ],
   "note": "For documents where every comma is on the line of the field before it, path texts with all keys quoted or plain words, and paths that go through objects only; refuted without each of these."
  },
  {
   "property": "C63",
   "status": "partial",
   "theorems": [
    "result_is_meaning_with_merges",
    "definitions_merge_partial",
    "definitions_merge_refuted",
    "nested_definitions_refuted"
   ],
   "note": "Proved for documents that resolve, whose substitutions have direct paths and whose definitions do not refer back to their own field. False that they all resolve (definitions_merge_refuted) or are read (nested_definitions_refuted)."
  },
  {
   "property": "C64",
   "status": "partial",
   "theorems": [
    "include_file_is_include_partial",
    "include_file_is_include_refuted"
   ],
   "note": "False: file(...) resolves the file on its own, with the environment, before the document is seen. Proved for included files without substitutions."
  },
  {
   "property": "C65",
   "status": "partial",
   "theorems": [
    "document_text_syntax",
    "document_file_syntax",
    "json_file_edit_partial",
    "json_file_edit_refuted",
    "missing_document_refuted"
   ],
   "note": "Proved for options that ask for a syntax or for none. False for calls without options, which read JSON files as HOCON, and for missing files, which are empty documents whatever the options say. The edited JSON file is restricted as in C62."
  },
  {
   "property": "C66",
   "status": "partial",
   "theorems": [
    "includers_in_order",
    "appended_asked_last_partial",
    "prepended_asked_first_partial",
    "default_includer_last_partial",
    "appended_asked_last_refuted",
    "files_asked_in_order_partial",
    "files_asked_in_order_refuted"
   ],
   "note": "For includers that treat their fallback as simple_includer does. False for options that have been through the parser, such as those of an include context: its proxy ignores what is appended. For include file(...) proved if all includers can include files; refuted otherwise: one that cannot hides all those after it."
  },
  {
   "property": "C67",
   "status": "partial",
   "theorems": [
    "conf_set_value_partial",
    "conf_remove_value_partial",
    "conf_edit_other_paths_partial",
    "conf_has_path_partial",
    "conf_set_text_partial",
    "conf_remove_text_partial",
    "conf_set_value_refuted",
    "conf_set_syntax_refuted",
    "conf_set_hidden_refuted",
    "conf_remove_value_refuted",
    "conf_remove_syntax_refuted"
   ],
   "note": "Proved of the nodes of the edited document, for any layout and any merging; of its text when it is read as the same fields and values, which is proved for tidy documents edited any number of times (conf_set_text_partial, conf_remove_text_partial). Setting and has_path only where all values on the way to the path are braced objects, removing where none of them is a concatenation. Refuted otherwise: a new field after a comment becomes part of it, a field without separator set to a scalar is not HOCON, a later scalar on the way hides the value, concatenated objects are not looked into, a comma on the line after a removed field is left."
  },
  {
   "property": "C68",
   "status": "partial",
   "theorems": [
    "escapes_decoded_partial",
    "zero_escape_refuted",
    "bad_escape_refuted"
   ],
   "note": "Proved for all strings whose \\u escapes have four hexadecimal digits and stand for a non-zero code point that is not a surrogate. Refuted for \\u0000, read as nothing (and a string made of it can swallow what follows), and for malformed digits, of which some are accepted and some read an uninitialised variable. Surrogates depend on the version of boost and are unspecified in the model."
  },
  {
   "property": "C69",
   "status": "partial",
   "theorems": [
    "hocon_round_trip_partial",
    "hocon_round_trip_refuted"
   ],
   "note": "For every value as in C23 that is an object, or a list with no object reached through lists alone: for all options with HOCON output the text parses as HOCON to the same contents. Refuted for a list at the root that holds an object (its braces are left out) and for an object with an empty key (the key is left out)."
  },
  {
   "property": "C70",
   "status": "partial",
   "theorems": [
    "unresolved_round_trip_partial",
    "parsed_configs_are_formed",
    "merging_formed_values",
    "parsed_round_trip_partial",
    "unresolved_round_trip_refuted"
   ],
   "note": "For every object (or list with no object reached through lists and concatenations alone) of values as in C23 with references (keys of quotable bytes, the first not like a number or keyword unless quoted), concatenations whose neighbours include a reference and merges, as values of fields, of layers that could not be merged: for all options the text parses as HOCON to the same contents, references, pieces and layers. Every parsed config has this structure (parsed_configs_are_formed), so that reading, rendering and reading again gives the same config for all documents whose strings and keys can be written and which have no merge as a layer of a merge (parsed_round_trip_partial). With merges, output that is formatted JSON or has comments without formatting, and descriptions of several lines, are left out. Refuted beyond that: the quotes of strings are not kept, so that what is read back may resolve differently, a description of two lines in the comments of a merge breaks the text, and so does a merge as a layer of a merge."
  },
  {
   "property": "C71",
   "status": "partial",
   "theorems": [
    "duration_of_fraction_partial",
    "get_duration_fraction_partial",
    "duration_of_fraction_refuted"
   ],
   "note": "For every decimal fraction of up to 200 decimals and up to 2^31 seconds, in every unit: the pair is normalised and within two nanoseconds and one part in 2^50 of the fraction, or a config_exception is raised and the fraction is that close to a whole number of seconds; no undefined cast. The rounding of the divisions and multiplications is proved for all significands and exponents. Refuted beyond that: '1.5 m' raises though '90 s' does not, and '99999999999999999999999.5 ms' is an undefined cast."
  },
  {
   "property": "C72",
   "status": "proved",
   "theorems": [
    "get_double_of_decimal",
    "get_string_of_double",
    "double_text_again_refuted"
   ],
   "note": "Reading is proved for every decimal number (sign, point, exponent, any number of digits), down to the smallest doubles and up to overflow; writing for all finite doubles. The conversions are those of boost and of the C library, modelled as correctly rounded. Not part of the claim and false: doubles below half a millionth are written 0.000000 and read back as zero."
  },
  {
   "property": "C73",
   "status": "partial",
   "theorems": [
    "number_in_document_partial",
    "integer_in_document",
    "number_in_document_refuted"
   ],
   "note": "Proved for all integers of 64 bits and for decimal numbers of magnitude below 2^63 - 1024. Refuted above: 1e300 makes the tokenizer convert a double outside int64 to int64, which is undefined behaviour; 9223372036854775808 and 1e999 are rejected as JSON and become texts in HOCON. The document is an object of the one key k."
  },
  {
   "property": "C74",
   "status": "partial",
   "theorems": [
    "json_text_accepted_partial",
    "json_text_accepted_refuted"
   ],
   "note": "Proved for texts whose strings have no bytes above 127, no escaped NUL and no surrogate escapes, whose names are unique and whose numbers are below 2^63 - 1024 or integers of 64 bits. Refuted outside of these, each by a text: a single value at the root, UTF-8 in a string (rejected as a control character), surrogate pairs, an escaped NUL (dropped), repeated names, 9223372036854775808 and 1e300."
  },
  {
   "property": "C75",
   "status": "proved",
   "theorems": [
    "json_only_accepted"
   ],
   "note": "The extras are the definitions lax_blank, lax_escaped, lax_string and lax_number in Rfc_Spec.v; the rest of the grammar is that of C74. Converse of C74."
  },
  {
   "property": "C76",
   "status": "partial",
   "theorems": [
    "json_config_read_partial",
    "json_file_read_partial",
    "json_list_no_config"
   ],
   "note": "For the texts of C74, which are not all JSON texts (json_text_accepted_refuted); the rest is unrestricted. Strings that look like booleans or numbers are also converted by get_bool and get_long, which is C37 and not repeated."
  },
  {
   "property": "C77",
   "status": "partial",
   "theorems": [
    "json_layers_read_partial"
   ],
   "note": "For the texts of C74, which are not all JSON texts; the rest is unrestricted."
  },
  {
   "property": "C78",
   "status": "partial",
   "theorems": [
    "hocon_config_read_partial",
    "hocon_file_read_partial"
   ],
   "note": "For texts without includes, substitutions, += and concatenations other than lists, objects, or words (of printable ASCII), numbers and non-empty strings, apart by blanks or touching where a number or string is followed by a letter or a word by a string; keys have no blanks around their periods and begin with a string or a letter, no comma begins a line, and a comment just behind a value starts with #. Joining with an empty string is refused by the code."
  },
  {
   "property": "C79",
   "status": "partial",
   "theorems": [
    "hocon_layers_read_partial"
   ],
   "note": "For the texts of C78 and C81; otherwise unrestricted."
  },
  {
   "property": "C80",
   "status": "proved",
   "theorems": [
    "durations_only",
    "get_duration_only"
   ],
   "note": ""
  },
  {
   "property": "C81",
   "status": "partial",
   "theorems": [
    "including_config_read_partial",
    "including_file_read_partial"
   ],
   "note": "For texts as in C78, and include statements that are a name in quotes with extension; files do not include each other in circles (see C41). A name without extension is not looked up in the directory of the file (C53), and file(...) resolves too early (C64)."
  },
  {
   "property": "C82",
   "status": "proved",
   "theorems": [
    "include_forms",
    "include_other_forms_refused"
   ],
   "note": "For documents of a single statement; include statements among other fields are C81."
  }
 ]
}
