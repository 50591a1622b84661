{"id": "C01", "title": "Rendering a path and parsing it back gives the same path", "statement": "For every path whose keys contain no byte that the JSON quoting used by render() leaves unescaped but the parser rejects (control characters other than newline, tab, backspace, form feed, carriage return; bytes >= 0x80), path::new_path(p.render()) returns a path equal to p, whatever dots, quotes, spaces, digits or empty keys its elements contain.", "quantifier": "all non-empty lists of keys of any length and any key contents", "why_tests_cant": "the interesting keys (embedded dots, quotes, backslashes, digits, '-', spaces, empty) combine in unboundedly many ways with each other and with their position in the path", "anchors": ["lib/src/path.cc: path::render, path::new_path, path::append_to_string, path::has_funky_chars", "lib/src/path_parser.cc: path_parser::parse_path, path_parser::speculative_fast_parse_path", "lib/src/config_util.cc: render_json_string"]}
{"id": "C02", "title": "The fast path parser agrees with the full path parser", "statement": "path::new_path(s) uses a shortcut for simple expressions. Whenever the shortcut is taken, the full (tokenizer based) parser accepts the same string and yields an equal path, so the shortcut is unobservable.", "quantifier": "all byte strings", "why_tests_cant": "two parsers must agree on every string; the strings on which they could differ are not known in advance", "anchors": ["lib/src/path_parser.cc: path_parser::parse_path, looks_unsafe_for_fast_parser, speculative_fast_parse_path, fast_path_build, parse_path_expression"]}
{"id": "C03", "title": "Path algebra", "statement": "Paths behave as lists of keys: prepend concatenates, parent/last/first/remainder decompose, length counts keys, sub_path(n) drops n keys, sub_path(a,b) is the slice, starts_with is the prefix test, and operator== holds exactly for equal key lists. None of these operations on any reachable path dereferences a missing element.", "quantifier": "all paths, all indices", "why_tests_cant": "laws over all lengths and indices, including boundary indices and the empty path", "anchors": ["lib/src/path.cc", "lib/inc/internal/path.hpp"]}
{"id": "C04", "title": "Path expressions with empty unquoted elements are rejected", "statement": "path::new_path(s) never succeeds with a path that has an element which is empty unless that element was written as a quoted empty string; expressions such as '', 'a..b', '.a', 'a.' raise bad_path_exception, and no expression makes the parser do anything other than return a path or raise a config exception.", "quantifier": "all byte strings", "why_tests_cant": "rejection must hold for every malformed expression; tests can list only some", "anchors": ["lib/src/path_parser.cc: parse_path_expression, add_path_text", "lib/src/path.cc: path::new_path"]}
{"id": "C05", "title": "Tokenizing loses no character", "statement": "For every input the tokenizer accepts, concatenating the text of the produced tokens in order gives back exactly the input, byte for byte (whitespace, comments, original spelling of numbers, strings and escapes included).", "quantifier": "all byte strings, with and without comments allowed", "why_tests_cant": "every byte of every accepted input must be accounted for; fuzzing cannot exhaust inputs", "anchors": ["lib/src/tokenizer.cc: token_iterator", "lib/src/tokens.cc: token::token_text"]}
{"id": "C06", "title": "Quoting a string and reading it back gives the same string", "statement": "For every string s made of characters a quoted string can hold, parsing render_json_string(s) as a value yields a string value whose text is exactly s; quotes, backslashes and newlines inside s neither end the string early nor change it.", "quantifier": "all strings over the allowed bytes", "why_tests_cant": "unbounded strings with arbitrary interleavings of escapes", "anchors": ["lib/src/config_util.cc: render_json_string", "lib/src/tokenizer.cc: token_iterator::pull_quoted_string, pull_escape_sequence"]}
{"id": "C07", "title": "The tokenizer terminates and is memory-safe on every input", "statement": "Tokenizing any finite input stops after at most a linear number of steps with a token list ending in an END token or with a config exception; it never reads past the end of its buffers.", "quantifier": "all byte strings", "why_tests_cant": "termination and absence of undefined behaviour for all inputs cannot be observed by running some", "anchors": ["lib/src/tokenizer.cc: token_iterator::next, pull_next_token, pull_escape_sequence"]}
{"id": "C08", "title": "Whitespace is significant only between simple values", "statement": "A run of whitespace is delivered as text (part of a value concatenation) exactly when it stands between two simple values (unquoted text, literals, substitutions) on the same line; everywhere else it is delivered as ignorable whitespace.", "quantifier": "all token sequences / byte strings", "why_tests_cant": "depends on all neighbouring-token combinations and on arbitrary surrounding text", "anchors": ["lib/src/tokenizer.cc: whitespace_saver, token_iterator::next"]}
{"id": "C09", "title": "Parsing a document and rendering it gives back the original text", "statement": "For every text accepted by config_document_factory::parse_string (HOCON or JSON), document.render() is byte-for-byte the input text.", "quantifier": "all byte strings accepted by the document parser", "why_tests_cant": "a parser with lookahead, push-back and whitespace consolidation must keep every token for every nesting and layout", "anchors": ["lib/src/config_document_parser.cc", "lib/src/nodes/*.cc: render, get_tokens", "lib/src/simple_config_document.cc: render"]}
{"id": "C10", "title": "A value set in a document is there afterwards", "statement": "After d2 = d.with_value_text(path, text) succeeds, d2.has_path(path) is true, for every document and path.", "quantifier": "all documents with an object root, all paths, all value texts", "why_tests_cant": "depends on arbitrary document shape: duplicates, nested objects, dotted keys, partial prefixes", "anchors": ["lib/src/simple_config_document.cc", "lib/src/nodes/config_node_object.cc: set_value_on_path, change_value_on_path, add_value_on_path, has_value", "lib/src/nodes/config_node_root.cc: set_value, has_value"]}
{"id": "C11", "title": "A path removed from a document is gone afterwards", "statement": "After d2 = d.without_path(path) succeeds, d2.has_path(path) is false, however many times and in whatever notation (dotted or nested) the path was defined.", "quantifier": "all documents and paths", "why_tests_cant": "arbitrary many duplicate definitions in mixed notation at arbitrary depth", "anchors": ["lib/src/nodes/config_node_object.cc: change_value_on_path", "lib/src/nodes/config_node_root.cc: set_value"]}
{"id": "C12", "title": "Document edits leave unrelated paths alone", "statement": "Setting or removing one path does not change has_path for any path that is neither a prefix of it nor extends it, and without_path on a path that is absent returns a document whose text is unchanged.", "quantifier": "all documents, all pairs of unrelated paths", "why_tests_cant": "a frame condition over all other paths", "anchors": ["lib/src/nodes/config_node_object.cc: change_value_on_path, add_value_on_path"]}
{"id": "C13", "title": "Editing a document keeps the text of everything else", "statement": "Removing or setting a path keeps the text of every other field of the document: the rendered result contains the same other fields with the same text in the same order.", "quantifier": "all documents and paths", "why_tests_cant": "frame condition on text for all layouts", "anchors": ["lib/src/nodes/config_node_object.cc: change_value_on_path, add_value_on_path"]}
{"id": "C14", "title": "with_fallback is associative on resolved configs", "statement": "For resolved configs a, b, c: a.with_fallback(b).with_fallback(c) and a.with_fallback(b.with_fallback(c)) hold the same value at every path.", "quantifier": "all triples of resolved object values of any depth", "why_tests_cant": "algebraic law over unbounded trees", "anchors": ["lib/src/values/simple_config_object.cc: merged_with_object", "lib/src/values/config_value.cc: with_fallback", "lib/src/config.cc: with_fallback"]}
{"id": "C15", "title": "Merging objects is key-wise and the receiver wins", "statement": "For resolved objects, looking up a key in a.with_fallback(b) gives: a's value when b lacks the key, b's value when a lacks it, the recursive merge when both are objects, and a's value otherwise.", "quantifier": "all pairs of resolved objects, all keys", "why_tests_cant": "must hold at every key and every depth", "anchors": ["lib/src/values/simple_config_object.cc: merged_with_object"]}
{"id": "C16", "title": "Merging is idempotent and the empty config is neutral", "statement": "a.with_fallback(a), a.with_fallback(empty) and empty.with_fallback(a) hold the same value as a at every path, and none of them changes a.", "quantifier": "all resolved objects", "why_tests_cant": "law over unbounded trees", "anchors": ["lib/src/values/simple_config_object.cc: merged_with_object", "lib/src/config.cc: with_fallback"]}
{"id": "C17", "title": "A non-object value hides everything below it", "statement": "If some layer of a chain of fallbacks gives a non-object at a path, then layers further back contribute nothing at or below that path, so objects are never merged across a non-object.", "quantifier": "all finite chains of resolved layers, all paths", "why_tests_cant": "chains of any length and depth", "anchors": ["lib/src/values/config_value.cc: with_fallback, merged_with_non_object, ignores_fallbacks", "lib/src/values/simple_config_object.cc: with_fallbacks_ignored"]}
{"id": "C18", "title": "Value equality is an equivalence that means equal contents", "statement": "operator== on resolved config values is reflexive, symmetric and transitive, never throws, and holds exactly when both values have the same type and recursively the same contents.", "quantifier": "all pairs/triples of resolved values", "why_tests_cant": "relation laws over unbounded trees", "anchors": ["lib/src/values/simple_config_object.cc: operator==", "lib/src/values/simple_config_list.cc: operator==", "lib/src/values/config_number.cc: operator==", "lib/src/values/config_string.cc: operator=="]}
{"id": "C19", "title": "with_value stores the value and keeps the rest", "statement": "config.with_value(path, v).get_value(path) is v, for every path whether or not it existed before; values at unrelated paths are unchanged; the receiver is unchanged.", "quantifier": "all resolved configs, all paths, all values", "why_tests_cant": "depends on arbitrary shapes of the existing config along the path", "anchors": ["lib/src/values/simple_config_object.cc: with_value", "lib/src/config.cc: with_value", "lib/src/values/config_value.cc: at_path"]}
{"id": "C20", "title": "without_path removes exactly that path", "statement": "config.without_path(path) has no value at path, and has the same value as before at every path that does not start with it.", "quantifier": "all resolved configs, all paths", "why_tests_cant": "frame condition over all other paths at any depth", "anchors": ["lib/src/values/simple_config_object.cc: without_path", "lib/src/config.cc: without_path"]}
{"id": "C21", "title": "with_only_path keeps exactly that path", "statement": "config.with_only_path(path) holds the same value at path as before and nothing at unrelated paths; it never crashes when the path is absent.", "quantifier": "all resolved configs, all paths", "why_tests_cant": "frame condition over all other paths at any depth", "anchors": ["lib/src/values/simple_config_object.cc: with_only_path, with_only_path_or_null", "lib/src/config.cc: with_only_path"]}
{"id": "C22", "title": "at_path and at_key wrap a value", "statement": "v.at_path(p).get_value(p) is v and v.at_key(k) has exactly the single key k with value v.", "quantifier": "all values, paths and keys", "why_tests_cant": "every value and path length", "anchors": ["lib/src/values/config_value.cc: at_path, at_key"]}
{"id": "C23", "title": "Rendering a resolved value as JSON and parsing it gives an equal value", "statement": "For every resolved value built from nulls, booleans, integers, strings over the allowed bytes, lists and objects, value.render(options) with JSON output parses back (concise or formatted) to a value that is structurally the same.", "quantifier": "all resolved values of any depth and width, both formatted and concise options", "why_tests_cant": "round trip over unbounded trees through renderer, tokenizer and parser", "anchors": ["lib/src/values/simple_config_object.cc: render", "lib/src/values/simple_config_list.cc: render", "lib/src/values/config_value.cc: render", "lib/src/config_parser.cc", "lib/src/config_document_parser.cc"]}
{"id": "C24", "title": "Rendering is deterministic", "statement": "The rendered text of an object depends only on its contents, not on the order keys were inserted: the key order used by render() is a strict total order.", "quantifier": "all key sets and insertion orders", "why_tests_cant": "the comparator must be a strict weak ordering on all pairs of keys or sort() is undefined", "anchors": ["lib/src/values/simple_config_object.cc: render, key_comparator"]}
{"id": "C25", "title": "Later definitions of a key override or merge with earlier ones", "statement": "In a parsed object, when a key is given several times the value at that key is the last one, merged with the earlier ones when all are objects; a dotted key a.b.c : v means the same as nested objects.", "quantifier": "all sequences of fields", "why_tests_cant": "arbitrary many duplicates in arbitrary notation and order", "anchors": ["lib/src/config_parser.cc: parse_object, create_value_under_path"]}
{"id": "C26", "title": "+= appends to the previous value", "statement": "A field 'k += v' at any depth behaves like k = ${?k} [v]: it appends v to the list previously at that same key.", "quantifier": "all positions (nesting depth) and all previous values", "why_tests_cant": "depends on nesting depth and preceding content", "anchors": ["lib/src/config_parser.cc: parse_object, full_current_path"]}
{"id": "C27", "title": "JSON documents mean the same under JSON and HOCON syntax", "statement": "If a text is accepted with JSON syntax, it is accepted with HOCON syntax and both give the same value.", "quantifier": "all texts accepted as JSON", "why_tests_cant": "inclusion of one grammar in the other must hold for all texts", "anchors": ["lib/src/config_document_parser.cc", "lib/src/tokenizer.cc", "lib/src/config_parser.cc"]}
{"id": "C28", "title": "A resolved config has no substitutions left", "statement": "If config.resolve() returns normally without allow_unresolved, no value reachable in the result is a substitution, an unjoined concatenation or a delayed merge.", "quantifier": "all configs", "why_tests_cant": "arbitrary webs of substitutions", "anchors": ["lib/src/resolve_context.cc", "lib/src/values/simple_config_object.cc: resolve_substitutions, modify_may_throw", "lib/src/values/config_reference.cc", "lib/src/values/config_concatenation.cc", "lib/src/values/config_delayed_merge.cc"]}
{"id": "C29", "title": "Resolving a resolved config changes nothing", "statement": "c.resolve() on a config without substitutions returns the same config; hence resolve is idempotent.", "quantifier": "all resolved configs and all resolve options", "why_tests_cant": "law over unbounded trees", "anchors": ["lib/src/resolve_context.cc: resolve", "lib/src/values/simple_config_object.cc: resolve_substitutions", "lib/src/config.cc: resolve_with"]}
{"id": "C30", "title": "Cyclic substitutions end in an error, never in a loop", "statement": "config.resolve() terminates on every config; a required substitution that depends on itself with no earlier value raises a config exception.", "quantifier": "all configs, including all cyclic ones", "why_tests_cant": "termination over all substitution graphs", "anchors": ["lib/src/resolve_context.cc: resolve, add_cycle_marker", "lib/src/values/config_reference.cc: resolve_substitutions"]}
{"id": "C31", "title": "Undefined substitutions", "statement": "A required ${x} whose path is defined nowhere makes resolve() fail with unresolved_substitution_exception; an optional ${?x} makes the field or list element disappear, or contributes nothing to a concatenation.", "quantifier": "all configs and paths", "why_tests_cant": "all surrounding shapes", "anchors": ["lib/src/values/config_reference.cc: resolve_substitutions", "lib/src/values/config_concatenation.cc: resolve_substitutions", "lib/src/values/simple_config_list.cc: modify_may_throw", "lib/src/values/simple_config_object.cc: modify_may_throw"]}
{"id": "C32", "title": "Self-references look back", "statement": "A substitution referring to the field being defined resolves to the value that field had before this definition, across duplicates and fallbacks.", "quantifier": "all histories of definitions of a field", "why_tests_cant": "all numbers and shapes of previous definitions", "anchors": ["lib/src/values/config_delayed_merge.cc: resolve_substitutions, make_replacement", "lib/src/resolve_source.cc"]}
{"id": "C33", "title": "Concatenation rules", "statement": "Concatenating resolved pieces gives: for simple values the string of their texts in order (nothing lost or reordered), for lists the list append, for objects the merge with later pieces winning; mixing objects/lists with simple values is an error. Concatenation is independent of how pieces are grouped.", "quantifier": "all finite sequences of resolved pieces", "why_tests_cant": "sequences of any length and mix", "anchors": ["lib/src/values/config_concatenation.cc: consolidate, concatenate, join", "lib/src/values/simple_config_list.cc: concatenate"]}
{"id": "C34", "title": "Environment variables are only a fallback", "statement": "A substitution takes its value from the environment only if the configuration has no value at that path; a value in the configuration is never overridden by the environment.", "quantifier": "all configs and environments", "why_tests_cant": "all environments", "anchors": ["lib/src/resolve_source.cc: lookup_subst", "lib/src/config.cc: env_variables_as_config_object"]}
{"id": "C35", "title": "Integer getters never return a truncated number", "statement": "get_int returns n only if the stored number is exactly the 32-bit integer n or a number whose integer part is n; any number outside the 32-bit range raises an exception. get_long returns the stored 64-bit integer. Integer literals outside 64 bits do not wrap.", "quantifier": "all numeric texts", "why_tests_cant": "full 64-bit and textual range", "anchors": ["lib/src/values/config_number.cc: new_number, int_value_range_checked", "lib/src/tokenizer.cc: pull_number", "lib/src/config.cc: get_int, get_long"]}
{"id": "C36", "title": "has_path agrees with get_value", "statement": "On a resolved config has_path(p) is true exactly when get_value(p) returns normally; when it is false get_value raises; has_path_or_null additionally accepts null.", "quantifier": "all resolved configs and path expressions", "why_tests_cant": "two traversals must agree for every config and path", "anchors": ["lib/src/config.cc: has_path, has_path_or_null, has_path_peek, find, find_or_null, find_key", "lib/src/values/config_object.cc: peek_path"]}
{"id": "C37", "title": "Getter type conversions", "statement": "get_string, get_bool, get_int, get_long, get_double convert exactly as documented (number/boolean to string using the original text; 'true/yes/on', 'false/no/off'; numeric strings) and raise wrong_type_exception for every other type and missing_exception for absent or null.", "quantifier": "all resolved values and requested types", "why_tests_cant": "all strings and all type combinations", "anchors": ["lib/src/default_transformer.cc: transform", "lib/src/config.cc: find_key, find_key_or_null, throw_if_null"]}
{"id": "C38", "title": "Durations convert exactly or raise", "statement": "get_duration yields the duration seconds+nanoseconds denoted by the number and unit, for every integer and unit, or raises config_exception when it does not fit; get_duration(path, unit) converts without silently losing sign or overflowing.", "quantifier": "all 64-bit counts, all units, negative values included", "why_tests_cant": "2^64 counts times units, boundary behaviour", "anchors": ["lib/src/config.cc: convert, get_duration, parse_duration, get_units"]}
{"id": "C39", "title": "entry_set lists exactly the leaves", "statement": "config.entry_set() contains, for every path leading to a value that is neither an object nor null, one entry with that path rendered and that value, and nothing else.", "quantifier": "all resolved configs", "why_tests_cant": "exactness over unbounded trees", "anchors": ["lib/src/config.cc: entry_set, find_paths"]}
{"id": "C40", "title": "Getters have no undefined behaviour", "statement": "No getter called on a resolved config with any path expression dereferences null, reads out of range or leaks a raw pointer as exception: each returns a value or raises a config exception.", "quantifier": "all resolved configs, all path expressions", "why_tests_cant": "absence of undefined behaviour for all inputs", "anchors": ["lib/src/config.cc"]}
{"id": "C41", "title": "Include cycles are detected", "statement": "Parsing a file that includes itself directly or through other files ends with an exception instead of unbounded recursion, because includes nest at most 50 deep.", "quantifier": "all file graphs", "why_tests_cant": "unbounded recursion cannot be observed by finite runs", "anchors": ["lib/src/parseable.cc: parse, parse_value, MAX_INCLUDE_DEPTH", "lib/src/config_parser.cc: parse_include"]}
{"id": "C42", "title": "Included files behave like an object at the include point", "statement": "An include statement contributes the included object's fields at that point: they override earlier fields of the including object and are overridden by later ones; a missing included file contributes nothing.", "quantifier": "all including objects and file contents", "why_tests_cant": "arbitrary file systems and surrounding fields", "anchors": ["lib/src/config_parser.cc: parse_include", "lib/src/simple_includer.cc: include_without_fallback, from_basename"]}
{"id": "C43", "title": "Substitutions in included files are relativised", "statement": "A substitution ${x} inside a file included below path p refers to p.x first and to x as fallback.", "quantifier": "all include positions and paths", "why_tests_cant": "all depths", "anchors": ["lib/src/config_parser.cc: parse_include", "lib/inc/internal/values/config_reference.hpp: relativized", "lib/src/resolve_source.cc: lookup_subst"]}
{"id": "C44", "title": "Parse options are honoured", "statement": "config::parse_string(text, options) parses with the syntax, origin description and includer given in options; in particular text that is not JSON is rejected when options ask for JSON.", "quantifier": "all texts and options", "why_tests_cant": "all texts times options", "anchors": ["lib/src/config.cc: parse_string", "lib/src/parseable.cc: parse, parse_value, fixup_options"]}
{"id": "C45", "title": "Origins are merged soundly", "statement": "Merging two origins from the same source yields a line range that covers exactly both ranges; merging origins of different sources mentions both; comments of both are kept in order.", "quantifier": "all origins", "why_tests_cant": "all line ranges and comment lists", "anchors": ["lib/src/simple_config_origin.cc: merge_two, merge_three, merge_origins, append_comments, prepend_comments"]}
{"id": "C46", "title": "Persistent list operations", "statement": "The functional list used for parser state satisfies the usual list laws (concat, reverse, take, remove, insert) and never modifies a list that is still referenced.", "quantifier": "all lists and elements", "why_tests_cant": "laws over unbounded lists", "anchors": ["lib/inc/internal/objects/functional_list.hpp"]}
{"id": "C47", "title": "Configs are immutable and safe to share between threads", "statement": "Every public operation on config, config_object and config_value leaves the receiver's observable contents unchanged, so any interleaving of operations by several threads on shared values gives the same results as running them one after another.", "quantifier": "all operation sequences and all schedules", "why_tests_cant": "schedules cannot be enumerated", "anchors": ["lib/inc/hocon/config.hpp", "lib/src/values/simple_config_object.cc", "lib/src/parseable.cc: parse_stack"]}
{"id": "C48", "title": "Program options from a config", "statement": "parse_hocon yields, for every entry of the resolved config, the option named by its path with the text of its value (one value per list element), and rejects options that were not registered unless allowed.", "quantifier": "all resolved configs and option descriptions", "why_tests_cant": "all entry sets", "anchors": ["lib/inc/hocon/program_options.hpp: parse_hocon"]}
{"id": "C49", "title": "The document parser is total and memory-safe", "statement": "For every text, parsing it as a document or as a single value terminates with a tree or with a parse/config exception; it never reads past the end of the token stream and never dereferences null.", "quantifier": "all byte strings and both syntaxes", "why_tests_cant": "all inputs, all nesting depths", "anchors": ["lib/src/config_document_parser.cc: parse, parse_single_value, parse_object, parse_array, consolidate_values, parse_key"]}
{"id": "C50", "title": "Document edits end and give text that parses again", "statement": "Setting a value in an accepted document by an accepted value text terminates, and the text of the edited document is accepted by the parser.", "quantifier": "all accepted documents, paths and value texts", "why_tests_cant": "depends on arbitrary layout: commas, newlines and indentation around the insertion point", "anchors": ["lib/src/nodes/config_node_object.cc: add_value_on_path, indentation", "lib/src/nodes/config_node_complex_value.cc: indent_text"]}
{"id": "C51", "title": "List getters return the elements in order", "statement": "get_int_list, get_long_list, get_double_list, get_string_list and get_bool_list return exactly the values of the elements of the list at the path, in order, when all are of that type, and raise a config exception otherwise.", "quantifier": "every resolved config and every valid path expression", "why_tests_cant": "Lists of any length with any mix of element types at any path.", "anchors": ["lib/src/config.cc:252-270", "lib/inc/hocon/config.hpp:577-589"]}
{"id": "C52", "title": "A file name without extension reads .conf over .json", "statement": "parse_file_any_syntax with a name without extension gives the contents of the .conf file with the .json file as fallback; a missing file counts as empty if options allow missing files, and errors in a file that exists are reported.", "quantifier": "all file systems, names and options", "why_tests_cant": "any combination of existing, missing and faulty files and options", "anchors": ["lib/src/config.cc: parse_file_any_syntax", "lib/src/simple_includer.cc: from_basename"]}
{"id": "C53", "title": "Included names are relative to the including file", "statement": "An include statement with a relative file name reads the file of that name in the directory of the including file, and one with an absolute name reads the file of that name.", "quantifier": "all file systems, including files and included names", "why_tests_cant": "any directory depth and any name", "anchors": ["lib/src/simple_include_context.cc", "lib/src/simple_includer.cc: include_without_fallback, relative_name_source", "lib/src/parseable.cc: relative_to"]}
{"id": "C54", "title": "Comments of a field", "statement": "The comments recorded for a field of an object are, in order, the block of comments directly above it (not cut off by a blank line, not belonging to the statement before), those between key and value, and the one behind it on its line; no comment is recorded twice.", "quantifier": "all lists of nodes of an object and all fields in them", "why_tests_cant": "any arrangement of comments, blank lines, commas, fields and includes", "anchors": ["lib/src/config_parser.cc: parse_object", "lib/src/nodes/config_node_field.cc: comments", "lib/src/simple_config_origin.cc: append_comments, prepend_comments"]}
{"id": "C55", "title": "Comments of a list element", "statement": "The comments recorded for an element of a list are the block directly above it and those behind it on its line.", "quantifier": "all lists of nodes of a list and all elements in them", "why_tests_cant": "any arrangement of comments, blank lines, commas and elements", "anchors": ["lib/src/config_parser.cc: parse_array"]}
{"id": "C56", "title": "Comments of the document", "statement": "The comments recorded for the object or list that a document consists of are the block directly above it and those behind it on the line on which it ends.", "quantifier": "all texts that parse, both syntaxes", "why_tests_cant": "any arrangement of comments and blank lines around the value", "anchors": ["lib/src/config_parser.cc: parse"]}
{"id": "C57", "title": "Line numbers of objects and lists", "statement": "The line number the parser records for an object or list is the line of the text on which it begins.", "quantifier": "all texts that parse, both syntaxes, all objects and lists in them", "why_tests_cant": "any nesting and any position of line ends", "anchors": ["lib/src/config_parser.cc: line_origin, parse_object, parse_array, parse"]}
{"id": "C58", "title": "Tokens and the values made of them know their line", "statement": "The origin of a value read from a text names the line of the text on which the value begins.", "quantifier": "all texts that tokenize, all tokens of them", "why_tests_cant": "The tests look at a few short texts; the line depends on everything before the token, in particular on strings over several lines and escapes.", "anchors": ["lib/src/tokenizer.cc:319-343", "lib/src/tokenizer.cc:345-386", "lib/src/tokenizer.cc:396-516", "lib/src/nodes/config_node_simple_value.cc:28-50"]}
{"id": "C59", "title": "Wrapping and unwrapping are inverse", "statement": "Plain data (nulls, booleans, numbers, strings, lists, maps) wrapped as a config value is found again by unwrapping it; a value that is unwrapped and wrapped again equals the original and answers every getter alike.", "quantifier": "all plain data; all values without substitutions, all paths", "why_tests_cant": "Data of any depth and any keys; the tests wrap a handful of scalars and one list.", "anchors": ["lib/src/config_value_factory.cc:13-68", "lib/src/values/*.cc: unwrapped", "lib/src/config.cc: getters"]}
{"id": "C60", "title": "Values made by a program can be rendered", "statement": "A value made from plain data by the value factory renders, and what is rendered as JSON parses back to the same contents.", "quantifier": "all plain data, all rendering options with JSON output", "why_tests_cant": "Any nesting, any options: the tests render only values that were parsed.", "anchors": ["lib/src/config_value_factory.cc:13-68", "lib/src/values/simple_config_object.cc: render", "lib/src/values/simple_config_list.cc: render"]}
{"id": "C61", "title": "Setting a value in a document", "statement": "Setting a config value at a path of a document succeeds, the path is present afterwards, and what is written there means the value.", "quantifier": "all documents, parsed and edited, all paths, all values JSON can hold, with any comments", "why_tests_cant": "Any value meets any document; the tests set a few scalars and lists.", "anchors": ["lib/src/simple_config_document.cc:35-46", "lib/src/config_value_factory.cc:13-68"]}
{"id": "C62", "title": "Edited JSON documents mean what was asked for", "statement": "After setting a value at a path of a JSON document, parsing the document's text as JSON gives the value at that path and what was there before at every path apart from it; after removing a path, nothing is there and the rest is as before; has_path agrees with the parsed text.", "quantifier": "all JSON documents, parsed and edited any number of times, all paths and JSON value texts", "why_tests_cant": "Commas, blanks and newlines around the edited field can be combined in any way, at any depth, over any sequence of edits.", "anchors": ["lib/src/nodes/config_node_object.cc:20-308", "lib/src/simple_config_document.cc:20-57", "lib/src/path_parser.cc:27-34, 140-174"]}
{"id": "C63", "title": "Definitions with substitutions are merged after resolving", "statement": "When a key is defined several times and some of the definitions are or contain substitutions, the resolved value of the key is what the definitions resolve to, each merged over the earlier ones; optional substitutions without value are left out.", "quantifier": "all documents with any number of definitions of any keys, all environments and depths of calls", "why_tests_cant": "The tests have a handful of documents with two or three definitions; the order in which the definitions are resolved, in which changed copy of the document each one is looked up, and what is remembered in between depends on the whole document.", "anchors": ["lib/src/values/config_delayed_merge.cc:76-122", "lib/src/values/config_delayed_merge_object.cc:33-43", "lib/src/resolve_source.cc: replace_within_current_parent"]}
{"id": "C64", "title": "include file(\"f\") is include \"f\"", "statement": "An include statement with file(\"f\") contributes the same fields as one with the plain name \"f\": substitutions in the file are resolved together with the including document, whose later definitions count and take precedence over the environment.", "quantifier": "all file systems, environments, documents and include positions", "why_tests_cant": "The tests include files without substitutions that the including document or the environment also defines.", "anchors": ["lib/src/simple_includer.cc: include_without_fallback, include_file_without_fallback"]}
{"id": "C65", "title": "Documents are read and edited in the syntax asked for", "statement": "config_document_factory reads a text or file in the syntax its options ask for, or else the one of the file's extension, or else HOCON, and the document is edited in that syntax; so an edited JSON file is JSON.  A missing file is an error unless the options allow it.", "quantifier": "all texts, files, options and sequences of edits", "why_tests_cant": "The tests read documents from texts with the default options; the syntax is passed through several copies of the options on the way to the tokenizer and the editor.", "anchors": ["lib/src/config_document_factory.cc:8-22", "lib/src/parseable.cc:76-92, 141-143, 234-286", "lib/src/config_parse_options.cc:18-22"]}
{"id": "C66", "title": "Prepended includers are asked first, appended ones last", "statement": "Every includer put into parse options by prepend_includer and append_includer is asked for each included name, prepended ones before and appended ones after those already there, the default includer last; the object of each is merged over the objects of the later ones.", "quantifier": "all chains of includers, names, contexts and answers", "why_tests_cant": "The tests use one includer; chains of any length with shared members are built by pointer comparisons.", "anchors": ["lib/src/config_parse_options.cc:65-91", "lib/src/simple_includer.cc:19-60, 148-154, 182-207", "lib/src/parseable.cc:86-91"]}
{"id": "C67", "title": "Edited HOCON documents mean what was asked for", "statement": "After setting a path of a HOCON document to a value text, the document has the value of that text at the path; after removing a path it has none there; has_path tells whether it has one; and the values at all other paths stay as they were.  The text of the edited document is HOCON with that meaning.", "quantifier": "all HOCON documents without includes, substitutions and +=, all paths and value texts, any number of edits", "why_tests_cant": "The tests compare texts of a few edited documents; the meaning depends on repeated keys, dotted keys, merged objects, concatenations, comments and the layout anywhere in the document.", "anchors": ["lib/src/nodes/config_node_object.cc:20-308", "lib/src/nodes/config_node_root.cc:31-68", "lib/src/simple_config_document.cc:20-62", "lib/src/config_parser.cc:59-367"]}
{"id": "C68", "title": "Escapes in quoted strings are decoded", "statement": "However a quoted string is written (plain characters, the eight short escapes, \\uXXXX escapes with four hexadecimal digits of either case), it is read as exactly the bytes it stands for: a short escape as its character, \\uXXXX as the UTF-8 encoding of its code point; its spelling is kept for rendering.", "quantifier": "all strings, all mixtures of escapes", "why_tests_cant": "all code points in all positions and mixtures of unbounded length", "anchors": ["lib/src/tokenizer.cc:263-386: pull_escape_sequence, pull_quoted_string"]}
{"id": "C69", "title": "Rendering a resolved value as HOCON and parsing it gives an equal value", "statement": "For every resolved object or list built from nulls, booleans, integers, strings over the allowed bytes, lists and objects, value.render(options) with HOCON output (unquoted words where possible, no braces at the root, no commas between formatted fields) parses back to a value that is structurally the same, for every choice of the other options.", "quantifier": "all resolved values of any depth and width, all options without JSON output, all one-line comments", "why_tests_cant": "round trip over unbounded trees; which words may stand without quotes depends on every token the tokenizer knows", "anchors": ["lib/src/values/simple_config_object.cc: render", "lib/src/values/simple_config_list.cc: render", "lib/src/values/config_value.cc: render", "lib/src/util.cc: render_string_unquoted_if_possible", "lib/src/config_document_parser.cc", "lib/src/config_parser.cc"]}
{"id": "C70", "title": "Rendering an unresolved config and parsing it gives the same unresolved config", "statement": "For every object or list with references, concatenations and unresolved merges anywhere below, value.render(options) is a HOCON document that parses back to the same contents: the same keys and scalars, the same references (path and kind) in the same places, concatenations of the same pieces and merges of the same layers in the same order.", "quantifier": "all unresolved values of any depth and width, all paths, all options (formatted or not, comments or not, JSON or HOCON)", "why_tests_cant": "round trip over unbounded trees; how a merge is written depends on the options, and rereading its layers depends on how values with the same key are merged; paths are quoted depending on every byte", "anchors": ["lib/src/values/config_reference.cc: render", "lib/src/values/config_concatenation.cc: render", "lib/src/values/config_delayed_merge.cc: render", "lib/src/values/config_delayed_merge_object.cc: render", "lib/src/path.cc: render", "lib/src/tokenizer.cc: pull_substitution", "lib/src/config_parser.cc", "lib/src/config_value.cc: with_fallback"]}
{"id": "C71", "title": "Durations written as decimal fractions are close to what was written", "statement": "For every decimal fraction and unit, get_duration either returns a normalised pair of seconds and nanoseconds within a few nanoseconds and a rounding error of the fraction written, or raises a config_exception because the fraction is a whole number of seconds; it never converts a double to an integer type that cannot hold it.", "quantifier": "all decimal texts (any number of digits on either side of the point, any sign), all units and spellings, all surrounding white space", "why_tests_cant": "every conversion goes through decimal to binary rounding, a division or multiplication with another rounding, fmod and a truncating cast; the error bound is about all significands and exponents, where sampling finds no counterexample near a boundary", "anchors": ["lib/src/config.cc: convert(double, time_unit)", "lib/src/config.cc: parse_duration", "lib/src/config.cc: get_duration"]}
{"id": "C72", "title": "Decimal numbers are read as the double they round to, and doubles are written to six decimals", "statement": "get_double on a decimal number, as a quoted text or a number of the document, returns a double within half a unit in its last place of the number, with its sign, or raises a config_exception if the number is beyond the largest double. get_string on a double that has no text of its own returns the six-decimal fraction nearest to it.", "quantifier": "all decimal texts (any sign, any digits on either side of the point, any exponent), all finite doubles, all configs and paths", "why_tests_cant": "the error bound ranges over all digit strings and over all 2^64 doubles; ties, carries into a new digit and long significands are single points in that space", "anchors": ["lib/src/config.cc: get_double, get_string", "lib/src/default_transformer.cc: transform", "lib/src/values/config_double.cc: transform_to_string"]}
{"id": "C73", "title": "A number written in a document keeps its text and its value", "statement": "A decimal number that starts with a digit or a minus sign is accepted as the value of a key, as JSON and as HOCON. get_string returns it as it was written, get_double returns the double within half a unit in the last place, and for a number without point and exponent get_long returns it exactly.", "quantifier": "all decimal texts (any sign, digits, point and exponent) that start with a digit or a minus sign, both syntaxes, all includers", "why_tests_cant": "the numbers range over all digit strings and exponents; the tokenizer converts each to a double, to an int64 and back and picks the class of the value by comparing them, which goes wrong only in parts of that range", "anchors": ["lib/src/tokenizer.cc: pull_number", "lib/src/values/config_number.cc: new_number", "lib/src/config.cc: get_string, get_double, get_long"]}
{"id": "C74", "title": "Every JSON text is accepted and means what RFC 8259 says", "statement": "A JSON text (RFC 8259) whose value is an object or an array is accepted, as JSON and as HOCON. The result has the contents of the JSON value: the same elements in the same order, the same names each with its value, strings with their escapes replaced, numbers with the text as written and the nearest double, integers exactly.", "quantifier": "all JSON texts with any white space, nesting, escapes and number formats; both syntaxes; all includers", "why_tests_cant": "the grammar is recursive and white space, escapes and number formats combine freely at every position; the tokenizer also decides by the neighbouring token what becomes of white space, so that any pair of tokens may go wrong", "anchors": ["lib/src/tokenizer.cc: pull_next_token, pull_quoted_string, pull_number", "lib/src/config_document_parser.cc: parse, parse_object, parse_array", "lib/src/config_parser.cc: parse_object, parse_array"]}
{"id": "C75", "title": "Only JSON is accepted as JSON, apart from a short list of extras", "statement": "Whenever parsing a text as JSON succeeds, the text is a JSON text (RFC 8259) with an object or an array, up to these extras: vertical tabs and form feeds count as blanks; the four characters of a unicode escape need not be hexadecimal digits, and an escaped NUL vanishes; strings may be in three quotes; numbers may have leading zeros and a point without digits on one side. Brackets, commas, colons, names and their uniqueness are as in the RFC, the result has the contents of the text, and no include is looked up.", "quantifier": "all byte strings; all includers", "why_tests_cant": "it is a claim about every text that is not JSON, and these are all byte strings but a vanishing part", "anchors": ["lib/src/config_document_parser.cc: next_token, parse, parse_object, parse_array, parse_key", "lib/src/tokenizer.cc: pull_next_token, pull_quoted_string, pull_number", "lib/src/config_parser.cc: parse_object, parse_array"]}
{"id": "C76", "title": "A JSON document can be read with the getters", "statement": "A JSON object given to parse_string, or in a .json file given to parse_file_any_syntax, gives a config in which every path that leads to a member of the JSON object is present and read by the getter of its type (null as null, booleans, numbers with their text, the nearest double and the exact integer if one is written, strings, lists, lists of strings, booleans, integers and objects by the getters of such lists, objects), every other path is absent, and getters of other types raise. Resolving it changes nothing. A JSON list is not a config.", "quantifier": "all JSON texts as in C74; all path expressions; all options, files and environments", "why_tests_cant": "it joins tokenizer, parsers, path parser and getters for every text and every path into it", "anchors": ["lib/src/config.cc: parse_string, parse_file_any_syntax, has_path, find, get_string, get_long, get_list, get_homogeneous_unwrapped_list", "lib/src/parseable.cc: parse, force_parsed_to_object", "lib/src/simple_config_object.cc: resolve_substitutions"]}
{"id": "C77", "title": "JSON documents layered by with_fallback read as their members joined", "statement": "For configs read from JSON objects, by parse_string or from .json files, first.with_fallback(second).with_fallback(third) and so on succeeds and gives at every path what the JSON objects give when each is joined over the ones after it: members of both kept, two objects under one name joined in the same way, and otherwise the value of the earlier document taken, null included, which then hides what later documents have below that name. The result is resolved.", "quantifier": "any number of documents, all JSON texts as in C74; all path expressions", "why_tests_cant": "the flag that stops a merged object from taking further fallbacks only matters from the third layer on, at any depth", "anchors": ["lib/src/config.cc: with_fallback", "lib/src/values/config_value.cc: with_fallback, merged_with_non_object", "lib/src/values/simple_config_object.cc: merged_with_object"]}
{"id": "C78", "title": "A HOCON document is read as what its fields define, in order", "statement": "A HOCON text, with or without braces around it, made of comments, blanks, newlines, commas and fields, given to parse_string or in a .conf file, gives a config that has at every path what the fields define when each is put over those before it: keys of words and strings in quotes with periods between them lead into nested objects, two objects at one path are joined member by member, anything else replaces what was there, a field may leave out the separator before a brace, values without quotes are strings, those in three quotes are the text between them as it stands, and several words, numbers and strings on a line, such as 10s or my \"own\" words, are one string with the blanks between them kept, several lists on a line are one list, and several objects are joined into one. Every getter reads such a value as in C76, and all other paths are absent. Resolving changes nothing.", "quantifier": "all texts of the grammar in Hocon_Spec.v, of any depth and length; all path expressions; all options, files and environments", "why_tests_cant": "the order of definitions, the joining of objects and the layout interact at any depth in unboundedly many texts", "anchors": ["lib/src/config_parser.cc: parse_object, parse_value, create_value_under_path", "lib/src/config_document_parser.cc: parse_object, parse_key, consolidate_values, parse", "lib/src/tokenizer.cc", "lib/src/config.cc: parse_string, parse_file_any_syntax"]}
{"id": "C79", "title": "A HOCON document with fallbacks is read as if it were written behind them", "statement": "For configs read from HOCON texts as in C78, first.with_fallback(second).with_fallback(third) and so on succeeds and gives at every path what the one document would define that has the fields of the last fallback first, those of the second to last behind them, and those of the first document at the end. The result is resolved.", "quantifier": "any number of documents, all texts of the grammar in Hocon_Spec.v; all path expressions", "why_tests_cant": "it relates merging inside the parser with merging of configs, for every text and any number of layers", "anchors": ["lib/src/config.cc: with_fallback", "lib/src/values/config_value.cc: with_fallback, merged_with_non_object", "lib/src/values/simple_config_object.cc: merged_with_object", "lib/src/config_parser.cc: parse_object"]}
{"id": "C80", "title": "Only numbers with a unit are durations", "statement": "Every text given to parse_duration is either a number without an exponent followed by one of the listed names of units, with white space allowed before, between and behind them, or is refused with bad_value_exception or config_exception. What get_duration returns comes from a number or from such a text.", "quantifier": "all strings; all configs without unresolved values, all path expressions, all units", "why_tests_cant": "it is a claim about all texts that must be refused", "anchors": ["lib/src/config.cc: parse_duration, get_units, get_duration, convert"]}
{"id": "C81", "title": "A HOCON document is read as if what its include statements name stood in their places", "statement": "A HOCON text as in C78 may have include statements wherever fields may stand, at any depth; the included files may include others. A .conf file contributes what it defines, a .json file the members of its object, and a .conf file that is not there nothing. The config read from the text has at every path what all these definitions give in the order in which they stand, those of an included file in the place of the statement and, inside braces, below the path of the braces. Relative names are seen from the directory of the file the statement is in. Every getter reads such a value as in C76, and all other paths are absent. Resolving changes nothing.", "quantifier": "all file systems, all texts of the grammar in Hocon_Spec.v, any depth of includes; all path expressions; all options without an includer of the application; all environments", "why_tests_cant": "includes at any depth of braces and files interact with every order of definitions", "anchors": ["lib/src/config_parser.cc: parse_include, parse_object", "lib/src/config_document_parser.cc: parse_include, parse_object", "lib/src/simple_includer.cc: from_basename, include_without_fallback", "lib/src/parseable.cc: parse, relative_to", "lib/src/config.cc: parse_string, parse_file_any_syntax"]}
{"id": "C82", "title": "What the forms of an include statement mean", "statement": "A document that is one include statement with a name in quotes asks the includer for that name in the general way, and one with file(\"name\") asks for the file of that name as such; both are then what the includer finds, with the same fields or the same error, and escapes in the name are decoded. With url(...) and classpath(...) the document is refused with a config exception without asking, and any other word before the parenthesis is a parse error.", "quantifier": "all blanks between the parts, all names with all ways to escape them, all includers, all other words of letters", "why_tests_cant": "any spacing and spelling of names, any other word, and any result of the includer", "anchors": ["lib/src/config_document_parser.cc: parse_include", "lib/src/config_parser.cc: parse_include", "lib/src/nodes/config_node_include.cc"]}
