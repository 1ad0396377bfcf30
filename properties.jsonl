{"id": "C01", "title": "JSON documents keep their value", "statement": "For every JSON value and every way of laying that value out as text with insignificant whitespace, json::minify yields exactly the compact serialization of that value (every string literal and number verbatim, no whitespace between tokens), provided that no string literal contains a raw ASCII control character (DEL included), ends with a backslash, or contains a quote among its last two characters.", "quantifier": "all JSON values (any nesting, any number of members), all layouts with any amount of space/tab/CR/LF between any two tokens", "why_tests_cant": "The set of documents and layouts is infinite and nested; tests sample a handful of documents.", "anchors": ["src/json/json_minifier.rs: keep_element, is_whitespace_outside_string", "src/json/string.rs: JsonMultiFilter::next", "src/json/mod.rs: minify"]}
{"id": "C02", "title": "JSON documents that are corrupted", "statement": "The side condition of C01 cannot be dropped: there are well-formed JSON documents whose minified text denotes a different value. An escaped quote or an escaped backslash at the end of a string literal, and a raw DEL in a literal, each have a witness (for example [\"\\\"\",\"a b\"] loses the space of the second string).", "quantifier": "existence of well-formed documents outside the side condition of C01, one per clause", "why_tests_cant": "The crate's tests contain only documents inside the safe class; the escape counter goes wrong two characters after an escaped quote.", "anchors": ["src/json/json_minifier.rs: is_whitespace_outside_string"]}
{"id": "C03", "title": "JSON minification only deletes whitespace and control characters", "statement": "For every input string (valid JSON or not), json::minify(s) is obtained from s by deleting characters, in order, and every deleted character is Unicode whitespace or an ASCII control character. In particular every other character survives with its multiplicity and the output is never longer than the input.", "quantifier": "all strings of Unicode scalar values", "why_tests_cant": "Ranges over all strings, including malformed JSON and arbitrary Unicode.", "anchors": ["src/json/json_minifier.rs: keep_element", "src/json/string.rs: JsonMultiFilter::next"]}
{"id": "C04", "title": "JSON output has no removable characters left", "statement": "For every input, the output of json::minify contains no ASCII control character, and if the input contains no backslash then no whitespace occurs in the output outside of a double-quoted string.", "quantifier": "all strings of Unicode scalar values", "why_tests_cant": "Universal statement about the output of every input.", "anchors": ["src/json/json_minifier.rs: keep_element"]}
{"id": "C05", "title": "JSON minification is idempotent", "statement": "Minifying an already minified text changes nothing: json::minify(json::minify(s)) = json::minify(s) for every s in which no backslash is directly followed by an ASCII control character (in particular for every s without control characters); without that condition it fails, and a witness is given.", "quantifier": "all strings of Unicode scalar values", "why_tests_cant": "Needs agreement of two runs of an automaton with lookahead on every input.", "anchors": ["src/json/json_minifier.rs: keep_element", "src/json/string.rs: JsonMultiFilter"]}
{"id": "C06", "title": "write and Display produce the same text, and a failing writer gets a prefix", "statement": "For CSS, JS and JSON alike, Minified::write sends to its writer exactly the text that Display/to_string produces; if the writer fails at some point, the error is returned and what the writer has accepted until then is a prefix of that text. One exception, in JS: when the writer refuses the body of a regular expression, the flags of that expression are still offered to it, so up to two flag characters may follow the prefix (witness given).", "quantifier": "all minified values, all writers (each write may accept or fail, at any point)", "why_tests_cant": "Ranges over every writer behaviour and every failure point.", "anchors": ["src/json/string.rs: write, fmt", "src/css/token.rs: Tokens::write, fmt", "src/js/token.rs: tokens_writer!"]}
{"id": "C07", "title": "Streaming JSON equals batch JSON", "statement": "If a source delivers the UTF-8 encoding of s with full reads, then for every sequence of non-empty caller buffers, the bytes returned by minify_from_read(..).read are, when every character kept by the minifier is ASCII, exactly the bytes of json::minify(s) cut at the buffer sizes: the k-th call returns the next min(buffer, remaining) bytes, and after them every call returns 0.", "quantifier": "all documents with ASCII output, all schedules of caller buffer sizes (the first one also fixes the internal buffer size)", "why_tests_cant": "Ranges over all schedules of buffer sizes; tests use read_to_string only.", "anchors": ["src/json/read/json_read.rs: Read::read, add_char_to_buffer", "src/json/read/internal_reader.rs", "src/json/read/internal_buffer.rs"]}
{"id": "C08", "title": "Streaming JSON and multi-byte characters", "statement": "For every document (any Unicode) and every schedule of non-empty caller buffers, the n-th call of read returns exactly the bytes obtained by packing whole characters of json::minify(s) into the buffer and cutting the last one at the end of the buffer; the cut-off bytes are never delivered. Hence streaming equals batch when no kept character straddles a buffer end, and a witness shows bytes being lost when one does.", "quantifier": "all documents, all schedules of buffer sizes", "why_tests_cant": "The loss shows only for particular alignments of characters and buffers.", "anchors": ["src/json/read/json_read.rs: read, add_char_to_buffer (item_iter is never drained first)"]}
{"id": "C09", "title": "Short reads of the source", "statement": "For every source that delivers its data in arbitrary pieces, read behaves as if the document ended with the first piece that does not fill the internal buffer: what is delivered is exactly the minification of the data up to the first short read. Hence a document is complete iff the first short read is the last one; a witness shows a valid document being truncated without an error.", "quantifier": "all sources (all segmentations of the data into read results), all buffer schedules", "why_tests_cant": "io::Read allows any segmentation; files in tests always fill the buffer.", "anchors": ["src/json/read/internal_buffer.rs: cont", "src/json/read/internal_reader.rs: next"]}
{"id": "C10", "title": "Byte stream decoding accepts exactly UTF-8", "statement": "Decoding the bytes of the source succeeds exactly for well-formed UTF-8 and then yields the encoded scalar values; at the first malformed position it yields an InvalidData error, never a wrong character and never a panic.", "quantifier": "all byte sequences", "why_tests_cant": "All byte sequences, including truncated, overlong and surrogate encodings.", "anchors": ["src/json/read/byte_to_char.rs: ByteToChar::next, UTF8_CHAR_WIDTH"]}
{"id": "C11", "title": "End of stream is sticky, empty buffers are inert", "statement": "read with an empty buffer returns 0 and changes nothing, at any time. Once read has returned 0 for a non-empty buffer every later read returns 0, whatever the source.", "quantifier": "all reader states reachable by any history of calls", "why_tests_cant": "Ranges over all call histories.", "anchors": ["src/json/read/json_read.rs: read"]}
{"id": "C12", "title": "Panics of the streaming reader", "statement": "With a source that reports no I/O error and delivers well-formed UTF-8, no sequence of read calls panics. After the very first call has failed (source error, or a malformed first character) the next call with a non-empty buffer panics; after a later failure every call returns 0.", "quantifier": "all sources, all call histories", "why_tests_cant": "Failure points of the source and histories are unbounded; std's own retry on Interrupted triggers the panic.", "anchors": ["src/json/read/json_read.rs: read (self.read.take().unwrap())"]}
{"id": "C13", "title": "CSS minification is total", "statement": "css::minify returns Ok or Err for every string: it terminates and none of its slices, index computations or assertions can panic, for any Unicode input.", "quantifier": "all strings of Unicode scalar values", "why_tests_cant": "Byte-offset arithmetic on arbitrary Unicode; the repo found two such panics by fuzzing.", "anchors": ["src/css/token.rs: tokenize, get_comment, get_string, fill_other, clean_tokens"]}
{"id": "C14", "title": "CSS rejection is exactly lexical imbalance", "statement": "css::minify(s) fails iff scanning s from the left meets, first, one of: a string left open, a comment left open, a '[' inside '[...]', a ']' outside, or a '}' without '{' (all outside strings, comments and escapes), and the error message names that problem.", "quantifier": "all strings of Unicode scalar values", "why_tests_cant": "Both directions of an equivalence over all inputs.", "anchors": ["src/css/token.rs: tokenize"]}
{"id": "C15", "title": "CSS lexical items survive", "statement": "Whenever css::minify(s) succeeds, the sequence of lexical items of the output (words, string literals verbatim, escapes, punctuation, licence comments) equals that of the input: no item is lost, invented, reordered, split, merged with a neighbour, or altered; only whitespace and ordinary comments change. The exceptions are exactly three layouts: a '/' followed, across whitespace or comments, by '*='; a word followed, across whitespace or comments, by a word that starts with a backslash escape; an at-keyword directly followed by a backslash escape.", "quantifier": "all strings of Unicode scalar values on which minification succeeds", "why_tests_cant": "Merging of neighbours depends on the whole context of every removed blank; needs an invariant over all token sequences.", "anchors": ["src/css/token.rs: tokenize, clean_tokens, Display"]}
{"id": "C16", "title": "The three unsafe CSS layouts are really damaged", "statement": "The exceptions in C15 are real: '/ *=' minifies to '/*=', an unterminated comment, which css::minify itself then rejects; 'a \\b' minifies to 'a\\b', one word instead of two; '@a\\b' minifies to '@a \\b', two words instead of one.", "quantifier": "existence", "why_tests_cant": "Found only because the proof of C15 needs the hypothesis.", "anchors": ["src/css/token.rs: clean_tokens (the Slash/Star rule), tokenize (EqualSign)"]}
{"id": "C17", "title": "CSS licence comments are kept, other comments are dropped", "statement": "For a source outside the three unsafe layouts of C15, the licence comments of the output, in order and with their exact bodies, are those of the input (/*! or /** form), and the output contains no other comment.", "quantifier": "all inputs outside the layouts of C15 on which minification succeeds", "why_tests_cant": "All arrangements of comments, strings and escapes.", "anchors": ["src/css/token.rs: get_comment, Display for Token"]}
{"id": "C18", "title": "Minified CSS can be minified again", "statement": "If css::minify(s) = Ok(o) and s has none of the three unsafe layouts of C15, then o has none of them either, css::minify(o) succeeds, and however often minification is repeated the lexical items and licences stay the same.", "quantifier": "all inputs", "why_tests_cant": "Composition of the two runs on all inputs.", "anchors": ["src/css/mod.rs: minify"]}
{"id": "C19", "title": "CSS minification is not idempotent and can grow", "statement": "css::minify is neither idempotent (a leading comment leaves a blank that a second run removes) nor non-increasing in length ('@a{}' grows). It is bounded: the output never exceeds the input by more than one character per '@' and per licence comment.", "quantifier": "existence, and all inputs for the bound", "why_tests_cant": "The bound ranges over all inputs.", "anchors": ["src/css/token.rs: Display for SelectorElement, clean_tokens"]}
{"id": "C20", "title": "Significant CSS blanks", "statement": "In a source outside the layouts of C16, where blanks or comments stand, a blank stays in the output at the same place (same items before and after it): (1) between the end of a word, a string, ')' or ']' and a word, a string or '['; (2) after ']' before anything but '{'; (3) in a top level selector, between a simple selector and '*', between '*' and a tag, class or identifier, and before a pseudo class; (4) in a declaration, between a word and '('; (5) after an at-keyword, and in the head of an at-rule between a word and '('; (6) inside calc(...) of a declaration, after an operand or operator and before anything, when the sheet uses the word calc only as a function; (7) between '*' and '=', which would read as one operator, and between '^', '$' or '~' and '=' where a comment stands. Elsewhere blanks that mean something are dropped: '^ =', '$ =', '~ =' and '| =' are joined into operators, 'a ::before', ':not(.b) *', '* [x]', '* *', '+' in min()/max()/clamp(), '@supports' nested in '@media', calc in '@page', each with a witness.", "quantifier": "all inputs, all gaps for the preserved blanks; existence for the dropped ones", "why_tests_cant": "Blank removal is decided twice, when the token before is pushed and from the neighbouring retained tokens, and depends on block depth, at-rules and calc nesting; tests sample some pairs only.", "anchors": ["src/css/token.rs: tokenize (blank handling), fill_other, clean_tokens"]}
{"id": "C21", "title": "JS tokenization terminates", "statement": "js::tokenize / simple_minify / minify terminate on every input (also when a regex scan fails and its characters are replayed).", "quantifier": "all strings of Unicode scalar values", "why_tests_cant": "Replay of saved characters makes progress non-obvious; needs a measure over all executions.", "anchors": ["src/js/token.rs: tokenize, get_regex, MyPeekable"]}
{"id": "C22", "title": "JS tokenization can panic", "statement": "js::minify panics on some malformed inputs only: a // comment that is ended by the end of input and starts with a multi-byte character, an unclosed /* comment whose last character is multi-byte, and (sometimes) after a slash that is taken for the start of a regular expression which does not end and whose line has a dot, a backtick or a backslash. In all other cases, in particular on every input without '/' and on every input whose literals, comments and regular expressions are closed, it does not panic.", "quantifier": "all inputs; for the panics all readable beginnings before the comment", "why_tests_cant": "Totality over an infinite class; witnesses found while proving.", "anchors": ["src/js/token.rs: get_comment, get_line_comment, MyPeekable::peek, check_if_number"]}
{"id": "C23", "title": "JS tokenization is lossless", "statement": "For every source in which literals, comments and regular expressions are closed, tokenize cuts the source into consecutive pieces, each the spelling of its token (words, longest operators, strings, templates, comments, regexes as in the lexical specification). For sources without comment or regex, printing the tokens gives back the source piece by piece, except that CR becomes LF and decimal integers lose leading zeros.", "quantifier": "all sources whose literals, comments and regular expressions are closed", "why_tests_cant": "All sources; positions and slices must tile the source.", "anchors": ["src/js/token.rs: tokenize, fill_other, handle_equal_sign, check_if_number"]}
{"id": "C24", "title": "A final line comment leaks into the output", "statement": "A // comment ended by the end of input is not removed: after any readable source, all of its text but the first character becomes one token of the program (the word it spells, when it has no + and -) (js::minify(\"//abc\") = \"bc\").", "quantifier": "all comment texts of at least two characters, the first of them ASCII, after any readable source whose last line has no other slash", "why_tests_cant": "All tests end with a newline.", "anchors": ["src/js/token.rs: get_line_comment, tokenize"]}
{"id": "C25", "title": "Template literal nesting limit", "statement": "Templates nested in ${...} more than 1000 levels deep are rejected with the nesting error, templates nested less deep are never rejected (a source is rejected only for such a template or after a slash taken for the start of a regular expression that does not end), and the only error of js::tokenize is that one.", "quantifier": "all inputs, all nesting depths", "why_tests_cant": "Depth is unbounded; the test uses one depth.", "anchors": ["src/js/token.rs: get_backtick_string, MAX_BACKTICK_NESTING"]}
{"id": "C26", "title": "clean_tokens removes exactly blanks, comments and leading semicolons", "statement": "clean_tokens returns the input tokens in order without whitespace characters and comments and without the semicolons before the first other remaining token, and nothing else is removed (licence comments stay). It is idempotent.", "quantifier": "all token lists (also ones built by the caller)", "why_tests_cant": "All token lists.", "anchors": ["src/js/utils.rs: clean_tokens, get_next"]}
{"id": "C27", "title": "clean_tokens_except honours the callback", "statement": "For every callback f: every token t with f(t) = false is kept; every whitespace or comment token with f(t) = true is removed; all tokens other than whitespace, comments and semicolons are kept, in order. A semicolon t with f(t) = true is dropped when it is leading, last, or before '}' (unless it directly follows a kept semicolon), and only then. It is not the same as clean_tokens for the constant-true callback.", "quantifier": "all token lists, all callbacks", "why_tests_cant": "Ranges over all callbacks.", "anchors": ["src/js/utils.rs: clean_tokens_except, get_next_except"]}
{"id": "C28", "title": "clean_token and clean_token_except", "statement": "clean_token(t,next) is false exactly for comments, whitespace, and a semicolon directly before '}'; clean_token_except(t,next,f) is true iff clean_token is, or f(t) is false.", "quantifier": "all tokens, all next tokens, all callbacks", "why_tests_cant": "All tokens and callbacks.", "anchors": ["src/js/utils.rs: clean_token, clean_token_except"]}
{"id": "C29", "title": "replace_tokens_with is positional", "statement": "replace_tokens_with changes exactly the tokens for which the callback returns Some, in place, keeps the length and the order, and leaves every other token untouched.", "quantifier": "all token lists, all callbacks", "why_tests_cant": "All callbacks.", "anchors": ["src/js/utils.rs: replace_tokens_with, replace_token_with"]}
{"id": "C30", "title": "Printed tokens are separated where needed", "statement": "In the printed form a Keyword or Other token is never directly followed by a Keyword, Other, Number, FloatingNumber or CreatedVarDecl token: a single blank stands between, and the printer adds blanks nowhere else except before in/instanceof. The tokens themselves appear verbatim in order.", "quantifier": "all token lists", "why_tests_cant": "All adjacent pairs in all token lists.", "anchors": ["src/js/token.rs: tokens_writer!, get_required, requires_before"]}
{"id": "C31", "title": "Pairs the printer glues together", "statement": "The printer glues a number to a following word, two operators that form another operator, and a keyword to a created variable: minify(\"a + +b\") = \"a++b\", minify(\"1 .toString()\") = \"1.toString()\" (which a JavaScript engine rejects), and aggregation turns return \"...\" into returnr_aa.", "quantifier": "existence", "why_tests_cant": "Requires particular neighbours that tests do not contain.", "anchors": ["src/js/token.rs: tokens_writer!, get_required"]}
{"id": "C32", "title": "Keywords, operators and characters print back to what was parsed", "statement": "Every keyword prints to the text that parses to it and only that text parses to it; every reserved character prints to a character that parses to it; parsing and printing agree for operations and conditions. The same holds for the reserved characters and operators of CSS; a carriage return is read as a line end in both.", "quantifier": "all keywords/characters/strings", "why_tests_cant": "All strings (no other text parses as a keyword).", "anchors": ["src/js/token.rs: Keyword, ReservedChar, Operation, Condition", "src/css/token.rs: ReservedChar, Operator"]}
{"id": "C33", "title": "get_variable_name_and_value_positions is sound", "statement": "It never indexes out of bounds, and a result (n, Some v) satisfies pos <= n < v < len, token n is an identifier, token v is a string, identifier, regex or number, exactly one '=' and otherwise only blanks/comments stand between; a result (n, None) means n is followed, across blanks and comments without line feed, by ',' or ';'.", "quantifier": "all token lists, all positions", "why_tests_cant": "All token lists and positions.", "anchors": ["src/js/utils.rs: get_variable_name_and_value_positions"]}
{"id": "C34", "title": "Generated names never repeat", "statement": "The name generator produces pairwise different names for ever, each a valid identifier made of the prefix and at least two alphanumeric characters, and every such identifier is produced at some point.", "quantifier": "all numbers of generated names", "why_tests_cant": "Infinite sequence; the test generates 20000.", "anchors": ["src/js/utils.rs: VariableNameGenerator"]}
{"id": "C35", "title": "What aggregate_strings changes", "statement": "aggregate_strings (with or without separator) returns a declaration prefix followed by a list of the same length as the input, where every token is either unchanged, or a string literal replaced by a created variable that the prefix declares with exactly that literal, or a string literal replaced by the name of an existing r_ variable whose declared value is that literal. A token list without string literals is unchanged. The program's meaning is not always preserved: the existing variable may be out of scope or not have its value yet, and literals used as property names are replaced too (witnesses given).", "quantifier": "all token lists", "why_tests_cant": "All token lists; every hash-map iteration order.", "anchors": ["src/js/tools.rs: aggregate_strings_inner, get_variables_name"]}
{"id": "C36", "title": "Created names are fresh", "statement": "Names created by aggregate_strings are pairwise different, r_ followed by at least two alphanumeric characters, and different from every variable that is declared with a value found by the scan; each is the first name of the generator that is not in use. They can clash with an r_ variable declared without a value or with a parameter: witness given.", "quantifier": "all token lists", "why_tests_cant": "All sets of existing names; termination of the search for a free name.", "anchors": ["src/js/tools.rs: aggregate_strings_inner"]}
{"id": "C37", "title": "Aggregation is documented to shorten but can lengthen", "statement": "The documentation of aggregate_strings and aggregate_strings_into_array says replacement is only performed when it takes less space; a literal is given a variable only if it occurs at least twice and (name + literal + 6 + n name) < (n + 2) literal in bytes, where n is its number of occurrences; but this is not the condition that makes the program shorter: there are programs whose printed result is longer.", "quantifier": "all token lists; existence for the refutation", "why_tests_cant": "The cost formula counts (n+2)*len.", "anchors": ["src/js/tools.rs: aggregate_strings_inner, aggregate_strings_into_array_inner"]}
{"id": "C38", "title": "Array aggregation points at the right element", "statement": "When no array of the given name exists, aggregate_strings_into_array creates an array whose k-th element is a double-quoted literal with the content of the k-th aggregated string, and every replaced literal becomes name[k] for its own content; all other tokens are unchanged and in order. The filter is honoured: a token it rejects is never replaced.", "quantifier": "all token lists whose strings have their two delimiters (as the tokenizer makes them), names, separators and filters", "why_tests_cant": "All token lists and filters, every hash-map order.", "anchors": ["src/js/tools.rs: aggregate_strings_into_array_inner"]}
{"id": "C39", "title": "Array aggregation into an existing array", "statement": "When the array exists and all its elements are string literals separated by single commas, existing indices stay valid, new elements are appended and every reference points to its content. If the existing array contains a non-string element or a trailing comma the created index is wrong, and an array made by an earlier call on the same token list is not recognised and declared twice: witnesses given.", "quantifier": "all token lists with such an array whose strings have their two delimiters, in which no let or var stands where the name, equal sign or value of a declaration is expected; existence for the failure", "why_tests_cant": "All arrays and token lists.", "anchors": ["src/js/tools.rs: aggregate_strings_into_array_inner", "src/js/utils.rs: get_array"]}
{"id": "C40", "title": "Aggregation does not depend on hash order", "statement": "The result of the aggregation functions is the same for every iteration order of the hash maps they use.", "quantifier": "all iteration orders (permutations)", "why_tests_cant": "HashMap order is random per process; tests see one order per run.", "anchors": ["src/js/tools.rs: inner_loop!, sort_unstable_by"]}
{"id": "C41", "title": "Literals that array aggregation breaks", "statement": "Array aggregation re-quotes with double quotes without escaping: a single-quoted literal containing a double quote, and a template literal with an interpolation, are turned into a different or malformed literal; a single-quoted literal without a double quote keeps its content.", "quantifier": "existence; all literals without a double quote for the harmless case", "why_tests_cant": "Requires particular literals.", "anchors": ["src/js/tools.rs: aggregate_strings_into_array_inner"]}
{"id": "C42", "title": "HTML comments", "statement": "remove_comments replaces every comment by one blank unless its text, after the opening marker and blanks, starts with '[' (conditional comments are kept verbatim); text outside comments is unchanged.", "quantifier": "all strings", "why_tests_cant": "All arrangements of markers, overlapping and unterminated.", "anchors": ["src/html.rs: remove_comments"]}
{"id": "C43", "title": "HTML tag removal", "statement": "clean_unneeded_tags only deletes occurrences of the listed tags; text containing none of them is unchanged; in a document in which every < is closed before the next one exactly the listed tags go and none is left. In other documents it is not a fixpoint: deletion can create a listed tag.", "quantifier": "all strings", "why_tests_cant": "31 sequential global replacements on all strings.", "anchors": ["src/html.rs: clean_unneeded_tags"]}
{"id": "C44", "title": "HTML whitespace", "statement": "Without <pre/<textarea, after condense_whitespace no two adjacent whitespace characters and no CR/LF remain, each run of white space becomes the one character the specification gives (one blank, or itself if it was a single character that is no line end and not between > and <), and everything else is unchanged; with one of them, only the ends are trimmed. Line ends inside inline scripts are not spared: a line comment swallows the code after it.", "quantifier": "all strings", "why_tests_cant": "All strings; relies on leftmost-first regex semantics.", "anchors": ["src/html.rs: condense_whitespace"]}
{"id": "C45", "title": "HTML output is trimmed and minification total", "statement": "html::minify terminates on every input without panic: its result is what the stages (comments, type attributes, tags, white space, attributes, trimming) specify one after the other, it neither starts nor ends with whitespace, and without preformatted text it has no doubled white space and no line end. It is not idempotent.", "quantifier": "all strings", "why_tests_cant": "All strings.", "anchors": ["src/html.rs: minify, unquote_attributes"]}
{"id": "C46", "title": "CLI file type and output path", "statement": "The type is the -t option (exactly css, js or json) or else the extension (the text after the last dot of the last name, when something precedes the dot), case-insensitively, among css/js/json; with no such type nothing is read or written. Without -o the output path is the input path with its extension replaced by min.<type> (added when there is none): it is unique, lies in the directory of the input and never is the input.", "quantifier": "all paths, options and file systems", "why_tests_cant": "All paths, including several dots, leading dots, trailing slashes, dot components.", "anchors": ["src/cli.rs: FileType::from, write_out_file"]}
{"id": "C47", "title": "CLI effect on the file system", "statement": "Processing one file writes at most one file, the output path's (the -o path, or, when -o is a directory, the renamed input joined to it - an absolute input ignores -o), whose content becomes exactly the minified text of the input's content at the start; apart from it only directories leading to an -o path can be new. A missing or unreadable input changes nothing and does not stop the run. In a run without -o only outputs change, and outputs that are neither inputs nor shared all end up right; with several inputs and one -o file the last one decides.", "quantifier": "all file systems, argument lists, permissions and write failures", "why_tests_cant": "All file systems and argument sequences.", "anchors": ["src/cli.rs: write_out_file, Cli::init"]}
{"id": "C48", "title": "CLI failure truncates the target", "statement": "If minification of the content fails (CSS error, JS error or panic), the target has already been emptied: an existing target loses its content, and with -o naming the input itself the source is lost. No other file changes, and the inputs that follow are not processed. Input that is not UTF-8, or a directory, panics before anything is written. When the directories of an -o path cannot be made, the run panics and no file is written. JSON never fails, CSS exactly on the texts for which css::minify reports an error.", "quantifier": "all file systems in which the minifier fails", "why_tests_cant": "Crash point inside write!, after open(truncate).", "anchors": ["src/cli.rs: write_out_file (OpenOptions.truncate before func)"]}
{"id": "C49", "title": "JS words", "statement": "A word is a keyword exactly when it is in the keyword table, a Number exactly when it is a decimal integer below 2^64 (then it is printed without leading zeros, so a legacy octal literal changes its value), a FloatingNumber exactly when it is a decimal floating point literal or one of inf/infinity/nan in any case, and an Other word otherwise.", "quantifier": "all words", "why_tests_cant": "All strings; the number grammars are those of the standard library's parsers.", "anchors": ["src/js/token.rs: fill_other, parse_number"]}
{"id": "C50", "title": "JS tokenization of every source", "statement": "Every source is read by the lexical specification up to its end, or up to a literal or comment that does not end, or up to a slash taken for the start of a regular expression that does not end and whose line has a dot, a backtick or a backslash; in the first case the tokens are those of the specification, and for an unclosed literal the opening quote is dropped and everything behind it becomes a single word.", "quantifier": "all strings", "why_tests_cant": "All strings, including all malformed ones.", "anchors": ["src/js/token.rs: tokenize, get_string, get_backtick_string, get_comment, get_line_comment"]}
{"id": "C51", "title": "HTML start tags", "statement": "unquote_attributes copies the text outside start tags; in a start tag it removes white space between a quotation mark and the closing bracket, may shorten (never remove) other runs of white space, and removes the quotation marks around the values of width and height when these consist of letters, digits, - _ . only; it never panics. In text without doubled white space this determines the result. Text inside another attribute's value that looks like a width attribute is changed too. Doubled white space between words is shortened in some places only ('<pre aa  bb>' but not '<pre a  b>'), and a tag with a line end in it is left as it is.", "quantifier": "all strings, all Unicode word and digit classes", "why_tests_cant": "Eight regular expressions applied to each other's results on all strings.", "anchors": ["src/html.rs: unquote_attributes"]}
{"id": "C52", "title": "HTML type attributes", "statement": "condense removes from each start tag of style or script every type=\"...\" (with the white space before it), including types that matter (module) and the end of names such as data-type; everything else is unchanged.", "quantifier": "all strings", "why_tests_cant": "Nested regular expressions on all strings.", "anchors": ["src/html.rs: condense"]}
{"id": "C53", "title": "HTML output is not longer", "statement": "The output of html::minify never has more characters than the source.", "quantifier": "all strings", "why_tests_cant": "All strings, through six rewriting stages.", "anchors": ["src/html.rs: minify"]}
{"id": "C54", "title": "Minified JavaScript reads back as the same tokens", "statement": "For a source that is read to its end (all literals, comments and regular expressions closed) and whose minified tokens are not glued to their neighbours (no number directly before a word, no slash before something that makes a comment, no operator before a character that makes a longer one, no dot that would join a number, no regular expression before a letter that is a flag, no division after ++ or -- with a slash, dot, backtick, backslash or line end behind), tokenizing the output gives exactly the tokens of the minified list plus the blanks the printer added, and minifying the output again returns it unchanged. Each kind of glued neighbours is really read differently, and minification is not idempotent there (a / /b/.c).", "quantifier": "all sources", "why_tests_cant": "The output must survive a second reading for every sequence of tokens; tests compare the text of a few outputs.", "anchors": ["src/js/token.rs: tokenize, tokens_writer!, get_required", "src/js/tools.rs: minify"]}
{"id": "C55", "title": "Minified JavaScript is not longer", "statement": "For a source that is read to its end the output has at most as many bytes as the source plus one for each in or instanceof that directly follows a licence comment, a regular expression or an operator; such a blank is really added.", "quantifier": "all sources", "why_tests_cant": "Needs that two words are never neighbours in the token list without something dropped between them, for all sources.", "anchors": ["src/js/token.rs: tokenize, tokens_writer!, requires_before", "src/js/tools.rs: minify"]}
{"id": "C56", "title": "JavaScript regular expression literals", "statement": "A regular expression literal at the start, after an operator, a comparison or one of ; : , [ ( ! { ? | & is one token and its text is in the output (flags g and i in this order). After a word (return, typeof), a closing bracket or a closing brace it is read as code: for every word w, p /   w/ and p /w/ are minified to the same text, a quote in it is lost (return /'/.test(x) becomes return//.test(x)), and a slash in a character class ends the literal (a=/[/]  b/ becomes a=/[/]b/).", "quantifier": "all sources before the literal, all literals", "why_tests_cant": "Which positions are affected depends on everything before the literal.", "anchors": ["src/js/token.rs: tokenize, get_regex, the regex position test"]}
{"id": "C57", "title": "JavaScript division after ++ and --", "statement": "After ++ or --, where the tokenizer looks for a regular expression, a slash or /= is a division and what follows is read as it is written, provided the rest of its line has no slash, dot, backtick or backslash and the literals behind it are closed. With a second slash on the line the text between is taken for a regular expression, with a line comment the next line is commented out (a++ / 2 // c, then b() on its own line), and with a dot the rest of the line is read wrongly (a++ / b.c; followed by a line (d) becomes a++/b.c; and (;(d)).", "quantifier": "all sources before the slash without another slash in the last line, all sources behind it", "why_tests_cant": "The look-ahead is undone by replaying characters; whether the replay is faithful depends on every character of the line.", "anchors": ["src/js/token.rs: get_regex, MyPeekable, tokenize"]}
{"id": "C58", "title": "Needless CSS blanks are removed", "statement": "Outside calc and the layouts of C16, no blank remains (1) after '{ } ; , > : ( [ + / | ~ $ ^', whatever blanks and comments stand there, unless the next piece is '=' or would open a comment; (2) after the '=' of an attribute selector; (3) where only blanks stand before '{ } ; , > ) ] + /' or a combinator '| ~ $ ^' that no '=' follows, unless they stand after an at-keyword, a licence comment, or ']' (']' before '{' drops it); (4) at the start of the sheet. Inside calc too, no blank remains where only blanks stand after '{ } ; , > : ( [ | ~ $ ^', with the same exception for '='. Any gap outside calc, comments included, leaves at most one blank, except before '=' and between an at-keyword and '*'. In (1), (2), (3) and here the word calc must only be used as a function. Without these conditions needless blanks stay: 'a /**/{}' keeps one, a leading comment leaves one, '@a *' gets two, a licence comment in calc gets two.", "quantifier": "all inputs, all gaps", "why_tests_cant": "Blank removal is decided twice and from the neighbouring retained tokens; a gap can be any mixture of blanks and comments.", "anchors": ["src/css/token.rs: tokenize (blank handling), clean_tokens, Display for SelectorElement, Display for License"]}
{"id": "C59", "title": "The minified JavaScript does not depend on the layout", "statement": "Two sources with the same tokens, apart from white space and comments that are not licences, are minified to the same text. In any place between two parts of a source, the first of which has no slash in its last line, white space and comments can be exchanged for any other white space and comments (at least one character, not starting with a carriage return) without changing the result. A line break is white space like any other: the semicolons JavaScript inserts at line breaks are lost (return, line break, x becomes return x; two statements a=b and c=d on two lines become a=b c=d). A carriage return after a number ending in a dot is read differently from a blank.", "quantifier": "all sources, all places between tokens, all layouts", "why_tests_cant": "Both sources are arbitrary and the comment text is arbitrary; the tokenizer keeps iterator state across the comment.", "anchors": ["src/js/token.rs: tokenize, get_comment, get_line_comment", "src/js/utils.rs: clean_tokens"]}
{"id": "C60", "title": "Line ends of the minified JavaScript", "statement": "The line ends of the output are exactly those inside the strings, template literals, licence comments and regular expressions of the source, in their order. A source with none there is minified to a single line. A regular expression can contain one (after a backslash), which is kept.", "quantifier": "all sources whose literals and comments are closed", "why_tests_cant": "Every token of every source has to be printed without a line end.", "anchors": ["src/js/token.rs: tokenize, Display for Token, tokens_writer!", "src/js/tools.rs: minify"]}
{"id": "C61", "title": "Minifying CSS adds no blank", "statement": "Outside the layouts of C16, the pieces of the output (characters, strings, punctuation, licences, blanks) are those of the source in the same order, where each blank or comment is kept, dropped or turned into one blank. A blank is added in two places only: one after the keyword of an at-rule outside declarations and attribute selectors, when none stands there, and one line end after a licence comment. Hence two neighbouring pieces of the source, such as a function name and its parenthesis or a dot and a class name, are neighbours in the output, unless the first is a licence or ends the keyword of an at-rule. The exceptions are real: '@media(a){}' becomes '@media (a){}'.", "quantifier": "all accepted style sheets outside the layouts of C16, all pairs of neighbours", "why_tests_cant": "A blank inserted between any two pieces can change the meaning (a descendant combinator, a function call); whether one is printed depends on the token class, which depends on the whole prefix.", "anchors": ["src/css/token.rs: tokenize, fill_other, clean_tokens, Display for SelectorElement, Display for License"]}
{"id": "C62", "title": "A CSS parser reads the same tokens from the minified sheet", "statement": "Tokenize source and output as CSS Syntax Module Level 3 prescribes (idents, functions, urls, at-keywords, hashes, strings, numbers with units, escapes, comments, CDO/CDC). The tokens other than white space and comments are the same, in the same order and with the same values, for every accepted style sheet outside the layouts of C16 that is tidy: each part between two gaps is read without parse error and does not end in an escape, and no gap alone holds apart an ident and '(', '+' and a number, an 'e' dimension and '+', '--' and '>', '/' and '*', or a string and an escape, except where C20 keeps the blank (in declarations, heads of at-rules, calc). An unquoted url with blanks inside the parentheses is not tidy. Without tidiness tokens are lost: 'a (b){}', 'min(1px + 2px)', 'nth-child(2n + 1)', '1e +5' and '-- >' change.", "quantifier": "all accepted tidy style sheets", "why_tests_cant": "The parser's token boundaries depend on unbounded look-ahead and on every removed or kept blank; fuzzing with cssparser samples only.", "anchors": ["src/css/token.rs: tokenize, clean_tokens", "src/css/mod.rs: minify", "fuzz/fuzz_targets/cssparser.rs"]}
{"id": "C63", "title": "A JavaScript engine reads the same tokens from the minified program", "statement": "Tokenize source and output as ECMA-262 prescribes (names, private names, punctuators, numbers, strings, templates with nested substitutions, regular expressions, comments). Apart from semicolons at the beginning, the tokens are the same, in the same order and with the same text, for every tidy source: where minify sees blanks and comments the engine does too, each piece of code in between is read by itself and printed as it is, and no gap alone holds apart what would run together where minify puts no blank. This holds for every rule that tells divisions from regular expressions by the tokens before, and for every choice of letters outside ASCII. Every source minify reads to its end falls into such pieces. Without tidiness tokens change: 'a + +b' becomes 'a++b', 'a / /b/g' becomes 'a//b/g', '1 .toFixed()' becomes '1.toFixed()', 'for(nan of y)' becomes 'for(nanof y)', a regular expression after return loses blanks, and '1e+007' or the flags 'ig' are written differently. Line ends are not tokens; C59 says which line ends matter.", "quantifier": "all tidy sources, all decisions between division and regular expression, all sets of letters", "why_tests_cant": "Whether two neighbours run together depends on the longest match of the engine's grammar, not on the tokenizer of this crate; the sources are unbounded.", "anchors": ["src/js/token.rs: tokenize, Display for Token, tokens_writer!", "src/js/tools.rs: minify"]}
{"id": "C64", "title": "The documented string aggregation, read back and inlined", "statement": "Take the documented pipeline: simple_minify, apply(aggregate_strings), apply(clean_tokens), to_string. Reading the printed text back gives 'var name=literal,...;' for literals that occur at least twice, possibly the leading semicolons of the source, and then a program that is, token for token, the minified source once each declared name is replaced by its literal. This holds for every source that is read to its end, has no name starting with r_, no tokens glued by minification (C54) and no repeated literal next to a word: not after a keyword, name, number or repeated literal, and not before a word other than in and instanceof. Cleaning first gives the same. Next to a word the name is glued to it and the claim fails: 'return \"carrot cake\"' is printed as 'returnr_aa', and likewise after case and of, for tagged templates, and before a line break.", "quantifier": "all sources in the stated class, all hash map orders", "why_tests_cant": "The printed text depends on the names generated, the hash maps and every pair of neighbours; unit tests compare fixed strings and do not read the result back.", "anchors": ["src/js/tools.rs: aggregate_strings, simple_minify", "src/js/utils.rs: clean_tokens", "src/js/token.rs: Tokens::apply, Display for Tokens, tokens_writer!"]}
{"id": "C65", "title": "The documented aggregation into an array, read back and looked up", "statement": "Take the documented pipeline: simple_minify, apply(aggregate_strings_into_array with a name), apply(clean_tokens), to_string. Reading the printed text back gives 'var name=[\"s0\",\"s1\",...];' with distinct contents that occur at least twice, possibly the leading semicolons of the source, and then a program that is, token for token, the minified source once each name[k] is replaced by element k; only the quotation marks of literals may differ. This holds for every source that is read to its end and has no tokens glued by minification (C54), a name of letters, digits, _ and $ that the source does not use, and repeated contents that are no templates, can stand between double quotes, do not follow a word, a regular expression or each other, and are not followed by in or instanceof. Cleaning first gives the same. Outside the claim fails: 'return \"carrot cake\"' is printed as 'returnR[0]', a literal with a double quotation mark in single quotes ends early, a template is no longer interpolated, and with a name in use two different programs give the same text.", "quantifier": "all sources in the stated class, all names, all hash map orders", "why_tests_cant": "The printed text depends on the indices given by hash maps, on every pair of neighbours and on the content of every literal; unit tests compare fixed strings and do not read the result back.", "anchors": ["src/js/tools.rs: aggregate_strings_into_array, simple_minify", "src/js/utils.rs: clean_tokens", "src/js/token.rs: Tokens::apply, Display for Tokens, tokens_writer!"]}
{"id": "C66", "title": "A browser reads the same document from the minified HTML", "statement": "Read a document and its minified form with the tokenizer of the HTML standard. The tokens are the same, in the same order, with the same tag and attribute names, values and self-closing flags, except that a comment is a space, the tags the minifier may leave out are nothing, the type attribute of a style or script element is nothing, runs of white space in text, values and doctype are one space, and the ends are trimmed. In a document with a pre or textarea element the white space of the text is kept exactly. This holds for every document that is read without parse error, has no angle bracket in a value or in the text of an element such as script or title, no white space other than that of HTML, no conditional comment, no value that looks like an attribute the minifier rewrites, and no tag closed by a slash directly after an attribute whose name ends with type, width or height. Outside the claim fails: '<rect width=\"5\"/>' is read as a tag that is not self-closing with width '5/', '<script a=\"type=\" b=\"c\">' loses b, and two no-break spaces become a space.", "quantifier": "all documents in the stated class", "why_tests_cant": "Whether a rewriting by regular expressions disturbs what is read depends on quoting, attributes, names and positions in arbitrary documents; unit tests compare fixed outputs and do not tokenize them.", "anchors": ["src/html.rs: minify, unquote_attributes, remove_comments, condense, condense_whitespace, clean_unneeded_tags"]}
{"id": "C67", "title": "Minifying a minified HTML document changes nothing", "statement": "For the documents of C66 in which no start tag of style or script spans several lines and no element has a name that begins with pre or textarea, html::minify applied to its own output returns it unchanged. The same holds for the documents of C66 that have an element whose name begins with pre or textarea and no two white space characters in a row in a start tag. Without the condition on lines the type of '<script src=\"a.js\"(line end)type=\"text/javascript\">' only goes in the second run, and with '<pre><p width=\"5\"  x>' the second run removes one more blank. (C45 gives a document outside C66 where the second run removes a tag the first one created.)", "quantifier": "all documents in the stated class", "why_tests_cant": "Each stage can create text that an earlier stage would have rewritten; whether that happens depends on the whole document. Unit tests run the minifier once.", "anchors": ["src/html.rs: minify, unquote_attributes, remove_comments, condense, condense_whitespace, clean_unneeded_tags"]}
{"id": "C68", "title": "How often a style sheet has to be minified until nothing changes", "statement": "Minify a style sheet without the three unsafe layouts of C15 repeatedly. If no comment stands in the gap after a colon, the third and every later run return what the second returned. One run is enough, css::minify applied to its own output changes nothing, when the sheet has no comments, has blanks after a colon only in declarations, in attribute selectors and in the heads of at-rules or, elsewhere (as directly in the block of @font-face or @page), where the word behind them is not calc and not followed by blanks and a parenthesis, has no star directly after an at-keyword, and every calc is called and holds neither a licence nor an at sign. Outside both claims fail: '*: calc:/**/@acalc(' still changes in the third run, and '@page {margin: calc(1px + 2px)}' is right after one run but loses the blanks around the plus in the second.", "quantifier": "all style sheets in the stated classes, all numbers of runs", "why_tests_cant": "Whether a blank is kept depends on tokens far back, and a run changes what the next one sees there; unit tests minify once.", "anchors": ["src/css/mod.rs: minify", "src/css/token.rs: tokenize, clean_tokens, Display for Tokens"]}
{"id": "C69", "title": "What json::minify can do to a document at worst", "statement": "For every JSON document, whatever escapes its strings contain, the output is again a JSON document with the same structure, keys and elements in the same order and the same numbers and words; strings can at most lose white space and control characters. All strings (keys included, in the order of the text) are intact up to and including the first one outside the condition of C01. Hence the value is kept when only that string is outside it and the strings behind have no white space, for instance when it is the last one, and when no string has white space or control characters at all. In the other direction nothing is promised: '1 2' is no document, its output '12' is.", "quantifier": "all JSON documents", "why_tests_cant": "The minifier loses track of where strings begin and end; which texts come out then depends on everything before. Unit tests cannot show that structure is safe in all of them.", "anchors": ["src/json/json_minifier.rs: keep_element, is_whitespace_outside_string", "src/json/mod.rs: minify", "src/json/string.rs: JsonMultiFilter"]}
{"id": "C70", "title": "The minified text of a plain JavaScript program, token by token", "statement": "Write a program as tokens of ECMA-262 with blanks and comments between them. If it is plain, js::minify puts out exactly those tokens, without semicolons at the beginning and without the comments, with one blank between two words of which the first is no decimal number, and before in and instanceof unless a string, template, bracket or other soft sign stands before; nothing else stands between tokens. So two layouts of the same tokens give the same output. A JavaScript engine reads from the source the tokens written, and from the output the same ones whenever no token runs on into the next where no blank is put ('a + +b' becomes 'a++b'). Plain means: decimal numbers without exponent or numbers with a radix prefix, no ^, ^= or ~, no name spelt inf, infinity or nan, templates without substitutions, regular expressions only at the beginning or after a sign that is no closing bracket or dot, with flags in g, i, gi, division only after an operand, no licence comments, and tokens that stand directly side by side are read as two. Outside other texts come out: 'a ^ b' keeps its blanks, 'for(nan of y)' loses one, a regular expression after return is read as other tokens.", "quantifier": "all plain programs, all layouts, all sets of letters, all decisions between division and regular expression that agree with what is written", "why_tests_cant": "The tokenizer keeps state over the whole text and the printer decides by pairs of tokens; unit tests compare single programs and do not say what the output is in general.", "anchors": ["src/js/token.rs: tokenize, Display for Token, tokens_writer!", "src/js/tools.rs: minify"]}
{"id": "C71", "title": "The minified text of a plain style sheet, part by part", "statement": "Write a style sheet as parts (words, pseudo classes with their colon, at-keywords, strings, punctuation marks, the operators ~= |= $= ^= *=, licence comments, backslashes with the character they escape) with gaps of blanks and comments between them. If it is plain, css::minify succeeds and puts out exactly these parts in this order, an at-keyword followed by one blank, a licence as /*! */ followed by a line end; a gap leaves one blank or nothing. It leaves one blank after a word, an escaped character, a tag, class, identifier or pseudo class, a string, an operator or a closing parenthesis if one of these, an opening bracket or the end follows (after a word in a declaration also before an opening parenthesis, after a selector before *), after a closing bracket unless { follows, between * and a selector, between / and *, and in calc after everything but punctuation marks other than ), +, * and /; nothing after at-keywords and licences outside calc, and at the beginning only if it has a comment. So two layouts of the same parts, without comment at the very beginning, give the same output. Plain means: words do not run together; before a backslash outside strings no gap, behind it a character; braces and brackets close what is open; after the name calc an opening parenthesis; no comment in calc; where a blank would be dropped after a word, string, ) or ], at most one comment and that first in the gap. Outside, other texts come out: 'a /**/,b' keeps a blank, and 'a \\:b' loses it.", "quantifier": "all plain style sheets, all layouts, all sets of letters outside ASCII", "why_tests_cant": "Which token a word becomes depends on open braces, brackets, at-rules and the colon before, and whether a blank is kept on the tokens on both sides and on calc; unit tests compare single sheets and do not say what the output is in general.", "anchors": ["src/css/token.rs: tokenize, fill_other, clean_tokens, Display for Token", "src/css/mod.rs: minify"]}
{"id": "C72", "title": "The minified text of an HTML document, part by part", "statement": "Take a document of C66 in which no element has a name that begins with pre or textarea, as the parts a browser reads: characters, comments, doctypes, end tags, start tags with attributes and their white space. html::minify succeeds and puts out exactly these parts in this order, with the following changes. (1) A comment is one blank. (2) In a start tag of a style or script without line end after the first character behind its name, every attribute type=\"...\" (double quotation marks, no white space around the equal sign, begins with a word character, bar or blank, no further line end) is gone with the white space before it. (3) Start tags of body, head, html and tbody written without attributes and white space, and end tags of the 26 elements listed in clean_unneeded_tags, written without white space, are gone. (4) After that every run of white space in the text, in tags, in attribute values and in the doctype is one blank if it has two or more characters, is one line end, or is in the text between the sign > and a tag; any other single character stays as it is. (5) Attributes whose name ends with the word width or height (letters only are looked at) with a value of letters, digits, - _ . in double quotation marks and no white space around the equal sign lose the quotation marks, and white space between a quoted last value and > is gone. (6) White space at both ends is gone. So documents that differ only in what their comments say have the same output. A document of C66 with an element whose name begins with pre or textarea, and without two white space characters in a row in a start tag, comes out with the same changes except (4), and (5) only in tags written on one line. Without the conditions other texts come out: title='width=\"5\"' is changed in the value, with a pre element white space stays everywhere except that two blanks in a tag may become one, and a no-break space beside a blank is lost.", "quantifier": "all documents in the stated class, all sets of word characters outside ASCII", "why_tests_cant": "The output is the result of nine regular expressions and several text replacements applied in turn to the whole text; what they make of a document in general cannot be told from single documents with their expected output.", "anchors": ["src/html.rs: minify, unquote_attributes, remove_comments, condense, condense_whitespace, clean_unneeded_tags"]}
{"id": "C73", "title": "The rules of a style sheet survive minification, in whatever layout", "statement": "Take a style sheet as rules: selectors (tags, *, classes, identifiers, attribute selectors, pseudo classes and elements, functions such as :not(...) and :nth-child(...) with selectors or 2n+1 inside, nested to any depth, the four combinators), declarations with values (words, strings, functions, calc with nested parentheses, urls with or without quotation marks; blanks, commas and slashes between them), at-rules with a prelude of words, strings, urls, media features and pages such as :first, ended by a semicolon or with a block of rules and of keyframes such as 0%, 50% {...}, or with a block of declarations as @font-face and @page have, and notices /*! ... */. Lay it out as CSS allows: blanks and comments around punctuation marks, something with a blank where two words meet or a descendant is meant, nothing between the parts of a compound selector. css::minify succeeds and puts out the canonical layout of these rules, with nothing where nothing is needed and one blank where one is, one after an at-keyword and a line end after a notice. So all layouts of the same rules have the same output, the output is again a layout of these rules, minifying it changes nothing, and two sheets with different rules never have the same output. Not allowed in a layout: a comment at the very beginning, in calc or in the parentheses of a url; between a word, string, ) or ] and a punctuation mark a comment that is not the first thing or not the only comment; a gap before a combinator or comma that follows an attribute selector, around ~= |= $= ^= *=, or before ) in calc. Not allowed as rules: a descendant combinator before a pseudo element unless an attribute selector stands before, or after a lone * unless a tag, class, identifier or pseudo class follows, for 'a ::before' comes out as 'a::before' and '* [b]' as '*[b]', which select something else; a name with an escape, for '.\\31  b' comes out as '.\\31 b', which is one class, and '.w-1\\/2 *' as '.w-1\\/2*', which is no selector; nor a descendant combinator between a function and *, for 'a:not(b) *' comes out as 'a:not(b)*', which is no selector; the word calc other than as a function of a sum; a media feature in a prelude after something other than a word or comma, or a page such as :first after something other than a comma; an unquoted address with /*, brackets, braces or the word calc by itself, or with a semicolon in an at-rule: 'url(b/*c*/d)' comes out as 'url(b d)', and after '@import url(data:text/css;base64,AB)' the blank in 'all and (x:y)' is lost; an at-rule in the block of another, where the same blank is lost: '@supports (a:b){@media screen and (c:d){...}}' comes out with 'and(c:d)', which is no media query, and where blanks in selectors are lost: 'a :hover' comes out as 'a:hover', which selects something else; in an at-rule with declarations calc and values with @, for '@page{x:calc(1px + 2px)}' comes out as '@page {x:calc(1px+2px)}', which is no sum. There the layout has nothing before the colon of a declaration and no comment after it: '@page{x :y}' keeps its blank.", "quantifier": "all style sheets of the stated form, any number of rules, any depth of values; all layouts; all sets of letters outside ASCII", "why_tests_cant": "Sheets and their layouts are infinitely many, and whether a blank may go depends on the tokens on both sides and on everything open before; unit tests compare single sheets.", "anchors": ["src/css/token.rs: tokenize, fill_other, clean_tokens, Display for Token", "src/css/mod.rs: minify"]}
{"id": "C74", "title": "A JavaScript parser reads the same syntax tree from the minified program", "statement": "Take a plain program (as in C70) that follows the grammar of ECMA-262, with its semicolons written (they may be missing before } and at the end), in which no token runs on into the next where no blank is put. Covered are all statements but with, modules, for await and static blocks, among them classes, generators, async functions and labels, and all expressions but template substitutions, yield without value, new of anything but a path of names, holes in arrays, defaults in destructuring assignments, and names that are words such as async, await, let, of, static or yield; arrow functions, patterns, spread, methods, tagged templates, optional chains, ** and ?? are there. js::minify succeeds, a parser with automatic semicolon insertion reads the program's tree from the source, and from the output it reads the same tree without empty statements at the beginning: operators have the same operands, an else belongs to the same if, a value belongs to the same return. So two such programs with the same output have the same tree. Whatever the program means, the parser is given the same tokens but no line end. Without the semicolons this fails: 'a = x' and 'b = y' on two lines is no program afterwards, and 'return' with 'x' on the next line silently returns x. With tokens that run together it fails too: 'a + ++b' becomes 'a+++b', which is 'a++ + b'.", "quantifier": "all programs of the stated form, any size and nesting, all layouts, all sets of letters", "why_tests_cant": "Whether a tree survives depends on precedence, nesting and on every line end, for programs of any size; unit tests compare output texts and never parse them.", "anchors": ["src/js/token.rs: tokenize, Display for Token, tokens_writer!", "src/js/tools.rs: minify", "src/js/utils.rs: clean_tokens"]}
{"id": "C75", "title": "A browser builds the same tree from the minified HTML", "statement": "Let a browser build the tree of a document and of its minified form with the tree construction of the HTML standard, which adds tags that are left out. The trees are the same: elements with the same names and attributes (in values and doctype a run of white space counts as one blank, the type of a style or script does not count), in the same places, and the same text in them, where a comment counts as white space, a run of white space as one blank, and white space at the edges of html, head, body, list items, definitions, options and their groups, column groups, row groups, rows and cells does not count. This holds for the documents of C66 that the standard reads without parse error (end tags of void elements excepted) and in which every paragraph has its end tag, lists, selects and tables directly contain only what is made for them, form, a, button and nobr are not nested in themselves, and the elements with rules of their own (such as svg, template, ruby texts, frames) do not occur; provided every tag the minifier removes is one that is added again: an end tag of li, dt, dd, option, colgroup, tbody, thead, tfoot, tr, td or th stands before the end of an element around it or the start of one that ends it, <tbody> stands directly after <table>, a caption or columns and before a row, and <body> does not stand before a script, style, title, noscript, link, meta or base or before the end tag of a void element. Whatever the document, the result of the construction is a tree. Without the last condition the claim fails in everyday documents: in a table with thead and tbody the rows of the body become rows of the head, two bodies become one, a script at the beginning of the body moves into the head, and the text behind </option> in a datalist becomes part of the option.", "quantifier": "all documents in the stated class, any size and nesting, all sets of word characters outside ASCII", "why_tests_cant": "What a tag that is left out does to the tree depends on the elements open around it and on what follows, in documents of any size; unit tests compare the output text and never build its tree.", "anchors": ["src/html.rs: minify, unquote_attributes, remove_comments, condense, condense_whitespace, clean_unneeded_tags"]}
{"id": "C76", "title": "String aggregation keeps the syntax tree but for the names in place of literals", "statement": "Run the documented string aggregation (tokenize, aggregate_strings, clean_tokens, to_string) on a JavaScript program. From the text it prints, a parser of ECMA-262 reads one var statement that declares new, pairwise different names (r_ and letters or digits) with pairwise different string or template literals that are in the program at least twice, followed by the syntax tree of the program in which every such literal that is an expression is replaced by its name, and nothing else is changed; if no name is introduced it reads the tree of the program without the empty statements at its beginning. This holds for every order of the hash map and for the programs of C74 (plain, written with their semicolons) in which no word starts with r_, and no repeated literal is a key of an object, class or pattern, stands behind a tag, follows a word, a regular expression or another repeated literal, or is followed by a word other than in and instanceof. The same holds when the tokens are cleaned before the aggregation, except that the empty statements at the beginning are then always left out. A program without repeated literals keeps its tree. Without the condition on keys the claim fails: a repeated key becomes another key, { 'carrot cake': 1 } the object { r_aa: 1 }. And the tree does not say everything: a use strict directive at the beginning is no directive any more once the declaration stands before it.", "quantifier": "all programs in the stated class, any size and nesting, all hash orders, all sets of identifier characters outside ASCII", "why_tests_cant": "Whether a name can stand for a literal depends on its place in the grammar and on its neighbours, in programs of any size; unit tests compare a few printed texts and never parse them.", "anchors": ["src/js/tools.rs: aggregate_strings, aggregate_strings_inner, clean_tokens", "src/js/token.rs: tokenize, Tokens::to_string"]}
{"id": "C77", "title": "Aggregation into an array keeps the syntax tree but for the elements in place of literals", "statement": "Run the documented aggregation into an array (tokenize, aggregate_strings_into_array with a name, clean_tokens, to_string) on a JavaScript program. From the text it prints, a parser of ECMA-262 reads one var statement that declares the name as an array of pairwise different literals with double quotation marks, each of which is in the program at least twice, between whatever quotation marks, followed by the syntax tree of the program in which every literal whose text is in the array is replaced by the indexed access to the element with that text, and nothing else is changed; if the array would be empty it reads the tree of the program without the empty statements at its beginning. This holds for every order of the hash map and for the programs of C74 (plain, written with their semicolons) that do not use the name, and in which every repeated literal is no template, can be written with double quotation marks, is no key of an object, class or pattern, follows no word, regular expression or repeated literal and is not followed by in or instanceof. The same holds when the tokens are cleaned before the aggregation, except that the empty statements at the beginning are then always left out. Without the conditions the claim fails, and the result is no program at all: a repeated key gives {R[0]:1}, a repeated 'say \"x\"' gives \"say \"x\"\", a repeated template of two lines gives a string with a line end in it.", "quantifier": "all programs in the stated class, any size and nesting, all names the tokenizer reads as one, all hash orders, all sets of identifier characters outside ASCII", "why_tests_cant": "Whether an indexed access can stand for a literal depends on its place in the grammar and on its neighbours, and the index on all literals before it, in programs of any size; unit tests compare a few printed texts and never parse them.", "anchors": ["src/js/tools.rs: aggregate_strings_into_array, aggregate_strings_into_array_inner, clean_tokens", "src/js/token.rs: tokenize, Tokens::to_string"]}
