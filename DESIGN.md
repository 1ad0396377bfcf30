# Formal model of minifier-rs: design

The crate is modelled function by function as total, computable Gallina functions.  Every
model definition cites the file and lines of /repo it stands for.  Every property of
`properties.jsonl` is a theorem in a `Prop*.v` file, next to a concrete case that meets its
hypotheses and a `Print Assumptions`.

## Conventions of the model

* Text is a list of Unicode scalar values (`str := list N`, Base.v).  `&str` slices use byte
  offsets (`len_utf8` per scalar value), so slicing off a character boundary is visible.
* `outcome` has four constructors: `Ok`, `Err msg`, `Panic` (slice off a boundary, start > end,
  index out of bounds, `unwrap` on `None`, `assert!`, subtraction below zero as in a debug
  build) and `OutOfFuel`.
* Loops are structurally recursive where possible; the others take fuel.  Running out of fuel
  is proved unreachable (C13, C21, C38, C45 and lemmas used by them).
* `nat` is used for lengths, positions and fuel only; characters are `N`.
* A claim that fails on part of its domain is stated as the exact positive theorem plus a
  `_refuted` theorem with a computed witness for the unrestricted claim.

## What is modelled, and where

| Rust | Coq model | specification | proofs | theorems |
|---|---|---|---|---|
| src/json/json_minifier.rs, string.rs, mod.rs | JsonModel | JsonSpec | JsonProofs, JsonCorrupt, JsonUnique, JsonShrink | PropJson, PropJsonShrink |
| src/json/read/* | Utf8, JsonReadModel | JsonReadSpec | JsonReadProofs, JsonReadProofs2 | PropJsonRead |
| src/css/token.rs, mod.rs | CssModel | CssSpec, CssGapSpec, CssSyntaxSpec, CssPlainSpec, CssRulesSpec | CssProofs1-15, CssSyntaxProofs1-3, CssPlainProofs1-3, CssRulesProofs1-5, CssDirectProofs | PropCss, PropCssGap, PropCssTame, PropCssSyntax, PropCssTwice, PropCssPlain, PropCssRules |
| src/js/token.rs | JsModel | JsLexSpec, JsRoundSpec, JsLayoutSpec, EsSpec, JsPlainSpec, JsTreeSpec | JsLexProofs1-6, JsWords, JsRoundProofs1-3, JsLayoutProofs, EsProofs1-2, JsPlainProofs1-2, JsTreeProofs1-6 | PropJsLex, PropJsRound, PropJsLayout, PropJsEs, PropJsPlain, PropJsTree |
| src/js/utils.rs, js::minify of tools.rs | JsUtilModel | JsUtilSpec | JsUtilProofs, JsUtilProofs2 | PropJsUtil |
| src/js/tools.rs (aggregation) | JsAggModel | JsAggSpec, JsArrSpec, JsPipeSpec, JsAggTreeSpec, JsArrTreeSpec | JsAggProofs1-3, JsArrProofs1-4, JsPipeProofs, JsPipeProofs2, JsAggTreeProofs1-2, JsArrTreeProofs, JsCleanTreeProofs | PropJsAgg, PropJsPipe, PropJsPipe2, PropAggTree, PropArrTree, PropCleanTree |
| src/html.rs | HtmlModel | HtmlSpec, HtmlSyntaxSpec, HtmlPlainSpec, HtmlTreeSpec | HtmlProofs1-13, HtmlPlainProofs, HtmlTreeProofs1-4 | PropHtml, PropHtmlSyntax, PropHtmlTwice, PropHtmlPlain, PropHtmlTree |
| src/cli.rs, main.rs | CliModel | CliSpec | CliProofs1-4 | PropCli |

`CssTests.v`, `JsTests.v`, `HtmlTests.v` run the crate's own unit tests on the model by
computation; they are tests of the model, not proofs.

### Parameters (universally quantified in the theorems)

* CSS: `alpha`, the value of `char::is_alphabetic` outside ASCII.
* HTML: `word_u`, `digit_u` (the classes `\w`, `\d` outside ASCII) and `lower_u`
  (`char::to_lowercase` outside ASCII).  The theorems on white space ask `lower_ok lower_u`:
  no non-ASCII character has a letter of `pre` or `textarea` in its lower case (true of
  Unicode).
* JS aggregation: `order`, the iteration order of each hash map (any permutation).
* `clean_tokens_except`, `replace_tokens_with` and the filters of the aggregation take an
  arbitrary callback that is a pure function of its arguments.
* Writers: any sequence of accept / accept k bytes and fail.  Readers: any sequence of
  responses.  Command line tool: any minifier, any file system, any permissions, any write
  failure.

### Simplifications

* JSON, `Minified`: the iterator adaptors are written as one step function over the remaining
  characters; `Peekable` is a state with an optional stored item.
* CSS tokenizer: `CharIndices` is the list of remaining characters with the byte position.
* JS tokenizer: `MyPeekable` keeps its three queues (saved, peeked, inner) with byte positions.
  Number parsing is `usize::from_str` for a 64-bit `usize` and `f64::from_str` only as the
  predicate "is accepted" (the text of a float is kept by the token).
* Positions that the Rust code keeps in `isize`/`i32` counters (nesting depths) are unbounded:
  overflow, which needs inputs above 2 GiB, is not modelled.
* HTML: the `regex` crate is not modelled; its leftmost-first semantics for the nine patterns
  of html.rs is modelled by a small backtracking matcher (`m_seq`, `m_alt`, greedy and lazy
  repetition of character classes).  `\s` and `char::is_whitespace` are the same class
  (Unicode White_Space).  The final sigma rule of `str::to_lowercase` is not distinguished: it
  concerns no letter of the names looked for.
* Command line: clap's parsing is not modelled (the run starts from the parsed options; the
  words -t accepts are).  Paths are Unix byte strings; std::path functions (`extension`,
  `set_extension`, `push`, `components`, `parent`) and `create_dir_all` are modelled from the
  documentation and source of the standard library.  The file system is a tree without
  symbolic or hard links; resolution follows POSIX (`.`, `..`, trailing slash needs a
  directory).  `println!`/`eprintln!` are taken to succeed.

### Not modelled

Memory exhaustion, stack depth, running time, the operating system below the file system tree,
concurrency (the crate has none; nothing else changes the files during a run), the
benchmarks/tests, Cargo features other than the default ones with `html` (the `html` module).

## How the properties are stated

* JSON (C01-C05, C69): an inductive relation between JSON values and the texts that lay them out,
  with an independent compact printer; deletion as a subsequence relation; `same_shape` compares
  values up to a relation between their strings.
* Streaming (C07-C12): what the source delivers up to its first short read, an independent
  UTF-8 encoder, `pack` for the cutting into buffers.
* CSS (C13-C20, C58, C61): an independent character-level lexer (`lex`) giving items with the blanks
  between them; the theorems compare the items of the output with those of the input.
* CSS for a parser (C62): the tokenizer of CSS Syntax Module Level 3, section 4, with its parse
  errors, as a separate function on text (`css_tokens`).  Two points are simplified: a null
  character counts as a name character (the standard replaces it by U+FFFD first), and the
  numeric value of a number is represented by its text.  The theorem is limited to `tidy` sheets:
  chunks between gaps have no parse error of their own (so an unquoted url with blanks inside the
  parentheses, or `url( "x" )` with a blank before the quote, is outside), no chunk ends in a
  numeric escape, and no gap alone separates what would run together.
* CSS, plain sheets (C71): a sheet is a list of parts and gaps; `plain` says which lists are meant and
  `compact` which text is expected, both without the tokenizer of the crate.  Outside the domain:
  gaps before a backslash and one at the end of the sheet, unbalanced braces and brackets, comments in calc, calc without a
  parenthesis directly behind it, blanks before a comment or several comments where no blank is
  kept, an equal sign set apart from `~ | $ ^ *`, `*` set apart from an at-keyword, `*=` set apart
  from a slash.
* CSS, rules (C73): a sheet is a tree of rules; `sheet_chunks` lists its parts, each with what may
  stand before it (a `slot`), `laid_out` relates this list to the texts that lay it out, `canonical`
  is the text that is expected.  The theorem goes through C71.  Functions in selectors, keyframes,
  notices `/*! */` between rules, urls and at-rules with declarations are in the tree; which
  at-keywords have declarations in their block is a fixed list (`described`).  Nested at-rules,
  margin boxes, calc in an at-rule with declarations,
  escapes, notices in a block and comments `/** */` are not in the tree.
* JS (C21-C34, C49, C50, C54-C57, C59, C60): a relational lexical specification (`reads`: words, longest
  operators, literals, nested templates, comments, regular expressions) independent of the
  tokenizer's queues; cleaning and printing specified on lists of tokens; the round trip (C54)
  with `glued`, the neighbours that run together when printed.
* JS for an engine (C63): the lexical grammar of ECMA-262, clause 12, strict mode code, as a
  separate function on text (`es_tokens`).  Which letters outside ASCII may stand in names, and
  whether a slash starts a division or a regular expression after given tokens, are parameters;
  the theorem holds for all their values.  Not covered, i.e. rejected by this scanner: escapes in
  identifiers, HTML-like comments (Annex B), a hashbang line.  A token is its kind and its text;
  semicolons at the beginning and line ends are not compared (C59 is about line ends).  The
  theorem is limited to `tidy` sources: the tokenizer's gaps are blanks and comments for the
  engine as well, each piece of code between two gaps is read by itself and printed as it is, and
  no gap alone separates what would run together where the printer puts no blank.
* JS, plain programs (C70): a program is a list of tokens of ECMA-262 and of gaps; `plain` says which
  lists are meant and `compact` which text is expected of their tokens.  Both are defined on the
  scanner of C63, not on the tokenizer of the crate, so here the domain can be checked without
  knowing the crate.  Outside the domain: `^`, `^=`, `~`, the names inf, infinity and nan, decimal
  numbers with an exponent or with a point at their end, templates with
  substitutions, regular expressions after a word or a closing bracket or with flags other than
  g, i, gi, licence comments, a line comment that ends the text.
* JS, syntax trees (C74): `program t ts` relates a tree to the tokens it is written in (a grammar with
  precedences, restricted line ends and the rule for `else`), `parse` is a recursive descent parser
  with automatic semicolon insertion; both work on tokens with a flag for a line end before
  them, which `es_lines` reads from text with the scanner of C63.  The parser reads every tree
  from what the grammar writes, so the grammar is unambiguous; the converse is not proved (the
  parser also accepts programs that need semicolons inserted).  Only the programs of C70 are
  treated; the constructs left out are listed in JsTreeSpec.
* Aggregation (C35-C41): the result is a declaration prefix plus a list in which every token
  is unchanged or a literal replaced by something the prefix declares with that content.
* The documented aggregation as text (C64): the printed text is tokenized again, and replacing the
  declared names by their literals (`inlined`) has to give the minified source.  For arrays (C65)
  `name[k]` is replaced by element k (`looked_up`), and only quotation marks may differ.
* The documented aggregation as a syntax tree (C76): the printed text is parsed with the parser of C74,
  and its tree has to be the declaration of the names followed by the tree of the source with the
  literals replaced (`swapped_tree`, a function on trees that leaves keys and tagged templates
  alone).  All conditions are on the tokens of ECMA-262 and on the tree, none on the tokens of the crate.
  For arrays (C77) the literals are replaced by indexed accesses (`looked_tree`, with `element_for`
  giving the index), and of the crate only the condition on the name of the array is left
  (`array_name`: the tokenizer reads it as one word that is no keyword of the crate).
  Both are also stated for tokens that are cleaned before the aggregation.
* HTML (C42-C45, C51-C53): `rewrites L F`, leftmost non-overlapping rewriting by a relation,
  with a separate relation for each pattern.
* HTML for a browser (C66): the tokenization stage of the WHATWG standard (13.2.5) as a separate
  function on text (`html_tokens`), in the part without error handling: at everything the
  standard calls a parse error it gives up, and also at an angle bracket in an attribute value or
  in the text of an element whose content is text (script, style, title, textarea, ...).
  Character references, case folding of names and duplicate attributes are not treated: names and
  values are compared as texts (values up to runs of white space).  `content` says what is left
  out of the comparison: comments, tags that may be left out, types of style and script, runs of
  white space.  The effect of leaving out tags on the tree is the subject of C75.
* HTML minified twice (C67): equality of texts, on the documents of C66 with two more conditions
  on their parts (`one_line`, `reflows`), or with elements that keep white space (`preserves`) and
  no doubled white space in start tags (`single`).
* HTML, the text itself (C72): `compact` computes the expected text from the parts of C66 (comments,
  types, tags left out, white space, start tags, ends), on the documents of C66 without elements
  whose names begin with pre or textarea; `compact_kept` does so for those with such an element,
  if no start tag has two white space characters in a row (what the code does to those depends on
  the letters around them).  Conditional comments and documents outside C66 are not covered.
* HTML, the tree (C75): the tree construction stage of the WHATWG standard (13.2.6) as a separate
  function on the tokens of C66 (`html_tree`), with the insertion modes up to `after body`, the tags
  it adds and the end tags it implies, in the part without error handling.  It is stricter than a
  browser (see `allowed` in HtmlTreeSpec): a paragraph has to be ended by its tag, lists, selects and
  tables directly contain only what is made for them, the list of active formatting elements,
  foster parenting, templates, foreign content, ruby and frames are left out (documents that need
  them have no tree here).  A tree is told as the walk through it (`Open`, `Text`, `Close`), and
  compared after `look`, which says what does not count (white space at certain edges, runs of
  white space, also in `pre`, for which C66 says more; types of style and script).  `replaceable`
  is the condition on the tags left out.
* CSS minified repeatedly (C68): equality of texts.  The two domains, `colon_comment` and `steady`,
  are conditions on the pieces of the source text (`CssGapSpec`), not on the tokens.
* Command line (C46-C48): decomposition of a path as text (`names`, `dotted`, `renamed`), the
  output path (`target`), and frame conditions on the file system.

## Trusted base

* Coq 8.16.1's kernel (and `vm_compute` for the computed witnesses and examples).
* Axioms: `Print Assumptions` reports `Closed under the global context` for every theorem of
  the manifest.  The only library axioms in the closure of the loaded files are those of
  `Coq.ssr.ssrunder` (module `Under_rel`), which no theorem uses.
* The reading of the Rust source, cited line by line in the model, and of the standard library
  and `regex` functions it calls, as listed above.
