{"id": "C01", "title": "Lossless tokenization", "statement": "Tokenizing a source string cuts it into consecutive, non-empty lexemes that concatenate back to exactly the source; a token's text is its lexeme, except for \\begin{..}/\\end{..} tokens whose text is the environment name.", "quantifier": "every source string, every command specification", "why_tests_cant": "Holds for all strings over all of Unicode and all specifications; snapshot tests sample a handful.", "anchors": ["crates/mitex-lexer/src/token.rs: Token, lex_command_name, lex_begin_end", "crates/mitex-lexer/src/stream.rs: StreamContext::lex_one"]}
{"id": "C02", "title": "Tokenization never panics", "statement": "Tokenizing any source string produces tokens: no lexing error and no slicing panic. (False for the code: refuted with a witness; proved for sources that are all ASCII and for sources without '%'.)", "quantifier": "every source string, every command specification", "why_tests_cant": "The panic needs two comments and a multi-byte character at a particular distance from a brace.", "anchors": ["crates/mitex-lexer/src/token.rs: lex_begin_end", "crates/mitex-lexer/src/stream.rs: StreamContext::lex_one"]}
{"id": "C03", "title": "Token classification", "statement": "Every token produced has the class its lexeme deserves: maximal runs for line breaks, blanks, words; a comment runs to the end of line; each punctuation character is its own token; `$$` is preferred to `$`; `\\\\` is a new line; a control word is a maximal letter run, a control symbol is a single character.", "quantifier": "every token of every source string, every specification", "why_tests_cant": "Longest-match rules interact over unbounded runs.", "anchors": ["crates/mitex-lexer/src/token.rs: Token, lex_command_name, advance_ascii_name"]}
{"id": "C04", "title": "Starred commands follow the specification", "statement": "`\\name*` is one command token exactly when the specification defines `name*`; otherwise it is the command `\\name` followed by a separate `*`.", "quantifier": "every letter name, every continuation, every specification", "why_tests_cant": "Quantifies over all specifications and names.", "anchors": ["crates/mitex-lexer/src/token.rs: advance_ascii_name, lex_command_name"]}
{"id": "C05", "title": "Environment delimiters are single tokens", "statement": "`\\begin{name}` / `\\end{name}`, with any blanks and comments between the pieces, is lexed as one token whose text is `name` and which consumes exactly up to the closing brace. (Proved when the trivia are blanks; refuted when a comment occurs.)", "quantifier": "every name, every trivia sequence, every continuation", "why_tests_cant": "Trivia sequences are unbounded; the byte accounting goes wrong only with comments.", "anchors": ["crates/mitex-lexer/src/token.rs: lex_begin_end"]}
{"id": "C06", "title": "The token stream does not depend on the look-ahead page", "statement": "Repeatedly eating from a plain lexer yields exactly the tokens of the source in order and then None forever, whatever the page size used to batch lexing.", "quantifier": "every source, every specification, every positive page size", "why_tests_cant": "Page boundaries fall at arbitrary tokens; tests never exceed one page.", "anchors": ["crates/mitex-lexer/src/lib.rs: Lexer::new, next, eat", "crates/mitex-lexer/src/stream.rs: LexCache::bump"]}
{"id": "C07", "title": "Peek, eat and partial consumption agree", "statement": "peek/peek_text show exactly the token the next eat returns; consuming n bytes of the peeked token removes exactly those bytes from the front of the remaining stream.", "quantifier": "every reachable lexer state, every byte count on a character boundary", "why_tests_cant": "States are reached by arbitrary histories of eat/consume.", "anchors": ["crates/mitex-lexer/src/lib.rs: Lexer::peek, peek_text, peek_char, consume_utf8_bytes, eat"]}
{"id": "C08", "title": "Macro expansion is transparent without macros", "statement": "If no token of the source is a conditional, names a defined command macro, or begins a defined macro environment, the expanding lexer yields exactly the plain token stream; hence parse and parse_without_macro agree.", "quantifier": "every such source, every specification, every page size", "why_tests_cant": "Ranges over all macro-free documents.", "anchors": ["crates/mitex-lexer/src/macro_engine.rs: do_bump, trapped_by_macro", "crates/mitex-parser/src/lib.rs: parse, parse_without_macro"]}
{"id": "C09", "title": "Expanded stream does not depend on the look-ahead page", "statement": "The sequence of tokens delivered by the macro-expanding lexer is the same for every page size of at least two tokens, including when expansion errors out mid-page.", "quantifier": "every source, every specification, any two page sizes", "why_tests_cant": "A macro call can straddle any page boundary.", "anchors": ["crates/mitex-lexer/src/macro_engine.rs: do_bump", "crates/mitex-lexer/src/lib.rs: Lexer::eat"]}
{"id": "C10", "title": "Definition commands update the macro table as documented", "statement": "\\newcommand on a fresh name defines it silently, on a known name reports an error token and overrides; \\renewcommand is the mirror image; \\providecommand defines only fresh names and never overrides; no other binding changes.", "quantifier": "every name, body, argument count, every macro table", "why_tests_cant": "All tables and bodies.", "anchors": ["crates/mitex-lexer/src/macro_engine.rs: trapped_by_macro, identify_macro_update, add_macro"]}
{"id": "C11", "title": "Macro calls substitute their arguments", "statement": "A call `\\f{a1}...{an}` of an n-argument macro is replaced by the body with each #i replaced by a_i, everything else untouched, and expansion resumes at the front of the result followed by the rest of the input.", "quantifier": "every macro, every balanced argument list, every continuation", "why_tests_cant": "Unbounded bodies, arguments and continuations.", "anchors": ["crates/mitex-lexer/src/macro_engine.rs: trapped_by_macro, read_macro_args, expand_tokens"]}
{"id": "C12", "title": "Macro calls bind exactly the declared number of arguments", "statement": "A call followed by enough material binds all n parameters, whether arguments are braced groups or single characters. (Refuted: an unbraced word argument is counted one too many.)", "quantifier": "every macro, every mix of braced and unbraced arguments", "why_tests_cant": "The miscount shows only for particular mixes.", "anchors": ["crates/mitex-lexer/src/macro_engine.rs: read_macro_args"]}
{"id": "C13", "title": "Environment macros expand to begin-code, body, end-code", "statement": "`\\begin{e}args body \\end{e}` of a macro environment becomes the substituted begin code, then the body verbatim, then the substituted end code, respecting nested environments in the body.", "quantifier": "every environment macro, every properly nested body", "why_tests_cant": "Unbounded nesting.", "anchors": ["crates/mitex-lexer/src/macro_engine.rs: trapped_by_macro, read_env_body, expand_tokens"]}
{"id": "C14", "title": "Parameter markers in macro bodies", "statement": "In a stored macro body `#d` (d in 1..9) becomes parameter d and swallows just that digit; all other tokens keep kind and text. A body ending in `#` must not crash. (The latter is refuted.)", "quantifier": "every body token sequence", "why_tests_cant": "All token sequences.", "anchors": ["crates/mitex-lexer/src/macro_engine.rs: process_macro_def"]}
{"id": "C15", "title": "Literal conditionals select one branch", "statement": "`\\iftrue A\\else B\\fi` yields A and `\\iftrue A\\fi` yields A; `\\iftypst`/`\\iffalse` keep their first branch bracketed by the marker tokens, and the conditional stack returns to its previous depth.", "quantifier": "every conditional-free, macro-free A and B, any context and continuation", "why_tests_cant": "All branch contents and contexts.", "anchors": ["crates/mitex-lexer/src/macro_engine.rs: trapped_by_if, trapped_by_else, trapped_by_endif, skip_false_tokens"]}
{"id": "C16", "title": "A skipped branch is skipped entirely even with nested conditionals", "statement": "Text in the branch not taken never reaches the output, also when it contains complete nested conditionals with \\else. (Refuted.)", "quantifier": "every nesting of conditionals", "why_tests_cant": "The defect needs a nested \\else inside a skipped branch.", "anchors": ["crates/mitex-lexer/src/macro_engine.rs: skip_false_tokens"]}
{"id": "C17", "title": "Expansion terminates", "statement": "Lexing with macro expansion terminates. (Refuted for self-referential macros; proved for every input containing no macro-definition command, with an explicit bound.)", "quantifier": "every source", "why_tests_cant": "Non-termination cannot be observed by a test.", "anchors": ["crates/mitex-lexer/src/macro_engine.rs: do_bump"]}
{"id": "C18", "title": "Expansion never panics", "statement": "Lexing with macro expansion never panics. (Refuted with witnesses; proved when the token stream contains neither `#` nor environment delimiters.)", "quantifier": "every source", "why_tests_cant": "The panics need malformed definitions.", "anchors": ["crates/mitex-lexer/src/macro_engine.rs: process_macro_def, identify_macro_update"]}
{"id": "C19", "title": "Macro scopes roll back completely", "statement": "Whatever sequence of definitions, removals and nested (restored) scopes happens after a scope was created, restoring it makes every macro lookup answer as it did when the scope was created.", "quantifier": "every table, every well-bracketed history of operations", "why_tests_cant": "All histories.", "anchors": ["crates/mitex-lexer/src/snapshot_map.rs: SnapshotMap", "crates/mitex-lexer/src/macro_engine.rs: create_scope, restore, add_macro"]}
{"id": "C20", "title": "Expanded output is in normal form", "statement": "When no definition commands occur, no delivered token is a command bound to a command macro nor a begin token bound to an environment macro: everything expandable was expanded.", "quantifier": "every macro table, every terminating expansion", "why_tests_cant": "All tables and inputs.", "anchors": ["crates/mitex-lexer/src/macro_engine.rs: do_bump, trapped_by_macro"]}
{"id": "C21", "title": "Parsing keeps all non-trivia text in order", "statement": "The leaves of the syntax tree spell the token stream in order: nothing is duplicated or reordered, and what may be missing are only the marks of skipped \\iffalse/\\iftypst blocks and blanks/line breaks/comments directly before something that can begin an argument (and only if some command or environment takes arguments).", "quantifier": "every token stream, every specification", "why_tests_cant": "All inputs.", "anchors": ["crates/mitex-parser/src/parser.rs: Parser"]}
{"id": "C22", "title": "Parsing terminates", "statement": "The parser terminates on every token stream: a depth of calls and loop iterations linear in the size of the stream always suffices, and a larger allowance never changes the answer; without macros it is linear in the length of the source.", "quantifier": "every token stream with non-empty words, every specification", "why_tests_cant": "Loops over unbounded streams.", "anchors": ["crates/mitex-parser/src/parser.rs: item_list, content, match_arguments_"]}
{"id": "C23", "title": "Parsing never panics", "statement": "parse returns a tree for every token stream. (Refuted: an infix/postfix command right after a script marker; proved for streams without that adjacency.)", "quantifier": "every token stream, every specification", "why_tests_cant": "Needs an unusual adjacency.", "anchors": ["crates/mitex-parser/src/parser.rs: command, start_command_at, attach_component"]}
{"id": "C24", "title": "Command nodes respect the specification", "statement": "In the tree every command node has exactly one name and the argument count its specification allows: none for symbols, at most n for n-ary commands, one greedy argument for greedy ones, at most one left argument for postfix, at most one left and exactly one right for infix; for glob-specified commands the argument kinds form a prefix accepted by the pattern.", "quantifier": "every token stream, every specification, every command node", "why_tests_cant": "All inputs and specs.", "anchors": ["crates/mitex-parser/src/parser.rs: command, match_arguments_", "crates/mitex-parser/src/arg_match.rs: ArgMatcher"]}
{"id": "C25", "title": "Group, formula, environment and left-right nodes are well formed", "statement": "Curly/bracket/paren/formula nodes start with their opening delimiter; environment nodes start with a begin clause carrying the name; left-right nodes start with a left clause; script nodes contain their script marker; blocks contain no stray markers.", "quantifier": "every token stream, every specification, every node", "why_tests_cant": "All inputs.", "anchors": ["crates/mitex-parser/src/parser.rs: item_group, environment, item_lr, clause_lr, attach_component", "crates/mitex-parser/src/syntax.rs: FormulaItem, EnvItem, LRItem"]}
{"id": "C26", "title": "Parsing depends only on the token sequence", "statement": "Parsing through the batching lexer gives the same tree as parsing the plain token list, for every page size, with and without macro expansion.", "quantifier": "every source, every page size", "why_tests_cant": "Histories of peek/eat/consume across page boundaries.", "anchors": ["crates/mitex-parser/src/parser.rs: Parser::parse", "crates/mitex-lexer/src/lib.rs: Lexer"]}
{"id": "C27", "title": "Only commands that occur matter", "statement": "Two specifications that agree on the names occurring in the token stream give identical trees.", "quantifier": "every token stream, every pair of specifications", "why_tests_cant": "All specification pairs.", "anchors": ["crates/mitex-parser/src/parser.rs: command, environment"]}
{"id": "C28", "title": "Alignment marks end arguments", "statement": "An argument to the right of a command name or \\begin never contains an alignment mark `&` at its own level, and inside an environment a greedy argument never contains a row separator at its own level.", "quantifier": "every token stream, every specification", "why_tests_cant": "All inputs.", "anchors": ["crates/mitex-parser/src/parser.rs: match_arguments_"]}
{"id": "C29", "title": "Conversion restores its context", "statement": "After converting any element successfully, the mode, the environment kind and the list indentation are what they were before, so siblings cannot influence each other through them.", "quantifier": "every syntax tree, every converter state, every specification", "why_tests_cant": "All trees.", "anchors": ["crates/mitex/src/converter.rs: Converter::convert, enter_mode, exit_mode, enter_env, exit_env"]}
{"id": "C30", "title": "Text mode escapes every special character", "statement": "convert_text of any string without backslash, braces and dollar succeeds and equals the string with each Typst-special punctuation mark preceded by a backslash, comments (percent to the end of the line) left out and blanks at the beginning of a line removed; a string without special characters and line breaks comes out unchanged.", "quantifier": "every such string, every specification", "why_tests_cant": "All strings; end-to-end through lexer, macro engine, parser and converter.", "anchors": ["crates/mitex/src/lib.rs: convert_text", "crates/mitex/src/converter.rs: Converter::convert"]}
{"id": "C31", "title": "Math mode separates every letter", "statement": "convert_math of any string of word characters and blanks equals the string with every word character followed by a blank; more generally, for any string without backslash, braces, dollar and script marks, every character is output, escaped where Typst needs it, word characters followed by a blank, comments and the blanks at the beginnings of lines left out.", "quantifier": "every such string, every specification", "why_tests_cant": "All strings; end-to-end.", "anchors": ["crates/mitex/src/lib.rs: convert_math", "crates/mitex/src/converter.rs: Converter::convert"]}
{"id": "C32", "title": "Unknown commands and environments are reported", "statement": "Conversion succeeds only if every command and environment it meets is in the specification; an unknown one makes the result an error naming it.", "quantifier": "every syntax tree, every specification", "why_tests_cant": "All trees.", "anchors": ["crates/mitex/src/converter.rs: convert_normal_command, convert_env, convert_command_sym"]}
{"id": "C33", "title": "Conversion terminates", "statement": "Converting any syntax tree terminates, visiting depth bounded by the tree.", "quantifier": "every syntax tree, state and specification", "why_tests_cant": "All trees.", "anchors": ["crates/mitex/src/converter.rs: Converter::convert"]}
{"id": "C34", "title": "Conversion never panics", "statement": "convert_text/convert_math return Ok or Err for every input. (Refuted with several witnesses; proved for trees produced by the parser with the same specification that use none of the argument-inspecting commands.)", "quantifier": "every source string", "why_tests_cant": "Crashes need malformed arguments.", "anchors": ["crates/mitex/src/converter.rs: convert_command_label, convert_command_includegraphics, convert_env_figure, convert_env_table, convert_normal_command"]}
{"id": "C35", "title": "List indentation never underflows", "statement": "Inside itemize/enumerate the indentation is at least 2 and equals twice the nesting depth, so \\item never underflows; outside, \\item is an error.", "quantifier": "every syntax tree", "why_tests_cant": "All nestings.", "anchors": ["crates/mitex/src/converter.rs: convert_command_item, enter_env, exit_env"]}
{"id": "C36", "title": "Table column specifications are read exactly", "statement": "A tabular argument made of l, c, r and | yields one column per letter in order and one vertical rule per bar at the right position; any other character is reported as an error.", "quantifier": "every column specification string", "why_tests_cant": "All strings.", "anchors": ["crates/mitex/src/converter.rs: convert_env_table"]}
{"id": "C37", "title": "A custom specification is honoured by conversion", "statement": "A command defined only in the specification passed by the caller converts. (Refuted: conversion always uses the built-in specification.)", "quantifier": "every custom specification", "why_tests_cant": "Needs a custom specification.", "anchors": ["crates/mitex/src/converter.rs: convert_inner"]}
{"id": "C38", "title": "Mismatched formula delimiters are errors", "statement": "A formula whose opening and closing delimiters do not match converts to an error and never to output.", "quantifier": "every formula node", "why_tests_cant": "All contents.", "anchors": ["crates/mitex/src/converter.rs: convert_formula", "crates/mitex-parser/src/syntax.rs: FormulaItem::is_valid, is_inline, is_display"]}
{"id": "C39", "title": "Comments do not reach the output", "statement": "The text of a line comment or of an \\iffalse block never appears in the output: replacing it by other text leaves the result unchanged.", "quantifier": "every syntax tree without verbatim-text commands", "why_tests_cant": "All comment texts.", "anchors": ["crates/mitex/src/converter.rs: Converter::convert"]}
{"id": "C40", "title": "Specification shorthands mean what they say", "statement": "Each shorthand item of the JSON specification denotes the documented canonical item; canonical items are unchanged.", "quantifier": "every shorthand item", "why_tests_cant": "All parameter strings.", "anchors": ["crates/mitex-spec/src/query.rs: From<CommandSpecItem>", "crates/mitex-spec/src/preludes.rs: command"]}
{"id": "C41", "title": "Later packages override earlier ones", "statement": "Merging packages keeps, for every name, the item of the last package defining it and nothing else.", "quantifier": "every list of packages, every iteration order within a package", "why_tests_cant": "All package lists.", "anchors": ["crates/mitex-cli/src/main.rs: generate", "crates/mitex-spec/src/query.rs: PackagesVec"]}
{"id": "C42", "title": "Command and environment look-ups are exclusive", "statement": "A name never answers both as a command and as an environment, and look-ups agree with the raw table.", "quantifier": "every specification, every name", "why_tests_cant": "All tables.", "anchors": ["crates/mitex-spec/src/lib.rs: get, get_cmd, get_env"]}
{"id": "C43", "title": "Literal glob patterns", "statement": "A pattern without special characters matches exactly itself, and prefix-matches exactly its prefixes.", "quantifier": "every literal pattern, every path", "why_tests_cant": "All strings.", "anchors": ["crates/mitex-glob/src/lib.rs: glob_match, glob_match_prefix"]}
{"id": "C44", "title": "Optional-argument globs accept the intended argument lists", "statement": "For patterns made of optional kinds `{,x}` and required kinds, prefix matching accepts exactly what greedy reading accepts, and for unambiguous patterns exactly the prefixes of the argument lists described; every glob of the built-in specification is an optional bracket followed by n terms and accepts exactly those lists.", "quantifier": "every such pattern, every argument-kind string", "why_tests_cant": "All patterns and argument strings.", "anchors": ["crates/mitex-glob/src/lib.rs: glob_match_prefix", "crates/mitex-parser/src/arg_match.rs: ArgMatcher"]}
{"id": "C45", "title": "Glob matching never indexes out of bounds", "statement": "Matching never reads outside the pattern, the path or the brace stack.", "quantifier": "every pattern, every path, every mode", "why_tests_cant": "All inputs.", "anchors": ["crates/mitex-glob/src/lib.rs: glob_match_internal, skip_braces"]}
{"id": "C46", "title": "Glob matching terminates", "statement": "Matching terminates. (Refuted: `{/**/x,*}` on `/a` loops forever, because the fallback state of a failed alternative survives into the next one; proved for every pattern when the path has no `/`, which is the case of argument-kind strings.)", "quantifier": "every pattern, every path", "why_tests_cant": "Non-termination is not testable.", "anchors": ["crates/mitex-glob/src/lib.rs: glob_match_internal"]}
{"id": "C47", "title": "Brace alternation is exhaustive", "statement": "A pattern with braces matches a path iff some choice of alternatives does. (Refuted: alternatives are chosen greedily without backtracking.)", "quantifier": "every brace pattern, every path", "why_tests_cant": "Needs overlapping alternatives.", "anchors": ["crates/mitex-glob/src/lib.rs: glob_match_internal"]}
{"id": "C48", "title": "Argument matchers count correctly", "statement": "A fixed or range matcher accepts exactly its first `max` terms and rejects afterwards; none rejects all, greedy accepts all, and a glob matcher accepts as long as every prefix so far is accepted by the pattern.", "quantifier": "every matcher, every sequence of offered kinds", "why_tests_cant": "All sequences.", "anchors": ["crates/mitex-parser/src/arg_match.rs: ArgMatcherBuilder::start_match, try_match, match_as_term"]}
{"id": "C49", "title": "Command-line options resolve deterministically", "statement": "Positional and named input/output are never mixed silently: the accepted combinations give exactly the documented input and output, all others are errors.", "quantifier": "every option combination", "why_tests_cant": "All combinations and file names.", "anchors": ["crates/mitex-cli/src/lib.rs: process_opts"]}
{"id": "C50", "title": "Compiling never overwrites its input by default", "statement": "`mitex compile main.tex` writes somewhere other than its input. (Refuted: the default output extension is tex.)", "quantifier": "every input path", "why_tests_cant": "Depends on the extension.", "anchors": ["crates/mitex-cli/src/lib.rs: process_opts"]}
{"id": "C51", "title": "The generated prelude is canonical", "statement": "Each eligible alias of the specification is declared exactly once, in sorted order, nothing else is declared, and the result is independent of hash-map iteration order.", "quantifier": "every specification, every iteration order", "why_tests_cant": "All tables and orders.", "anchors": ["crates/mitex-cli/src/main.rs: compile"]}
{"id": "C52", "title": "Syntax kinds round-trip", "statement": "Converting a syntax kind to its raw number and back is the identity, and numbers that are no kind are rejected.", "quantifier": "every kind, every raw number", "why_tests_cant": "Finite but complete, including all invalid numbers.", "anchors": ["crates/mitex-parser/src/syntax.rs: SyntaxKind::from_repr"]}
{"id": "C53", "title": "The plugin boundary adds nothing", "statement": "Through the plugin interface, an empty specification means the built-in one and the result bytes are exactly the library's result; invalid UTF-8 input is an error, never a crash.", "quantifier": "every input byte string", "why_tests_cant": "All inputs.", "anchors": ["crates/mitex-wasm/src/lib.rs: extract_spec, convert_math, convert_text"]}
{"id": "C54", "title": "Documents are converted to their translation", "statement": "For every document built from words, white space and comments, punctuation, primes, line ends, groups, scripts, commands with fixed or glob-shaped arguments, postfix (\\limits), infix (\\over, \\choose) and rest-taking (\\displaystyle, \\color) commands, \\left...\\right, environments (lists, equations, matrices, cases, figures with captions, tables with columns and rules, generic ones), pictures, colours, labels, Typst code blocks and formulas, converting its source gives exactly the translation prescribed construct by construct: each construct becomes the Typst text its command or environment specification says, in the context (text or formula, enclosing environment, list indentation, pending label) in which it stands, and an unknown command or environment becomes the error naming it.", "quantifier": "every well-formed document of any length and nesting depth, both modes, with and without macros, every large enough fuel", "why_tests_cant": "Unboundedly many documents, and contexts interact (mode switches, argument lists, pending labels, script bases).", "anchors": ["crates/mitex/src/lib.rs: convert_text, convert_math, convert_math_no_macro", "crates/mitex-parser/src/parser.rs: Parser", "crates/mitex/src/converter.rs: Converter", "crates/mitex-spec-gen (DEFAULT_SPEC)"]}
{"id": "C55", "title": "Delimiters pair up predictably, also in broken sources", "statement": "A group, formula, environment or \\left...\\right pair is read up to the first token that ends it: its own closing delimiter, which then belongs to it; or a closing brace (which ends everything), an \\end (which ends everything but a group) or a \\right (which ends formulas and pairs), which is left to an enclosing construct; or the end of the input. A closing delimiter that ends nothing becomes an error element (or an ordinary bracket or command) at the place where it stands, and reading goes on behind it. Nothing else ends a construct.", "quantifier": "every token sequence, well-formed or not, of any length and nesting, without scripts, primes, conditionals and commands or environments that take arguments; every such source with and without macros", "why_tests_cant": "Unboundedly many ways of mis-nesting delimiters.", "anchors": ["crates/mitex-parser/src/parser.rs: stop_by_scope, item_list, item_group, environment, item_lr, clause_lr, content"]}
{"id": "C56", "title": "The grammar of the accepted language", "statement": "For every source, well-formed or not, the syntax tree is the one reading of its tokens under a fixed grammar: which tokens end which construct, what a script, a prime, a postfix or an infix command takes as its base (the last element that can carry one, or the whole list read so far), which arguments a command or environment takes under its pattern and what becomes of the blanks before them, how skipped conditionals and left-right delimiters are read, and how stray closers become errors. Tokens without a reading, and only those, make the parser panic.", "quantifier": "every token sequence without empty words (which covers every source, with and without macro expansion), every command specification, every large enough fuel", "why_tests_cant": "Unboundedly many sources; the constructs interact through the list being read (its start, its last base) and through scopes.", "anchors": ["crates/mitex-parser/src/parser.rs: content, item_list, item_group, command, environment, item_lr, clause_lr, attach_component, match_arguments, match_arguments_, arg, stop_by_scope, eat_body_of_ifs", "crates/mitex-parser/src/arg_match.rs: ArgMatcher"]}
{"id": "C57", "title": "The exact lexical grammar", "statement": "For every source and every specification the tokens are those of a fixed lexical grammar with no exception: apart from environment delimiters they are as in C03, and an environment delimiter with comments in it is read with one byte less per comment (the line end closing a comment is not counted), first for the place where the name starts and again for the place where the delimiter ends. The lexer panics exactly when one of those two places lies inside a multi-byte character. Every source has exactly one such reading, and parsing without macros is that reading followed by the grammar of C56.", "quantifier": "every source text, every command specification, every page size of at least 2", "why_tests_cant": "Unboundedly many sources; what a delimiter is read as depends on the number of comments in it and on byte positions in the text before.", "anchors": ["crates/mitex-lexer/src/token.rs: Token, lex_command_name, lex_begin_end, LexTask::next_non_trivia, LexTask::work", "crates/mitex-lexer/src/stream.rs: StreamContext::lex_one", "crates/mitex-parser/src/lib.rs: parse_without_macro"]}
{"id": "C58", "title": "Exact macro expansion", "statement": "Expanding a source is running a fixed rewriting system on its tokens, with no exception for ill-formed input: every definition command (well-formed or not), every call (with too few, word, group or token arguments), every user environment (closed, unclosed, crossed) and every conditional is one rewriting step; the steps are determined. The expander answers with a token list exactly when the system ends with that list, panics exactly when the system gets stuck (which is exactly at a definition whose name has no backslash or whose body ends in #), and has no answer exactly when the system goes on for ever. Parsing with macros is the reading of C57, this system, and then the grammar of C56.", "quantifier": "every source text, every command specification, every page size of at least 2, and every state of the macro table and of the open conditionals", "why_tests_cant": "Unboundedly many programs of definitions and calls, some of which do not terminate: no test can observe non-termination, and the meaning of a call depends on the whole history of definitions before it.", "anchors": ["crates/mitex-lexer/src/macro_engine.rs: do_bump, trapped_by_if, trapped_by_else, trapped_by_endif, skip_false_tokens, trapped_by_macro, identify_macro_update, read_macro_args, read_env_body, expand_tokens, process_macro_def", "crates/mitex-parser/src/lib.rs: parse"]}
{"id": "C59", "title": "Exact conversion", "statement": "The output of every conversion is given by a fixed layout, with no exception for ill-formed input: each element of the syntax tree is laid out, in its place (text or formula, the surrounding environment, the indentation, all inherited from above), as a sequence of fixed texts and elements below it; the output is what the pieces come to from left to right, where all that is carried from one piece to the next is whether a line has just begun (blanks are then dropped) and the one label that waits for the end of its environment. The result is an error, with exactly its message, or a panic, exactly when the first element in the order of writing that cannot be written is of that sort. Converting a source is the lexical reading of C57, the macro expansion of C58, the grammar of C56 under the caller's specification, and this layout under the built-in one.", "quantifier": "every source text, both modes, with and without macros, every caller's command specification, every page size of at least 2; for trees: every well-shaped tree and every specification", "why_tests_cant": "Unboundedly many documents; the text of an element depends on its place, at any depth, and on what was written before it.", "anchors": ["crates/mitex/src/converter.rs: Converter::convert, convert_formula, convert_curly_group, convert_clause_lr, convert_attach_component, convert_command_sym, convert_command_item, convert_command_label, convert_command_includegraphics, convert_command_color, convert_normal_command, convert_env, enter_env, exit_env, convert_inner", "crates/mitex/src/lib.rs: convert_text, convert_math, convert_math_no_macro"]}
{"id": "C60", "title": "Wildcard patterns match what they describe", "statement": "A glob pattern of literal bytes, ? and * (no class, group, escape, leading ! or **) matches a path exactly when the path is obtained by replacing every ? by one byte that is no separator and every * by a string without separators; backtracking never loses a match nor invents one. Prefix matching against a path without separators holds exactly when the path can be continued to one the pattern describes.", "quantifier": "all such patterns and all paths (prefix matching: paths without '/'; a counterexample is proved for others)", "why_tests_cant": "The matcher keeps a single resumption point per star; that this suffices is a statement about all patterns, all paths and all backtracking runs.", "anchors": ["crates/mitex-glob/src/lib.rs: glob_match, glob_match_prefix, glob_match_internal, State::backtrack"]}
{"id": "C61", "title": "An interrupted compilation", "statement": "Whenever the compile command stops - finished, refused by the operating system at any call, or killed at any moment - every file but the output is as it was, and the output file is as it was or holds a beginning of the right document (the prelude and the conversion of the source); exit status 0 is given only with the whole document in place, and is reached whenever the source converts and nothing is refused; when the source cannot be read as text or converted nothing is changed. Two things a user might hope for are refuted: the output of an earlier run is lost when a later run fails after opening the file, and a source called stem.tex compiled without naming the output is emptied before its translation is written.", "quantifier": "every disk, every way paths name files, every sequence of answers of the operating system (errors, interruptions, short writes) and every moment of stopping, every source, every command line of the compile command", "why_tests_cant": "Tests run with calls that succeed and without being killed; the claim is about every crash point and every pattern of failures.", "anchors": ["crates/mitex-cli/src/main.rs: main, compile", "crates/mitex-cli/src/lib.rs: process_opts", "crates/mitex-cli/src/version.rs: intercept_version", "crates/mitex-cli/src/utils.rs: exit_with_error"]}
{"id": "C62", "title": "Packages are read as they are written", "statement": "A definition written with the Typst prelude (define-cmd, define-sym, define-env, ...) reaches the converter with exactly the arguments, alias and environment kind it was written with: every specification item, table and list of packages is read back from its serialised form unchanged, whatever the order of its fields and whatever unknown fields are added; the specification generated from a list of packages answers for every name what the name's last definition says; and a definition is refused (and with it the whole answer) exactly when a count exceeds 255, the environment kind is unknown, or define-glob-env has no alias - although no alias is its default.", "quantifier": "every item, table, list of packages and definition, every order of fields, every name", "why_tests_cant": "The set of packages is unbounded; tests decode the one package that is shipped.", "anchors": ["crates/mitex-spec/src/query.rs", "crates/mitex-spec/src/lib.rs: CommandSpecItem, ArgShape, ArgPattern, ContextFeature (serde attributes)", "crates/mitex-spec-gen/build.rs: generate", "crates/mitex-wasm/src/lib.rs: compile_spec", "packages/mitex/specs/prelude.typ"]}
{"id": "C63", "title": "Handlers are bound to the names the code calls", "statement": "For every definition with a handler, the name the handler is stored under in mitex-scope is the name the converted code calls for that definition (its alias without a leading #, or its own name); the converted code of a command or environment begins with that name; of several handlers under one name the last definition's is bound, across packages in order. In the shipped package every handler is reached by its own definition except those of \\label, \\! and \\operatornamewithlimits, which later definitions replace.", "quantifier": "every list of packages and definition, every converted command and environment in every place", "why_tests_cant": "The two names are computed in two languages from one definition; a test sees one definition at a time.", "anchors": ["packages/mitex/specs/prelude.typ: process-spec", "packages/mitex/specs/mod.typ: mitex-scope", "packages/mitex/specs/latex/standard.typ", "crates/mitex/src/converter.rs: convert_normal_command, convert_env"]}
{"id": "C64", "title": "Names in a compiled document", "statement": "In a document written by the compile command a name of the converted code means the same as when the Typst package evaluates the same code exactly if the name is declared in the document's preamble and has a handler, or neither. With the shipped package this fails for exactly 238 names: 134 handlers are not declared (\\dfrac, \\pmatrix, \\xrightarrow, ...), and 104 names that Typst knows itself are set to none (\\times, \\forall, \\int, ...), so that the compiled document of $a \\times b$ loses its sign.", "quantifier": "every specification, scope and name; every output", "why_tests_cant": "No test evaluates the compiled document; the claim ranges over all names and specifications.", "anchors": ["crates/mitex-cli/src/main.rs: compile", "packages/mitex/mitex.typ: mimath, mitext", "packages/mitex/specs/mod.typ", "packages/mitex/specs/latex/standard.typ"]}
{"id": "C65", "title": "Argument patterns mean the globs documented for them", "statement": "A specification may write an argument pattern as a fixed or bounded number of terms, or as the glob the documentation calls equivalent (`{,t}` repeated; `t` repeated, then `{,t}` repeated; `*` for greedy): replacing one by the other does not change how any source is parsed. (True of every source in which no `[` and no `(` reaches the parser; false with brackets, for patterns of length 0, for `range-len` read literally and for greedy commands.)", "quantifier": "every pair of specifications that differ in how patterns are written, every source, with and without macros", "why_tests_cant": "The claim compares two parsers' trees for all sources and all specifications, through the glob matcher.", "anchors": ["crates/mitex-spec/src/lib.rs: ArgPattern", "crates/mitex-parser/src/arg_match.rs: ArgMatcher", "crates/mitex-parser/src/parser.rs: match_arguments_", "crates/mitex-glob/src/lib.rs: glob_match_prefix"]}
{"id": "C66", "title": "Character classes and escapes match what they say", "statement": "A glob pattern of literal bytes, escapes (\\n, \\t, \\r, \\b are control characters, any other escaped byte is itself), ?, * and character classes ([a-z], negated by ! or ^, a leading ] and dashes at the ends being members), with any number of leading !, matches a path exactly when (or, after an odd number of leading !, exactly unless) the path is a string the elements describe one after another. Prefix matching against paths without separators holds exactly when a front part of the pattern describes the path; when every class admits some byte these are the beginnings of what the pattern describes. A class may match a separator; then a star after it can lose a match (counterexample proved), so for paths with separators the exact theorem asks that no class admits one.", "quantifier": "all such patterns and all paths (prefix matching: paths without '/')", "why_tests_cant": "The reading of a class depends on the position of ], -, ! and \\ in it, and combines with the backtracking of stars; the claim is about every class text, every pattern and every path.", "anchors": ["crates/mitex-glob/src/lib.rs: glob_match, glob_match_prefix, glob_match_internal ('[' arm, literal arm), unescape"]}
{"id": "C67", "title": "The typed views of the tree answer what is there", "statement": "In the tree of every source: a command has one name, which name_tok() answers, and arguments() answers everything else, in order; an environment's begin(), name_tok() and arguments() answer its \\begin clause, and end() its \\end clause exactly when there is one; every formula is either inline or display, and is_inline()/is_display() say which, by what opens it; left() answers the \\left clause, right() the \\right clause or nothing, is_left() tells them apart, and sym() answers the delimiter of a clause or nothing. (The last two are false of the code: right() of \\left( alone is the left clause, and sym() of a \\left before a final blank is the blank; proved exactly.)", "quantifier": "every source, specification and page size, with and without macros, every node of the tree", "why_tests_cant": "The accessors search children by kind; that they find the right ones depends on the shape of every tree the parser can build.", "anchors": ["crates/mitex-parser/src/syntax.rs: CmdItem, EnvItem, FormulaItem, LRItem, LRClause, BeginItem, EndItem", "crates/mitex-parser/src/parser.rs: item_lr, clause_lr, environment, command"]}
{"id": "C68", "title": "Captures are the parts the wildcards matched", "statement": "glob_match_with_captures answers a list of captures exactly when glob_match answers true; every capture is a range (start, end) with start <= end <= length of the path, on character boundaries, so that it can be sliced; and the captures are, in order, the parts of the path that the wildcards of the pattern stand for. Proved: the agreement, and that both ends lie within the path, for every pattern; start <= end for patterns without groups; the parts exactly for patterns of elements in which only literals and stars follow the first star. False of the code otherwise: a group can leave a capture that ends before it starts, a ? after a star leaves stale captures, and captures of ? may cut a character in two (each slicing panics in the caller).", "quantifier": "all patterns and paths (see the parts)", "why_tests_cant": "Captures are written, overwritten and extended at an index that moves with backtracking; which writes survive depends on the whole run of the matcher, for every pattern and path.", "anchors": ["crates/mitex-glob/src/lib.rs: glob_match_with_captures, begin_capture, extend_capture, end_capture, add_char_capture, skip_braces, BraceStack::pop"]}
{"id": "C69", "title": "The generated Typst code is nested", "statement": "In the Typst code that convert_math and convert_text answer, every round bracket that is opened is closed where it was opened, square brackets enclose ordinary text, and dollars enclose formulas (a backslash hides the next character). Proved for every source without \\left, \\label, \\includegraphics, \\color, \\textcolor, \\colorbox, \\iftypst and table environments, and for every source in which these are used tidily: each \\left has its \\right, the last row of a table is ended, and the texts that are copied unread (labels, picture options and paths, colour models, Typst code) contain no stray bracket. False of the code otherwise: one refutation per condition.", "quantifier": "all sources, specifications, page sizes, both modes, with and without macro expansion", "why_tests_cant": "Every construct writes its brackets around the output of an arbitrary subtree and some write them conditionally (lr, matrices, tables, scripts, greedy blocks); that they pair up in every nesting is an invariant over all trees.", "anchors": ["crates/mitex/src/converter.rs: Converter::convert", "crates/mitex/src/lib.rs: convert_text, convert_math"]}
{"id": "C70", "title": "A group and its surroundings do not influence each other", "statement": "Call a token sequence a group's content if its braces are balanced, no script mark stands directly before a closing brace, no brace is the delimiter of \\left or \\right, and it has no \\iffalse or \\iftypst. (1) Replacing, anywhere in a source, some groups {x} by {y} (not directly after \\left or \\right, not after \\iffalse or \\iftypst) replaces in the syntax tree elements equal to the tree of {x} by the tree of {y}, and changes nothing else. (2) If a source is the groups {x1}{x2}..., without \\label, then convert_math and convert_text answer the outputs of {x1}, {x2}, ... one after the other, have an output exactly if each of them has one, and otherwise report the error of the first group that has one. Each condition is needed: there is a refutation for every one of them.", "quantifier": "all sources, group contents, numbers of groups, specifications, page sizes, both modes, with and without macro expansion (on the expanded tokens)", "why_tests_cant": "It is non-interference between arbitrary pieces of source: infix commands, greedy arguments, scripts, argument matching and waiting labels all look at what stands around them, and a test can try only some neighbours.", "anchors": ["crates/mitex-parser/src/parser.rs: Parser::parse, content, item_group, stop_by_scope", "crates/mitex/src/converter.rs: Converter::convert", "crates/mitex/src/lib.rs: convert_text, convert_math"]}
{"id": "C71", "title": "Nothing of the generated code is swallowed by a comment, a string, a reference or strong text", "statement": "For every source without the commands that copy a part of the source as it stands (\\label, \\includegraphics, \\color, \\textcolor, \\colorbox, \\iftypst): in the Typst code that convert_math and convert_text answer, no slash, double quote, at sign or asterisk stands without a backslash before it, no backquote does unless the source has one, and the code does not end in a backslash that would hide what follows; so no punctuation of the source can begin a Typst comment, string, reference or strong text in the output, in whatever nesting it stands. The exception is needed: with each of those commands there is a refutation (\\label{a//b}, \\textcolor[/]{red}{x}, \\iftypst // \\fi). Together with C69: what mitex.typ's mimath evaluates, the answer between two dollars, is one formula that ends with the last dollar.", "quantifier": "all sources, specifications, page sizes, both modes, with and without macro expansion", "why_tests_cant": "Each token is escaped or not depending on the mode, and names, aliases, numbers and brackets are written around arbitrary subtrees; a test tries some places where a slash can stand, the property ranges over all.", "anchors": ["crates/mitex/src/converter.rs: Converter::convert (TokenSlash, TokenDitto, TokenAsterisk, TokenAtSign, TokenWord)", "crates/mitex/src/lib.rs: convert_text, convert_math", "packages/mitex/mitex.typ: mimath"]}
{"id": "C72", "title": "The parser sees whether there are blanks, not how many nor which", "statement": "Two sources whose token sequences become equal when every run of blanks (spaces and line breaks; or spaces, line breaks and comments) is replaced by one space, and which both parse, have syntax trees that become equal when every run of blanks among the children of a node is replaced by one space. And parsing the sequence with the single spaces gives exactly the tree with the single spaces. So indentation, line breaks, alignment and (when there is a blank anyway, or with comments counted as blanks) comments never change which arguments, scripts, clauses and groups there are.", "quantifier": "all pairs of sources (with and without macro expansion), all specifications, both readings of `blank`", "why_tests_cant": "the layout can differ at any number of places at any depth, and every construct of the grammar has its own handling of trivia", "anchors": ["crates/mitex-parser/src/parser.rs: trivia, ignore_trivia, extend_trivia, peek, arg, match_arguments", "crates/mitex-lexer/src/token.rs: is_trivia"]}
{"id": "C73", "title": "The syntax tree is at most linear in the source", "statement": "A parse that answers gives a tree with at most 1 + 12\u00b7n nodes and leaves, and no more levels, for a source of n characters without macro expansion; with macro expansion at most 1 + 6\u00b7w, where w counts the tokens after expansion and the characters of their texts. So no nesting of groups, scripts, environments, infix commands or patterns makes the parser wrap or copy more than a constant number of nodes for each token.", "quantifier": "all sources, specifications, page sizes, with and without macro expansion", "why_tests_cant": "The parser opens nodes retroactively around what it already built (scripts, infix commands, environment bodies, clauses); a test sees the size of some trees, a bound ranges over every nesting.", "anchors": ["crates/mitex-parser/src/parser.rs: Parser::parse, content, attach_component, item_environment, match_arguments", "crates/mitex-parser/src/lib.rs: parse, parse_without_macro"]}
{"id": "C74", "title": "The output is at most quadratic in the source", "statement": "If a conversion answers, the Typst code has at most 8640\u00b7(1+w)\u00b2 characters, w counting the tokens after macro expansion and the characters of their texts; for a source of n characters without macro expansion at most 34560\u00b7(1+n)\u00b2. So nothing is emitted twice at every level of nesting (the output cannot grow exponentially with depth): apart from indentation, which grows with depth, each part of the source is written a constant number of times.", "quantifier": "all sources, page sizes, both modes, with and without macro expansion, the built-in specification (the one that conversion always uses)", "why_tests_cant": "Whether the conversion of a child is emitted once or several times, and how much indentation each line gets, multiplies along the nesting; a test has one depth.", "anchors": ["crates/mitex/src/converter.rs: Converter::convert, convert_command_or_formula, convert_env, convert_normal_environment", "crates/mitex/src/lib.rs: convert_inner"]}
{"id": "C75", "title": "With macros the output can be exponentially longer than the source, without any recursion", "statement": "For every n the source \\newcommand{\\f}[1]{#1 #1}\\f{\\f{\u2026\\f{x}\u2026}} with n nested calls, of 26 + 4n characters, is converted (given enough time) to x x \u2026 x with 2^(n+1) - 1 characters; so no limit on nesting, table size or output stops a document from growing exponentially (what C74 bounds is the output against the expanded tokens). Such calls are expanded one by one and each argument is expanded as often as it is used.", "quantifier": "all n, specifications and page sizes", "why_tests_cant": "a test runs one depth; the statement is about the growth over all depths", "anchors": ["crates/mitex-lexer/src/macro_engine.rs: MacroEngine::trapped_by_macro, read_macro_args, expand_tokens", "crates/mitex/src/lib.rs: convert_text"]}
{"id": "C76", "title": "The names of macros do not matter", "statement": "If the names of commands in a source are replaced consistently (different names stay different; the definition commands, the other names known from the start and commands with a lexical meaning such as \\left and \\iftrue keep their names) and the source defines no environments, then the expansion of the new source is the expansion of the old one with the same replacement; so definitions, redefinitions, calls, arguments, defaults, conditionals and errors work alike, and if only macros were renamed (none is left in the expansion) the conversion answers exactly the same.", "quantifier": "all sources without environment definitions, all injective renamings that respect the reserved names, all specifications, page sizes and both modes", "why_tests_cant": "Names are compared, split from their backslash, looked up in a table with a history and stored in bodies that are expanded later; a test renames one macro in one document.", "anchors": ["crates/mitex-lexer/src/macro_engine.rs: trapped_by_macro, identify_macro_update, read_macro_args, expand_tokens", "crates/mitex-lexer/src/snapshot_map.rs: SnapshotMap"]}
{"id": "C77", "title": "A formula in a text is a document in formula mode", "statement": "If the tokens of a source are those of a formula put between two matching delimiters ($...$, \\(...\\), $$...$$, \\[...\\]) and the whole is read as one formula, then what stands in this formula is exactly the tree of the source without the delimiters, and convert_text of the delimited source is convert_math of the bare source between the Typst delimiters (#math.equation(block: false, $...$); for inline formulas, $ ... $ for displayed ones): the same text inside, the same errors, a panic for a panic. In formula mode itself the delimiters write nothing: convert_math of the two is the same. Environments with arguments must have their one argument in braces (\\begin{array}\\end{array} is read differently in the two places). So it does not matter which of $ and \\( (or $$ and \\[) is used.", "quantifier": "all sources, with and without macros, all specifications, page sizes, formulas of any size and nesting, the four pairs of delimiters", "why_tests_cant": "The parser passes the enclosing place to every nested reading, where it decides what ends arguments, scripts, infix and greedy commands; a test compares one formula.", "anchors": ["crates/mitex/src/lib.rs: convert_text, convert_math", "crates/mitex-parser/src/parser.rs: Parser::item, scope and stop functions", "crates/mitex/src/converter.rs: ItemFormula, LaTeXMode"]}
{"id": "C78", "title": "Braces around a text make no difference", "statement": "In a text, putting braces around a source whose content is a group (braces balanced, nothing skipped, no script mark at the end; environments with arguments have them in braces) does not change what is written: convert_text of {s} is convert_text of s, the same output, the same errors, a panic for a panic; and the tree of {s} is one group whose content is exactly the tree of s. So a text of groups without \\label, {s1}{s2}..., is converted to what s1, s2, ... are converted to, one after the other.", "quantifier": "all sources, with and without macros, whose tokens are such a content, all specifications and page sizes", "why_tests_cant": "In a group the parser has another place, in which closing braces end every nested reading; a test compares one text.", "anchors": ["crates/mitex-parser/src/parser.rs: Parser::item, stop functions, scope kinds", "crates/mitex/src/converter.rs: ItemCurly"]}
{"id": "C79", "title": "Braces in a formula", "statement": "In formula mode too, putting braces around a source whose content is a group does not change what is written, provided that outside its environments there is neither a row end (\\\\) nor a \\label: convert_math of {s} is convert_math of s, with the same errors and a panic for a panic; the only difference is that after a group with nothing but blanks in it an invisible character (zws) is written. Row ends and labels inside environments (matrices, arrays, ...) do no harm; outside, {a \\\\ b} and a \\\\ b do differ.", "quantifier": "all sources, with and without macros, whose tokens are such a content, all specifications and page sizes, formulas of any size and nesting", "why_tests_cant": "The environment a group sets in formula mode is inherited by everything below, through commands, scripts and texts, and reset by environments; a test compares one formula.", "anchors": ["crates/mitex/src/converter.rs: ItemCurly, LaTeXEnv::MathCurlyGroup, ItemNewLine, \\label"]}
{"id": "C80", "title": "Braces around braces make no difference", "statement": "For every source whose content is a group (balanced braces, nothing skipped, no open script mark; environments with arguments have them in braces), {{s}} and {s} are converted alike, by convert_text and by convert_math: the same output, the same errors, a panic for a panic - without the restriction of C79 on row ends and labels.", "quantifier": "all sources, with and without macros, whose tokens are such a content in braces, all specifications and page sizes, both modes", "why_tests_cant": "The place of the inner group is computed from that of the outer one, at every depth; a test compares one formula.", "anchors": ["crates/mitex/src/converter.rs: ItemCurly, LaTeXEnv::MathCurlyGroup", "crates/mitex-parser/src/parser.rs: Parser::item, stop functions"]}
