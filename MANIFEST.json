{
 "claims": [
  {
   "property": "C01",
   "status": "proved",
   "theorems": [
    "C01_lossless"
   ],
   "note": "lex_stream; text of begin/end delimiters is the name inside the lexeme"
  },
  {
   "property": "C02",
   "status": "partial",
   "theorems": [
    "C02_no_panic_partial",
    "C02_no_panic_without_percent",
    "C02_refuted",
    "C02_exact"
   ],
   "note": "false of the code when a delimiter contains comments and a multi-byte blank; proved when no delimiter contains a comment, and for ASCII sources; C02_exact gives the exact panicking sources"
  },
  {
   "property": "C03",
   "status": "proved",
   "theorems": [
    "C03_classification",
    "C03_tokens",
    "C03_white_space"
   ],
   "note": "both directions; delimiters with an embedded comment are outside the classification (see C05)"
  },
  {
   "property": "C04",
   "status": "proved",
   "theorems": [
    "C04_starred"
   ],
   "note": ""
  },
  {
   "property": "C05",
   "status": "partial",
   "theorems": [
    "C05_delimiter_partial",
    "C05_refuted",
    "C05_exact",
    "C05_comment_before_brace",
    "C05_comment_after_name"
   ],
   "note": "blanks before either brace proved for all; comments refuted, and what is read instead is stated exactly (C05_exact, C57)"
  },
  {
   "property": "C06",
   "status": "proved",
   "theorems": [
    "C06_page_independence",
    "C06_none_forever"
   ],
   "note": ""
  },
  {
   "property": "C07",
   "status": "proved",
   "theorems": [
    "C07_peek_eat",
    "C07_consume",
    "C07_delivers_functional",
    "inner_stream_merge_exact"
   ],
   "note": ""
  },
  {
   "property": "C08",
   "status": "proved",
   "theorems": [
    "C08_transparent",
    "C08_source",
    "C08_parse"
   ],
   "note": "C08_parse is in P_Parser.v"
  },
  {
   "property": "C09",
   "status": "proved",
   "theorems": [
    "C09_page_independence",
    "C09_functional"
   ],
   "note": ""
  },
  {
   "property": "C10",
   "status": "proved",
   "theorems": [
    "C10_commands",
    "C10_environments"
   ],
   "note": ""
  },
  {
   "property": "C11",
   "status": "proved",
   "theorems": [
    "C11_call",
    "C11_define_and_call"
   ],
   "note": "bodies without the \\mitexrecurse escape"
  },
  {
   "property": "C12",
   "status": "partial",
   "theorems": [
    "C12_arity_partial",
    "C12_refuted",
    "C58_step",
    "C58_output"
   ],
   "note": "refuted for unbraced word arguments; C58 gives the exact arguments of every call"
  },
  {
   "property": "C13",
   "status": "proved",
   "theorems": [
    "C13_environment"
   ],
   "note": ""
  },
  {
   "property": "C14",
   "status": "partial",
   "theorems": [
    "C14_markers",
    "C14_refuted",
    "C58_step"
   ],
   "note": "markers proved; body ending in # panics (refuted); C58 gives every definition exactly"
  },
  {
   "property": "C15",
   "status": "proved",
   "theorems": [
    "C15_conditionals",
    "C15_whole",
    "C15_alternating"
   ],
   "note": ""
  },
  {
   "property": "C16",
   "status": "partial",
   "theorems": [
    "C16_skipped_partial",
    "C16_refuted",
    "C58_step"
   ],
   "note": "refuted for nested \\else; C58 gives what is skipped exactly"
  },
  {
   "property": "C17",
   "status": "partial",
   "theorems": [
    "C17_refuted",
    "C17_terminates_partial",
    "C17_source",
    "C17_exact"
   ],
   "note": "refuted in general: a self-calling macro and a macro duplicating its parameter never end; proved without definition commands in the text when macros are acyclic and use each parameter at most once, and for every source without definition commands; C17_exact: no answer iff the rewriting system of C58 goes on for ever"
  },
  {
   "property": "C18",
   "status": "partial",
   "theorems": [
    "C18_refuted",
    "C18_definitions_partial",
    "C18_uses_partial",
    "C18_source_partial",
    "C18_exact"
   ],
   "note": "refuted in general (trailing # in a body; \\newcommand{\\begin{a}}); proved without # and environment delimiters, or without definition commands; C18_exact: the expander panics iff it comes to such a definition"
  },
  {
   "property": "C19",
   "status": "proved",
   "theorems": [
    "C19_refinement",
    "C19_rollback",
    "C19_engine"
   ],
   "note": ""
  },
  {
   "property": "C20",
   "status": "proved",
   "theorems": [
    "C20_normal_form"
   ],
   "note": "for texts without definition commands (which change what is expandable)"
  },
  {
   "property": "C21",
   "status": "proved",
   "theorems": [
    "C21_leaves",
    "C21_significant_text",
    "C21_exact_text",
    "C21_source",
    "C21_source_text"
   ],
   "note": "token and source level, with and without macros"
  },
  {
   "property": "C22",
   "status": "proved",
   "theorems": [
    "C22_tokens",
    "C22_stable",
    "C22_source",
    "C22_source_macros"
   ],
   "note": "fuel bounds call/loop depth; with macros relative to termination of the expansion (C17)"
  },
  {
   "property": "C23",
   "status": "partial",
   "theorems": [
    "C23_refuted",
    "C23_tokens_partial",
    "C23_source_partial",
    "C23_default_spec",
    "C56_panics"
   ],
   "note": "the unconditional claim is refuted by two sources; proved for every stream where no postfix/infix command directly follows a script marker and no environment takes greedy arguments; C56_panics says exactly which token sequences panic (those without a reading in GramSpec.v)"
  },
  {
   "property": "C24",
   "status": "proved",
   "theorems": [
    "C24_commands",
    "C24_environments",
    "C24_arity",
    "C24_source"
   ],
   "note": ""
  },
  {
   "property": "C25",
   "status": "proved",
   "theorems": [
    "C25_well_formed",
    "C25_delimited",
    "C25_scripts"
   ],
   "note": ""
  },
  {
   "property": "C26",
   "status": "proved",
   "theorems": [
    "C26_tokens",
    "C26_plain",
    "C26_macros",
    "C26_page"
   ],
   "note": ""
  },
  {
   "property": "C27",
   "status": "proved",
   "theorems": [
    "C27_tokens",
    "C27_source"
   ],
   "note": ""
  },
  {
   "property": "C28",
   "status": "proved",
   "theorems": [
    "C28_alignment",
    "C28_rows"
   ],
   "note": "arguments taken from the left (postfix/infix commands) do swallow alignment marks; the claim is about arguments to the right"
  },
  {
   "property": "C29",
   "status": "proved",
   "theorems": [
    "C29_context",
    "C29_siblings"
   ],
   "note": "every tree, state and specification"
  },
  {
   "property": "C30",
   "status": "proved",
   "theorems": [
    "C30_text",
    "C30_unchanged"
   ],
   "note": "End to end (lexer, macro engine on or off, parser, converter) for every source without backslash, braces and dollar; the output is given character by character by the separate function rendered."
  },
  {
   "property": "C31",
   "status": "proved",
   "theorems": [
    "C31_formula",
    "C31_words"
   ],
   "note": "End to end, for every formula without backslash, braces, dollar and script marks."
  },
  {
   "property": "C32",
   "status": "proved",
   "theorems": [
    "C32_success",
    "C32_errors_true",
    "C32_unknown_command",
    "C32_unknown_symbol",
    "C32_unknown_environment",
    "C32_reported",
    "C32_reported_name",
    "C32_source"
   ],
   "note": "what a successful conversion looks at is the relation converted (ConvSpec.v); \\color arguments, arguments after a colour model and captions are not part of that relation; C32_reported assumes the tree cannot panic (fine)"
  },
  {
   "property": "C33",
   "status": "proved",
   "theorems": [
    "C33_terminates",
    "C33_stable",
    "C33_tree",
    "C33_public"
   ],
   "note": "recursion depth bounded by the tree height"
  },
  {
   "property": "C34",
   "status": "partial",
   "theorems": [
    "C34_source_partial",
    "C34_plain_partial",
    "C34_refuted",
    "C34_exact"
   ],
   "note": "Refuted with six witnesses (C34_refuted). For every source that the parser accepts with the built-in specification, conversion answers Ok or Err if \\label, \\includegraphics, \\caption and tables are given the arguments they read (C34_source_partial), in particular if no token calls for one of them (C34_plain_partial). Exactly (C34_exact): it panics iff, in the order of writing, an element is reached that is a \\label or \\includegraphics without a usable argument, a figure with a \\caption without an argument, or a table without a column argument. Missing: the claim itself, which is false of the code."
  },
  {
   "property": "C35",
   "status": "proved",
   "theorems": [
    "C35_depth",
    "C35_no_underflow",
    "C35_item",
    "C35_line_break",
    "C35_outside"
   ],
   "note": "every tree: the converter that checks indentation = 2 x list depth at every element is the converter"
  },
  {
   "property": "C36",
   "status": "proved",
   "theorems": [
    "C36_columns",
    "C36_error"
   ],
   "note": "for every table environment whose first argument is {\u2026}: column count, alignments and rule positions in the output"
  },
  {
   "property": "C37",
   "status": "partial",
   "theorems": [
    "C37_refuted",
    "C37_builtin_partial",
    "C37_aliases_partial"
   ],
   "note": "Refuted as stated: conversion always looks commands up in the built-in specification, so a command known only to the caller's specification is reported as unknown with every fuel (C37_refuted). Proved: success implies every converted name is built in, and the caller's specification matters only through argument shapes."
  },
  {
   "property": "C38",
   "status": "proved",
   "theorems": [
    "C38_mismatch",
    "C38_unclosed",
    "C38_no_output",
    "C38_match",
    "C38_unclosed_accepted"
   ],
   "note": "formulas with both delimiters; also shown: an unclosed formula whose last token looks like a closing delimiter is accepted"
  },
  {
   "property": "C39",
   "status": "proved",
   "theorems": [
    "C39_tree",
    "C39_parse",
    "C39_source"
   ],
   "note": "Tree level (any specification, line comments and contents of block comments) and from the source on (line comments, with and without macro expansion): sources with the same tokens except for comment texts convert to the same result, if the comments are outside of elements whose source text is copied (comments_outside, listed in P_Comment.v)."
  },
  {
   "property": "C40",
   "status": "proved",
   "theorems": [
    "C40_shorthands"
   ],
   "note": "the meaning of every item is stated through what its matcher accepts (C48)"
  },
  {
   "property": "C41",
   "status": "proved",
   "theorems": [
    "C41_last_wins",
    "C41_last_means",
    "C41_order_independent"
   ],
   "note": "merge of mitex-spec-gen/build.rs; a package is a list of entries with distinct names"
  },
  {
   "property": "C42",
   "status": "proved",
   "theorems": [
    "C42_exclusive"
   ],
   "note": ""
  },
  {
   "property": "C43",
   "status": "proved",
   "theorems": [
    "C43_literal"
   ],
   "note": "string equality and prefix are those of the UTF-8 bytes"
  },
  {
   "property": "C44",
   "status": "proved",
   "theorems": [
    "C44_greedy",
    "C44_optional",
    "C44_builtin"
   ],
   "note": ""
  },
  {
   "property": "C45",
   "status": "proved",
   "theorems": [
    "C45_no_panic"
   ],
   "note": ""
  },
  {
   "property": "C46",
   "status": "partial",
   "theorems": [
    "C46_refuted",
    "C46_terminates_partial",
    "C46_answer"
   ],
   "note": "refuted in general (new finding: infinite loop on {/**/x,*} against /a); proved for every path without '/'"
  },
  {
   "property": "C47",
   "status": "partial",
   "theorems": [
    "C47_refuted",
    "C47_flat",
    "C47_flat_partial"
   ],
   "note": "false of the code for nested groups and for groups where one alternative begins another; exact behaviour of flat patterns (longest alternative) proved, and exhaustiveness for flat prefix-free groups"
  },
  {
   "property": "C48",
   "status": "proved",
   "theorems": [
    "C48_counts",
    "C48_as_term",
    "C48_terms"
   ],
   "note": "any glob matcher; the u8 counter's overflow (only for max=255 after the rejecting call) is not modelled"
  },
  {
   "property": "C49",
   "status": "proved",
   "theorems": [
    "C49_options"
   ],
   "note": "clap's own parsing is not modelled"
  },
  {
   "property": "C50",
   "status": "partial",
   "theorems": [
    "C50_refuted",
    "C50_other_extension_partial",
    "C50_path",
    "C50_default",
    "C50_exact",
    "C50_no_file"
   ],
   "note": "refuted for every file called stem.tex (input is overwritten); holds for every other file name; exactly which input paths are overwritten and what the default output is, for every path, in C50_default and C50_exact"
  },
  {
   "property": "C51",
   "status": "proved",
   "theorems": [
    "C51_prelude",
    "C51_canonical"
   ],
   "note": ""
  },
  {
   "property": "C52",
   "status": "proved",
   "theorems": [
    "C52_round_trip"
   ],
   "note": ""
  },
  {
   "property": "C53",
   "status": "proved",
   "theorems": [
    "C53_utf8",
    "C53_boundary"
   ],
   "note": "rkyv decoding of a non-empty specification is a parameter"
  },
  {
   "property": "C54",
   "status": "proved",
   "theorems": [
    "C54_document",
    "C54_source"
   ],
   "note": "Whole pipeline (lexer, macro engine, parser, converter) against DocSpec.translation, for every document accepted by the boolean DocSpec.wf_document. Left out of the grammar: unbalanced delimiters, commands with fewer arguments than their pattern asks for, a postfix command with nothing before it; with macros, sources with conditionals (C15, C16 cover these)."
  },
  {
   "property": "C55",
   "status": "proved",
   "theorems": [
    "C55_pairing",
    "C55_source",
    "C55_unique"
   ],
   "note": "exact: parse result iff derivation in the grammar of PairSpec.v"
  },
  {
   "property": "C56",
   "status": "proved",
   "theorems": [
    "C56_grammar",
    "C56_panics",
    "C56_unique",
    "C56_source"
   ],
   "note": "exact: parse result iff reading in GramSpec.v, for all token sequences without empty words and all specifications; panic iff no reading"
  },
  {
   "property": "C57",
   "status": "proved",
   "theorems": [
    "C57_token",
    "C57_panics",
    "C57_end",
    "C57_stream",
    "C57_unique",
    "C57_parse"
   ],
   "note": "exact for all sources, environment delimiters with comments included; parsing without macros is this reading followed by C56's grammar"
  },
  {
   "property": "C58",
   "status": "proved",
   "theorems": [
    "C58_output",
    "C58_panic",
    "C58_endless",
    "C58_step",
    "C58_one_way",
    "C58_initial",
    "C58_parse"
   ],
   "note": "exact for all sources and all engine states: output, panic and non-termination"
  },
  {
   "property": "C59",
   "status": "proved",
   "theorems": [
    "C59_tree",
    "C59_unique",
    "C59_parsed",
    "C59_output",
    "C59_error",
    "C59_panic",
    "C59_first"
   ],
   "note": "Declarative layout rules in RenderSpec.v; conversion equals them for every well-shaped tree, in both directions (output, error, panic), and every tree the parser makes is well shaped. C59_output and C59_error give the whole pipeline from the source text. C59_panic covers sources that can be lexed and fully expanded."
  },
  {
   "property": "C60",
   "status": "proved",
   "theorems": [
    "C60_match",
    "C60_prefix",
    "C60_negation",
    "C60_prefix_separator"
   ],
   "note": "exact for brace-free patterns, leading negations included; prefix matching exact for paths without separators (the only ones mitex uses), refuted otherwise"
  },
  {
   "property": "C61",
   "status": "proved",
   "theorems": [
    "C61_interrupted",
    "C61_source_kept",
    "C61_success",
    "C61_failure",
    "C61_completes",
    "C61_main",
    "C61_source_refuted",
    "C61_output_refuted"
   ],
   "note": "Transition system over system calls; two stronger wishes refuted (C61_source_refuted, C61_output_refuted). Not modelled: other processes writing meanwhile, data lost from OS caches."
  },
  {
   "property": "C62",
   "status": "proved",
   "theorems": [
    "C62_round_trip",
    "C62_table_round_trip",
    "C62_packages_round_trip",
    "C62_field_order",
    "C62_unknown_field",
    "C62_definitions",
    "C62_generate"
   ],
   "note": "JSON values, not JSON text; rkyv's binary form is not modelled. The shipped package meets the hypotheses of C62_generate (C63_standard), and so do the two packages of C63_example."
  },
  {
   "property": "C63",
   "status": "proved",
   "theorems": [
    "C63_key",
    "C63_scope",
    "C63_called",
    "C63_bound",
    "C63_standard"
   ],
   "note": "Handlers are opaque values (for the shipped package: the line they are defined on). \\textbf and \\textit in running text are Typst's own and excluded in C63_called."
  },
  {
   "property": "C64",
   "status": "proved",
   "theorems": [
    "C64_meaning",
    "C64_standard",
    "C64_refuted"
   ],
   "note": "The property is stated as the exact condition; that the two always agree - what a user would expect - is refuted (C64_refuted) and the exact list of names is given (C64_standard)."
  },
  {
   "property": "C65",
   "status": "partial",
   "theorems": [
    "C65_terms",
    "C65_tokens",
    "C65_source",
    "C65_text_partial",
    "C65_refuted",
    "C65_zero_refuted",
    "C65_range_literal",
    "C65_greedy",
    "C65_greedy_refuted"
   ],
   "note": "The full claim is false of the code. Proved: fixed-len n and range-len patterns and their globs take the same terms, and give the same tree for every source in which no [ or ( reaches the parser (any specifications, macros on or off). Refuted with brackets (the fixed pattern takes the bracket itself as a term, the glob refuses it), for length 0, for range-len read literally, and for greedy (one argument against several)."
  },
  {
   "property": "C66",
   "status": "proved",
   "theorems": [
    "C66_match",
    "C66_fronts",
    "C66_prefix",
    "C66_separator"
   ],
   "note": "reads relates a pattern to its elements, fits says what they admit; neither uses the matcher"
  },
  {
   "property": "C67",
   "status": "partial",
   "theorems": [
    "C67_commands",
    "C67_environments",
    "C67_formulas",
    "C67_pairs_partial",
    "C67_symbol",
    "C67_right_refuted",
    "C67_symbol_refuted"
   ],
   "note": "proved for commands, environments and formulas of every parsed source; for pairs the claim is false of the code (right() of an unclosed pair without nodes is the left clause; sym() of a clause without delimiter is its last blank), proved exactly by C67_pairs_partial and C67_symbol"
  },
  {
   "property": "C68",
   "status": "partial",
   "theorems": [
    "C68_agrees",
    "C68_bounds",
    "C68_ranges_partial",
    "C68_ranges_refuted",
    "C68_parts_partial",
    "C68_parts_refuted",
    "C68_boundary_refuted"
   ],
   "note": "agreement with glob_match and bounds for all patterns; order of the ends without groups; the exact parts when only literals and stars follow the first star; each full claim refuted beyond that (inverted ranges, stale captures, captures inside a character)"
  },
  {
   "property": "C69",
   "status": "partial",
   "theorems": [
    "C69_nested",
    "C69_plain",
    "C69_refuted"
   ],
   "note": "The unconditional claim is false of the code (C69_refuted: an unclosed \\left, a label, picture, colour model or copied code with a stray bracket, a table whose last row is not ended). Proved exactly under those conditions (C69_nested), and for every source without these commands (C69_plain). Missing: braces and string literals are not tracked."
  },
  {
   "property": "C70",
   "status": "proved",
   "theorems": [
    "C70_replace",
    "C70_concat",
    "C70_concat_refuted",
    "C70_replace_refuted"
   ],
   "note": "Both halves are proved with the conditions of the statement; the _refuted theorems show for each condition that the claim is false of the code without it ({a_} swallows its closing brace; \\iffalse and \\iftypst run over it; \\left takes a brace as a delimiter; in formulas a label waits for a later group)."
  },
  {
   "property": "C71",
   "status": "proved",
   "theorems": [
    "C71_hidden",
    "C71_formula",
    "C71_refuted"
   ],
   "note": "for every source without the commands that copy text unread; C71_refuted shows that the exception is needed"
  },
  {
   "property": "C72",
   "status": "proved",
   "theorems": [
    "C72_blanks",
    "C72_spaces"
   ],
   "note": "for both readings of blank; both sources are assumed to parse (whether the parser panics, F6, is not shown to be independent of the layout)"
  },
  {
   "property": "C73",
   "status": "proved",
   "theorems": [
    "C73_tree",
    "C73_source"
   ],
   "note": "Bounds 1+6w (w = tokens after expansion plus their characters) and 1+12n."
  },
  {
   "property": "C74",
   "status": "proved",
   "theorems": [
    "C74_output",
    "C74_source"
   ],
   "note": "Bound 12*720*(1+w)^2, and 48*720*(1+n)^2 without macros. With macro expansion w itself is not bounded by the source (C58, C17)."
  },
  {
   "property": "C75",
   "status": "proved",
   "theorems": [
    "C75_blowup"
   ],
   "note": "Positive statement of the worst case: 26+4n characters become 2^(n+1)-1."
  },
  {
   "property": "C76",
   "status": "proved",
   "theorems": [
    "C76_expansion",
    "C76_tokens",
    "C76_conversion"
   ],
   "note": "Sources that define environments are excluded from the statement (their names are words)."
  },
  {
   "property": "C77",
   "status": "proved",
   "theorems": [
    "C77_tree",
    "C77_output",
    "C77_math",
    "C77_delimiters"
   ],
   "note": "All sources that are read as one formula; environments with arguments have them in braces (Example C77_braces_matter shows why). C77_example meets the hypotheses. C77_math: in formula mode the delimiters write nothing."
  },
  {
   "property": "C78",
   "status": "proved",
   "theorems": [
    "C78_tree",
    "C78_output",
    "C78_always",
    "C78_concat"
   ],
   "note": "C78_always: conditions on the tokens of src only (C23's exclude panics of the parser). C78_example; C78_formula: false in formula mode (see C79)."
  },
  {
   "property": "C79",
   "status": "proved",
   "theorems": [
    "C79_output",
    "C79_plain",
    "C79_always"
   ],
   "note": "Formula mode; C79_plain: no row end and no label at all; C79_always: conditions on the tokens only. C79_example, C79_hollow, C79_row show a case, the blank group and that row ends matter."
  },
  {
   "property": "C80",
   "status": "proved",
   "theorems": [
    "C80_output",
    "C80_always"
   ],
   "note": "Both modes; C80_always: with conditions on the tokens only (C23's), the braced source need not be known to be read. C80_example, C80_conditions."
  }
 ]
}