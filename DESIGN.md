# Formal model of mitex in Rocq (Coq 8.16.1)

`/repo` is mitex-rs/mitex at a pinned commit. `rocq/theories` holds an executable
Gallina model of its lexer, macro engine, parser, converter, specification
handling, glob matcher, CLI decision logic and wasm boundary, plus theorems.
`properties.jsonl` lists the properties (C01..), `MANIFEST.json` maps each to the
exact theorems, `seeded/LOG.jsonl` records the seeded-bug experiments.

## Conventions

* A Rust `char` is its code point (`N`), a `&str` is a `list N` (`text`). Byte
  offsets are computed with `utf8_len`; slicing at a byte offset that is not a
  character boundary is a panic of the model.
* A panic, an exhausted loop budget and a normal result are three different
  constructors (`Ok`, `Panic`, `Fuel`). A theorem never counts `Fuel` or `Panic`
  as success.
* A function that mutates through `&mut` returns the new value. A `Vec` used as a
  stack is a list whose head is the top.
* Loops are structural recursion where the code consumes a list, and explicit
  fuel elsewhere; for each fuelled loop that is claimed to terminate there is a
  theorem that enough fuel exists (and a bound).
* Page sizes (PEEK_CACHE_SIZE) are parameters of the model, quantified over in
  the theorems.
* Models, specifications and proofs are in separate files. `P_*.v` files contain
  only property theorems (`exact lemma`), `Print Assumptions`, and non-vacuity
  examples.

## Per-property plan

| id | modelled | method |
|----|----------|--------|
| C01 lossless lexing | `Lex.v` (token.rs, StreamContext::lex_one) | induction on the source; lexemes concatenate back |
| C02 lexing never panics | `Lex.v`, byte-offset slicing with explicit panic | refuted by witness; `_partial` for '%'-free and all-ASCII sources |
| C03 classification | `Lex.v` against a declarative class relation | case analysis + maximality lemmas |
| C04 starred commands | `Lex.v` advance_ascii_name | induction over the letter run |
| C05 begin/end tokens | `Lex.v` lex_begin_end | induction over blanks; refuted with comments |
| C06 page independence | `Stream.v` Lexer<()> | invariant "pending tokens ++ lexed rest" |
| C07 peek/eat/consume | `Stream.v` | invariant over reachable lexer states |
| C08 transparency | `Macro.v` | step-wise: a token the engine ignores is forwarded |
| C09 page independence with expansion | `Macro.v` | engine as a transition system over a logical input; paging is invisible |
| C10 definition commands | `Macro.v` | symbolic execution of the definition routines over all tables |
| C11 call substitution | `Macro.v` | induction over argument lists and body against a separate `subst` spec |
| C12 exact arity | `Macro.v` | refuted by witness |
| C13 environment macros | `Macro.v` | induction over nested bodies |
| C14 parameter markers | `Macro.v` process_macro_def vs. separate spec | induction; trailing `#` refuted |
| C15 literal conditionals | `Macro.v` | induction over the branch |
| C16 nested skipping | `Macro.v` | refuted; partial for else-free nests |
| C17 expansion terminates | `Macro.v` | refuted; termination without definition commands by a measure |
| C18 expansion panics | `Macro.v` | refuted; partial |
| C19 scope rollback | `SnapMap.v` (snapshot_map.rs + ena VecLog contract) | simulation of a stack of abstract maps |
| C20 normal form | `Macro.v` | invariant on emitted tokens |
| C21 parser keeps text | `Parser.v`, `Builder.v` | ghost leaf sequence invariant over every parser routine |
| C22 parser terminates | `Parser.v` | lexicographic measure; explicit fuel bound |
| C23 parser panics | `Parser.v`, builder assertions explicit | refuted; partial by checkpoint invariant |
| C24 command arity | `Parser.v`, `ArgMatch.v`, `Syntax.v` | tree invariant |
| C25 node shapes | same | tree invariant |
| C26 lexer independence | `Parser.v` over an abstract lexer | simulation |
| C27 spec locality | `Parser.v` | relational induction over fuel |
| C28 alignment marks | `Parser.v` | tree invariant |
| C29 context restored | `Converter.v` | induction over fuel |
| C30 text escaping, C31 math words | whole pipeline | fold characterisation of convert over flat trees |
| C32 unknown commands | `Converter.v` | induction |
| C33 converter terminates | `Converter.v` | tree height bound |
| C34 converter panics | `Converter.v` | refuted; partial; exact set of panics via C59 |
| C35 indentation | `Converter.v` | invariant |
| C36 columns | `Converter.v` | induction over the column string |
| C37 custom spec | `Api.v` | refuted |
| C38 formula delimiters | `Converter.v` | case analysis |
| C39 comments invisible | `Converter.v` | relational induction |
| C40-C42 specification | `Spec.v` | case analysis / induction |
| C43-C47 globs | `Glob.v` | invariants on the matcher loop; reference semantics; flat groups exactly in `P_Flat.v` (`C47_flat`) |
| C48 matchers | `ArgMatch.v` | induction over offers |
| C49, C50 CLI | `Cli.v` | case analysis; C50 refuted, and exactly for every path in `P_Path.v` |
| C51 prelude | `Spec.v` | permutation invariance of sorting |
| C52 kinds | `Syntax.v` | finite case analysis |
| C53 wasm | `Api.v` | case analysis, UTF-8 decoding round trip |
| C54 documents end to end | `DocSpec.v` (grammar, tokens, translation, well-formedness: no parser or converter in it), proofs in `DocConv.v` (converter on the tree of a document), `DocParse.v` (parser on the tokens of a document), `P_Doc.v` | induction on document size; every parser loop is shown to reach its result from some fuel on; denotations (state and context to output) of tree lists compose |
| C55 delimiter pairing, broken sources | `PairSpec.v` (grammar of constructs and the tokens that end them; no parser in it), `Parser.v` | soundness of the grammar by mutual induction on derivations, totality by size, hence parser = grammar |
| C56 full grammar of the parser | `GramSpec.v` (declarative grammar for all token sequences: no parser state, checkpoints, fuel or lexer), `Parser.v` | soundness by mutual induction on derivations (`GramSound.v`), completeness by induction on fuel, using soundness to identify the parser's intermediate states (`GramComplete.v`) |
| C57 exact lexical grammar | `DelimSpec.v` (declarative: gaps, byte positions, delimiters), `Lex.v` | inversion of `next_non_trivia` into gaps by induction on the text, byte positions inside a character shown to hold a continuation byte, case analysis on `LexClass.lex_one_class`; streams by induction on length (`LexDelim.v`, `P_Delim.v`) |
| C58 exact macro expansion | `ExpandSpec.v` (declarative rewriting system on token lists: a table of meanings, the open conditionals; no look-ahead buffers, pages, snapshots or fuel), `Macro.v` | one engine step = one rewriting step, by case analysis over all routines (`ExpandFacts.v`, `ExpandStep.v`); stuck states characterised by an invariant on stored bodies (`ExpandStuck.v`); a lexer panic is never skipped (`MacroPanic.v`); runs by induction, endless runs by coinduction (`P_Expand.v`) |
| C59 exact conversion | `RenderSpec.v` (places, pieces, 45 layout rules, what pieces come to; shares with the converter only its enumerations of modes, environments and messages, and the accessors of syntax trees), `Converter.v` | every rule against the routine it describes (`RenderText.v`, `RenderStep.v`, `RenderMain.v`); a layout exists for every well-shaped element and goes down in the tree (`RenderAll.v`); induction on the height, in both directions; trees of the parser are well shaped; composition with C56, C57, C58; the first failing element by induction (`P_Render.v`) |
| C60 wildcard patterns | `Glob.v`; `describes` in `P_Wild.v` | well-founded induction on (path left to the last star, pattern left); a later star makes the earlier one unnecessary (`drop_star`) |
| C61 interrupted compilation | `CliRun.v` (the compile command as a transition system over system-call answers), `Cli.v`, `Api.v` | invariant over all answer sequences; every prefix of a sequence is a crash point |
| C62 packages read as written | `Decode.v` (serde's reading and writing of the specification, on JSON values), `Prelude.v` (prelude.typ) | case analysis per item; induction over tables and packages; last definition wins from C41 |
| C63 handlers and called names | `Prelude.v`, `StandardDefs.v` (generated from standard.typ), `RenderSpec.v` (C59's layout) | the stored key equals the called name by cases of the definition; scope by induction; the shipped package by computation |
| C64 names in a compiled document | `Cli.v` (preamble), `Prelude.v` (scope) | C51's description of the preamble; the shipped package by computation over the names of both lists |
| C65 patterns and their globs | `ArgMatch.v`, `Glob.v`, `Parser.v` | C47's description of flat globs gives the matcher's answers on terms; a simulation of two parser runs with related matchers (`PatternSim.v`) lifts it to trees and sources; the exceptions by computation |
| C66 classes and escapes | `Glob.v`; `elt`, `fits`, `piece`, `reads` in `P_Class.v` (how elements are written and what they admit, separately) | the induction of C60 over elements instead of bytes; `members_loop` reads a class; negation by `xorb` in the loop invariant; refutation for classes that admit '/' before a star |
| C67 typed views | accessors in `Syntax.v`; `clause_of`, `inline_open`, `display_open` in `P_Views.v` | commands and environments from the shape of trees (C24); formulas and pairs by induction on the grammar of C56, with the texts of the tokens that open them (`lexical`, proved of the lexer and kept by macro expansion); refutations for `right()` and `sym()`, with what they answer instead |
| C68 captures | `GlobCaps.v` (the matcher with its capture list); `parts`, `stars_last`, `boundary` in `P_Captures.v` | dropping the captures gives `Glob.v` step by step (`CapFacts.v`); bounds, order of the ends and the parts by loop invariants; refutations for groups, for `?` after a star, and for character boundaries; the project's 38 capture tests hold of the model |
| C69 nested Typst code | `NestSpec.v`: `nested` (an inductive grammar of brackets, dollars and escapes), `tidy` (the conditions on the few delicate elements) | a reader with a stack of open brackets (`NestFacts.v`) accepts what every rule of `RenderSpec.v` writes (`NestLeaf/NestMain/NestStep/NestAll.v`, over C59's rendering relation); the condition on copied code from the grammar (`NestCode.v`); the names of the built-in specification by computation; refutations for each condition. Braces and string literals are not tracked (`\textbraceleft` is written `{`) |
| C70 groups are independent | `ShieldSpec.v`: `content_of_group` (a condition on the tokens alone), `braced`, `replaced` (on token sequences), `exchanged` (on trees) | induction over the grammar of C56: the reading of a group's content does not depend on what follows the closing brace (`ShieldFacts.v`), and a reading stays one when a group is replaced (`ShieldSwap.v`); for outputs, C59's rendering relation: a group ends the beginning of a line and, without labels, leaves no label waiting (`P_Shield.v`, `P_Shield2.v`); refutations for each condition |
| C71 nothing hidden | `HideSpec.v`: `hides` (a backslash hides the next character), `swallows` (the five characters), `copies` (the commands excepted) | the copied words contain none of them by the lexer's word class (`HideFacts.v`), every layout of C59's rendering hides what it writes (`HideStep.v`), the names of the built-in specification by a computed check (`P_Hide.v`); with C69 the formula that `mimath` evaluates; refutations for the excepted commands. Not covered: in text mode `=`, `-`, `+`, `<` and the source's own backquotes are not escaped by the code (F31) |
| C72 layout | `SpaceSpec.v`: `squeeze` (every run of blanks becomes one space) on token sequences and `squeezed` on trees, for both readings of blank (with and without comments) | induction over the grammar of C56 (`SpaceFacts.v`, `SpaceStep.v`): the reading of the squeezed sequence is the squeezed reading; with C56's uniqueness. Not proved: that a sequence has a reading when the squeezed one has (both sources are assumed to parse) |
| C73 tree size | `SizeSpec.v`: `nodes`, `levels` of a tree; `weight` of a token sequence | induction over the grammar of C56 (`SizeFacts.v`): every production adds a constant number of nodes for each token it reads; words that are split (`MacroArg`, `TokenWord`) by their characters |
| C74 output size | length of the code against `weight` of the expanded tokens | a bound on what each conversion step writes (`SizeStep.v`), then induction over the rendering relation of C59 with the indentation as a parameter (`SizeAll.v`); DEFAULT_SPEC's aliases have at most 24 characters (computed) |
| C75 blow-up | the family of sources `doubling n` and of answers `doubled n` written out (`P_Blowup.v`) | the tokens of both by induction on n (C57), the expansion by the rewriting rules of C58, the same tokens give the same tree (C56), and C30 gives its conversion |
| C76 macro names | `renaming` (injective, reserved names fixed), `renamed` on tokens, `renamable` tokens (in `P_Rename.v`) | every relation of C58's rewriting system is closed under renaming (`P_Rename.v`), induction over runs with an invariant relating the two tables; then C58 and the parser's dependence on tokens only. Environments share the table with commands but are named by words, so sources that define them are excluded |
| C77 formulas in texts | `argued`, `opening_closing`, `formula` (`FormulaSpec.v`) | two inductions over the grammar of C56 (`FormulaFacts.v`): what is read before the last token does not depend on it; what is read in a formula up to its end is read alike in a document. A document whose tree is one formula has no other reading; then the layouts of C59 give the output |
| C78 braces in texts | `braced`, `content_of_group` (C70), `argued` (C77) | C70: the reading of a braced content is one closed group; C77's inductions also hold for groups; the layouts of C59 |
| C79 braces in formulas | `exposed`, `blank_only` (`P_Place.v`) | layouts (C59) of one element in two places that differ only in `ENone`/`EMathCurlyGroup` put the same things in places that again differ only so (environments forget the difference); induction on the height |
| C80 double braces | `braced`, `content_of_group` (C70), `argued` (C77) | C78's tree theorem for `{s}` and `{{s}}`; a group is laid out alike in a place and in the place of a group there |

## Trusted base

**Checker.** Coq 8.16.1's kernel (and `vm_compute`, used in some examples and
in proofs about the built-in specification's concrete entries). No plugin, no
kernel check switched off, no functor, module type or `Declare Module`.

**Axioms.** `Print Assumptions` follows every theorem named in `MANIFEST.json`
(in the `P_*.v` files) and prints "Closed under the global context" for each:
no theorem depends on an axiom, of the standard library or otherwise. The
environment check lists seven constants of `Coq.ssr.ssrunder` (`Under_rel`,
`Over_rel`, ...): they belong to the standard library's ssreflect support,
which `lia`/`Lia` loads; no theorem uses them.

**Correspondence.** The model is a hand translation, checked against the code by
reading and by `Conformance.v` and `GlobTests.v` (generated from the
repository's own snapshot and unit tests, evaluated on the model). A
disagreement between Rust and model that none of these shows would not be
noticed by the kernel.

**Outside code assumed to behave as documented** (it is not in /repo):

* logos: longest match of the declared regexes. The regexes are modelled by
  hand in `Lex.v`; the Unicode `White_Space` list behind `\s` is written out.
* ena's `VecLog` (contract at the top of `SnapMap.v`; both readings of its
  logging rule are covered).
* rowan's `GreenNodeBuilder` (contract at the top of `Builder.v`, with its
  assertions as panics); trees are plain trees, node sharing is not modelled.
* `std`: `String`, `Vec`, `HashMap` (any iteration order, see C51), `str`
  slicing (panics off a character boundary), `Path::with_extension`,
  `str::from_utf8`, `{:?}` of a string (kept symbolic).
* rkyv (the binary form of the specification) and the text of JSON: a
  specification is a finite map, and serde is modelled from JSON values on
  (`Decode.v`).  Typst itself is modelled only as far as `Prelude.v` goes: what
  the define functions return and how the scope is put together.
  `DefaultSpec.v` is generated from `packages/mitex/specs/latex/standard.typ`
  by `tools/gen_default_spec.py`.

**Modelled, file by file.**

| file in /repo/crates | model | left out |
|---|---|---|
| mitex-lexer/src/token.rs | `Token.v`, `Lex.v` | - |
| mitex-lexer/src/stream.rs, lib.rs | `Stream.v` | `Rc`/`RefCell` plumbing |
| mitex-lexer/src/snapshot_map.rs | `SnapMap.v` | - |
| mitex-lexer/src/macro_engine.rs | `Macro.v` | - |
| mitex-parser/src/parser.rs, arg_match.rs | `Parser.v`, `ArgMatch.v`, `Builder.v` | - |
| mitex-parser/src/syntax.rs | `Syntax.v` | `Debug` printing |
| mitex-glob/src/lib.rs | `Glob.v` (matching), `GlobCaps.v` (matching with captures) | Windows separators |
| mitex/src/converter.rs, lib.rs | `Converter.v`, `Api.v` | the text of `{:?}` in one error message |
| mitex-spec/src/lib.rs, preludes.rs, query.rs; mitex-spec-gen/build.rs; packages/mitex/specs/*.typ | `Spec.v`, `DefaultSpec.v`, `Decode.v`, `Prelude.v`, `StandardDefs.v` | stream.rs, rkyv; JSON text; handlers are opaque |
| mitex-cli/src/lib.rs, main.rs | `Cli.v`, `CliRun.v` | clap's own parsing, `completion`, `manual`, `spec generate`, version printing, build.rs |
| mitex-wasm/src/lib.rs | `Api.v`, `Decode.v` (`compile_spec` up to rkyv) | wasm glue |

**Machine integers.** Indices and counters are unbounded numbers. Lengths below
2^31 are assumed; the one counter that can overflow (`u8`, only for a command
taking 255 arguments) is named in `ArgMatch.v`. Memory and stack exhaustion are
not modelled: a Rust stack overflow on deeply nested input is not a `Panic` of
the model.

**Fuel.** The functions of the API take a fuel argument; theorems either hold
for every fuel at or above an explicit bound, or quantify over fuel in the
harmless direction (if the model answers `Ok` with some fuel).

## Claims that are false of the code

C02, C05, C12, C14, C16, C17, C18, C23, C34, C37, C46, C47, C50, C65, C67, C68 and
C69 are kept in
their full form and refuted by a concrete witness (`*_refuted`); the theorems
beside them (`*_partial`) prove what does hold. They are "partial" in the
manifest because the full English claim is not a theorem of this program.
