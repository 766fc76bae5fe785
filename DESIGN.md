# Formal model of substrait-explain in Rocq (Coq 8.16.1)

## Approach

The crate converts Substrait plans (protobuf messages) to a line-oriented text and
back.  The model is a set of total, computable Gallina functions, one per Rust
function, over

* strings as lists of Unicode scalar values (`list N`),
* protobuf messages as inductive types,
* parser outcomes as `Ok v | Err e | Panic p`; a Rust panic is a value, so that
  "never panics" can be proved or refuted,
* formatter outcomes as a record of the text, the errors reported, the error
  placeholders written and the panics (`Out.v`),
* the pest grammar as PEG combinators, rule by rule, with a typed parse tree;
  recursion through `type`, `expression` and `extension_argument` is by fuel, and
  the fuel used (input length + 1) is proved sufficient.

Every definition of a model file cites the lines of /repo it models and states its
simplifications.  `Spec*` files hold the vocabulary of the theorems and do not use
the model's helpers where an independent definition is possible.  `*Facts` files hold
lemmas.  `Props_*` files hold the theorems named in MANIFEST.json and, beside them,
concrete cases meeting their hypotheses.  Properties that are false of the code have
a theorem `..._refuted` with a witness, and theorems for the part that holds (named
`..._partial` when they carry the property's own name).

## Files (rocq/theories)

| model | source |
| --- | --- |
| Base.v | strings, characters, decimal integers, results |
| Peg.v | pest's operators |
| Names.v | textify/types.rs (Name, escaped), parser/common.rs (unescape_string), lexical rules of the grammar |
| OMap.v, SimpleExt.v | BTreeMap; extensions/simple.rs |
| Out.v | textify/foundation.rs: errors, placeholders, options |
| Anchors.v | textify/types.rs (NamedAnchor), parser/types.rs (anchors) |
| Types.v | textify/types.rs, parser/types.rs |
| Calendar.v | chrono 0.4.43 as far as it is called |
| Literals.v, Exprs.v | textify/expressions.rs, parser/expressions.rs |
| ExprEq.v | equality of expressions as parser/relations.rs and textify/rels.rs use it |
| Lines.v | parser/chunks.rs, line splitting, indentation |
| Tree.v, Structural.v | parser/structural.rs |
| ExtLines.v | parser/extensions.rs (extension section), textify/plan.rs |
| Version.v | textify/plan.rs (version section) |
| ExtArgs.v | extensions/args.rs, textify/extensions.rs, parser/extensions.rs |
| Registry.v, RegistryNames.v | extensions/registry.rs |
| Rels.v | textify/rels.rs, values.rs, addenda.rs |
| RelGrammar.v | parser/expression_grammar.pest l.217-418 |
| RelRead.v | parser/relations.rs, structural.rs l.295-780 |
| Plan.v | lib.rs, textify/plan.rs |
| Utf8.v, Wire.v | UTF-8; prost 0.14's encoding of the bundled messages |
| Bundled.v | extensions/examples.rs, extensions/any.rs |
| Descriptors.v, Cli.v | json.rs; cli.rs |
| PestText.v, Pest.v | parser/expression_grammar.pest, whole; pest's notation and meaning |

Specifications: SpecNames, SpecExt, SpecTypes, SpecTree, SpecLines, SpecChunks,
SpecExtLines, SpecLiterals, SpecExprs, SpecRegistry, SpecRels, SpecLits, SpecFormat,
SpecPlan, SpecVirtual, SpecAddenda, SpecCrash, SpecBundled, SpecCli, SpecVisible,
SpecAggregate, SpecWire, SpecStable, SpecGrammar, SpecOptions, SpecMeaning, SpecText,
SpecNotation, SpecLayout, SpecMore, SpecLocal, SpecSteps, SpecComplete, SpecBlocks.

## Property by property

For each property: what is modelled and how it is proved.  The exact theorem names
and the status are in MANIFEST.json.

* C01 plan round trip: `format` and `parse` end to end; composition of C02, C03, C10,
  C15, C31 and the round trip of every relation line.  The plans carried are described
  structurally by `plan_clean` (SpecPlan.v), without reference to parser or formatter.
* C02, C03 types, literals, expressions: induction over the message; every PEG
  alternative before the right one is shown to fail and the right one to consume
  exactly the text, for every continuation starting with an allowed delimiter.
* C04, C05 names and strings: induction over the string for every printability table;
  both directions (exactly which strings come back).
* C06 integers: decimal printing and reading are inverse on all of Z; `as i32`
  wrap-around is modelled.
* C07, C08 dates and times: days to civil date and back on all of Z, chrono's layout on
  top; the calendar is pinned by the successor-day theorem.
* C09 intervals: direct proof over Z.
* C10, C31 sections before the plan: induction over the sorted tables.
* C11, C13: invariants over insertion histories.  C12: all tables and uniqueness flags.
* C14: the section state machine over all line sequences.
* C15, C16, C17: the tree builder is inverse to flattening a tree into lines.
* C18: every use of the chunk cursor its interface allows.
* C19, C20, C21, C39: emitted columns defined by what they denote (SpecRels.v) and
  compared with the relation the parser builds.
* C22, C23, C33: induction over relation trees.
* C24, C25, C26, C49: registration histories and handlers as access programs.
* C27, C29: a predicate kept by concatenation holds of everything written
  (OutClosed.v), with a hypothesis on the literals of the plan.
* C28: where lowering can panic, by induction over parse trees; every listed site is
  reached.  C30: how far each grammar rule looks.
* C32, C37, C38: the line parser as a function of the lines of a text.
* C34: all accepted types.  C35: corollary of C01 for both option sets.
* C36: `SpecStable.plan_kept` lists what the reader does not ensure by itself (escapable
  characters in strings and names, floats and times that can be written, type names that do not
  begin like built-in ones, column references in range, Project expressions each put out once and
  in order, no cast at the head of a single grouping set, a Sort with fields, no typed limits, no
  narrow joins, extension messages their handlers show and take back).  `Props_Stable` shows by
  induction over the parsed tree that a parsed plan with these is writable, so that C01 applies; types,
  the forms of expressions, arities, grouping sets and interning need no condition.  For each
  condition a text is given that is parsed but whose plan does not come back without it.
* C40, C41, C42: the file system is a map from paths to bytes; JSON, YAML and protobuf
  codecs are parameters.
* C43: `visible_plan` erases every field the formatter passes over; text and errors are
  proved to depend on nothing else.
* C44, C48: the bundled extensions over a model of the wire format, compared with an
  independent specification of that format.
* C45, C46, C47, C50: groupings, enumerations, repeated arguments, schemas.
* C51: `PestText.v` is the text of expression_grammar.pest, `Pest.v` reads pest's notation and
  gives a grammar its meaning as an inductive relation between input, outcome and tree of pairs
  (ordered choice, greedy repetition, silent and atomic rules, SOI, EOI).  `SpecGrammar.v` says which
  value a tree of pairs stands for.  The readers written by hand in the model are proved, rule by
  rule, to agree with the grammar (`follows`); recursive rules by induction over the length of the
  input.  Trees are unique (`derives_unique`) and stand for one value (`GrammarUnique.v`).  To compare
  PestText.v with the repository: drop everything up to the first line after `pest_text`, the
  enclosing quotes and the final `.`, and replace `""` by `"`.
* C52: `argument_read` and `expression_read` (SpecRegistry.v) say what a text is read as, once as an
  argument and once as an expression; the conversions of args.rs are compared with the two.
* C53: `Props_Options.v`; `SpecOptions.v` has the options that differ in one field, lines with
  indentations (`laid`), hexadecimal digits and the types of literals.  Literal types: the documentation
  of the option does not list binary literals among those left bare, the code leaves them bare.
  Partial because `show_emit` does not do what its documentation says: the mapping is not shown
  (`C53_emit_refuted`, src/textify/rels.rs l.159-162).  The effect of `Required` on anchors is C12.
* C54: `Props_Meaning.v`; `SpecMeaning.v` defines what every form of the concrete syntax
  means as inductive relations (numbers, names, dates by counting days, durations, types,
  literals, expressions, arguments, relation lines over their inputs, addenda, trees),
  `Meaning*.v` prove that the readers of Types.v, Literals.v, Exprs.v, ExtArgs.v and
  RelRead.v compute exactly these relations.  The forms themselves are those of C51.
* C55: `Props_Text.v`; `SpecText.v` continues `SpecMeaning.v` up to whole texts: levels of
  lines, sections and their order, version details, subsections and declarations, tables
  of declarations, groups of lines, trees.  `text_means reg s p` mentions no function that
  reads; `C55_texts` says that `parse` succeeds with `p` exactly if the text means `p`.
  `TextFacts.v`, `TextDecls.v`, `TextRun.v`, `TextPlan.v` hold the proof.
* C56: `Props_Notation.v`; `SpecNotation.v` is the counterpart of `SpecMeaning.v` for the
  writers: relations between messages and the texts that show them, in terms of digits,
  letters, the calendar and the declarations.  `NotationBase.v`, `NotationTypes.v`,
  `NotationLits.v`, `NotationExprs.v` prove, by induction on messages, that a writer
  gives `s` without complaint exactly if `s` shows the message.  The text of a floating
  point number is Rust's `Display`, a parameter.
* C57: `Props_Layout.v`; `SpecLayout.v` continues `SpecNotation.v` up to whole plans:
  relations between trees and the lines that show them (heads, addenda, tables over
  several lines, mapped and unmapped outputs, extension relations), version details,
  sections of declarations, the text of a plan.  `LayoutRels.v`, `LayoutHeads.v`,
  `LayoutTree.v`, `LayoutPlan.v` prove that `format` gives `s` without error exactly if
  `plan_text` relates the plan to `s`.  What handlers of the registry return is a
  parameter; `decoded` states how it enters.
* C58: `Props_More.v`; `SpecMore.v` says when entries are added to others.  By induction
  over the relations of `SpecMeaning.v` (`MoreRead.v`) and of `SpecNotation.v` and
  `SpecLayout.v` (`MoreWritten.v`) all of them are monotone in the table and the
  registry; with C55 and C57 this carries over to `parse` and `format`.
* C59: `Props_Local.v`; `SpecLocal.v` has the marks, texts with places to fill in, and
  the expressions, relations and plans with a place for an expression.  Marks are an
  invariant of the operations that build an output (`OutClosed.v`); that outputs are
  templates is proved by induction over the contexts (`LocalFacts.v`).
* C60: `Props_Steps.v`; `SpecSteps.v` counts the rules that a derivation of `Pest.v` enters
  and has pest's factoring of alternatives (from memory; of its other passes only the unrolling
  of `+`, which is how `derives` explains it, touches the rules used). The lower bounds are
  inductions on the nesting that build the one derivation there is (`StepsLines.v`); all other
  parts of a line are taken from C51. The time spent on characters is not counted.
* C61: `Props_Ends.v`. `StepsWell.v` has a check of a pest grammar (no left recursion within a
  given depth, nothing repeated that may match nothing) and proves for every grammar that passes
  it that every rule answers, with a linear bound on nesting and an exponential one on work, by
  induction on the length of the text and the depth of the check; both grammars pass by
  computation. `StepsDeep.v` gives the nested casts. What nesting costs in stack is not modelled.
* C62: `Props_Complete.v`; `SpecComplete.v` says what it is for a plan to have nothing missing and
  lists the complaints. That parsed plans are such is an induction over what each reading function
  returns (`CompleteRead.v`), that complete plans meet no other complaint one over what is written
  (`CompleteOut.v`). The flag `u` says whether nullabilities may be unspecified; `columns_listed`, the
  number of columns a mapping chooses from, is that of the model's header.
* C63: `Props_Blocks.v`; `SpecBlocks.v` says what blocks and places in trees are. Blocks are split
  and joined on the meaning of texts (C55), in `BlocksFacts.v`. For inputs, `BlocksTree.v` shows that
  reading a line over other inputs of the same widths gives the same relation with the inputs
  replaced, or the same failure, and goes up the tree by induction. This part is about trees of
  lines; that a text determines its tree by indentation is C15.
* C64: `Props_Crashes.v`; `SpecCrashes.v` lists the parts of a text in the order they are read and says
  of each, in terms of its meaning (C54, C55), whether it crashes when it has none. `CrashesFacts.v`
  relates a computation to such a list (it succeeds if all parts have a meaning, it panics as the
  first part without one does), part by part up to arguments; `CrashesRels.v` does lines,
  `CrashesTrees.v` addenda and trees, `CrashesText.v` declarations and whole texts.
* C65: `Props_Blame.v`; `SpecBlame.v` lists the parts of a text in the order of C64, each with the
  condition that it has a meaning and the line and complaint if not. `BlameFacts.v` shows that what
  is built from a tree fails exactly as its first part without a meaning says; `BlameText.v` follows
  the loop over lines to the first it cannot read and relates what was read before to the sections
  of C55. The kind of an error (which variant of ParseError) is part of the statement; its wording
  is not modelled.
* C66: `Props_WriteCrash.v`; `SpecWriteCrash.v` gives the width each relation is taken to have, and
  from it which expressions and messages of a relation are written. `WriteCrash.v` follows crashes
  through expressions, arguments of handlers and addenda; `WriteCrashRels.v` through headers, columns
  and trees. The model lists every crash in what is written; the program stops at the first.
* C67: `Props_WriteErrors.v`; `SpecWriteErrors.v` says, kind by kind, what is an error of a type,
  literal, expression, message or relation, using the widths and written parts of C66.
  `WriteErrors.v` and `WriteErrorsRels.v` follow errors through the output as C66 follows crashes.
  Errors are stated with their kind and the message they are about (for example `Invalid`,
  `Emitted`); the free text of their descriptions is not modelled, nor is the order in which, or
  how often, they are reported.
  From the exact list follow how errors depend on options (`C67_options`,
  `C67_show_emit`) and on the declarations
  (`C67_declarations`, `C67_declared`), by induction on what is an error.
* C68: `Props_Handlers.v`: what is written of a relation is the same for both registries, by
  induction on relations; the wording of the error for an unknown type URL is not modelled (as in C67).
  `C68_parse` is the same for parsing, by induction on the trees of lines.

## Assumptions about code outside /repo

These are stated in the files concerned and were written from documentation and memory,
since no dependency is installed in the sandbox.

* pest: PEG semantics of the operators used; `RuleIter` panics when dropped with pairs
  left over (that is in /repo).
* chrono 0.4.43: range, formatting and parsing of dates and times.
* prost 0.14 and the Substrait protobuf definitions: wire format, field and enumeration
  numbers.  Equality of encoded expressions is equality of expressions.
* Rust: `str::parse`, `escape_debug`, `BTreeMap`, `HashMap` (only as an unordered map),
  `as` casts, UTF-8.

Parameters (type classes, universally quantified in every theorem, not axioms):

* `Unicode`: which characters are alphabetic, printable and so on, above ASCII
  (`ascii_sane` ties it to ASCII where a theorem needs it);
* `Floats`: printing and reading of floating point numbers, with the law that reading a
  printed number gives it back where a theorem needs it;
* `Codecs`: JSON, YAML and protobuf decoding of whole plans (command line only).

Extension handlers are arbitrary deterministic functions of their arguments.

## Not modelled

* Stack overflow on deep nesting, memory limits, integer overflow of line counters.
* The wording and the spans of error messages; errors are constructors.
* The order in which formatting reports its errors: the model lists them by place, the
  code reports some earlier (Out.v).  Theorems about them hold up to order.
* prost-reflect's own checks of descriptors, serde, clap's argument parsing.
* File permissions, symbolic links, concurrent changes of files; errors of writing the
  tail of standard output.
* `Display`, `Debug`, `From` and `Error` implementations that only wrap other values.
* `src/structural/mod.rs` is not part of the compiled crate; src/fixtures.rs and the test
  modules are test helpers.

## Trusted base

* Coq 8.16.1's kernel, and coqchk.
* For every theorem in MANIFEST.json `Print Assumptions` answers "Closed under the global
  context".  coqchk lists seven axioms of Coq's own `ssr.ssrunder`, which is loaded with
  the standard library; no theorem depends on them.
* No axioms, no `Admitted`, no functors or module types, no switched-off checks.
* The faithfulness of the definitions to the cited lines.

## How the theorems and the model were tested

* Wrong programs: `seeded/LOG.jsonl` has one line for each edit of a model definition in
  a scratch copy, with the theorems that no longer prove.  A failing build only says that
  a proof broke.  Where it was noticed that a helper broke and not the statement, the entry
  says so; the others were not all re-examined.  Edits that nothing caught led to new or
  stronger theorems, named in the log.
* The crate's own tests, in the files `Tests_*.v` (tests by `vm_compute`, not proofs):
  `Tests_Roundtrip` runs the 111 texts of /repo/tests/{plan,literal,multi_line}_roundtrip.rs,
  `Tests_Read`, `Tests_Ext` and `Tests_Write` transcribe the unit tests of the parser, the
  extension tables and the formatter, `Tests_Handlers` the tests with registered handlers of
  /repo/tests/{adv_extension_roundtrip,extension_roundtrip,extension_table}.rs, and
  `Tests_Units` the unit tests of src/extensions/{registry,args,examples}.rs,
  src/parser/chunks.rs and src/textify/{plan,extensions}.rs.  All agree with the model.
  Not transcribed: the tests of src/cli.rs and tests/json_parsing.rs (files and JSON), and
  the kinds named in messages of conversion errors.
