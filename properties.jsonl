{"id": "C01", "title": "Plan round trip", "statement": "For every plan in the writable fragment, format(plan) reports no errors and parse of the produced text returns exactly the same plan (version, URNs, declarations, relations).", "quantifier": "all plans whose types, expressions, relations, names and declarations lie in an explicitly defined writable fragment; trees of any depth and width", "why_tests_cant": "plans are unboundedly deep trees; tests only sample a few shapes", "anchors": ["src/lib.rs: parse, format", "src/textify/plan.rs: PlanWriter", "src/parser/structural.rs: Parser"]}
{"id": "C02", "title": "Type round trip", "statement": "Formatting a type and parsing the text back yields the same type, and consumes exactly the text written, whatever delimiter follows.", "quantifier": "all writable types (any list nesting, any user-defined type with any parameter list) and all declared extension tables", "why_tests_cant": "types nest without bound and depend on an arbitrary extension table", "anchors": ["src/textify/types.rs: Kind", "src/parser/types.rs: Type", "src/parser/expression_grammar.pest: type"]}
{"id": "C03", "title": "Expression round trip", "statement": "Formatting an expression and parsing the text back yields the same expression, consuming exactly the text written.", "quantifier": "all writable expressions (literals, references, calls, casts, if_then) of any depth", "why_tests_cant": "expressions nest without bound and the PEG's ordered choice makes ambiguity possible at any depth", "anchors": ["src/textify/expressions.rs: RexType", "src/parser/expressions.rs: Expression", "src/parser/expression_grammar.pest: expression"]}
{"id": "C04", "title": "Name quoting round trip", "statement": "A name written by the formatter (bare identifier or double-quoted) is read back as the same name.", "quantifier": "all strings of characters that the escaper writes literally or as \\n \\t \\r \\\\ \\' \\\"", "why_tests_cant": "names are arbitrary Unicode strings", "anchors": ["src/textify/types.rs: Name, is_identifer, escaped", "src/parser/common.rs: unescape_string", "src/parser/expressions.rs: Name"]}
{"id": "C05", "title": "String literal round trip, and where it fails", "statement": "A string literal is read back as written for all printable strings; a string containing a character escaped as \\0 or \\u{..} is silently read back as a different string.", "quantifier": "all strings; all printability tables", "why_tests_cant": "strings are unbounded and the escape and unescape code were written independently", "anchors": ["src/textify/expressions.rs: write_literal_value", "src/parser/common.rs: unescape_string"]}
{"id": "C06", "title": "Integer literal fidelity", "statement": "Every i8/i16/i32/i64 literal value is read back exactly with its type and nullability; the parser accepts an integer text for i8/i16/i32 outside the type's range and silently stores a wrapped or out-of-range value.", "quantifier": "all 64-bit values, all four integer types, both nullabilities", "why_tests_cant": "2^64 values and wrap-around boundaries", "anchors": ["src/parser/expressions.rs: to_int_literal", "src/textify/expressions.rs: write_literal_value"]}
{"id": "C07", "title": "Date literal round trip", "statement": "Every day number in the supported calendar range is written as a calendar date that is read back as the same day number, and distinct days are written differently.", "quantifier": "all day numbers representable by the date library", "why_tests_cant": "about 190 million days including all leap rules", "anchors": ["src/textify/expressions.rs: days_to_date_string", "src/parser/expressions.rs: parse_date_to_days"]}
{"id": "C08", "title": "Time and timestamp literal round trip", "statement": "Time-of-day and timestamp literals at precision 0, 3, 6 and 9 are read back exactly; precision 12 always reports a truncation warning; times outside one day are reported, never wrapped.", "quantifier": "all 64-bit values and all precisions", "why_tests_cant": "2^64 values times five precisions", "anchors": ["src/textify/expressions.rs: precision_timestamp_to_string, precision_time_to_string", "src/parser/expressions.rs: parse_timestamp_to_precision_units, duration_to_precision_units"]}
{"id": "C09", "title": "Interval duration round trip", "statement": "An interval_day literal at a supported precision is written as a duration string that is read back as the same days, seconds, subseconds and precision; a unit disagreeing with the ascribed precision is rejected.", "quantifier": "all i32 days and seconds, all i64 subseconds, all precisions", "why_tests_cant": "2^128 combinations including signs and zero parts", "anchors": ["src/textify/expressions.rs: write_interval_day_to_second_literal", "src/parser/expressions.rs: parse_interval_day_duration, interval_day_from_pair"]}
{"id": "C10", "title": "Extension section round trip", "statement": "The extension section written for a table of URNs and declarations is parsed back to an equal table.", "quantifier": "all tables with whitespace-free URNs and grammatical names, any number of entries and any u32 anchors", "why_tests_cant": "tables are unbounded; anchors are padded to width 3 and can be wider", "anchors": ["src/extensions/simple.rs: write", "src/parser/extensions.rs: ExtensionParser"]}
{"id": "C11", "title": "First declaration wins, duplicates are reported", "statement": "Adding a URN or declaration under an anchor already used for that kind returns an error and leaves the stored entry unchanged; anchors of different kinds never interfere; every stored entry comes from some declaration.", "quantifier": "all sequences of insertions", "why_tests_cant": "histories of arbitrary length", "anchors": ["src/extensions/simple.rs: add_extension_urn, add_extension, from_extensions"]}
{"id": "C12", "title": "Function names resolve back to the same function", "statement": "For any table and any declared function anchor, the name text chosen by the formatter resolves in the same table to that same anchor.", "quantifier": "all tables (any overloads, any clashes across URNs) and all function anchors, in compact and verbose modes", "why_tests_cant": "uniqueness flags depend on the whole table", "anchors": ["src/textify/types.rs: NamedAnchor", "src/extensions/simple.rs: lookup_function, resolve_function"]}
{"id": "C13", "title": "Name resolution is unambiguous", "statement": "A name written without an anchor resolves only if exactly one declaration of that kind matches it, and then to that declaration; a name with an anchor resolves only to that anchor.", "quantifier": "all tables, names and anchors", "why_tests_cant": "depends on all other declarations", "anchors": ["src/extensions/simple.rs: find_by_name, find_by_base_name, resolve_function", "src/parser/types.rs: get_and_validate_anchor"]}
{"id": "C14", "title": "Section order", "statement": "Every accepted text has its section headers in the order Version, Extensions, Plan, each at most once; any other order is rejected.", "quantifier": "all texts with any number of lines", "why_tests_cant": "sequences of headers of arbitrary length", "anchors": ["src/parser/structural.rs: parse_line, section_rank"]}
{"id": "C15", "title": "Indentation determines the tree", "statement": "Writing any tree of relations one line per node with two spaces per level and reading the lines back yields exactly that tree; a line indented deeper than one level below its predecessor's ancestors is rejected.", "quantifier": "all trees of any depth and branching, all line sequences", "why_tests_cant": "tree shapes are unbounded", "anchors": ["src/parser/structural.rs: IndentedLine, TreeBuilder", "src/textify/rels.rs: write_children"]}
{"id": "C16", "title": "No line is lost", "statement": "When the plan section is accepted every non-blank line contributes exactly one relation or addendum to the tree, in order.", "quantifier": "all line sequences", "why_tests_cant": "unbounded input", "anchors": ["src/parser/structural.rs: TreeBuilder::add_line, finish"]}
{"id": "C17", "title": "Addenda attach to the right relation", "statement": "An addendum line attaches to the nearest preceding relation one level up, only if that relation has no children yet; otherwise it is rejected. A relation keeps at most one enhancement and all its optimizations in order.", "quantifier": "all line sequences and all addenda lists", "why_tests_cant": "ordering of addenda and children is unbounded", "anchors": ["src/parser/structural.rs: TreeBuilder, Addenda"]}
{"id": "C18", "title": "Chunk reader loses nothing", "statement": "The chunks handed to the parser concatenate to the input text, each is non-empty, and the reported start line of a chunk is one plus the number of line breaks before it.", "quantifier": "all texts and every merge policy", "why_tests_cant": "unbounded texts, mixed line endings", "anchors": ["src/parser/chunks.rs: ChunkCursor", "src/parser/structural.rs: next_chunk"]}
{"id": "C19", "title": "Output mapping is preserved", "statement": "The columns a relation emits after parsing are exactly the references written in its output list; Direct is used only when that list is the identity over the input columns.", "quantifier": "all reference lists and all input widths", "why_tests_cant": "lists of arbitrary length", "anchors": ["src/parser/relations.rs: make_emit, parse_emit"]}
{"id": "C20", "title": "Project mapping", "statement": "The k-th emitted column of a parsed Project denotes the k-th written argument: a reference denotes that input column, an expression denotes itself.", "quantifier": "all argument lists and input widths", "why_tests_cant": "index arithmetic over arbitrary interleavings of references and expressions", "anchors": ["src/parser/relations.rs: ProjectRel", "src/textify/rels.rs: from_project"]}
{"id": "C21", "title": "Aggregate grouping and output mapping", "statement": "Parsed grouping sets refer to a duplicate-free list of grouping expressions in first-occurrence order; the k-th emitted column denotes the k-th written output item.", "quantifier": "all grouping-set lists and output lists", "why_tests_cant": "deduplication and index arithmetic over unbounded lists", "anchors": ["src/parser/relations.rs: AggregateRel, build_grouping_fields, parse_aggregate_output"]}
{"id": "C22", "title": "Child counts are enforced", "statement": "Every accepted relation tree has, at every node, the number of children its operator requires, and every Set has at least two inputs of equal width.", "quantifier": "all relation trees", "why_tests_cant": "trees of any size", "anchors": ["src/parser/relations.rs: expect_one_child, parse_set_relation_pair", "src/parser/structural.rs: build_rel, build_plan_rel"]}
{"id": "C23", "title": "Parser and formatter agree on column counts", "statement": "For every relation the parser accepts, the number of output columns the parser computed for it equals the number of columns the formatter shows for it.", "quantifier": "all accepted relation trees", "why_tests_cant": "inductive property over the whole tree", "anchors": ["src/parser/relations.rs", "src/textify/rels.rs: Emitted"]}
{"id": "C24", "title": "Registry namespaces and atomic registration", "statement": "A failed registration leaves the registry unchanged; a successful one makes exactly that name and type URL available in exactly that namespace and changes no other lookup.", "quantifier": "all registration histories", "why_tests_cant": "histories of arbitrary length", "anchors": ["src/extensions/registry.rs: register, parse_with_type, decode_with_type_and_context"]}
{"id": "C25", "title": "Registry decode is consistent", "statement": "A payload is decoded only under a name registered for its type URL in the requested namespace and by the handler registered under that name.", "quantifier": "all registration histories and payloads", "why_tests_cant": "two maps must stay consistent over all histories", "anchors": ["src/extensions/registry.rs: decode_with_type_and_context"]}
{"id": "C26", "title": "No extension argument is silently ignored", "statement": "Decoding arguments succeeds only if every named argument was accessed and positional arguments were accessed or absent.", "quantifier": "all argument sets and all handler access sequences", "why_tests_cant": "handlers are arbitrary programs over the accessor API", "anchors": ["src/extensions/args.rs: ArgsAccess, ExtensionArgs::parse"]}
{"id": "C27", "title": "Formatter output contains an error token only if an error is reported", "statement": "If format reports no errors then no part of the output is an error placeholder.", "quantifier": "all plans", "why_tests_cant": "plans are unbounded and every message kind has its own failure paths", "anchors": ["src/textify/foundation.rs: Scope::failure", "src/lib.rs: format"]}
{"id": "C28", "title": "Parsing never crashes", "statement": "parse returns Ok or Err for every text; it never panics.", "quantifier": "all texts", "why_tests_cant": "the input space is all strings", "anchors": ["src/lib.rs: parse", "src/parser/common.rs: RuleIter"]}
{"id": "C29", "title": "Formatting never crashes", "statement": "format returns a text and an error list for every plan; it never panics.", "quantifier": "all plans", "why_tests_cant": "the input space is all protobuf plans", "anchors": ["src/lib.rs: format", "src/textify/expressions.rs: days_to_date_string"]}
{"id": "C30", "title": "Accepted lines are fully understood", "statement": "If a relation line is accepted, all of its text was interpreted; nothing after the relation is ignored.", "quantifier": "all lines", "why_tests_cant": "the input space is all strings", "anchors": ["src/parser/expression_grammar.pest: planNode", "src/parser/structural.rs: LineNode::parse"]}
{"id": "C31", "title": "Version section round trip", "statement": "A plan's version (numbers, producer, git hash) written by the formatter is read back unchanged.", "quantifier": "all u32 version numbers and all trimmed single-line producer and hash strings", "why_tests_cant": "2^96 versions and unbounded strings", "anchors": ["src/textify/plan.rs: write_version", "src/parser/structural.rs: parse_version_header, parse_version_detail"]}
{"id": "C32", "title": "Blank lines and line endings do not matter", "statement": "Inserting blank lines between lines, trailing spaces at line ends, or using CRLF instead of LF does not change the parse result.", "quantifier": "all texts and all insertion points", "why_tests_cant": "unbounded texts", "anchors": ["src/parser/structural.rs: parse_plan, IndentedLine", "src/parser/chunks.rs"]}
{"id": "C33", "title": "Fetch bounds", "statement": "A parsed Fetch never carries a negative literal limit or offset, each of limit and offset is given at most once, and limit and offset are not confused whatever their order.", "quantifier": "all fetch argument lists", "why_tests_cant": "all integers and orders", "anchors": ["src/parser/relations.rs: CountMode, OffsetMode, FetchRel"]}
{"id": "C34", "title": "Precision bounds", "statement": "Every precision type the parser accepts has precision between 0 and 12.", "quantifier": "all type texts", "why_tests_cant": "all integers", "anchors": ["src/parser/types.rs: parse_precision"]}
{"id": "C35", "title": "Both output modes denote the same plan", "statement": "The text written with default options and with verbose options parse to the same plan.", "quantifier": "all writable plans", "why_tests_cant": "unbounded plans", "anchors": ["src/textify/foundation.rs: OutputOptions::verbose"]}
{"id": "C36", "title": "Formatting after parsing is stable", "statement": "If a text parses to a plan and that plan is in the writable fragment, then formatting and re-parsing gives the same plan, and formatting again gives the same text.", "quantifier": "all texts", "why_tests_cant": "the input space is all strings", "anchors": ["src/lib.rs"]}
{"id": "C37", "title": "Error locations", "statement": "The line number attached to a parse error is the number of the line being parsed.", "quantifier": "all rejected texts", "why_tests_cant": "unbounded texts", "anchors": ["src/parser/structural.rs: parse_line", "src/parser/errors.rs: ParseContext"]}
{"id": "C38", "title": "Virtual table layout does not change meaning", "statement": "A virtual table read written on one line or over several lines with '- ' continuations parses to the same relation.", "quantifier": "all row lists", "why_tests_cant": "any number of rows", "anchors": ["src/textify/rels.rs: write_header", "src/parser/expression_grammar.pest: virtual_read_relation"]}
{"id": "C39", "title": "Join column lists", "statement": "The columns shown for a join depend only on the join type and the widths of its inputs, and match the Substrait output of that join type.", "quantifier": "all join types and input widths", "why_tests_cant": "all widths", "anchors": ["src/textify/rels.rs: join_output_columns, from_join", "src/parser/relations.rs: JoinRel"]}
{"id": "C40", "title": "Descriptor pools have no duplicate files", "statement": "Building a descriptor pool keeps every core file, adds each extra file at most once (first occurrence wins) and never replaces a core file.", "quantifier": "all lists of extra descriptor sets", "why_tests_cant": "lists of arbitrary length", "anchors": ["src/json.rs: build_descriptor_pool"]}
{"id": "C41", "title": "Command line outcome", "statement": "Converting to text always writes the text first and reports success exactly when formatting produced no errors; format detection depends only on the lower-cased file extension.", "quantifier": "all plans and paths", "why_tests_cant": "unbounded inputs", "anchors": ["src/cli.rs: write_plan, from_extension"]}
{"id": "C42", "title": "Commands keep what they do not replace", "statement": "A command changes nothing but its output; it keeps its input unless that is the output, and a command that fails, or is run in place, does not lose what was there before.", "quantifier": "all commands, files and registries", "why_tests_cant": "every command line, file content and failure", "anchors": ["src/cli.rs: run_inner, get_writer"]}
{"id": "C43", "title": "Formatting writes or reports everything", "statement": "When formatting reports no error, the text carries the whole plan: two plans with the same text are the same, and every field that the text does not show is one that parsing never fills in.", "quantifier": "all plans, options and registries", "why_tests_cant": "tests format plans built from texts, which have none of the fields that are passed over", "anchors": ["src/textify/rels.rs: Relation::from_read, from_aggregate, from_filter", "src/textify/expressions.rs: FieldReference::textify, AggregateFunction::textify", "src/textify/types.rs"]}
{"id": "C44", "title": "The bundled example extensions survive the text format", "statement": "The three extensions of src/extensions/examples.rs register without error; their handlers accept exactly the documented arguments; every accepted argument list is written back as documented, read to the same message, and the message bytes they produce decode to the message they encode. A message that arrives as bytes is written and read to the same message, up to strategies unknown to the schema and to the choice of bytes.", "quantifier": "all argument lists, all messages and all byte strings", "why_tests_cant": "the tests use one message of each kind and no foreign bytes", "anchors": ["src/extensions/examples.rs", "src/extensions/registry.rs: AnyConvertible, Explainable"]}
{"id": "C45", "title": "Deprecated groupings are written like current ones", "statement": "Two plans that differ only in the form of their groupings (expressions in each grouping, or a list of distinct expressions and positions in it) are written the same, at any depth.", "quantifier": "all plans, options, registries and grouping sets", "why_tests_cant": "tests use one deprecated aggregate; the equivalence is over all sets, and the failing case needs the empty set to come first", "anchors": ["src/textify/rels.rs: Relation::from_aggregate l.722-803, get_grouping_sets l.805-829"]}
{"id": "C46", "title": "Enumerated values are written and read by their names", "statement": "Join types, set operations and sort directions are written as & and their protobuf name in camel case, a number without a name is reported, reading a name gives its number, and every name that is written can be read.", "quantifier": "all numbers, and all relations containing them", "why_tests_cant": "a swapped pair of numbers survives every round trip; only a comparison with the protobuf definitions shows it", "anchors": ["src/textify/values.rs l.193-278", "src/parser/relations.rs: JoinRel, SetRel, SortField"]}
{"id": "C47", "title": "Every named argument of an extension is used", "statement": "The handler of an extension is given each named argument of the text; when a name is repeated, the last value wins and the name keeps its first place.", "quantifier": "all argument lists", "why_tests_cant": "tests have no repeated names, whose first value is lost without a message (unlike Fetch, where repetition is an error)", "anchors": ["src/parser/extensions.rs: extension_args_rule_parsing l.577-606", "src/extensions/args.rs: ExtensionArgs::insert"]}
{"id": "C48", "title": "Message bytes mean what the protobuf wire format says", "statement": "Decoding a message of the bundled extensions accepts exactly the byte strings that are sequences of wire-format records fitting its schema (unknown fields skipped, groups no more than 100 deep) and gives each field the value of its records: the last one, or for repeated fields all of them, packed or not. Encoding a message gives such a byte string with the message's values; no byte string has two readings; unknown fields make no difference.", "quantifier": "all byte strings, schemas with distinct field numbers, and messages", "why_tests_cant": "tests decode only what the encoder produced; the records other programs may write (padded varints, unknown groups, split packed fields, wrong wire types) are infinitely many", "anchors": ["src/extensions/examples.rs", "src/extensions/registry.rs", "src/extensions/any.rs"]}
{"id": "C49", "title": "A registry lists exactly its extensions", "statement": "extension_names returns, for each namespace, the names of all extensions whose registration succeeded, each once, in alphabetical (code point) order, whatever the order of registration.", "quantifier": "all registration histories and namespaces", "why_tests_cant": "tests register two or three extensions; sorting happens on UTF-8 bytes and names come from a hash map in arbitrary order", "anchors": ["src/extensions/registry.rs:703-718"]}
{"id": "C50", "title": "Columns and schemas convert into each other", "statement": "Converting named columns to a NamedStruct keeps names and types in order; converting back gives the columns. A NamedStruct with as many names as types gives columns and comes back itself exactly if it is a required struct without type variation; uneven ones are refused.", "quantifier": "all column lists and schemas", "why_tests_cant": "tests convert one schema; the law is for all lists, and the fields not carried over need a proof that nothing else is lost", "anchors": ["src/extensions/registry.rs:281-333"]}
{"id": "C51", "title": "The readers implement the grammar file", "statement": "expression_grammar.pest, read by the rules of pest's notation, defines for every input and start rule at most one parse tree. For each start rule the parser uses (top_level_relation, planNode, extension_urn_declaration, simple_extension, interval_day_duration) and for the rules inside, the reader accepts an input exactly when the rule matches it, leaves the same text unread, and returns the value that the pairs of that tree stand for; it fails exactly when the rule fails.", "quantifier": "all input texts and all start rules used", "why_tests_cant": "the grammar has 116 rules with ordered choice; which alternative wins depends on how every earlier one fails on the rest of the input, and inputs are unbounded", "anchors": ["src/parser/expression_grammar.pest", "src/parser/structural.rs:97-170", "src/parser/extensions.rs:193-263", "src/parser/expressions.rs:611-697"]}
{"id": "C52", "title": "Argument conversions agree with the text", "statement": "For every argument text the extension grammar accepts, the conversions handlers use give what the text says: as an expression it converts exactly to the expressions the same text is read as; as integer, float, boolean, string, enum or column number it converts exactly if the text is of that form, with the value of that form.", "quantifier": "all argument texts, all extension tables", "why_tests_cant": "tests convert one value per method; that no other text converts, and that both readings agree, is a statement about all texts", "anchors": ["src/extensions/args.rs:557-681", "src/parser/extensions.rs:265-330"]}
{"id": "C53", "title": "What each display option controls", "statement": "Indentation changes nothing but the indentation: the text is a fixed list of lines, each with a fixed number of indentations before it, and errors do not change. The row limit matters only to virtual tables between the limits, and a table is laid out over several lines exactly if it has at least that many rows. Binary literals are written as hexadecimal digits that give the bytes back, or as a placeholder. Literal types are shown in the notation of types always, never, or exactly for literals whose text does not tell them. Anchors always give the full name and number, never gives the base name. Showing emits shows the output mapping.", "quantifier": "all plans, registries, options, literals and extension tables", "why_tests_cant": "tests compare single outputs for fixed options; that an option has no other effect concerns all plans and all values of the option", "anchors": ["src/textify/foundation.rs:29-110", "src/textify/rels.rs:130-360", "src/textify/expressions.rs:32-42", "src/textify/expressions.rs:383-494", "src/textify/types.rs:100-222"]}
{"id": "C54", "title": "The readers give the parts of a plan their meaning", "statement": "For every form of the concrete syntax (types, literals with dates, times and durations, references to declared functions and types, expressions, arguments and columns of extensions, relation lines, addenda, trees) there is a definition of the messages it means that does not mention the readers. The reader of each form succeeds with a message exactly if the form means that message; hence no form means two messages.", "quantifier": "all syntax trees of all forms, all extension tables that can be loaded, all registries", "why_tests_cant": "tests show single forms and messages; that nothing else is accepted and nothing that has a meaning is refused concerns all forms", "anchors": ["src/parser/types.rs", "src/parser/expressions.rs", "src/parser/relations.rs", "src/parser/extensions.rs:300-606", "src/parser/structural.rs:295-780"]}
{"id": "C55", "title": "The parser gives a text the plan it means", "statement": "There is a definition of the plan a text means that mentions no reader: optional version, extension and plan sections in this order, levels given by pairs of spaces, declarations whose anchors are not repeated and whose URNs come first, dashed lines joined to the line above, relations arranged in trees by their levels. Parsing succeeds with a plan exactly if the text means that plan; no text means two plans; the text written for a writable plan means it; and reordering the declarations does not change the result.", "quantifier": "all texts, registries, plans", "why_tests_cant": "tests try single texts; that every text with a meaning is accepted and no other is concerns all texts", "anchors": ["src/parser/structural.rs:30-295", "src/parser/structural.rs:910-1235", "src/parser/extensions.rs:35-265", "src/parser/chunks.rs"]}
{"id": "C56", "title": "Types, literals and expressions are written in their notation", "statement": "There is a definition of the text that shows a type, literal, expression, argument or aggregate function under given options which mentions no writer: numbers without superfluous zeros, quoted names and strings, references with the name or anchor they need, dates, times and durations in calendar notation. A message is written without error and as a text exactly if that text shows it; an error (or a panic for dates out of range) occurs exactly for messages that no text shows; no message is shown by two texts.", "quantifier": "all options, all extension tables that can be loaded, all types, literals, expressions, arguments, aggregate functions", "why_tests_cant": "tests compare single messages with single texts; that every other message is written in the same notation, and that nothing is written wrongly without an error, concerns all messages", "anchors": ["src/textify/types.rs", "src/textify/expressions.rs", "src/textify/foundation.rs:440-560"]}
{"id": "C57", "title": "Relations and plans are written in their layout", "statement": "There is a definition of the lines that show a relation, a top-level relation, or a whole plan under given options which mentions no writer: a head line or the lines of a long table, the addenda one level deeper, then the lines of the inputs one level deeper; version details, the sections of declarations, the heading of the plan, and empty lines between top-level relations. A relation or plan is written without error and as a text exactly if that text shows it; an error occurs exactly for plans that no text shows; no plan is shown by two texts; deeper relations are written with the same lines behind more indentation.", "quantifier": "all registries, all options, all extension tables that can be loaded, all relations, all plans", "why_tests_cant": "tests compare single plans with single texts; that any other tree is laid out by the same rules at any depth, and that nothing without a layout passes without an error, concerns all plans", "anchors": ["src/textify/rels.rs", "src/textify/plan.rs", "src/textify/extensions.rs", "src/textify/addenda.rs", "src/extensions/simple.rs:336-376"]}
{"id": "C58", "title": "More declarations and registrations change nothing that worked", "statement": "What can be read or written after some registrations of extension handlers is read and written in the same way after any further registrations, accepted or refused; registrations that do not clash can be made in any order. A text that can be read is still read, with the same version and relations, if its extension section declares more, in any order, as long as no further declaration shares its base name with an earlier one of the same kind. Likewise the text of a plan that declares more differs in the extension section only, and the order in which a plan lists its declarations does not show in its text.", "quantifier": "all sequences of registrations, all texts, all plans, all options, all sets of declarations", "why_tests_cant": "tests fix one registry and one list of declarations; that nothing unrelated to a call or a type can influence it concerns every further declaration and every text", "anchors": ["src/extensions/registry.rs", "src/extensions/simple.rs:216-283", "src/parser/structural.rs", "src/textify/foundation.rs", "src/textify/plan.rs"]}
{"id": "C59", "title": "Errors are marked where they occur, and formatting works part by part", "statement": "Every error that formatting reports is marked in the text by its message, each by a mark of its own, except refused declarations, unspecified nullabilities and literals that lose digits or leave their range. For given declarations and options there is one text, one list of errors and one list of crashes for each expression: wherever the expression stands in a plan these are what is written and reported for it, and everything else is the same for all expressions. (The deprecated expressions inside groupings are the exception: equal ones are written once.) So two expressions written alike in one place are written alike in all. Relations at the top of a plan are written one after the other with an empty line between them, each independently of the others.", "quantifier": "all plans, all registries, all options, all contexts of an expression, all expressions", "why_tests_cant": "tests show marks and texts of single expressions in a few places; that no place in any relation changes what is written for an expression, and that no error goes without a mark, concerns every plan", "anchors": ["src/textify/foundation.rs:392-476", "src/textify/rels.rs", "src/textify/expressions.rs", "src/textify/plan.rs:22-125"]}
{"id": "C60", "title": "Reading a line can take time exponential in its length", "statement": "The number of grammar rules entered while a line is read is determined by the line, but no polynomial in the length of the line bounds it: k nested calls of a function named if_then, which the crate itself writes and reads back, make a line of 13k+10 characters that enters at least 2^k rules, and a column type of k lists left open makes a line of 5k+12 characters that enters at least 2^k rules before it is refused. This holds for the grammar as written and after pest's factoring of alternatives that begin alike, which changes nothing about what is matched and never enters more rules.", "quantifier": "all nesting depths, all polynomials; for the counting and the factoring all grammars, expressions and inputs", "why_tests_cant": "tests use shallow nesting, where the cost does not show; a lower bound for every depth needs an induction, and a deep enough example would not finish", "anchors": ["src/parser/expression_grammar.pest:58-193", "src/parser/structural.rs:97-170"]}
{"id": "C61", "title": "Reading a line always ends, with nesting linear in its length and unbounded", "statement": "Every rule of the grammar gives exactly one answer on every text: no rule loops or calls itself before a character has been taken. While it does, rules are entered at most 8(n+1) deep on a text of n characters, and at most 76^(n+1) rules are entered in all. The depth cannot be bounded by a constant: k casts within each other, which the crate itself writes, make a line of 7k+10 characters that is read and nests at least 2k rules. This holds for the grammar as written and after pest's factoring.", "quantifier": "all rules, all texts, all nesting depths", "why_tests_cant": "a test shows that one text is read; that no text whatever makes a rule run for ever needs an argument over the whole grammar, and so do bounds that hold for every length", "anchors": ["src/parser/expression_grammar.pest:1-446", "src/parser/structural.rs:97-170"]}
{"id": "C62", "title": "Parsed plans have nothing missing, and few complaints can be made about them", "statement": "In every plan that parsing gives, each part that the text format shows is present: inputs, conditions, types, names and numbers with a notation, at least two inputs of a set operation; every function, type and reference to a grouping expression is to one that exists, the declarations load without complaint, and every extension message was made by a registered handler. Formatting a plan of which this holds reports nothing but: a literal out of the range of its type, an unspecified nullability, an output column that does not exist, and what a handler's own arguments for a message give rise to. Without handlers a parsed plan meets only the first three, and each of them is met by a parsed text.", "quantifier": "all texts, all registries, all options; for the complaints all plans, parsed or not, with nothing missing", "why_tests_cant": "tests format a few parsed plans and see no errors; that the dozens of other errors of the formatter can not arise from any text concerns every text, and the three that can were not known from the tests", "anchors": ["src/parser/relations.rs", "src/parser/expressions.rs", "src/parser/types.rs", "src/textify/rels.rs", "src/textify/expressions.rs", "src/textify/foundation.rs:392-476"]}
{"id": "C63", "title": "The relations of a plan are read one by one, and inputs only through their widths", "statement": "A text whose plan section is made of blocks, each beginning with a line that is not indented, is read exactly if each block is read behind the same version and declarations, and its relations are those of the blocks in order. A block with one unindented line gives exactly one relation, and exchanging blocks exchanges relations. Within a tree, putting one input in the place of another with as many columns changes nothing but that input in the result: either both trees are read, with the same surroundings, or both fail in the same way.", "quantifier": "all texts, registries, blocks and permutations of them; all trees with a place at any depth, all widths, all inputs of that width", "why_tests_cant": "tests read a few plans with one relation each; independence of each block from the others, and of surroundings from the contents of an input, speak about all pairs of texts or trees", "anchors": ["src/parser/structural.rs:500-765", "src/parser/structural.rs:891-1236", "src/parser/relations.rs:184-206", "src/parser/chunks.rs"]}
{"id": "C64", "title": "Exactly which texts crash, and with which message", "statement": "A text is read part by part in a fixed order: declarations line by line, then for every tree its inputs, the arguments of its addenda, their payloads, and the parts of its line from left to right. Reading stops at the first part without a meaning. parse panics with message m exactly when that part is one of those SpecCrashes.v says crash with m (an integer out of range, a type the code does not implement, an error while later pairs of a line have not been looked at, text after a declaration, a handler that panics). So every text has exactly one of three outcomes: one plan, one panic message, or an error.", "quantifier": "all registries, texts and messages", "why_tests_cant": "whether a malformed text is an error or a crash depends on which of its defects is reached first; tests show single defects", "anchors": ["src/parser/common.rs: RuleIter", "src/parser/relations.rs", "src/parser/expressions.rs", "src/parser/types.rs", "src/parser/structural.rs: parse_plan", "src/parser/extensions.rs"]}
{"id": "C65", "title": "The line an error is reported for is the first without a meaning", "statement": "A text is reported as wrong for line n exactly if it does not crash and n is the line SpecBlame.v blames: the first line in front of the plan that cannot follow the lines before it; or the first group of lines of the plan that cannot follow; or, once all lines have a meaning, the line of the first relation or addendum without one, where inputs come before the relations made of them, the arguments of addenda before payloads, and both before the line of the relation itself. The kind of the complaint (misplaced, unreadable, unregistered, unsuitable, undeclared, outside of sections) is given as well. One line at most is blamed, and a text has a meaning, a crash or a blamed line. In front of all sections the level of the line is reported in place of its number.", "quantifier": "all registries, texts, lines and complaints", "why_tests_cant": "which of several defects is reported depends on the order in which everything is read; tests contain one defect each", "anchors": ["src/parser/structural.rs:500-765", "src/parser/structural.rs:891-1236", "src/parser/errors.rs", "src/parser/extensions.rs"]}
{"id": "C66", "title": "Exactly which plans crash when formatted", "statement": "Formatting a plan crashes with message s exactly if crash s waits in something that is written of it (SpecWriteCrash.v): a date outside the calendar in an expression that is written, or in the arguments a handler makes of a message that is written, or a panic of the handler of such a message. What is written: conditions, sort keys, limits and offsets, rows and filters of virtual tables, grouping sets; computed columns of a Project and columns of an Aggregate only if they are put out or the choice is shown; never filters of other reads or of measures, nor arguments of an addendum with columns. Of the options only whether the choice of columns is shown matters, of the plan only its relations, and showing the choice can only add crashes.", "quantifier": "all registries, options, plans and messages", "why_tests_cant": "whether a value is written at all depends on the column numbers of every relation below it; no test formats a plan with a value it hides", "anchors": ["src/textify/rels.rs:136-371", "src/textify/rels.rs:374-1122", "src/textify/addenda.rs:25-173", "src/textify/expressions.rs", "src/textify/values.rs"]}
{"id": "C67", "title": "Exactly which errors formatting reports", "statement": "Formatting a plan reports error er exactly if er is an error of the plan (SpecWriteErrors.v): a declaration that is refused, a plan relation without content, or an error of something that is written of a relation: an unspecified nullability, an undeclared function, type or variation, a missing or unknown part of a type, literal, reference, call, cast or argument, a value that has no notation, a missing condition, an unnamed sort direction, join type or set operation, a grouping reference beyond the expressions, a table column without name or type, a chosen column that does not exist (not for named tables, not for extension relations, and only while the choice is not shown), a message that no handler accepts, an addendum with columns, and errors in what a handler makes of a message. Of the options only whether the choice of columns is shown matters, and showing it takes away no error but those about chosen columns that do not exist. Every reported lookup error names something that is not declared. Between plans that differ in their declarations only, the other errors of relations are the same, and a lookup error goes away exactly when the very thing it names is declared.", "quantifier": "all registries, options, plans and errors", "why_tests_cant": "every kind of error can sit in every position of every relation, and whether it is reported depends on the widths of the relations below; tests look at a few single errors", "anchors": ["src/textify/foundation.rs", "src/textify/types.rs", "src/textify/expressions.rs", "src/textify/rels.rs:136-1122", "src/textify/addenda.rs:25-173", "src/textify/plan.rs"]}
{"id": "C68", "title": "Formatting consults only the handlers of the messages a plan holds", "statement": "If two registries have the same name and handler for the type URL of every message that a plan holds (enhancements, optimizations, extension tables and extension relations, each for its own kind), they format the plan the same: same text, errors and crashes. A plan that holds no message is formatted the same whatever is registered. Parsing finds handlers by kind and name only: registries with the same handlers under every name read every text the same (same plan, error or crash), whatever type URLs they know.", "quantifier": "all registries, options, plans and texts", "why_tests_cant": "tests use a few registries; the claim is about every pair of registries and every plan, including what handlers do and whether they crash", "anchors": ["src/extensions/registry.rs:592-606", "src/extensions/registry.rs:673-700", "src/parser/relations.rs:36-84", "src/textify/rels.rs:578-711", "src/textify/addenda.rs:25-118"]}
