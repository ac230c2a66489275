{"id": "C01", "title": "Parsing never panics", "statement": "For every declaration the macros accept whose string defaults parse, `try_parse_from` returns `Ok` or `Err` on every argument vector; it never panics, never overflows a `u8` counter and never indexes a field out of range.", "quantifier": "all accepted declarations (any nesting of structs, flattened structs and subcommands), all argument vectors of any length and any bytes", "why_tests_cant": "A panic would hide in one combination of attributes, field count and input; tests sample a handful of structs and inputs.", "anchors": ["src/runtime.rs: run_parser, visit_positional, visit_named", "derive/src/derive_args.rs: ValidateFinish, expand_args_parse", "src/lib.rs: Parser::try_parse_from"]}
{"id": "C02", "title": "The result is the one the declaration prescribes", "statement": "`try_parse_from` computes exactly the outcome of a declarative reading of the command line: split the tokens into occurrences of declared arguments, give every field the values of its own occurrences, then check the constraints. Value and error agree in every case.", "quantifier": "all accepted declarations, all argument vectors", "why_tests_cant": "The generated code, the name tables, the bit-packed attributes and the frame chain all take part; only a proof covers every declaration the macro can expand.", "anchors": ["src/runtime.rs: run_parser, visit_named, visit_positional, Frame::search_named", "derive/src/derive_args.rs: ArgsParse, ValidateFinish, RawArgsInfo", "derive/src/derive_subcommand.rs: SubcommandImpl", "src/refl.rs: RawArgsInfo::get_named"]}
{"id": "C03", "title": "argv[0] is required and otherwise irrelevant", "statement": "An empty argument vector is the error \"missing executable argument\". The content of argv[0] has no influence on the parsed value or on any error except the program name inside a help text.", "quantifier": "all accepted declarations, all pairs of program names, all argument lists", "why_tests_cant": "Needs all program names (paths, non-UTF-8, empty) crossed with all inputs.", "anchors": ["src/lib.rs: Parser::try_parse_from", "src/runtime.rs: StructParserFlavor::run_parser, CommandFrame"]}
{"id": "C04", "title": "`--` makes every later token a positional value", "statement": "After a `--` in option position every later token is taken verbatim as a positional value (of the `last` argument if one is declared, else continuing with the next positional): none is read as an option or a subcommand, whatever its bytes.", "quantifier": "all accepted declarations with distinct subcommand names, all prefixes read up to option position, all token lists after `--`", "why_tests_cant": "The tokens after `--` are arbitrary byte strings, including ones that spell options and subcommands.", "anchors": ["src/runtime.rs: run_parser (arg == \"--\"), visit_positional"]}
{"id": "C05", "title": "`--name=value` and `--name value` are the same", "statement": "For an option that takes a value and does not demand `=`, giving the value inline or as the next token gives identical results, wherever it appears, provided the value may follow as a separate token.", "quantifier": "all accepted declarations with distinct subcommand names, all contexts before and after, all names, all values", "why_tests_cant": "Equivalence of two whole parses, for every context and value.", "anchors": ["src/runtime.rs: run_parser (split_once), visit_named (RawInlineValue)"]}
{"id": "C06", "title": "`-nvalue`, `-n=value` and `-n value` are the same", "statement": "For a short option that takes a value and does not demand `=`, the three spellings give identical results (`-nvalue` for non-empty values not starting with `=`).", "quantifier": "all accepted declarations with distinct subcommand names, all contexts, all short names (any Unicode character), all values including non-UTF-8", "why_tests_cant": "Equivalence of whole parses over all values, characters and contexts.", "anchors": ["src/runtime.rs: run_parser (bundle), visit_named"]}
{"id": "C07", "title": "Bundled flags mean the separate flags", "statement": "`-abc` gives the same result as `-a -b -c` when a and b are plain flags.", "quantifier": "all accepted declarations with distinct subcommand names, all contexts, any number of flags, any last element", "why_tests_cant": "Unbounded number of flags and multi-byte characters.", "anchors": ["src/runtime.rs: run_parser (bundle)"]}
{"id": "C08", "title": "Aliases and primary names are interchangeable", "statement": "All the long names and aliases of one argument give identical results, and so do all its short names; a long name and a short name of it are interchangeable too.", "quantifier": "all accepted declarations with distinct subcommand names, all contexts, all pairs of names of an argument", "why_tests_cant": "All pairs of names for all declarations.", "anchors": ["derive/src/derive_args.rs: expand_args_parse (enc_names), RawArgsInfo", "src/runtime.rs: visit_named"]}
{"id": "C09", "title": "A single-valued argument given twice is rejected", "statement": "A second occurrence of a flag, `T`, `Option<T>` or `Option<Option<T>>` argument is a \"cannot be used multiple times\" error that names the argument; the parse never succeeds by keeping the first or the last value.", "quantifier": "all accepted declarations with distinct subcommand names, all inputs", "why_tests_cant": "The two occurrences may be anywhere, in any spelling, through aliases, bundles and global arguments.", "anchors": ["src/runtime.rs: FlagPlace, SetValuePlace, SetOptionalValuePlace"]}
{"id": "C10", "title": "A Vec argument collects all its values in order", "statement": "The parsed vector is exactly the values given on the command line for that argument, in order, none lost, none duplicated, however the occurrences are interleaved with other arguments.", "quantifier": "all accepted declarations with distinct subcommand names, all successful parses", "why_tests_cant": "Any number of occurrences and any interleaving.", "anchors": ["src/runtime.rs: VecPlace, VecDelimitedPlace"]}
{"id": "C11", "title": "Delimiters split values losslessly", "statement": "With a value delimiter, a value is cut at every delimiter and nowhere else: the pieces contain no delimiter and joining them with the delimiter gives back the value; an empty value is one empty piece.", "quantifier": "all delimiters (any Unicode character), all values (any bytes)", "why_tests_cant": "All byte strings and all delimiter characters.", "anchors": ["src/runtime.rs: VecDelimitedPlace::parse_from", "derive/src/derive_args.rs: FieldInfo::initializer"]}
{"id": "C12", "title": "Positionals are filled in declaration order", "statement": "The k-th positional token goes to the k-th declared positional argument, unaffected by the options given before, between or after.", "quantifier": "all accepted declarations with distinct subcommand names, all inputs", "why_tests_cant": "All interleavings of options and positionals.", "anchors": ["src/runtime.rs: visit_positional", "derive/src/derive_args.rs: expand_args_parse (positional_fields)"]}
{"id": "C13", "title": "A variadic positional takes the remaining positionals", "statement": "Once the single positionals are filled, a `Vec` positional receives all further positional tokens, in order; without one, a further positional is an error naming the token.", "quantifier": "all accepted declarations with distinct subcommand names, all inputs", "why_tests_cant": "Unbounded number of values.", "anchors": ["src/runtime.rs: visit_positional (VAR_ARG)"]}
{"id": "C14", "title": "A trailing var arg takes everything after its first value", "statement": "After the first value of a `trailing_var_arg` positional every later token is its value verbatim, including `--`, options and subcommand names.", "quantifier": "all accepted declarations with distinct subcommand names, all token lists", "why_tests_cant": "Arbitrary later tokens.", "anchors": ["src/runtime.rs: visit_positional (GREEDY)"]}
{"id": "C15", "title": "A `last` argument is only reachable after `--`", "statement": "Without a `--` token a `last` argument stays empty; with it, it receives exactly the tokens after `--`.", "quantifier": "all accepted declarations with distinct subcommand names, all inputs", "why_tests_cant": "All inputs without `--`.", "anchors": ["src/runtime.rs: run_parser, visit_positional (LAST)", "derive/src/derive_args.rs: expand_args_parse (last_field)"]}
{"id": "C16", "title": "Subcommand names have priority and take the rest", "statement": "In positional position a token equal to a subcommand name enters that subcommand, even if a positional is still unfilled; all later tokens belong to it, and the parent gets no positional from them.", "quantifier": "all accepted declarations with distinct subcommand names, all inputs", "why_tests_cant": "All mixes of positionals and names.", "anchors": ["src/runtime.rs: run_parser (subcmd)", "src/refl.rs: RawSubcommandInfo::search"]}
{"id": "C17", "title": "Global arguments reach through subcommands, others do not", "statement": "Inside a subcommand an option of an enclosing command is recognised iff it is declared `global`; it then sets the field of the enclosing command.", "quantifier": "all accepted declarations with distinct subcommand names, all subcommand depths", "why_tests_cant": "Depth of nesting is unbounded.", "anchors": ["src/runtime.rs: CommandFrame::search_named, ArgsFrame::search_named"]}
{"id": "C18", "title": "The innermost, non-flattened declaration wins", "statement": "When several structs in scope declare the same name, the occurrence goes to the innermost command's own field, then to its flattened structs in declaration order, depth first, then to global arguments of enclosing commands; exactly one field receives it.", "quantifier": "all accepted declarations with distinct subcommand names, all names", "why_tests_cant": "All nestings of flatten and subcommand.", "anchors": ["src/runtime.rs: Frame::search_named", "derive/src/derive_args.rs: ArgsParse::to_tokens (flatten_fields)"]}
{"id": "C19", "title": "Required arguments are enforced", "statement": "A successful parse had at least one occurrence of every argument in every entered command that is declared `required` or whose type is neither `bool`, `Option` nor `Vec`, and that has no default, and a required subcommand; if one is missing the parse fails.", "quantifier": "all accepted declarations with distinct subcommand names, all inputs; for the failure also readable defaults", "why_tests_cant": "All declarations and inputs.", "anchors": ["derive/src/derive_args.rs: ValidateFinish", "src/runtime.rs: error_missing_arg, error_missing_subcmd"]}
{"id": "C20", "title": "conflicts_with is enforced", "statement": "If an argument and one it conflicts with are both given explicitly, the parse fails; if parsing succeeds no such pair was given.", "quantifier": "all accepted declarations with distinct subcommand names, all inputs; for the failure also readable defaults", "why_tests_cant": "All pairs and all inputs.", "anchors": ["derive/src/derive_args.rs: ValidateFinish (conflicts_idx)", "src/runtime.rs: error_conflict"]}
{"id": "C21", "title": "requires is enforced", "statement": "If an argument is given explicitly and one it requires is not, the parse fails.", "quantifier": "all accepted declarations with distinct subcommand names and readable defaults, all inputs", "why_tests_cant": "All pairs and all inputs.", "anchors": ["derive/src/derive_args.rs: ValidateFinish (dependencies_idx)", "src/runtime.rs: error_dependency"]}
{"id": "C22", "title": "exclusive is enforced", "statement": "If an exclusive argument is given together with any other argument of its struct, or with a subcommand, the parse fails.", "quantifier": "all accepted declarations with distinct subcommand names and readable defaults, all inputs", "why_tests_cant": "All subsets of other arguments, up to 254 fields counted in a u8.", "anchors": ["derive/src/derive_args.rs: ValidateFinish (__total_args)", "src/runtime.rs: error_exclusive"]}
{"id": "C23", "title": "Defaults apply exactly when the argument is absent", "statement": "A field with a default gets the default iff it has no occurrence; a default never counts as given for constraints, never overrides a given value.", "quantifier": "all accepted declarations with distinct subcommand names, all inputs", "why_tests_cant": "All declarations and inputs.", "anchors": ["derive/src/derive_args.rs: ValidateFinish, DefaultValue", "src/runtime.rs: Parsable::set_default, set_default_parse"]}
{"id": "C24", "title": "require_equals demands the equals sign", "statement": "An option with require_equals that takes a value is an error in the forms `--name value`, `-nvalue` and `-n value`, and is accepted in the forms with `=`.", "quantifier": "all accepted declarations with distinct subcommand names, all contexts and values", "why_tests_cant": "All contexts and values.", "anchors": ["src/runtime.rs: visit_named (REQUIRE_EQ)"]}
{"id": "C25", "title": "Option<Option<T>> distinguishes absent, bare and valued", "statement": "`--foo` gives Some(None), `--foo=v` gives Some(Some(v)), nothing gives None; a bare `--foo` never swallows the next token. (The short form with a value is C50.)", "quantifier": "all accepted declarations with distinct subcommand names, all contexts and values", "why_tests_cant": "All contexts and values.", "anchors": ["src/runtime.rs: SetOptionalValuePlace, visit_named, run_parser (bundle)"]}
{"id": "C26", "title": "Values that look like options are not swallowed", "statement": "A separate token starting with `-` (other than `-` itself) is taken as an option's value only if allow_hyphen_values is set, or allow_negative_numbers is set and it is `-` and digits; otherwise it is a missing-value error.", "quantifier": "all accepted declarations with distinct subcommand names, all contexts and tokens", "why_tests_cant": "All tokens.", "anchors": ["src/runtime.rs: visit_named (closure of filter)", "derive/src/derive_args.rs: expand_args_parse (accept_hyphen)"]}
{"id": "C27", "title": "ValueEnum parses exactly its names, and display round-trips", "statement": "For an accepted ValueEnum, parsing gives the variant whose name is the input and nothing else; displaying a variant and parsing the text gives the variant back.", "quantifier": "all accepted lists of variant names, all inputs", "why_tests_cant": "All enums and all input strings.", "anchors": ["derive/src/derive_value_enum.rs: expand_for_enum, ToTokens", "src/values.rs: ValueEnum, InferValueParser"]}
{"id": "C28", "title": "ValueEnum derive rejects ambiguous names; error lists all names", "statement": "Two variants with the same name, or a name with control characters, do not compile; the error of an unknown value lists precisely the names of all variants.", "quantifier": "all lists of variant names", "why_tests_cant": "All lists of names.", "anchors": ["derive/src/derive_value_enum.rs: expand_for_enum", "src/values.rs: PossibleValues"]}
{"id": "C29", "title": "ignore_case ignores ASCII case and nothing else", "statement": "With ignore_case, two values that differ only in ASCII case are interchangeable, and a value is accepted iff its lower-case form is a variant name.", "quantifier": "all accepted declarations with distinct subcommand names, all values", "why_tests_cant": "All casings of all names.", "anchors": ["src/runtime.rs: visit_named (MAKE_LOWERCASE)", "derive/src/derive_args.rs: ArgsParse::to_tokens (NO_UPPER_CASE)"]}
{"id": "C30", "title": "Values reach the user's parser byte for byte", "statement": "Whatever the spelling, the bytes handed to the value's own conversion are exactly the bytes of the value on the command line, also when they are not UTF-8; types that only parse `str` reject non-UTF-8 with an error that tells where the value stops being UTF-8.", "quantifier": "all accepted declarations with distinct subcommand names, all byte strings", "why_tests_cant": "All byte strings, including ill-formed UTF-8 cut at every place.", "anchors": ["src/runtime.rs: run_parser, visit_named", "src/values.rs: InferValueParser"]}
{"id": "C31", "title": "Nothing is silently ignored", "statement": "A successful parse accounts for every token: each is part of exactly one occurrence of an argument, a subcommand name, or the separator `--`. An unknown option, an unknown subcommand or an extra positional is always an error that names it.", "quantifier": "all accepted declarations with distinct subcommand names, all inputs", "why_tests_cant": "All inputs.", "anchors": ["src/runtime.rs: run_parser, visit_named, visit_positional"]}
{"id": "C32", "title": "Option names match exactly", "statement": "An option is recognised iff the token's name equals a declared name byte for byte; no prefix, no case folding, no confusion of short and long names.", "quantifier": "all accepted declarations with distinct subcommand names, all names", "why_tests_cant": "All byte strings as names.", "anchors": ["src/refl.rs: RawArgsInfo::get_named", "derive/src/derive_args.rs: encode_long_name, encode_short_name, check_dup_name"]}
{"id": "C33", "title": "Every declared name is found", "statement": "The sorted name tables and the binary search find every declared option name and every declared subcommand name, and only those.", "quantifier": "all accepted declarations with any number of names", "why_tests_cant": "Table sizes and orders are unbounded.", "anchors": ["src/refl.rs: get_named, RawSubcommandInfo::search", "derive/src/derive_args.rs: RawArgsInfo (sort_by_key)", "derive/src/derive_subcommand.rs: expand_for_enum (sort)"]}
{"id": "C34", "title": "Attributes survive bit packing", "statement": "The index and every attribute flag packed in an argument's u32 are read back exactly, for up to 254 fields; no flag leaks into the index or another flag.", "quantifier": "all fields of all accepted declarations", "why_tests_cant": "All combinations of flags and indexes.", "anchors": ["src/shared.rs: ArgAttrs", "derive/src/derive_args.rs: expand_args_parse (assign indexes)"]}
{"id": "C35", "title": "Errors name the offending argument", "statement": "The description in an error about an argument is that of the argument concerned: the one given twice, lacking its value, required, conflicting and so on. (That the error for an invalid value of a positional argument names it is refuted: it says `<unknown argument>`.)", "quantifier": "all accepted declarations with distinct subcommand names, all inputs", "why_tests_cant": "Descriptions are looked up by index in a NUL-separated string, per struct.", "anchors": ["src/refl.rs: get_description", "src/error.rs: with_arg_idx, with_arg_desc", "derive/src/derive_args.rs: description", "src/runtime.rs: visit_positional"]}
{"id": "C36", "title": "--help and -h give the help of the current command", "statement": "Unless the user declared that name, `--help` (or an `h` in a bundle) in option position ends the parse with the help of the innermost entered command.", "quantifier": "all accepted declarations with distinct subcommand names, all contexts, all later tokens", "why_tests_cant": "All contexts.", "anchors": ["src/runtime.rs: visit_named", "src/error.rs: maybe_render_help", "src/help.rs: render_help_into"]}
{"id": "C37", "title": "render_long_help returns the top-level help", "statement": "`render_long_help` returns the help page of the top-level command, if and only if no argument of that command is named `--help`; otherwise it panics. (That it never panics for an accepted declaration is refuted.)", "quantifier": "all accepted declarations with distinct subcommand names, all program names", "why_tests_cant": "All declarations.", "anchors": ["src/lib.rs: Parser::render_long_help"]}
{"id": "C38", "title": "Help lists every visible argument and no hidden one", "statement": "Whenever a parse ends with help, the text is the page of the command entered last: what it is about, the usage line with the program's file name, the names of the commands and the required arguments, the aligned list of subcommands, and sections with one entry per visible argument of the struct and its flattened structs, in order. An entry is the description of the argument (indented so that long names are aligned), its documentation and its default. The page begins with the given `long_about`, or the documentation, and ends with `after_long_help`. Hidden arguments make no difference to it.", "quantifier": "all accepted declarations with distinct subcommand names, all command lines that ask for help", "why_tests_cant": "All declarations; tests compare a few pages literally.", "anchors": ["src/help.rs: render_help_into", "derive/src/derive_args.rs: HelpDisplay, maybe_push_help_for"]}
{"id": "C39", "title": "Named arguments commute", "statement": "Exchanging two neighbouring complete option occurrences of different arguments does not change a successful result, nor does exchanging an option and a word for a positional. A global option can stand before or after the name of a subcommand that has no option of its name, with the same outcome, errors included.", "quantifier": "all accepted declarations with distinct subcommand names, all contexts", "why_tests_cant": "All contexts and orders.", "anchors": ["src/runtime.rs: run_parser, visit_named"]}
{"id": "C40", "title": "Subcommand names identify variants", "statement": "If the kebab-case names of a command's variants are distinct, the name of a variant enters that variant. The macros do not ensure that they are distinct: an accepted enum may have a variant no command line selects.", "quantifier": "all accepted declarations", "why_tests_cant": "All sets of variant identifiers.", "anchors": ["derive/src/derive_subcommand.rs: expand_for_enum (name_map, FIXME)"]}
{"id": "C41", "title": "Every value is expressible", "statement": "Any byte string can be given to a long option as `--name=value` and to a positional after `--`, including empty strings and strings starting with `-`.", "quantifier": "all accepted declarations with distinct subcommand names, all byte strings", "why_tests_cant": "All byte strings.", "anchors": ["src/runtime.rs: run_parser, visit_named"]}
{"id": "C42", "title": "A field depends only on its own occurrences", "statement": "In a successful parse the value of a field is a function of the field's declaration and its own occurrences alone; other arguments cannot change it.", "quantifier": "all accepted declarations with distinct subcommand names, all pairs of inputs", "why_tests_cant": "Pairs of whole inputs.", "anchors": ["src/runtime.rs: visit_named, visit_positional", "derive/src/derive_args.rs: FieldInfo::extractor"]}
{"id": "C43", "title": "A lone `-` and the empty token are positionals", "statement": "`-` and the empty string are read as positional values (or subcommand names), never as options.", "quantifier": "all accepted declarations with distinct subcommand names, all contexts", "why_tests_cant": "All contexts.", "anchors": ["src/runtime.rs: run_parser (strip_prefix)"]}
{"id": "C44", "title": "A declaration compiles exactly when it obeys the rules", "statement": "The macros accept a struct if and only if it, and every struct flattened into it or held by one of its subcommand variants, obeys the documented rules: distinct legal option names, at most one variadic positional and it is the last, at most one `last` positional and it is variadic, no positionals or subcommands in flattened structs, `requires`/`conflicts_with` naming arguments of the same struct, readable types, consistent defaults. In particular no name belongs to two arguments of an accepted struct.", "quantifier": "all declarations", "why_tests_cant": "All declarations, of any size and depth; the compile-fail tests cover one example per message.", "anchors": ["derive/src/derive_args.rs: expand_args_parse, encode_long_name, encode_short_name", "derive/src/derive_subcommand.rs: expand_for_enum"]}
{"id": "C45", "title": "Error text is determined by its parts", "statement": "Display of an error shows the message of its kind with the offending input and argument, the source error and the context; a help error displays exactly the help text, and only help errors convert into help. The offending input is quoted such that it can be recovered and has no control characters: printable text is shown as it is, a byte that is not UTF-8 as \\x and two digits. Debug tells as much as Display.", "quantifier": "all errors", "why_tests_cant": "All combinations of parts.", "anchors": ["src/error.rs: Display for Error, try_into_help"]}
{"id": "C46", "title": "Doc comments become paragraphs", "statement": "Doc lines are trimmed and joined with single spaces within a paragraph; blank lines separate paragraphs by one newline; no trailing white space. (If the first line is blank the text starts with an empty line.)", "quantifier": "all lists of doc lines", "why_tests_cant": "All texts.", "anchors": ["derive/src/common.rs: Doc::extend_from_attr, Doc::post_process"]}
{"id": "C47", "title": "UTF-8 handling is exact", "statement": "Decoding the valid prefix of a bundle and re-encoding its characters gives back the same bytes; a short option is found for every Unicode scalar value. Lossy conversion (the program name on help pages) keeps every character and puts U+FFFD for each maximal ill-formed part.", "quantifier": "all byte strings, all scalar values", "why_tests_cant": "1.1 million scalar values and all byte strings.", "anchors": ["src/runtime.rs: run_parser (utf8_chunks, encode_utf8)"]}
{"id": "C48", "title": "Every result has a plain command line", "statement": "What any command line gives, a plain one gives as well: each option is one token (`--name`, `-n`, `--name=value`, `-n=value`), the options of each command come before its words. And any sequence of such options followed by `--` and values for the positionals is read as just that.", "quantifier": "all accepted declarations with distinct subcommand names, all command lines, all choices of values", "why_tests_cant": "Scripts that generate command lines rely on it for all values.", "anchors": ["src/runtime.rs: run_parser"]}
{"id": "C49", "title": "A parse succeeds exactly when nothing is wrong", "statement": "`try_parse_from` succeeds iff every token can be read as part of an occurrence, a subcommand or `--`, no occurrence is an error by itself (bad value, given twice), and the declared constraints hold: required arguments and subcommands are given, no conflict, no missing requirement, nothing beside an exclusive argument. On success every field has the value of its own occurrences or its default, and the entered subcommands are those named.", "quantifier": "all accepted declarations with distinct subcommand names and readable defaults, all argument vectors", "why_tests_cant": "An equivalence over all inputs; tests show single directions on single inputs.", "anchors": ["src/runtime.rs: StructParserFlavor::run_parser, RawParser", "derive/src/derive_args.rs: ArgsParse, ValidateFinish", "src/lib.rs: Parser::try_parse_from"]}
{"id": "C50", "title": "A short option without a mandatory value takes no `=value`", "statement": "`-f=v` is never accepted for an option that does not need a value: for a flag it is an unexpected value, for `Option<Option<T>>` it is the error `unknown -=`, although `--foo=v` gives Some(Some(v)). (One would expect the two forms to agree; that they do not is the refuted part.)", "quantifier": "all accepted declarations with distinct subcommand names, all values", "why_tests_cant": "All values; the repository has no test of the short form.", "anchors": ["src/runtime.rs: run_parser (short options)"]}
{"id": "C51", "title": "Default names follow the identifier", "statement": "`#[arg(long)]` on a snake_case field is the identifier with hyphens, `#[arg(short)]` its first letter, the value name the identifier in capitals; the subcommand of a PascalCase variant is its words in lower case joined by hyphens; rename_all on an enum gives the names of the stated convention. For any ASCII identifier, a word starts at the beginning, after an underscore, with a capital after a small letter, and with the last of several capitals before a small letter (`HTTPServer` is `http-server`); nothing but case and separators changes.", "quantifier": "all ASCII identifiers", "why_tests_cant": "All identifiers.", "anchors": ["derive/src/derive_args.rs: expand_args_parse (AsKebabCase, AsShoutySnekCase)", "derive/src/derive_subcommand.rs: expand_for_enum", "derive/src/common.rs: Rename"]}
{"id": "C52", "title": "The first mistake is reported", "statement": "When an error concerns a token (unknown option or subcommand, option given twice, extra word, value attached to a flag, invalid value, missing `=`, a request for help), the same error is reported whatever tokens follow that token.", "quantifier": "all accepted declarations with distinct subcommand names and readable defaults, all argument vectors, all continuations", "why_tests_cant": "All continuations of a command line.", "anchors": ["src/runtime.rs: run_parser, visit_named, visit_positional"]}
{"id": "C53", "title": "A source compiles exactly when it is written by the rules", "statement": "A struct, with the structs and enums it refers to, compiles if and only if every attribute is a list of known items, each with a value of the kind the item takes, no item that may be written once is written twice (in one attribute or in several, under one name or a synonym), fields and types are of the right sort, and the resulting declaration obeys the rules for declarations. One unknown, ill-valued or repeated item anywhere is enough to be rejected.", "quantifier": "all sources: all lists of attributes and items, all nestings of structs, flattened structs, subcommand enums and variants", "why_tests_cant": "All combinations of attributes; the compile-fail tests show one example per message.", "anchors": ["derive/src/common.rs: ArgOrCommand::parse_attrs, ArgMeta::parse_update, CommandMeta::parse_update, CommandMeta::parse_attrs_opt, set_once, parse_true", "derive/src/derive_args.rs: try_expand_for_named_struct, expand_args_parse", "derive/src/derive_subcommand.rs: expand_for_enum"]}
{"id": "C54", "title": "A source means what its attributes say", "statement": "The declaration made from a compiling source is the one its attributes and types describe: each field is an argument, a flattened struct or the subcommand as its attribute says; its names, aliases, defaults, delimiter, flags, requirements and documentation are those written, with the documented default where an item has no value. A command answers to exactly the names that are written on its fields and on those flattened into it.", "quantifier": "all compiling sources", "why_tests_cant": "All combinations of attributes and nestings.", "anchors": ["derive/src/common.rs: ArgMeta::parse_update, CommandMeta::parse_update, Override, OneOrArray", "derive/src/derive_args.rs: expand_args_parse, FieldInfo", "src/lib.rs: Args, Parser, Subcommand"]}
{"id": "C55", "title": "The order and grouping of attributes do not matter", "statement": "Distributing the items of a field over any number of `#[arg(..)]` attributes, changing their order (keeping the relative order of aliases, requirements and conflicts), or replacing an item by a documented synonym (`alias`/`aliases`, `default_value_t`/`default_values_t`, ...) changes neither the outcome of compilation nor the resulting parser.", "quantifier": "all sources, all fields at any depth, all permutations", "why_tests_cant": "All permutations and groupings.", "anchors": ["derive/src/common.rs: ArgOrCommand::parse_attrs, ArgMeta::parse_update"]}
{"id": "C56", "title": "Which attributes have no effect", "statement": "`help`, `long_help` and `value_enum` on a field, and `name` and `version` on a struct, are accepted and leave the parser and its help as they are without them. (That a text given by `help` is shown is refuted.)", "quantifier": "all sources, all fields at any depth", "why_tests_cant": "All sources.", "anchors": ["derive/src/common.rs: ArgMeta::parse_update, CommandMeta", "derive/src/derive_args.rs: expand_args_parse"]}
{"id": "C57", "title": "The type as written decides the shape of an argument", "statement": "The shape of an argument (flag, required, optional, optional value, list, optional list) is determined by the letters of its type alone: `bool`, `Option<..>`, `Vec<..>`, `Option<Option<..>>`, `Option<Vec<..>>`, anything else. (That the same type written by another path or through an alias is the same argument is refuted.)", "quantifier": "all types", "why_tests_cant": "All type expressions.", "anchors": ["derive/src/common.rs: strip_ty_ctor, TY_OPTION, TY_BOOL, TY_VEC", "derive/src/derive_args.rs: classify"]}
{"id": "C58", "title": "A value enum accepts exactly its written names", "statement": "`derive(ValueEnum)` compiles exactly when the attributes are in order, every variant is a unit variant, and the names (those given by `value(name)`, else the identifiers in the convention of `rename_all`) are distinct and free of control characters; then a string is parsed to a variant if and only if it is the name of that variant.", "quantifier": "all enums, all strings", "why_tests_cant": "All enums and all strings.", "anchors": ["derive/src/derive_value_enum.rs: expand_for_enum, ValueEnumImpl", "derive/src/common.rs: ValueEnumMeta, ValueVariantMeta, Rename"]}
{"id": "C59", "title": "Attributes of a subcommand enum", "statement": "Attributes written on the enum of a `derive(Subcommand)` itself are never looked at, wherever the enum is used, not even whether they exist. (Refuted: that they are checked; that the documented `after_long_about` exists; that a tuple variant with two fields is always reported as such.)", "quantifier": "all sources, all subcommand enums at any depth, all attributes", "why_tests_cant": "All attributes in all places.", "anchors": ["derive/src/derive_subcommand.rs: expand, expand_for_enum", "src/lib.rs: Args, Parser, Subcommand"]}
{"id": "C60", "title": "`parse` continues, or prints the error and exits with status 1", "statement": "`Parser::parse` gives a value exactly when nothing is wrong with the command line; otherwise it writes the error and a newline on standard error and exits with status 1. A request for help goes the same way: the page on standard error, status 1. (That help is a success is refuted.)", "quantifier": "all accepted declarations with distinct subcommand names and readable defaults, all argument vectors", "why_tests_cant": "All inputs, and tests do not run the exiting entry point.", "anchors": ["src/lib.rs: Parser::parse", "src/error.rs: Display for Error"]}
{"id": "C61", "title": "The attributes of a flattened struct are ignored", "statement": "Two declarations that differ only in the attributes and doc comments of structs that are flattened are accepted or rejected alike, and give the same parser: the same values, the same errors, and the same help pages.", "quantifier": "all declarations, all flattened structs at any depth, all argument vectors", "why_tests_cant": "All declarations and attributes, compared over all inputs.", "anchors": ["src/lib.rs: Args", "derive/src/derive_args.rs: try_expand_for_named_struct", "derive/src/derive_subcommand.rs: expand_for_enum"]}
{"id": "C62", "title": "Documentation affects nothing but help pages", "statement": "Changing doc comments, about and after-help texts and `hide` anywhere in a declaration changes no value and no error: every command line gives the same result, save the text of a help page where one was asked for. Changing value names as well affects, besides help pages, only how an error calls the argument it is about.", "quantifier": "all accepted declarations with distinct subcommand names that differ in wording only, all argument vectors", "why_tests_cant": "All declarations and all inputs.", "anchors": ["derive/src/common.rs: Doc, ArgMeta", "src/refl.rs: RawArgsInfo, get_description", "src/help.rs: render_help_into"]}
{"id": "C63", "title": "A tuple variant is like a struct variant with the same fields", "statement": "Replacing `Variant(Struct)` in a subcommand enum by a variant that has the fields and the attributes of that struct itself, anywhere in a declaration, leaves the parser as it is: the same values, errors and help pages on every command line.", "quantifier": "all accepted declarations with distinct subcommand names, all argument vectors", "why_tests_cant": "All declarations and all inputs.", "anchors": ["derive/src/derive_subcommand.rs: expand_for_enum", "src/lib.rs: Subcommand"]}
{"id": "C64", "title": "Without the feature `help`, asking for help is an error and nothing else changes", "statement": "Built with `default-features = false`, the parser gives the same result on every command line that does not ask for help; where help would be given, `-h` or `--help` is reported as an unknown argument; no error carries a help page.", "quantifier": "all declarations, all argument vectors", "why_tests_cant": "All inputs, in two configurations; the test suite runs in one.", "anchors": ["Cargo.toml: default, help", "src/runtime.rs: visit_named, CommandFrame", "src/error.rs: maybe_render_help"]}
{"id": "C65", "title": "The order of declaration does not matter, but among positionals", "statement": "Changing the order of fields in a struct, and of variants in a subcommand enum, anywhere in a declaration, while the positionals keep their order and so do the flattened structs, leaves an accepted declaration accepted and gives the same values for every command line. Errors are the same too, except that of several missing arguments or violated constraints another may be reported.", "quantifier": "all accepted declarations with distinct subcommand names and readable defaults, all reorderings at any depth, all argument vectors", "why_tests_cant": "All permutations of all declarations, compared over all inputs.", "anchors": ["derive/src/derive_args.rs: expand_args_parse", "derive/src/derive_subcommand.rs: expand_for_enum", "src/lib.rs: Args, Subcommand", "src/runtime.rs: visit_named"]}
{"id": "C66", "title": "A subcommand is parsed like a program of its own", "statement": "What follows the name of a subcommand is parsed exactly as a program with the struct of that variant as its declaration would parse it: it succeeds with the value that program gives, or fails with the same error, or prints the same help page with only the program's name in the usage line replaced (`prog sub` instead of `sub`), whenever the command around it has no `global` arguments. What the tokens before the name give does not depend on what follows.", "quantifier": "all valid declarations without global arguments, all variants, all tokens before and after the name", "why_tests_cant": "All continuations, in two programs at once.", "anchors": ["derive/src/derive_subcommand.rs: expand_for_enum", "src/runtime.rs: StructParserFlavor::run_parser, visit_named", "src/lib.rs: Subcommand"]}
{"id": "C67", "title": "Additions break no command line", "statement": "Adding to a declaration, anywhere in it (in the command, in flattened structs, in subcommands), options that need not be given, positionals that need not be given behind those there are, flattened structs of such options, subcommands, or an optional subcommand where there was none, breaks nothing, if the names of options are new, defaults can be read and no new positional is `last`: a command line that was accepted and in which no argument is the name of a new subcommand is accepted, every field that was there has the value it had, and the same subcommand is entered. (Refuted for command lines with the name of a new subcommand: a word that was the value of a positional becomes the subcommand.)", "quantifier": "all pairs of valid declarations of which the second extends the first at any depth, all argument vectors", "why_tests_cant": "All pairs of declarations over all inputs; compatibility between releases of a program.", "anchors": ["derive/src/derive_args.rs: expand_args_parse", "src/runtime.rs: StructParserFlavor::run_parser, visit_named", "src/lib.rs: Args, Parser, Subcommand"]}
{"id": "C68", "title": "Flattening is writing the fields in place", "statement": "Replacing every flattened struct by its fields, at any depth and in subcommands too, changes no result but the grouping of the values: the same command lines are accepted, with the same values and the same subcommands, and the same errors are reported, except that of several things that are missing or conflict another one may be named, and help pages may list options in another order. This holds when both declarations compile, no flattened option is exclusive (an exclusive option excludes only what is in its own struct) and defaults can be read.", "quantifier": "all valid declarations whose spread form is valid, all argument vectors", "why_tests_cant": "All pairs of declarations over all inputs; flattening is composed from nested closures and a chain of frames.", "anchors": ["derive/src/derive_args.rs: expand_args_parse, ArgsParse, ValidateFinish", "src/runtime.rs: Frame::search_named, ArgsFrame, visit_named", "src/lib.rs: Args, Parser"]}
{"id": "C69", "title": "Subcommands that are not named make no difference", "statement": "Let two versions of a program differ only in which subcommands they have, at the top or inside other subcommands. For a command line of which no argument equals the name of a subcommand that only one of them has, both return the same: the same values, or an error of the same kind about the same argument and input; only the text of a help page may differ. So all subcommands that no argument names could be left out of the declaration, and what is left compiles.", "quantifier": "all pairs of valid declarations that agree after dropping subcommands with names outside a set, all argument vectors whose arguments are in the set", "why_tests_cant": "All pairs of declarations at any nesting depth over all inputs; tests compare a program with itself.", "anchors": ["derive/src/derive_subcommand.rs: expand_for_enum", "src/runtime.rs: Subcommand, SubcommandPlace, CommandFrame", "derive/src/derive_args.rs: expand_args_parse"]}
{"id": "C70", "title": "Asking for less breaks no command line", "statement": "If, anywhere in a declaration, required arguments become optional or get a readable default, `T` becomes `Option<T>`, or either becomes `Vec<T>` or `Option<Vec<T>>`, options get further names that are new in the declaration, options become `global` that share no name with one that is, `require_equals`, `required`, `requires`, `conflicts_with` or `exclusive` are dropped, `allow_hyphen_values` or `allow_negative_numbers` are added, and subcommands become optional, then every command line that was accepted is still accepted, the same subcommands are entered, and every field has the value it had, in its new type.", "quantifier": "all pairs of valid declarations of which the second asks for less at any depth, all argument vectors", "why_tests_cant": "All pairs of declarations over all inputs; a test checks one change on a few command lines.", "anchors": ["src/runtime.rs: ArgsFrame, SetValuePlace, VecPlace", "derive/src/derive_args.rs: expand_args_parse, ValidateFinish"]}
{"id": "C71", "title": "Spelling out a default makes no difference", "statement": "If an option that a successful command line leaves out is added to it, at any place where an option may stand and in any spelling, with a value that means what its field has anyway (in particular the text of its `default_value`), the result is the same; unless a `requires`, `conflicts_with` or `exclusive` rule is broken by its presence, which is then the error. If no such rule concerns it the result is the same.", "quantifier": "all valid declarations, all accepted command lines, all options left out, all places and spellings", "why_tests_cant": "All declarations and positions; whether presence is told apart from the default value is invisible in a single test.", "anchors": ["src/runtime.rs: ArgsFrame, SetValuePlace, VecPlace", "derive/src/derive_args.rs: expand_args_parse, ValidateFinish"]}
{"id": "C72", "title": "The default on the help page is the default", "statement": "Below the description of every argument that has a default, the help page shows it: the text of `default_value`, the literal of `default_value_t`, the name of the variant if the type derives `ValueEnum`, otherwise what `Display` prints; an argument without a default has no such line. The shown name of the default variant can be passed to the option, with `ignore_case` too: a command line that leaves the option out and one that passes the name give the same result (unless its presence breaks a `requires`, `conflicts_with` or `exclusive` rule). The same goes for any text that the type reads as the default.", "quantifier": "all valid declarations, all listed arguments, all accepted command lines, all places and spellings", "why_tests_cant": "All types and declarations; what is shown and what is parsed come from different tables generated at compile time.", "anchors": ["src/values.rs: InferDisplayDefaultValue, ValueEnum", "derive/src/derive_args.rs: DefaultValue, expand_args_parse", "src/help.rs: render_help_into"]}
{"id": "C73", "title": "Names of fields matter only where names are made from them", "statement": "Giving fields other names, in any of the structs of a declaration, while their arguments keep the names they have on the command line and on the help page (a `long`, `short` or value name that was made from the name of the field is written out, `requires` and `conflicts_with` follow), leaves a valid declaration valid, and every command line is parsed as before: to the same value but for the names of the fields, to the same error, to the same help page.", "quantifier": "all valid declarations, all one-to-one renamings of the fields of each struct at any depth, all argument vectors", "why_tests_cant": "All declarations in two versions over all inputs; that no generated name captures another is a statement about all programs.", "anchors": ["derive/src/derive_args.rs: expand_args_parse", "src/lib.rs: Args, Parser", "derive/src/derive_subcommand.rs: expand_for_enum"]}
{"id": "C74", "title": "Following the usage line is enough", "statement": "A command line that gives just what the usage line of each entered command shows outside brackets (`--name <VALUE>`, `--name=<VALUE>`, `<VALUE>`, `<VALUE>...`, `-- <VALUE>...`, `<COMMAND>`), with readable values in the places of `<VALUE>`, is accepted, and every field has the value given for it, or its default. A command line that leaves out one of these is not accepted. This is for declarations whose required arguments are not hidden and have no `requires`, `conflicts_with` or `exclusive`, and whose optional positionals come after the required ones (refuted otherwise: `[A] <B>` compiles, the usage line shows `<B>` only, and one word is taken for A). (Refuted for the usage line of a subcommand by itself: it does not show what the commands around it require.)", "quantifier": "all valid declarations with readable defaults, all command lines made from the usage lines", "why_tests_cant": "All declarations; the page and the parser are generated separately.", "anchors": ["src/help.rs: render_help_into", "derive/src/derive_args.rs: expand_args_parse, ValidateFinish", "src/runtime.rs: StructParserFlavor::run_parser"]}
{"id": "C75", "title": "What counts is which arguments are given and what their values mean", "statement": "Two command lines that enter the same subcommands and give the same arguments, and in which each argument given has the same value, have the same result, success or error, whatever the program name, the order, the spelling, and the number of tokens. A command line that can be read contains an error by itself exactly if some argument given has no value for its texts, and it succeeds exactly if in addition what is required is given and no constraint is violated.", "quantifier": "all valid declarations, all pairs of command lines that can be read", "why_tests_cant": "All pairs of inputs; the parser works token by token with fields updated in place.", "anchors": ["src/runtime.rs: StructParserFlavor::run_parser, SetValuePlace, VecPlace, visit_named", "derive/src/derive_args.rs: expand_args_parse, ValidateFinish"]}
{"id": "C76", "title": "No command line puts control characters into an error message", "statement": "The message of a parse error, other than a help page, is one line without ASCII control characters (no newline, no escape), whatever the arguments contain, followed for a value enum by one line with the possible values; input is shown quoted and escaped. The only exception is the text of the error that the value's own type returned, which is shown as it is. `Debug` of an error never has control characters. (Refuted for help pages: the name the program was called by is shown as it is.)", "quantifier": "all valid declarations, all argument vectors, all errors", "why_tests_cant": "All byte strings as input; terminal injection is what one looks for with inputs nobody thought of.", "anchors": ["src/error.rs: Error, Display::fmt, Debug::fmt", "src/values.rs: ValueParser", "src/help.rs: render_help_into"]}
{"id": "C77", "title": "What only the extended program accepts uses something new", "statement": "Let one declaration extend another by arguments and subcommands that need not be given (as in C67). If the extended program accepts a command line in which no new argument is given and no argument is the name of a new subcommand, then the program without the additions accepts it too, every field that is in both has the same value and the same subcommands are entered. So an error of the old program goes away only by using an addition.", "quantifier": "all pairs of valid declarations of which the second extends the first at any depth, all argument vectors", "why_tests_cant": "All pairs of declarations over all inputs; together with C67 this says that unused additions cannot be observed.", "anchors": ["derive/src/derive_args.rs: expand_args_parse", "src/runtime.rs: StructParserFlavor::run_parser, visit_named", "src/lib.rs: Args, Parser, Subcommand"]}
{"id": "C78", "title": "`--` before words changes nothing", "statement": "Where an option may stand, `--` can be inserted before the words that end a command line without changing the result, success or error, if none of these words is the name of a subcommand there and the command has no `last` argument; at the very end it can be added or left out in any case. (Refuted with a `last` argument: words after `--` are its values.)", "quantifier": "all valid declarations, all command lines that end in words", "why_tests_cant": "All declarations and all words; scripts put `--` before file names without knowing the program.", "anchors": ["src/runtime.rs: StructParserFlavor::run_parser, visit_positional"]}
{"id": "C79", "title": "A command line cut short lacks something, nothing else", "statement": "If a command line is accepted, each of its beginnings is accepted too or fails only because something is missing: the value of the last option, a required argument, an argument that another one requires, or the subcommand. In other words any other error (unknown option, conflict, exclusive, bad value, given twice, ...) is final: no continuation of the line is accepted.", "quantifier": "all valid declarations, all accepted command lines, all their beginnings", "why_tests_cant": "All inputs and all prefixes; typing a line token by token, or completing it, relies on it.", "anchors": ["src/runtime.rs: StructParserFlavor::run_parser", "derive/src/derive_args.rs: ValidateFinish", "src/error.rs: ErrorKind"]}
{"id": "C80", "title": "Leaving out an option affects its own field only", "statement": "If one occurrence of an option is left out of an accepted command line, either the line is still accepted, with the same subcommands and the same value in every other field (the field of a single-valued option gets its default), or it fails and the error says that this very option is required (by itself or by another argument).", "quantifier": "all valid declarations with readable defaults, all accepted command lines, all option occurrences in all spellings, all positions", "why_tests_cant": "All declarations and lines; a test drops one option from one line.", "anchors": ["src/runtime.rs: StructParserFlavor::run_parser, SetValuePlace, VecPlace", "derive/src/derive_args.rs: expand_args_parse, ValidateFinish"]}
{"id": "C81", "title": "Another value for an option or a word affects its own field only", "statement": "If one option occurrence on an accepted command line is given another value (in any spelling), or a word is replaced by another word, then either every part of the new value can be read, the line is accepted, the subcommands and every other field are unchanged, and in its own field only that one value changes (the earlier and later values of a multi-valued argument stay in place); or some part cannot be read, and the error is an invalid-value error with that part and with the name of the option (no name for a word).", "quantifier": "all valid declarations with readable defaults, all accepted command lines, all option occurrences in all spellings and all words taken by an ordinary positional (before `--`, neither old nor new word the name of a subcommand), all values", "why_tests_cant": "All declarations, lines and values; a test tries one value after another in one line.", "anchors": ["src/runtime.rs: StructParserFlavor::run_parser, SetValuePlace, VecPlace", "derive/src/derive_args.rs: expand_args_parse, ValidateFinish", "src/error.rs: Error, ErrorKind"]}
{"id": "C82", "title": "Values can be given together or one by one", "statement": "For an argument with a value delimiter, giving two values separately (two occurrences next to each other, in any spelling, or two words) and giving them at once with the delimiter between them have the same outcome, errors included. (False if the delimiter is an ASCII capital letter and case is ignored: the value is made lower case before it is cut.)", "quantifier": "all valid declarations, all contexts, all values and delimiters, all continuations", "why_tests_cant": "An equation between the outcomes of two families of command lines, over all declarations, values and continuations.", "anchors": ["src/runtime.rs: VecDelimitedPlace, visit_named (MAKE_LOWERCASE)", "derive/src/derive_args.rs: FieldInfo::initializer"]}
