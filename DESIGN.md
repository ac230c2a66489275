# A formal model of palc, and what is proved about it

The target is the command line parser `palc` in `/repo` (library `src/`, macros
`derive/src/`).  The model is in `rocq/theories/`, Coq 8.16.1, standard library
only.

## Layers

| Files | Content |
|---|---|
| `Bytes`, `Utf8`, `Heck` | byte strings, UTF-8, case conversion: the operations of std / os_str_bytes / heck that the code calls |
| `Attrs`, `Refl`, `Error`, `Values`, `Places`, `Help`, `Runtime` | the library, function by function (`src/*.rs`) |
| `Decl` | a user's declarations: structs, flattened structs, subcommand enums, attributes, types |
| `Derive`, `Generated`, `EnumDerive` | the macros: errors they emit, tables they build, the code they generate, and the entry points |
| `Source` | the front of the macros: attributes, items and types as written, and the declaration they give or the errors |
| `Main` | `Parser::parse`: continue, or print and exit |
| `NoHelp` | the parser built without the feature `help`: the functions that differ |
| `Kit`, `Samples`, `Tests`, `TestsPrograms`, `SourceSamples`, `SourceTests`, `UiTests` | builders and declarations for examples; the repository's own tests replayed on the model |
| `Spec` | the independent specification: what a command line means for a declaration |
| `Observe`, `Outcome`, `Grammar`, `Plain` | vocabulary on top of it: positions in a command line, spellings, fields of a result; what the parser makes of occurrences; the grammar of command lines; plain lines |
| `WellFormed`, `Select`, `Parts`, `Blame`, `Page` | vocabulary: rules for declarations; which argument a name stands for; bytes, characters, splitting, doc comments; what can be wrong with a command line; the help page |
| `Wording`, `Order`, `Compose`, `Extend`, `Relax`, `Spread`, `Unsaid`, `Preset`, `Rename`, `Usage`, `Meaning` | vocabulary: declarations that differ in wording only; in order only; a subcommand as a program; a declaration with more arguments and subcommands, with fewer subcommands; one that asks for less; an argument that goes with all others; default values; the fields of flattened structs in place; other field names; command lines made from usage lines; the values an argument is given on a command line |
| `Described`, `Entry` | vocabulary: the description of an argument in an error; its entry on the help page |
| `Written` | vocabulary: what the attributes of a source say, which sources are well written, positions in a source |
| `*Facts`, `Refine`, other `Source*` | lemmas |
| `Props*` | the property theorems only, each closed by `exact`, with `Print Assumptions`, and examples |

A panic of the Rust code is an explicit outcome (`Panic site`), not a default.
Loops that Rust bounds by the iterator take fuel and report `Panic PFuel` when
it runs out; the theorems exclude it.

## Main idea of the proofs

`Spec.v` reads a command line token by token with a small state machine defined
on *declarations* only: no tables, no bit-packed attributes, no indexes, no
frame chain, no binary search, no continuation passing.  It yields a list of
occurrences (which argument of which command, with which value).  The value of
a field is a function of its own occurrences; constraints talk about which
arguments have an occurrence.

The refinement theorem (`Refine.v`) says that for every declaration the macros
accept and every argument vector, the model of the generated code gives the
outcome of the specification, errors included.  Most other properties are
consequences; the properties of single components (name search, bit packing,
UTF-8, value enums, help text, doc comments, error text) are proved directly.

`accepted d` says that the model of the macros emits no error for `d`; it is
proved equivalent to the rules in `WellFormed.v` (C44).  `valid d` adds that the
subcommand names of each command are distinct, which the macros do not check
(`derive/src/derive_subcommand.rs:123`); for declarations that are accepted but
not valid the refinement theorem holds with the choice the code makes
(`refines_code_choice`).

`Spec.v` is itself not small, so the properties are stated where possible in
relations that do not mention its reader: `Grammar.accounts` (which tokens are
which occurrences), `Blame.blame` (all there is to complain about),
`Page.page` (what is on a help page), `WellFormed.well_formed`,
`Select.chosen`; each is proved to agree with it.  Where a property says how
the reader takes some tokens (`reads`, `at_option`), it also says what the
parser then returns for them (`Outcome.shows`, `Outcome.holds`).

## Per property

| Id | Modelled by | How |
|---|---|---|
| C01 | whole model; every panic site explicit | refinement; the specification has no panic but a bad string default.  Without that hypothesis: refuted by a `bool` with `default_value` |
| C02 | whole model | refinement theorem |
| C03 | `try_parse_from`, `file_name` | specification does not look at argv[0] except for help |
| C04 | `positional_loop`, `jump_to_last` | state machine: mode "after `--`" |
| C05–C08, C50 | `visit_long`, `visit_bundle`, `visit_named` | equal occurrences and equal machine state after either spelling |
| C09, C10, C11 | places | values of a field as a function of its occurrences; delimiter by a join/split theorem |
| C12–C15 | `visit_positional` | machine state holds the positionals still to fill |
| C16, C40 | `match_subcommand`, `sub_search` | machine; distinctness of names is refuted (FIXME in the code) |
| C17, C18 | `search_named` | `resolve` of the specification equals the chain search; preference order |
| C19–C23 | `validate_finish` | specification of constraints by "has an occurrence" |
| C24–C26 | `named_value`, `accept_next` | machine |
| C27–C29 | `ve_expand`, `ve_parse`, `vp_parse` | direct |
| C30, C41, C48 | whole model | occurrences carry the bytes; explicit construction of a command line |
| C31 | `run_loop` | grammar of command lines |
| C32, C33, C34 | `get_named`, `bsearch_*`, `named_map`, `Attrs` | direct: sorted table and binary search, bit arithmetic |
| C35, C52 | `get_description`, error paths | refinement, then inversion of the reader |
| C36, C37, C38 | `Help`, `args_help` | refinement for when; direct for content; the entries by a description of their own (`Entry`); C37 refuted when the user declares `--help` |
| C39, C42, C49 | whole model | occurrences of different arguments are independent |
| C43 | `as_bundle` | machine |
| C44 | `compile_args` | inversion of acceptance, both directions |
| C53, C54 | `elab_struct`: accumulating reader of items with `set_once` | tables of items with kinds and slots; the reader succeeds iff the items obey the table, and its result is read off the list of items |
| C55, C56, C59 | same | congruence: equal parts in any surrounding source give equal declarations |
| C57, C58 | `ty_of`, `elab_value_enum` | direct; C27 for the parser of the enum |
| C60 | `Main.parse` | C49, C35, C38 |
| C61–C63 | whole model | simulation on the specification: a rewording of the declaration acts on outcomes only through the texts |
| C64 | `NoHelp` | both parsers in lockstep, by induction on the generated code |
| C65 | whole model | simulation on the specification: names are unique within a struct, so the order of options does not show |
| C66 | whole model | the stack below the entered command is not looked at without globals; its finish depends on its own occurrences only; the page depends on the innermost command and the names |
| C67 | whole model | simulation on the specification, for successful reads; the new names are not looked up, the new addresses have no occurrence |
| C68 | whole model | simulation on the specification by a map of addresses that is injective on the commands entered; what is wrong at the end is decided per argument |
| C69 | whole model | simulation on the specification by dropping the variants; the commands entered are the same, dropped ones are found by no token |
| C70 | whole model | simulation on the specification, for successful reads; the same addresses with related arguments; a positional that now takes several values is the last one, so no word was left for it; an option that becomes global has no name a global option has, so a name that reached outside reaches the same option |
| C71 | whole model | one occurrence more, with the value of its absence: more arguments are given, the fields are the same; induction over finishing |
| C72 | `infer_display`, `args_help` | the entry of the page; the table of the enum read in both directions; then as C71 |
| C73 | `try_parse_from` | a map of addresses determined by the entered commands, followed through the specification; well-formedness is preserved |
| C74 | `render_help_into`, `try_parse_from` | the tokens of `follows` are derived in the grammar; then no occurrence is bad and all constraints are satisfied |
| C75 | `run_parser`, `SetValuePlace`, `VecPlace`, `ValidateFinish` | the value of a field depends on the texts given for it only; errors of single occurrences are determined by the texts; then constraints depend on which arguments are given |
| C76 | `Display::fmt`, `Debug::fmt` | the parts of every error in `blame` are descriptions of legal arguments, quoted input, or texts of value types |
| C77 | `run_parser`, `visit_named`, `ValidateFinish` | the two readers in step; where only the second goes on, the occurrence or the awaited option is an added one; the first declaration checks less |
| C78 | `positional_loop`, `jump_to_last` | the states before and after `--` take words alike when nothing is `last` |
| C79 | `run_parser`, `ValidateFinish` | errors about tokens persist (C52); conflicts and exclusive arguments remain with more occurrences and commands |
| C80 | `run_parser`, `ValidateFinish` | the reader is in the same state after the option; fewer occurrences give no new error but a missing argument, and the only one missing is this |
| C81 | `run_parser`, `SetValuePlace`, `VecPlace` | the reader is in the same state after either value; the same arguments are given, so only reading the new value can fail |
| C82 | `visit_named`, `VecDelimitedPlace` | the occurrences differ in one place; the pieces are the same; refuted for capital delimiters with `ignore_case` |
| C45, C46, C47, C51 | `error_display`, `doc_process`, `utf8_prefix`, `to_string_lossy`, `Heck` | direct; C47 and C51 against relations (`lossily`, `spelled`) that determine the result |

## Trusted base

* The kernel of Coq 8.16.1 (with its virtual machine: some examples and a few
  finite lemmas are checked with `vm_compute`; `coqchk` re-checks all files
  without it).
* No axioms: every `Print Assumptions` in `Props*.v` answers "Closed under the
  global context".  (`coqchk` and `vcheck` list seven axioms
  `Coq.ssr.ssrunder.Under_rel.*`; they belong to a module type of the standard
  library that is loaded, and no theorem uses them.)
* That the model is the code.  Each definition of the model cites the lines it
  models and states its simplifications.  `Tests.v` replays the repository's
  own tests (`tests/{parse,smoke,help,value_enum}.rs`) on it, and `UiTests.v` the
  programs that must not compile (`tests/ui/*.rs`); `TestsPrograms.v` has the
  programs of `test-suite/src/bin`, which the model must (and does) accept.  Nothing was compiled or run.
* That the vocabulary files say what they should.  The statements of the
  theorems use `Spec`, `Observe`, `Grammar`, `Plain`, `WellFormed`, `Select`,
  `Parts`, `CaseNames`, `Blame`, `Page`, and of the model only the entry points
  (`try_parse_from`, `render_long_help`, `error_display`, ...), the types of
  declarations, values and errors, and for properties of single components these
  components.
* `Heck.v` follows the published crate `heck` 0.5 for ASCII identifiers, written
  from memory as its source is not in `/repo`.  Likewise `Utf8.v`
  (`String::from_utf8_lossy`, `utf8_chunks`), `Path::file_name` and the `Debug`
  output of strings follow std as remembered; its source is not in `/repo`.  In
  `Debug`, which characters beyond ASCII are escaped, and whether an apostrophe is
  (some versions of std do so for `OsStr`), is a parameter of the theorems.

## Modelled

* `src/lib.rs`: `try_parse_from`, `render_long_help`, `parse` (its effect: value, or text on stderr and exit status).
* `src/runtime.rs`, `src/refl.rs`, `src/values.rs`, `src/error.rs`,
  `src/help.rs`, `src/shared.rs`, `src/util.rs`: all functions on the path of a
  parse, with errors, help and display.
* `derive/src/derive_args.rs`, `derive_subcommand.rs`, `derive_parser.rs`,
  `derive_value_enum.rs`, `common.rs`: from attributes, items and types as written
  to the generated code: attribute grammar, checks, tables, bit-packed attributes, help strings, the state struct and
  its `finish`.

## Not modelled

* The real process environment.
* Non-Unix `OsStr`.
* Infinite or non-fused iterators: the argument vector is a finite list.
* Below the items of an attribute: tokens, spans, error texts of the macros,
  hygiene.  An expression in an attribute is its form (literal, path, array, ...)
  together with its value.  Non-ASCII Rust identifiers.
* The user's own conversion functions: arbitrary total functions.
* Memory, performance, `extern "C"`/nounwind.

## Findings

Proved as `_refuted` theorems or visible in the statements:

* `-b=value` for an `Option<Option<T>>` is an error `-=`, while `--bar=value`
  works (C50).
* `default_value` on a `bool` compiles and panics on every parse; so does any
  string default that does not parse, if the argument is absent (C01).
* Two variants whose names agree after conversion to kebab-case are accepted,
  and one of them cannot be reached (C40).
* `render_long_help` panics if the struct has an option named `--help` (C37).
* A doc comment with a blank first line gives help text with a leading newline
  (C46).

* `arg(help)`, `arg(long_help)`, `arg(value_enum)` and `name`, `version` on a
  struct are accepted and have no effect (C56).
* `std::option::Option<T>` is not recognised as optional; an alias of `bool`
  takes a value (C57).
* Attributes on a subcommand enum are never looked at; the documented
  `after_long_about` does not exist (the code has `after_long_help`); a tuple
  variant with two fields, or a variant with too many, beside another variant
  makes the macro panic (`derive_subcommand.rs:121`) (C59).
* With `ignore_case`, a `value_delimiter` that is a capital letter never splits:
  the value is made lower case first (C82).
* `Parser::parse` prints requested help on stderr and exits with status 1 (C60).

Seen while modelling:

* The documentation promises a compile error for equal subcommand names; there
  is none (C40).  Attributes on the field of a tuple variant are not looked at.

* An invalid value of an `ignore_case` argument is reported in lower case.
  Value errors of positionals do not say which argument it was.
* `exclusive` in a flattened struct does not exclude the arguments of the struct
  around it (the macro rejects `exclusive` only beside a `flatten` field).
* `trailing_var_arg` is accepted on an argument that is no `Vec`; a second value
  is then a duplicate.
* A `bool` positional can be declared but never set; a `bool` with
  `require_equals` cannot be bundled.
* `src/help.rs:70`: `out.len() == pos` never holds as the padding was written
  after `pos`; commands without documentation get trailing spaces.  The padding
  is capped at 24 spaces.
* Optional single positionals are not mentioned in the usage line.
* Continuation lines of doc comments are not indented in the help.
* Aliases without a `long`/`short` are ignored.
* The raw identifier `r#type` becomes `--r-type`.
* The usage line strips the short name only if it is one byte long.
* The variant `__` is a subcommand with the empty name.

## Testing the theorems

`seeded/LOG.jsonl` lists wrong programs: edits to the model as a programmer might
make them by mistake, each built in a scratch copy.  How to read it:

* `lemmas_failed` is what was observed: the proofs that no longer go through.  Each
  is admitted in the scratch copy so that the next ones are tried.
* `theorems_failed` is derived: the property theorems that depend on one of these
  lemmas, by the references in the sources of that copy.  Theorems added to the
  development after the run are not listed.
* A proof that fails does not show that its claim is false.  An edit to the code
  breaks the refinement theorem, and with it nearly all theorems about parsing,
  whatever they say.  This shows that the bug is noticed, not which claim excludes it.
* So some bugs are put in the specification (`how`), as if the code had the same
  bug.  There the lemmas on the way to the refinement theorem are not counted, except
  four about the specification only (`has_nameb_spec`, `first_bad_app`, `addr_eqb_eq`,
  `finish_args_eq`).
  Where the claim named in an entry did not fail, the theorem was tightened, or the
  entry says why the program behaves the same.
* Entries with `theorems_tightened` were tried before the theorems were tightened.
  The second attempt is an entry of its own.
* Three claims were tightened because they used the definition that had the bug: C42
  (`addr_eqb`), C74 (`help_text`: no theorem said what is on the printed usage line)
  and C35 (`describe`: no theorem said what a description is).
* The claim an entry names was sometimes wrong at first (the bug does not break that
  property) and was corrected after the run: `J_enum_ci`, `J_utf8`, `K_names_*` and
  `K_sub_after_sep` of the scripts are now about C29, C30, C66, C04 and C16.
