(** The programs of the repository's test-suite (test-suite/src/bin/common/simple.rs,
    criterion.rs and deno.rs), declared in the model word for word, with the
    assertions made of them in test-suite/src/bin/*-palc.rs:12-33.  Like Tests,
    checks of the model's fidelity, not of any property: these programs are known
    to compile, so the model has to accept them.

    Floating-point values are represented by the text they are read from, as
    Kit has no such type; Rust prints [3.0] as [3]. *)
From Verif Require Import Bytes Utf8 Attrs Refl Error Values Places Help Runtime Heck Decl Derive
  Generated Spec Observe Kit.
Local Open Scope string_scope.
Local Open Scope list_scope.

Local Notation "d |= l ==> o" := (parse_ok d (argv l) = Some o) (at level 70, l at level 69).
Local Notation "d |= l =!> m" := (parse_msg d (argv l) = Some (bs m)) (at level 70, l at level 69).
Local Ltac t := vm_compute; reflexivity.

(** ** common/simple.rs:7-14 *)

Definition simple_Cli : args_decl tv := MkArgsDecl
  (mkCmdAttrs [bs " My great app."] false None None)
  [arg "verbose" (short (long (doc [bs " Print more text."] m0))) TBool;
   arg "file" (doc [bs " The file to process."] m0) TPath].

(** ** common/criterion.rs:12-154 *)

Definition criterion_Color : value_ty tv := enum_ty (map (fun i => kebab_case (bs i)) ["Auto"; "Always"; "Never"]).
Definition criterion_Format : value_ty tv := enum_ty (map (fun i => kebab_case (bs i)) ["Pretty"; "Terse"]).
Definition criterion_PlottingBackend : value_ty tv := enum_ty (map (fun i => kebab_case (bs i)) ["Gnuplot"; "Plotters"]).
Definition criterion_OutputFormat : value_ty tv := enum_ty (map (fun i => kebab_case (bs i)) ["Criterion"; "Test"]).
Definition criterion_Cli : args_decl tv := MkArgsDecl
  (mkCmdAttrs [] true None (Some (bs "
This executable is a Criterion.rs benchmark.
See https://github.com/bheisler/criterion.rs for more details.

To enable debug output, define the environment variable CRITERION_DEBUG.
Criterion.rs will output more debug information and will save the gnuplot
scripts alongside the generated plots.

To test that the benchmarks work, run `cargo test --benches`

NOTE: If you see an 'unrecognized option' error using any of the options above, see:
https://bheisler.github.io/criterion.rs/book/faq.html
")))
  [arg "filter" (doc [bs " Skip benchmarks whose names do not contain FILTER."] m0) (TyVec TString);
   arg "color" (default_value_t (aliases [bs "colour"] [] (long (short (doc [bs " Configure coloring of output. always = always colorize output, never = never colorize"; bs " output, auto = colorize output if output is a tty and compiled for unix."] m0))))) (TyOther criterion_Color);
   arg "verbose" (long (short (doc [bs " Print additional statistical information."] m0))) TBool;
   arg "quiet" (constraints false false [] ["verbose"] (long (short (doc [bs " Print only the benchmark results."] m0)))) TBool;
   arg "noplot" (long (short (doc [bs " Disable plut and HTML generation."] m0))) TBool;
   arg "save_baseline" (default_value "base" (long (short (doc [bs " Save results under a named baseline."] m0)))) TString;
   arg "discard_baseline" (constraints false false [] ["save_baseline"; "baseline"; "baseline_lenient"] (long (doc [bs " Discard benchmark results."] m0))) TBool;
   arg "baseline" (constraints false false [] ["save_baseline"; "baseline_lenient"] (long (short (doc [bs " Compare to a named baseline. If any benchmarks do not have the specified baseline this"; bs " command fails."] m0)))) (TyOption TString);
   arg "baseline_lenient" (constraints false false [] ["save_baseline"; "baseline"] (long m0)) (TyOption TString);
   arg "list" (constraints false false [] ["test"; "profile_time"] (long (doc [bs " List all benchmarks"] m0))) TBool;
   arg "format" (default_value_t (long (doc [bs " Output formatting"] m0))) (TyOther criterion_Format);
   arg "ignored" (long (doc [bs " List or run ignored benchmarks (currently means skip all benchmarks)"] m0)) TBool;
   arg "exact" (long (doc [bs " Run benchmarks that exactly match the provided filter"] m0)) TBool;
   arg "profile_time" (constraints false false [] ["test"; "list"] (long (doc [bs " Iterate each benchmark for approximately the given number of seconds, doing no analysis and"; bs " without storing the results. Useful for running the benchmarks in a profiler."] m0))) (TyOption TString);
   arg "load_baseline" (constraints false false ["baseline"] ["profile_time"] (long (doc [bs " Load a previous baseline instead of sampling new data."] m0))) (TyOption TString);
   arg "sample_size" (default_lit (DVal (TInt 100)) "100" (long (doc [bs " Changes the default size of the sample for this run."] m0))) TI;
   arg "warm_up_time" (default_lit (DVal (TStr (bs "3"))) "3" (long (doc [bs " Changes the default warm up time for this run."] m0))) TString;
   arg "measurement_time" (default_lit (DVal (TStr (bs "5"))) "5" (long (doc [bs " Changes the default measurement time for this run."] m0))) TString;
   arg "nresamples" (default_expr (DVal (TInt 100000)) (long (doc [bs " Changes the default number of resamples for this run."] m0))) TI;
   arg "noise_threshld" (default_lit (DVal (TStr (bs "0.01"))) "0.01" (long (doc [bs " Changes the default noise threshold for this run."] m0))) TString;
   arg "confidence_level" (default_lit (DVal (TStr (bs "0.95"))) "0.95" (long (doc [bs " Changes the default confidence level for this run."] m0))) TString;
   arg "significance_level" (default_lit (DVal (TStr (bs "0.05"))) "0.05" (long (doc [bs " Changes the default significance level for this run."] m0))) TString;
   arg "quick" (constraints false false [] ["sample_size"] (long (doc [bs " Benchmark only until the significance level has been reached"] m0))) TBool;
   arg "test" (constraints false false [] ["list"; "profile_time"] (hide (long (doc [bs " Run the benchmarks once, to verify that they execute successfully, but do not measure or"; bs " report the results."] m0)))) TBool;
   arg "bench" (hide (long m0)) (TyOption TString);
   arg "plotting_backend" (long (doc [bs " Set the plotting backend. By default, Criterion.rs will use the gnuplot backend if gnuplot"; bs " is available, or the plotters backend if it isn't."] m0)) (TyOption (TyOther criterion_PlottingBackend));
   arg "output_format" (default_value_t (long (doc [bs " Change the CLI output format. By default, Criterion.rs will use its own format. If output"; bs " format is set to 'bencher', Criterion.rs will print output in a format that resembles the"; bs " 'bencher' crate."] m0))) (TyOther criterion_OutputFormat);
   arg "nocapture" (hide (long (doc [bs " Ignored, but added for compatibility with libtest."] m0))) TBool;
   arg "show_output" (hide (long (doc [bs " Ignored, but added for compatibility with libtest."] m0))) TBool;
   arg "include_ignored" (hide (long (doc [bs " Ignored, but added for compatibility with libtest."] m0))) TBool;
   arg "version" (hide (short_b "V"%byte (long m0))) TBool].

(** ** common/deno.rs:9-698 *)

Definition deno_WatchArg : args_decl tv := MkArgsDecl
  (mkCmdAttrs [] false None None)
  [arg "watch" (long (doc [bs " Watch for file changes and restart process automatically"] m0)) TBool].
Definition deno_ImportMapArg : args_decl tv := MkArgsDecl
  (mkCmdAttrs [] false None None)
  [arg "import_map" (value_name (bs "FILE") (aliases [bs "importmap"] [] (long (doc [bs " UNSTABLE: Load import map file"] m0)))) (TyOption TString)].
Definition deno_ReloadArg : args_decl tv := MkArgsDecl
  (mkCmdAttrs [] false None None)
  [arg "reload" (behave true false false false false (value_name (bs "CACHE_BLOCKLIST") (delimiter ","%byte (short (long (doc [bs " Reload source code cache (recompile TypeScript)"; bs ""; bs " --reload"; bs "   Reload everything"; bs " --reload=https://deno.land/std"; bs "   Reload only standard modules"; bs " --reload=https://deno.land/std/fs/utils.ts,https://deno.land/std/fmt/colors.ts"; bs "   Reloads specific modules"] m0)))))) (TyOption (TyVec TString))].
Definition deno_CAFileArg : args_decl tv := MkArgsDecl
  (mkCmdAttrs [] false None None)
  [arg "cert" (value_name (bs "FILE") (long (doc [bs " Load certificate authority from PEM encoded file"] m0))) (TyOption TString)].
Definition deno_CompilationArgs : args_decl tv := MkArgsDecl
  (mkCmdAttrs [] false None None)
  [arg "no_remote" (long (doc [bs " Do not resolve remote modules"] m0)) TBool;
   arg "config" (value_name (bs "FILE") (short (long (doc [bs " Load tsconfig.json configuration file"] m0)))) (TyOption TString);
   arg "no_check" (long (doc [bs " Skip type checking modules"] m0)) TBool;
   arg "lock" (value_name (bs "FILE") (long (doc [bs " Check the specified lock file"] m0))) (TyOption TPath);
   arg "lock_write" (constraints false false ["lock"] [] (long (doc [bs " Write lock file (use with --lock)"] m0))) TBool;
   (bs "import_map", FFlatten deno_ImportMapArg);
   (bs "reload", FFlatten deno_ReloadArg);
   (bs "ca_file", FFlatten deno_CAFileArg)].
Definition deno_BundleSubcommand : args_decl tv := MkArgsDecl
  (mkCmdAttrs [bs " Bundle module and dependencies into single file"] true (Some (bs "Output a single JavaScript file with all dependencies.
  deno bundle https://deno.land/std/examples/colors.ts colors.bundle.js

If no output file is given, the output is written to standard output:
  deno bundle https://deno.land/std/examples/colors.ts")) None)
  [arg "source_file" m0 TString;
   arg "out_file" m0 (TyOption TPath);
   (bs "watch", FFlatten deno_WatchArg);
   (bs "compilation", FFlatten deno_CompilationArgs)].
Definition deno_CacheSubcommand : args_decl tv := MkArgsDecl
  (mkCmdAttrs [bs " Cache the dependencies"] true (Some (bs "Cache and compile remote dependencies recursively.

Download and compile a module with all of its static dependencies and save them
in the local cache, without running any code:
  deno cache https://deno.land/std/http/file_server.ts

Future runs of this module will trigger no downloads or compilation unless
--reload is specified.")) None)
  [arg "file" (constraints true false [] [] m0) (TyVec TString);
   (bs "compilation", FFlatten deno_CompilationArgs)].
Definition deno_CompileSubcommand : args_decl tv := MkArgsDecl
  (mkCmdAttrs [bs " Compiles the given script into a self contained executable."; bs ""; bs "   deno compile --unstable https://deno.land/std/http/file_server.ts"; bs "   deno compile --unstable --output /usr/local/bin/color_util https://deno.land/std/examples/colors.ts"; bs " The executable name is inferred by default:"; bs "   - Attempt to take the file stem of the URL path. The above example would"; bs "     become 'file_server'."; bs "   - If the file stem is something generic like 'main', 'mod', 'index' or 'cli',"; bs "     and the path has no parent, take the file name of the parent path. Otherwise"; bs "     settle with the generic name."; bs "   - If the resulting name has an '@...' suffix, strip it."; bs ""; bs " Cross compiling binaries for different platforms is not currently possible."] false None None)
  [arg "source_file" m0 TString;
   arg "output" (short (long (doc [bs " Output file (defaults to $PWD/<inferred-name>)"] m0))) (TyOption TPath);
   (bs "compilation", FFlatten deno_CompilationArgs)].
Definition deno_Shell : value_ty tv := enum_ty (map (fun i => kebab_case (bs i)) ["Bash"; "Fish"; "Powershell"; "Zsh"]).
Definition deno_CompletionsSubcommand : args_decl tv := MkArgsDecl
  (mkCmdAttrs [bs " Generate shell completions"] true (Some (bs "Output shell completion script to standard output.
  deno completions bash > /usr/local/etc/bash_completion.d/deno.bash
  source /usr/local/etc/bash_completion.d/deno.bash")) None)
  [arg "shell" m0 (TyOther deno_Shell)].
Definition deno_DocSubcommand : args_decl tv := MkArgsDecl
  (mkCmdAttrs [bs " Show documentation for a module."; bs ""; bs " Output documentation to standard output:"; bs "     deno doc ./path/to/module.ts"; bs ""; bs " Output private documentation to standard output:"; bs "     deno doc --private ./path/to/module.ts"; bs ""; bs " Output documentation in JSON format:"; bs "     deno doc --json ./path/to/module.ts"; bs ""; bs " Target a specific symbol:"; bs "     deno doc ./path/to/module.ts MyClass.someField"; bs ""; bs " Show documentation for runtime built-ins:"; bs "     deno doc"; bs "     deno doc --builtin Deno.Listener"] false None None)
  [arg "json" (long (doc [bs " Output documentation in JSON format"] m0)) TBool;
   arg "private" (long (doc [bs " Output private documentation"] m0)) TBool;
   arg "source_file" m0 (TyOption TString);
   arg "filter" (constraints false false [] ["json"] (doc [bs " Dot separated path to symbol"] m0)) (TyOption TString);
   (bs "import_map", FFlatten deno_ImportMapArg);
   (bs "reload", FFlatten deno_ReloadArg)].
Definition deno_RuntimeArgs : args_decl tv := MkArgsDecl
  (mkCmdAttrs [] false None None)
  [arg "inspect" (behave true false false false false (value_name (bs "HOST:PORT") (long (doc [bs " activate inspector on host:port (default: 127.0.0.1:9229)"] m0)))) (TyOption (TyOption TString));
   arg "inspect_brk" (behave true false false false false (value_name (bs "HOST:PORT") (long (doc [bs " activate inspector on host:port and break at start of user script"] m0)))) (TyOption (TyOption TString));
   arg "cached_only" (long (doc [bs " Require that remote dependencies are already cached"] m0)) TBool;
   arg "v8_flags" (behave true false false false false (delimiter ","%byte (long (doc [bs " Set V8 command line options (for help: --v8-flags=--help)"] m0)))) (TyVec TString);
   arg "seed" (value_name (bs "NUMBER") (long (doc [bs " Seed Math.random()"] m0))) (TyOption TI);
   (bs "compilation", FFlatten deno_CompilationArgs)].
Definition deno_EvalSubcommand : args_decl tv := MkArgsDecl
  (mkCmdAttrs [bs " Eval script"] true (Some (bs "Evaluate JavaScript from the command line.
  deno eval ""console.log('hello world')""

To evaluate as TypeScript:
  deno eval -T ""const v: string = 'hello'; console.log(v)""

This command has implicit access to all permissions (--allow-all).")) None)
  [arg "ts" (short_b "T"%byte (long (doc [bs " Treat eval input as TypeScript"] m0))) TBool;
   arg "print" (short (long (doc [bs " print result to stdout"] m0))) TBool;
   arg "code_arg" (constraints true false [] [] (value_name (bs "CODE_ARG") (doc [bs " Code arg"] m0))) (TyVec TString);
   (bs "runtime", FFlatten deno_RuntimeArgs)].
Definition deno_FmtSubcommand : args_decl tv := MkArgsDecl
  (mkCmdAttrs [bs " Format source files"] true (Some (bs "Auto-format JavaScript/TypeScript source code.
  deno fmt
  deno fmt myfile1.ts myfile2.ts
  deno fmt --check

Format stdin and write to stdout:
  cat file.ts | deno fmt -

Ignore formatting code by preceding it with an ignore comment:
  // deno-fmt-ignore

Ignore formatting a file by adding an ignore comment at the top of the file:
  // deno-fmt-ignore-file")) None)
  [arg "check" (long (doc [bs " Check if the source files are formatted"] m0)) TBool;
   arg "ignore" (behave true false false false false (delimiter ","%byte (long (doc [bs " Ignore formatting particular source files. Use with --unstable"] m0)))) (TyVec TPath);
   arg "files" m0 (TyVec TPath);
   (bs "watch", FFlatten deno_WatchArg)].
Definition deno_InfoSubcommand : args_decl tv := MkArgsDecl
  (mkCmdAttrs [bs " Show info about cache or info related to source file"] true (Some (bs "Information about a module or the cache directories.

Get information about a module:
  deno info https://deno.land/std/http/file_server.ts

The following information is shown:

local: Local path of the file.
type: JavaScript, TypeScript, or JSON.
compiled: Local path of compiled source code. (TypeScript only.)
map: Local path of source map. (TypeScript only.)
deps: Dependency tree of the source file.

Without any additional arguments, 'deno info' shows:

DENO_DIR: Directory containing Deno-managed files.
Remote modules cache: Subdirectory containing downloaded remote modules.
TypeScript compiler cache: Subdirectory containing TS compiler output.")) None)
  [arg "file" m0 (TyOption TString);
   arg "no_check" (hide (long (doc [bs " Skip type checking modules"] m0))) TBool;
   arg "json" (long (doc [bs " Outputs the information in JSON format"] m0)) TBool;
   (bs "import_map", FFlatten deno_ImportMapArg);
   (bs "ca_file", FFlatten deno_CAFileArg);
   arg "reload" (constraints false false ["file"] [] (behave true false false false false (value_name (bs "CACHE_BLOCKLIST") (delimiter ","%byte (short (long (doc [bs " Reload source code cache (recompile TypeScript)"; bs ""; bs " --reload"; bs "   Reload everything"; bs " --reload=https://deno.land/std"; bs "   Reload only standard modules"; bs " --reload=https://deno.land/std/fs/utils.ts,https://deno.land/std/fmt/colors.ts"; bs "   Reloads specific modules"] m0))))))) (TyOption (TyVec TString))].
Definition deno_PermissionArgs : args_decl tv := MkArgsDecl
  (mkCmdAttrs [] false None None)
  [arg "allow_read" (behave true false false false false (delimiter ","%byte (long (doc [bs " Allow file system read access"] m0)))) (TyOption (TyVec TPath));
   arg "allow_write" (behave true false false false false (delimiter ","%byte (long (doc [bs " Allow file system write access"] m0)))) (TyOption (TyVec TPath));
   arg "allow_net" (behave true false false false false (delimiter ","%byte (long (doc [bs " Allow network access"] m0)))) (TyOption (TyVec TString));
   arg "allow_env" (long (doc [bs " Allow environment access"] m0)) TBool;
   arg "allow_run" (long (doc [bs " Allow running subprocesses"] m0)) TBool;
   arg "allow_plugin" (long (doc [bs " Allow loading plugins"] m0)) TBool;
   arg "allow_hrtime" (long (doc [bs " Allow high resolution time measurement"] m0)) TBool;
   arg "allow_all" (short_b "A"%byte (long (doc [bs " Allow all permissions"] m0))) TBool].
Definition deno_InstallSubcommand : args_decl tv := MkArgsDecl
  (mkCmdAttrs [bs " Install script as an executable"] true (Some (bs "Installs a script as an executable in the installation root's bin directory.
  deno install --allow-net --allow-read https://deno.land/std/http/file_server.ts
  deno install https://deno.land/std/examples/colors.ts

To change the executable name, use -n/--name:
  deno install --allow-net --allow-read -n serve https://deno.land/std/http/file_server.ts

The executable name is inferred by default:
  - Attempt to take the file stem of the URL path. The above example would
    become 'file_server'.
  - If the file stem is something generic like 'main', 'mod', 'index' or 'cli',
    and the path has no parent, take the file name of the parent path. Otherwise
    settle with the generic name.
  - If the resulting name has an '@...' suffix, strip it.

To change the installation root, use --root:
  deno install --allow-net --allow-read --root /usr/local https://deno.land/std/http/file_server.ts

The installation root is determined, in order of precedence:
  - --root option
  - DENO_INSTALL_ROOT environment variable
  - $HOME/.deno

These must be added to the path manually if required.")) None)
  [arg "cmd" (constraints true false [] [] (trailing m0)) (TyVec TString);
   arg "name" (short (long (doc [bs " Executable file name"] m0))) (TyOption TString);
   arg "root" (long (doc [bs " Installation root"] m0)) (TyOption TPath);
   arg "force" (short (long (doc [bs " Forcefully overwrite existing installation"] m0))) TBool;
   (bs "runtime", FFlatten deno_RuntimeArgs);
   (bs "permissions", FFlatten deno_PermissionArgs)].
Definition deno_LintSubcommand : args_decl tv := MkArgsDecl
  (mkCmdAttrs [bs " Lint source files"] true (Some (bs "Lint JavaScript/TypeScript source code.
  deno lint --unstable
  deno lint --unstable myfile1.ts myfile2.js

Print result as JSON:
  deno lint --unstable --json

Read from stdin:
  cat file.ts | deno lint --unstable -
  cat file.ts | deno lint --unstable --json -

List available rules:
  deno lint --unstable --rules

Ignore diagnostics on the next line by preceding it with an ignore comment and
rule name:
  // deno-lint-ignore no-explicit-any

  // deno-lint-ignore require-await no-empty

Names of rules to ignore must be specified after ignore comment.

Ignore linting a file by adding an ignore comment at the top of the file:
  // deno-lint-ignore-file
")) None)
  [arg "rules" (long (doc [bs " List available rules"] m0)) TBool;
   arg "ignore" (behave true false false false false (delimiter ","%byte (long (doc [bs " Ignore linting particular source files"] m0)))) (TyVec TPath);
   arg "json" (long (doc [bs " Output lint result in JSON format"] m0)) TBool;
   arg "files" m0 (TyVec TPath)].
Definition deno_ReplSubcommand : args_decl tv := MkArgsDecl
  (mkCmdAttrs [bs " Read Eval Print Loop"] false None None)
  [(bs "runtime", FFlatten deno_RuntimeArgs)].
Definition deno_RunSubcommand : args_decl tv := MkArgsDecl
  (mkCmdAttrs [bs " Run a program given a filename or url to the module. Use '-' as a filename to read from stdin."] true (Some (bs "Run a program given a filename or url to the module.

By default all programs are run in sandbox without access to disk, network or
ability to spawn subprocesses.
  deno run https://deno.land/std/examples/welcome.ts

Grant all permissions:
  deno run -A https://deno.land/std/http/file_server.ts

Grant permission to read from disk and listen to network:
  deno run --allow-read --allow-net https://deno.land/std/http/file_server.ts

Grant permission to read allow-listed files from disk:
  deno run --allow-read=/etc https://deno.land/std/http/file_server.ts

Deno allows specifying the filename '-' to read the file from stdin.
  curl https://deno.land/std/examples/welcome.ts | target/debug/deno run -")) None)
  [arg "script_arg" (constraints true false [] [] (value_name (bs "SCRIPT_ARG") (doc [bs " Script arg"] m0))) (TyVec TString);
   arg "watch" (long (doc [bs " Watch for file changes and restart process automatically"] m0)) TBool;
   (bs "runtime", FFlatten deno_RuntimeArgs);
   (bs "permissions", FFlatten deno_PermissionArgs)].
Definition deno_TestSubcommand : args_decl tv := MkArgsDecl
  (mkCmdAttrs [bs " Run tests"] true (Some (bs "Run tests using Deno's built-in test runner.

Evaluate the given modules, run all tests declared with 'Deno.test()' and
report results to standard output:
  deno test src/fetch_test.ts src/signal_test.ts

Directory arguments are expanded to all contained files matching the glob
{*_,*.,}test.{js,mjs,ts,jsx,tsx}:
  deno test src/")) None)
  [arg "no_run" (long (doc [bs " Cache test modules, but don't run tests"] m0)) TBool;
   arg "fail_fast" (aliases [bs "failfast"] [] (long (doc [bs " Stop on first error"] m0))) TBool;
   arg "allow_none" (long (doc [bs " Don't return error code if no test files are found"] m0)) TBool;
   arg "filter" (behave false false true false false (long (doc [bs " Run tests with this string or pattern in the test name"] m0))) (TyOption TString);
   arg "coverage" (long (doc [bs " Collect coverage information"] m0)) TBool;
   arg "files" (doc [bs " List of file names to run"] m0) (TyVec TString);
   (bs "runtime", FFlatten deno_RuntimeArgs);
   (bs "permissions", FFlatten deno_PermissionArgs)].
Definition deno_TypesSubcommand : args_decl tv := MkArgsDecl
  (mkCmdAttrs [bs " Print runtime TypeScript declarations."] true (Some (bs "Print runtime TypeScript declarations.
  deno types > lib.deno.d.ts

The declaration file could be saved and used for typing information.")) None)
  [].
Definition deno_UpgradeSubcommand : args_decl tv := MkArgsDecl
  (mkCmdAttrs [bs " Upgrade deno executable to given version"] true (Some (bs "Upgrade deno executable to the given version.
Defaults to latest.

The version is downloaded from
https://github.com/denoland/deno/releases
and is used to replace the current executable.

If you want to not replace the current Deno executable but instead download an
update to a different location, use the --output flag
  deno upgrade --output $HOME/my_deno")) None)
  [arg "version" (long (doc [bs " The version to upgrade to"] m0)) (TyOption TString);
   arg "output" (long (doc [bs " The path to output the updated version to"] m0)) (TyOption TPath);
   arg "dry_run" (long (doc [bs " Perform all checks without replacing old exe"] m0)) TBool;
   arg "force" (short (long (doc [bs " Replace current exe even if not out-of-date"] m0))) TBool;
   arg "canary" (long (doc [bs " Upgrade to canary builds"] m0)) TBool;
   (bs "ca_file", FFlatten deno_CAFileArg)].
Definition deno_SubcommandEnum : sub_decl tv := MkSubDecl
  [(bs "Bundle", VDNewtype no_attrs deno_BundleSubcommand);
   (bs "Cache", VDNewtype no_attrs deno_CacheSubcommand);
   (bs "Compile", VDNewtype no_attrs deno_CompileSubcommand);
   (bs "Completions", VDNewtype no_attrs deno_CompletionsSubcommand);
   (bs "Doc", VDNewtype no_attrs deno_DocSubcommand);
   (bs "Eval", VDNewtype no_attrs deno_EvalSubcommand);
   (bs "Fmt", VDNewtype no_attrs deno_FmtSubcommand);
   (bs "Info", VDNewtype no_attrs deno_InfoSubcommand);
   (bs "Install", VDNewtype no_attrs deno_InstallSubcommand);
   (bs "Lint", VDNewtype no_attrs deno_LintSubcommand);
   (bs "Repl", VDNewtype no_attrs deno_ReplSubcommand);
   (bs "Run", VDNewtype no_attrs deno_RunSubcommand);
   (bs "Test", VDNewtype no_attrs deno_TestSubcommand);
   (bs "Types", VDNewtype no_attrs deno_TypesSubcommand);
   (bs "Upgrade", VDNewtype no_attrs deno_UpgradeSubcommand)].
Definition deno_ENV_VARIABLES_HELP : bytes := bs "ENVIRONMENT VARIABLES:
    DENO_DIR             Set the cache directory
    DENO_INSTALL_ROOT    Set deno install's output directory
                         (defaults to $HOME/.deno/bin)
    DENO_CERT            Load certificate authority from PEM encoded file
    NO_COLOR             Set to disable color
    HTTP_PROXY           Proxy address for HTTP requests
                         (module downloads, fetch)
    HTTPS_PROXY          Proxy address for HTTPS requests
                         (module downloads, fetch)
    NO_PROXY             Comma-separated list of hosts which do not use a proxy
                         (module downloads, fetch)".
Definition deno_DENO_HELP : bytes := bs "A secure JavaScript and TypeScript runtime

Docs: https://deno.land/manual
Modules: https://deno.land/std/ https://deno.land/x/
Bugs: https://github.com/denoland/deno/issues

To start the REPL:
  deno

To execute a script:
  deno run https://deno.land/std/examples/welcome.ts

To evaluate code in the shell:
  deno eval ""console.log(30933 + 404)""
".
Definition deno_Opt : args_decl tv := MkArgsDecl
  (mkCmdAttrs [] true (Some deno_DENO_HELP) (Some deno_ENV_VARIABLES_HELP))
  [arg "unstable" (behave false true false false false (long (doc [bs " Enable unstable features and APIs"] m0))) TBool;
   arg "log_level" (behave false true false false false (short_b "L"%byte (long (doc [bs " Set log level"] m0)))) (TyOption TString);
   arg "quiet" (behave false true false false false (short (long (doc [bs " Suppress diagnostic output"; bs ""; bs " By default, subcommands print human-readable diagnostic messages to stderr."; bs " If the flag is set, restrict these messages to errors."] m0)))) TBool;
   (bs "subcommand", FSub true deno_SubcommandEnum)].

(** ** *-palc.rs: the assertions *)

Fixpoint contains (part whole : bytes) : bool :=
  starts_with part whole || match whole with [] => false | _ :: whole' => contains part whole' end.
Definition help_has (d : args_decl tv) (l : list string) (parts : list string) : bool :=
  match parse_help d (argv l) with
  | Some h => forallb (fun s => contains (bs s) h) parts
  | None => false
  end.

Example t_simple0 : accepts simple_Cli = true. Proof. t. Qed.
Example t_simple1 : help_has simple_Cli ["me"; "--help"] ["Usage: me [OPTIONS] <FILE>"] = true. Proof. t. Qed.
Example t_simple2 : simple_Cli |= ["me"; "-v"; "x"] ==> Out [fB "verbose" true; fS "file" "x"] [] None. Proof. t. Qed.

Example t_criterion0 : accepts criterion_Cli = true. Proof. t. Qed.
Example t_criterion1 : help_has criterion_Cli ["me"; "--help"]
  ["Usage: me [OPTIONS] [FILTER]..."; "-c, --color <COLOR>"; "Configure coloring of output.";
   "This executable is a Criterion.rs benchmark."] = true. Proof. t. Qed.
Example t_criterion2 : criterion_Cli |= ["me"; "-q"; "--verbose"] =!>
  "the argument '-q, --quiet' cannot be used with some other arguments". Proof. t. Qed.
Example t_criterion3 : criterion_Cli |= ["me"; "--load-baseline=x"] =!>
  "the argument '-b, --baseline <BASELINE>' is required because some dependency arguments are provided". Proof. t. Qed.

Example t_deno0 : accepts deno_Opt = true. Proof. t. Qed.
Example t_deno1 : distinct_subcommands deno_Opt = true. Proof. t. Qed.
Example t_deno2 : help_has deno_Opt ["me"; "--help"]
  ["A secure JavaScript and TypeScript runtime"; "Usage: me [OPTIONS] [COMMAND";
   "-L, --log-level <LOG_LEVEL>"] = true. Proof. t. Qed.
Example t_deno3 : help_has deno_Opt ["me"; "compile"; "--help"]
  ["Compiles the given script into a self contained executable."; "Usage: me compile [OPTIONS]"] = true. Proof. t. Qed.
(** test-suite/src/bin/deno-palc.rs:22 leaves this one as a to-do; it holds. *)
Example t_deno4 : help_has deno_Opt ["me"; "--help"] ["ENVIRONMENT VARIABLES:"] = true. Proof. t. Qed.
Example t_deno5 : valid deno_Opt. Proof. split; t. Qed.
Definition no_compilation : ident * outval tv :=
  (bs "compilation", Out [fB "no_remote" false; fO "config" None; fB "no_check" false; fO "lock" None; fB "lock_write" false]
     [(bs "import_map", Out [fO "import_map" None] [] None);
      (bs "reload", Out [(bs "reload", FvOptionVec None)] [] None);
      (bs "ca_file", Out [fO "cert" None] [] None)] None).
Example t_deno6 : deno_Opt |= ["deno"; "run"; "-A"; "--allow-read=/etc,/tmp"; "main.ts"; "-q"; "--inspect"] ==>
  Out [fB "unstable" false; fO "log_level" None; fB "quiet" true] []
    (Some (bs "subcommand", Some (SubV (bs "Run") (Some
       (Out [fB "watch" false; fV "script_arg" ["main.ts"]]
          [(bs "runtime", Out [(bs "inspect", FvOptionOption (Some None)); (bs "inspect_brk", FvOptionOption None);
              fB "cached_only" false; fV "v8_flags" []; fO "seed" None] [no_compilation] None);
           (bs "permissions", Out [(bs "allow_read", FvOptionVec (Some [TStr (bs "/etc"); TStr (bs "/tmp")]));
              (bs "allow_write", FvOptionVec None); (bs "allow_net", FvOptionVec None); fB "allow_env" false;
              fB "allow_run" false; fB "allow_plugin" false; fB "allow_hrtime" false; fB "allow_all" true] [] None)] None)))))
  . Proof. t. Qed.
Example t_deno7 : deno_Opt |= ["deno"; "info"; "-r=x"] =!>
  "the argument '[FILE]' is required because some dependency arguments are provided". Proof. t. Qed.
Example t_deno8 : deno_Opt |= ["deno"; "compile"; "--lock-write"; "a.ts"] =!>
  "the argument '--lock <FILE>' is required because some dependency arguments are provided". Proof. t. Qed.
Example t_deno9 : parse_msg deno_Opt (argv ["deno"; "completions"; "tcsh"]) =
  Some (bs "invalid value ""tcsh"" for '<unknown argument>'" ++ [c_nl] ++
        bs "  [possible values: bash, fish, powershell, zsh]"). Proof. t. Qed.
