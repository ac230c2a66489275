(** C37, C38: the help. *)
From Verif Require Import Bytes Utf8 Error Values Places Heck Decl Spec Derive Generated Observe Grammar Parts Blame Page Preset Described Entry Kit Samples.
From Verif Require Import PageFacts EntryFacts.
Local Open Scope string_scope.
Local Open Scope list_scope.

(** C37: [render_long_help] gives the page of the top-level command, unless that
    has an argument of its own named [--help]: then it panics. *)
Theorem C37_render {V : Type} (d : args_decl V) (argv0 : bytes) :
  valid d -> ~ offers d (Long (bs "help")) ->
  exists t, render_long_help d argv0 = Ok t /\ page argv0 [Scope d [] false] t.
Proof. exact (long_help_page d argv0). Qed.
Print Assumptions C37_render.

Theorem C37_own_help {V : Type} (d : args_decl V) (argv0 : bytes) :
  valid d -> offers d (Long (bs "help")) -> exists p, render_long_help d argv0 = Panic p.
Proof. exact (long_help_panics d argv0). Qed.
Print Assumptions C37_own_help.

Theorem C37_every_declaration_refuted :
  exists (d : args_decl tv) (argv0 : bytes), valid d /\ forall t, render_long_help d argv0 <> Ok t.
Proof. exists (own_help TBool), (bs "prog"). split; [split; vm_compute; reflexivity|]. vm_compute. intros t H. discriminate H. Qed.
Print Assumptions C37_every_declaration_refuted.

(** The text for [tool] in Samples.v. *)
Example C37_example :
  valid tool /\ Forall (fun pa => has_nameb (snd pa) (Long (bs "help")) = false) (reach tool) /\
  render_long_help tool (bs "/usr/bin//tool/.") = Ok (lines
   ["A tool."; ""; "Usage: tool --key <KEY> [OPTIONS] <INPUT> [-- [REST]...] [COMMAND]"; "";
    "Commands:"; "    go       Go on."; "    stop-it  "; "";
    "Arguments:"; "  <INPUT>"; "          What to read."; ""; "  [REST]..."; "";
    "Options:"; "  -c, --count <COUNT>"; "          How often to do it."; "Not too often."; "          [default: 1]"; "";
    "  -k, --key <KEY>"; ""; "  -q, --quiet"; "          Say less."; ""]) /\
  valid (own_help TBool) /\ render_long_help (own_help TBool) (bs "prog") = Panic PUnwrap /\
  valid (own_help TString) /\ render_long_help (own_help TString) (bs "prog") = Panic PUnwrap.
Proof. split; [exact tool_valid|]. show. vm_compute. repeat constructor. Qed.

(** C38: whenever a parse ends with help, it was asked for by a name that no
    argument in scope has, and the text is the page of the command entered last.
    [page] says what is on it: the entries of the arguments in the order of their
    declaration, the hidden ones left out. *)
Theorem C38_page {V : Type} (d : args_decl V) (argv0 : bytes) (toks : list bytes) (e : error) (t : bytes) :
  valid d -> try_parse_from d (argv0 :: toks) = Err e -> try_into_help e = Some t ->
  exists pre tok post os stk rem n rest, toks = pre ++ tok :: post /\ at_option d pre os stk rem /\
    mentions stk tok n rest /\ asks_help n /\ unknown stk n /\ page argv0 stk t.
Proof. exact (help_is_page d argv0 toks e t). Qed.
Print Assumptions C38_page.

(** A command has only one page. *)
Theorem C38_page_unique {V : Type} (argv0 : bytes) (stk : list (scope V)) (t u : bytes) :
  page argv0 stk t -> page argv0 stk u -> t = u.
Proof. exact (page_unique argv0 stk t u). Qed.
Print Assumptions C38_page_unique.

(** Every visible argument has its entry on the page. *)
Theorem C38_listed {V : Type} (argv0 : bytes) (s : scope V) (outer : list (scope V)) (t : bytes) (a : sarg V) :
  page argv0 (s :: outer) t -> listed (sc_decl s) a -> exists b e, t = b ++ entry a ++ e.
Proof. exact (page_lists argv0 s outer t a). Qed.
Print Assumptions C38_listed.

(** The entry of an argument: its indented description, its documentation and its
    default.  (Of each argument there is at most one.) *)
Theorem C38_entry {V : Type} (argv0 : bytes) (s : scope V) (outer : list (scope V)) (t : bytes) (a : sarg V) (l : bytes) :
  page argv0 (s :: outer) t -> listed (sc_decl s) a -> entry_of a l -> exists b e, t = b ++ l ++ e.
Proof. exact (entry_on_page argv0 s outer t a l). Qed.
Print Assumptions C38_entry.

Theorem C38_one_entry {V : Type} (a : sarg V) (l k : bytes) : entry_of a l -> entry_of a k -> l = k.
Proof. exact (entry_of_unique a l k). Qed.
Print Assumptions C38_one_entry.

(** The page begins with what the command is about, ... *)
Theorem C38_about {V : Type} (argv0 : bytes) (s : scope V) (outer : list (scope V)) (t x : bytes) :
  page argv0 (s :: outer) t -> told (attrs_of (sc_decl s)) x ->
  (x = [] -> exists e, t = bs "Usage: " ++ e) /\ (x <> [] -> exists e, t = x ++ nl ++ nl ++ bs "Usage: " ++ e).
Proof. exact (page_told argv0 s outer t x). Qed.
Print Assumptions C38_about.

(** ... ends with the text of [after_long_help], ... *)
Theorem C38_after {V : Type} (argv0 : bytes) (s : scope V) (outer : list (scope V)) (t x : bytes) :
  page argv0 (s :: outer) t -> ca_has_command (attrs_of (sc_decl s)) = true ->
  ca_after_long_help (attrs_of (sc_decl s)) = Some x -> exists b, t = b ++ x.
Proof. exact (page_after argv0 s outer t x). Qed.
Print Assumptions C38_after.

(** ... and has a line for every subcommand: its name and the first line of what it is
    about. *)
Theorem C38_command {V : Type} (argv0 : bytes) (s : scope V) (outer : list (scope V)) (t : bytes)
    (id : ident) (o : bool) (vs : list (ident * variant_decl V)) (v : ident * variant_decl V) (at_ : cmd_attrs) (x l : bytes) :
  page argv0 (s :: outer) t -> subcommand (sc_decl s) = Some (id, o, vs) -> In v vs ->
  sub_attrs (snd v) at_ -> told at_ x -> summary x l ->
  exists b k e, 2 <= k /\ t = b ++ bs "    " ++ sub_name v ++ repeat " "%byte k ++ l ++ nl ++ e.
Proof. exact (page_command argv0 s outer t id o vs v at_ x l). Qed.
Print Assumptions C38_command.

(** Hidden arguments make no difference: the page is that of the declaration
    without them. *)
Theorem C38_hidden {V : Type} (argv0 : bytes) (d : args_decl V) (id : ident) (u : bool) (outer : list (scope V)) (t : bytes) :
  page argv0 (Scope (without_hidden d) id u :: outer) t <-> page argv0 (Scope d id u :: outer) t.
Proof. exact (without_page argv0 d id u outer t). Qed.
Print Assumptions C38_hidden.

Theorem C38_render_hidden {V : Type} (d : args_decl V) (argv0 : bytes) :
  valid d -> valid (without_hidden d) -> ~ offers d (Long (bs "help")) ->
  render_long_help (without_hidden d) argv0 = render_long_help d argv0.
Proof. exact (without_long_help d argv0). Qed.
Print Assumptions C38_render_hidden.

Example C38_example :
  valid tool /\ valid (without_hidden tool) /\
  length (reach tool) = 8 /\ length (reach (without_hidden tool)) = 5 /\
  match try_parse_from tool (argv ["tool"; "-q"; "stop-it"; "--now"; "-h"; "--bad"]) with
  | Err e => try_into_help e = Some (lines
      ["Usage: tool stop-it [OPTIONS]"; ""; "Options:"; "      --now"; ""])
  | _ => False
  end /\
  match try_parse_from tool (argv ["tool"; "go"; "--help=x"]) with
  | Err e => try_into_help e = Some (lines ["Go on."; "At once."; ""; "Usage: tool go"; ""])
  | _ => False
  end.
Proof. split; [exact tool_valid|]. show. Qed.

(** The hypotheses: the page of [tool] lists [--count], whose entry has all the parts. *)
Example C38_entry_example :
  let count := Arg (bs "count") (doc [bs " How often"; bs " to do it."; bs ""; bs " Not too often."]
    (default_value "1" (short (long m0)))) TI in
  listed tool count /\
  entry_of count (lines ["  -c, --count <COUNT>"; "          How often to do it."; "Not too often."; "          [default: 1]"; ""]) /\
  told (attrs_of tool) (bs "A tool.") /\
  render_long_help tool (bs "tool") = Ok (bs "A tool." ++ nl ++ nl ++ lines
    ["Usage: tool --key <KEY> [OPTIONS] <INPUT> [-- [REST]...] [COMMAND]"; "";
     "Commands:"; "    go       Go on."; "    stop-it  "; "";
     "Arguments:"; "  <INPUT>"; "          What to read."; ""; "  [REST]..."; "";
     "Options:"; "  -c, --count <COUNT>"; "          How often to do it."; "Not too often."; "          [default: 1]"; "";
     "  -k, --key <KEY>"; ""; "  -q, --quiet"; "          Say less."; ""]) /\
  told (mkCmdAttrs [bs " Doc."] true (Some (bs "Long.")) (Some (bs "End."))) (bs "Long.") /\
  render_long_help (MkArgsDecl (mkCmdAttrs [bs " Doc."] true (Some (bs "Long.")) (Some (bs "End."))) [arg "now" (long m0) TBool]) (bs "x")
    = Ok (lines ["Long."; ""; "Usage: x [OPTIONS]"; ""; "Options:"; "      --now"; ""] ++ bs "End.").
Proof.
  intros count. split; [apply (listed_option _ _ [bs "count"]); [vm_compute; tauto|reflexivity|reflexivity]|].
  split.
  { refine (entry_of_intro _ (bs "  ") (bs "-c, --count <COUNT>") (lines ["          How often to do it."; "Not too often."]) (default_line (bs "1")) _ _ _ _).
    - apply (margin_short _ 99%N); reflexivity.
    - apply (described_option count [bs "-c"; bs "--count"] (bs " <COUNT>")); [reflexivity| |].
      + apply (own_both _ 99%N (bs "count")); reflexivity.
      + apply (value_next _ (bs "COUNT")); [reflexivity|reflexivity|]. apply placeholder_field. reflexivity.
    - apply documentation_some. discriminate.
    - apply preset_some. apply shows_text; reflexivity. }
  split; [apply told_doc; reflexivity|]. split; [vm_compute; reflexivity|].
  split; [apply told_given; reflexivity|]. vm_compute. reflexivity.
Qed.
