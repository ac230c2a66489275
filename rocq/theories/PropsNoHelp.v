(** C64: the library without its feature "help". *)
From Verif Require Import Bytes Utf8 Error Values Places Heck Decl Spec Derive Generated Observe NoHelp Kit Samples.
From Verif Require Import NoHelpFacts.
Local Open Scope string_scope.
Local Open Scope list_scope.

(** C64: a command line that does not ask for help has the same result. *)
Theorem C64_same {V : Type} (d : args_decl V) (argv : list bytes) :
  (forall e, try_parse_from d argv = Err e -> e_kind e <> Help) ->
  try_parse_without_help d argv = try_parse_from d argv.
Proof. exact (same_without_help d argv). Qed.
Print Assumptions C64_same.

(** One that does is in error: [-h] or [--help] is an unknown argument. *)
Theorem C64_asked {V : Type} (d : args_decl V) (argv : list bytes) (e : error) :
  try_parse_from d argv = Err e -> e_kind e = Help ->
  exists i, In i [bs "-h"; bs "--help"] /\
    try_parse_without_help d argv = Err (with_input UnknownNamedArgument i).
Proof. exact (help_is_unknown d argv e). Qed.
Print Assumptions C64_asked.

(** There is never a help page. *)
Theorem C64_no_page {V : Type} (d : args_decl V) (argv : list bytes) (e : error) :
  try_parse_without_help d argv = Err e -> e_kind e <> Help /\ try_into_help e = None.
Proof. exact (no_help_at_all d argv e). Qed.
Print Assumptions C64_no_page.

Example C64_example :
  valid app_ /\
  match try_parse_from app_ (argv ["app"; "run"; "-h"]) with Err e => e_kind e = Help | _ => False end /\
  match try_parse_without_help app_ (argv ["app"; "run"; "-h"]) with
  | Err e => e_kind e = UnknownNamedArgument /\ e_input e = Some (bs "-h")
  | _ => False
  end /\
  match try_parse_from (own_help TBool) (argv ["app"; "--help"]), try_parse_without_help (own_help TBool) (argv ["app"; "--help"]) with
  | Ok o, Ok o' => o = o'
  | _, _ => False
  end.
Proof. split; [split; vm_compute; reflexivity|]. vm_compute. repeat split. Qed.
