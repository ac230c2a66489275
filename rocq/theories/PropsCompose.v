(** C66: a subcommand as a program of its own. *)
From Verif Require Import Bytes Utf8 Error Values Places Heck Decl Spec Derive Generated Observe Compose Kit Samples.
From Verif Require Import ComposeFacts.
Local Open Scope string_scope.
Local Open Scope list_scope.

(** C66: what follows the name of a subcommand is parsed as by a program that
    has the struct of the variant as its declaration, with the same errors, and
    the same pages of help but for the program's name in them; what the command around it
    makes of the tokens before does not depend on what follows. *)
Theorem C66_standalone {V : Type} (d : args_decl V) pre os rem v :
  valid d -> no_globals d -> at_option d pre os [Scope d [] false] rem -> no_error_in os -> has_variant d v ->
  valid (command_of v) /\ exists outer, forall argv0 argv0' rest,
    as_subcommand argv0' argv0 v outer (try_parse_from (command_of v) (argv0' :: rest))
      (try_parse_from d (argv0 :: pre ++ sub_name v :: rest)).
Proof. exact (subcommand_alone d pre os rem v). Qed.
Print Assumptions C66_standalone.

Example C66_example :
  valid tool /\ no_globals tool /\
  arrives tool (argv ["in"; "--key"; "k"]) (fun os stk _ => stk = [Scope tool [] false] /\ no_error_in os) /\
  let v := (bs "StopIt", VDStruct (struct [arg "now" (long m0) TBool])) in
  has_variant tool v /\ sub_name v = bs "stop-it" /\
  try_parse_from (command_of v) (argv ["stop-it"; "--now"]) = Ok (Out [fB "now" true] [] None) /\
  succeeds tool (argv ["tool"; "in"; "--key"; "k"; "stop-it"; "--now"]) (fun o =>
    match o with Out _ _ s => s = Some (bs "cmd", Some (SubV (bs "StopIt") (Some (Out [fB "now" true] [] None)))) end).
Proof.
  split; [exact tool_valid|]. split; [unfold no_globals; apply (proj1 (Forall_forall _ (reach tool))); vm_compute; repeat constructor|].
  split; [vm_compute; split; reflexivity|]. cbn zeta. split; [do 3 eexists; split; [reflexivity|right; left; reflexivity]|].
  split; [vm_compute; reflexivity|]. split; vm_compute; reflexivity.
Qed.

(** Asked for help: the page says [tool stop-it] for the program's name. *)
Example C66_help :
  let v := (bs "StopIt", VDStruct (struct [arg "now" (long m0) TBool])) in
  match try_parse_from (command_of v) (argv ["/bin/halt"; "--help"]), try_parse_from tool (argv ["tool"; "in"; "--key"; "k"; "stop-it"; "--help"]) with
  | Err e, Err e' => page_renamed (bs "halt") (bs "tool stop-it") e e'
  | _, _ => False
  end.
Proof.
  vm_compute try_parse_from. exists [], (bs " [OPTIONS]" ++ [c_nl; c_nl] ++ bs "Options:" ++ [c_nl] ++ bs "      --now" ++ [c_nl; c_nl]).
  split; vm_compute; reflexivity.
Qed.

(** A [global] argument is known to the subcommand, and not to the program. *)
Example C66_globals :
  valid app_ /\ has_variant app_ (bs "ListAll", VDUnit no_attrs) /\
  match try_parse_from (command_of (V:=tv) (bs "ListAll", VDUnit no_attrs)) (argv ["list-all"; "-v"]),
        try_parse_from app_ (argv ["app"; "list-all"; "-v"]) with
  | Err e, Ok _ => e_kind e = UnknownNamedArgument
  | _, _ => False
  end.
Proof.
  split; [exact app_valid|]. split; [do 3 eexists; split; [reflexivity|right; left; reflexivity]|]. vm_compute. reflexivity.
Qed.
