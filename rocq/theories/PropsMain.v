(** C60: what a program does with its command line. *)
From Verif Require Import Bytes Utf8 Error Values Places Heck Decl Spec Derive Generated Observe Grammar Blame Page Main Kit Samples.
From Verif Require Import MainFacts.
Local Open Scope string_scope.
Local Open Scope list_scope.

(** C60: the program goes on exactly when nothing is wrong, ... *)
Theorem C60_continues {V : Type} (esc : escapes) (d : args_decl V) (argv0 : bytes) (toks : list bytes) :
  valid d -> defaults_readable d = true ->
  (exists o, parse esc d (argv0 :: toks) = Continues o) <->
  exists os stk, reads d toks os stk /\ no_error_in os /\ satisfied os stk.
Proof. exact (parse_continues esc d argv0 toks). Qed.
Print Assumptions C60_continues.

(** ... and otherwise writes to standard error something that is wrong, and exits
    with status 1. *)
Theorem C60_exits {V : Type} (esc : escapes) (d : args_decl V) (argv0 : bytes) (toks : list bytes) :
  valid d -> defaults_readable d = true ->
  ~ (exists os stk, reads d toks os stk /\ no_error_in os /\ satisfied os stk) ->
  exists e, blame argv0 d toks e /\ parse esc d (argv0 :: toks) = Exits 1 (error_display esc e ++ [c_nl]).
Proof. exact (parse_exits esc d argv0 toks). Qed.
Print Assumptions C60_exits.

(** If help is asked for, that is the help page. *)
Theorem C60_help {V : Type} (esc : escapes) (d : args_decl V) (argv0 : bytes) (pre : list bytes) (os : list (occ V)) (stk : list (scope V))
    (rem : list (sarg V)) (tok : bytes) (post : list bytes) :
  valid d -> at_option d pre os stk rem -> no_error_in os ->
  (tok = bs "--help" \/ exists v, tok = bs "--help=" ++ v) -> unknown stk (Long (bs "help")) ->
  exists t, page argv0 stk t /\ parse esc d (argv0 :: pre ++ tok :: post) = Exits 1 (t ++ [c_nl]).
Proof. exact (parse_help esc d argv0 pre os stk rem tok post). Qed.
Print Assumptions C60_help.

Theorem C60_help_short {V : Type} (esc : escapes) (d : args_decl V) (argv0 : bytes) (pre : list bytes) (os : list (occ V)) (stk : list (scope V))
    (rem : list (sarg V)) (cs : list N) (t : bytes) (post : list bytes) :
  valid d -> at_option d pre os stk rem -> Forall (plain_flag stk) cs -> unknown stk (Short (b2n "h")) ->
  exists os', read first_named (start d) (pre ++ map (fun c => spell (Short c)) cs) = (os ++ os', Go (Normal stk rem)) /\
  (no_error_in (os ++ os') ->
   exists u, page argv0 stk u /\
     parse esc d (argv0 :: pre ++ (bs "-" ++ encode_all cs ++ bs "h" ++ t) :: post) = Exits 1 (u ++ [c_nl])).
Proof. exact (parse_help_short esc d argv0 pre os stk rem cs t post). Qed.
Print Assumptions C60_help_short.

(** So asking for help is a failure of the program. *)
Theorem C60_help_status_refuted :
  exists (esc : escapes) (d : args_decl tv) (argv0 : bytes) (status : N) (text : bytes),
    valid d /\ ~ offers d (Long (bs "help")) /\ parse esc d [argv0; bs "--help"] = Exits status text /\ status <> 0%N.
Proof.
  exists any_escapes, (struct []), (bs "prog"), 1%N, (lines ["Usage: prog"; ""; ""]).
  split; [split; vm_compute; reflexivity|]. split; [intros (p & a & [] & _)|]. split; [vm_compute; reflexivity|discriminate].
Qed.
Print Assumptions C60_help_status_refuted.

Example C60_example :
  valid app_ /\ defaults_readable app_ = true /\
  match parse any_escapes app_ (argv ["prog"; "--dry-run"; "run"; "x"]) with Continues _ => True | _ => False end /\
  parse any_escapes app_ (argv ["prog"; "--offset=x"]) =
    Exits 1 (bs "invalid value ""x"" for '-o, --offset <OFFSET>': invalid digit found in string" ++ [c_nl]) /\
  parse any_escapes tool (argv ["tool"; "go"; "--help=x"]) = Exits 1 (lines ["Go on."; "At once."; ""; "Usage: tool go"; ""; ""]).
Proof. split; [exact app_valid|]. vm_compute. repeat split. Qed.
