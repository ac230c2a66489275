(** C01-C03, C49: panics, the outcome, the program name, success. *)
From Verif Require Import Bytes Utf8 Error Values Places Heck Decl Spec Derive Generated Observe Kit Samples.
From Verif Require Import TableFacts Refine SafeFacts ResultFacts.
Local Open Scope string_scope.
Local Open Scope list_scope.

(** C01: no panic, whatever the tokens. *)
Theorem C01_no_panic {V : Type} (d : args_decl V) (argv : list bytes) (q : panic_site) :
  accepted d -> defaults_readable d = true -> try_parse_from d argv <> Panic q.
Proof. exact (no_panic d argv q). Qed.
Print Assumptions C01_no_panic.

Example C01_no_panic_example :
  accepted app_ /\ defaults_readable app_ = true /\
  try_parse_from app_ (argv ["prog"; "-vd-"; "--level=x"; "run"; "--"; "--"]) =
    Err (mkError UnknownNamedArgument None (Some (bs "--")) None [] None).
Proof. split; [|split]; vm_compute; reflexivity. Qed.

(** The only panic there is: a [default_value] its own type rejects. *)
Theorem C01_only_defaults_panic {V : Type} (d : args_decl V) (argv : list bytes) (q : panic_site) :
  accepted d -> try_parse_from d argv = Panic q -> q = PDefault /\ defaults_readable d = false.
Proof. exact (only_default_panics d argv q). Qed.
Print Assumptions C01_only_defaults_panic.

Example C01_only_defaults_panic_example :
  let d := struct [arg "level" (long (default_value "high" m0)) TI] in
  accepted d /\ try_parse_from d (argv ["prog"]) = Panic PDefault.
Proof. split; vm_compute; reflexivity. Qed.

(** Without the restriction on defaults, parsing can panic. *)
Theorem C01_any_default_refuted :
  exists (d : args_decl tv) (argv : list bytes) (q : panic_site), accepted d /\ try_parse_from d argv = Panic q.
Proof.
  exists (struct [arg "level" (long (default_value "high" m0)) TI]), (argv ["prog"]), PDefault.
  split; vm_compute; reflexivity.
Qed.
Print Assumptions C01_any_default_refuted.

(** C02: the generated parser computes the specified outcome. *)
Theorem C02_refines {V : Type} (d : args_decl V) (argv : list bytes) :
  valid d -> try_parse_from d argv = spec_parse d argv.
Proof. exact (refines d argv). Qed.
Print Assumptions C02_refines.

(** Also when subcommand names coincide: some choice is made among the variants
    of the name, the same in all declarations and positions. *)
Theorem C02_refines_any_names {V : Type} :
  exists choose : list (ident * variant_decl V) -> bytes -> option (ident * variant_decl V),
    (forall vs tok v, choose vs tok = Some v -> In v vs /\ sub_name v = tok) /\
    (forall vs tok, choose vs tok = None -> forall v, In v vs -> sub_name v <> tok) /\
    forall d argv, accepted d -> try_parse_from d argv = spec_parse_with choose d argv.
Proof. exact refines_some_choice. Qed.
Print Assumptions C02_refines_any_names.

Example C02_refines_example :
  valid app_ /\
  exists o, spec_parse app_ (argv ["prog"; "-vn"; "me"; "run"; "-j=4"; "all"; "w"; "-x"]) = Ok o /\
    entered o = [bs "Run"] /\
    field_at (Addr 0 [bs "verbose"]) o = Some (FvBool true) /\
    field_at (Addr 0 [bs "name"]) o = Some (FvOption (Some (TStr (bs "me")))) /\
    field_at (Addr 1 [bs "jobs"]) o = Some (FvOption (Some (TInt 4))) /\
    field_at (Addr 1 [bs "args"]) o = Some (FvVec [TStr (bs "w"); TStr (bs "-x")]).
Proof. split; [exact app_valid|]. show. Qed.

(** C03: the program name. *)
Theorem C03_missing_argv0 {V : Type} (d : args_decl V) :
  accepted d -> try_parse_from d [] = Err (err_new MissingArg0).
Proof. exact (fun Hd => refines_code_choice d [] Hd). Qed.
Print Assumptions C03_missing_argv0.

Theorem C03_argv0_irrelevant {V : Type} (d : args_decl V) (toks : list bytes) :
  accepted d ->
  (exists r, forall argv0, try_parse_from d (argv0 :: toks) = r) \/
  (exists h t, forall argv0, try_parse_from d (argv0 :: toks)
     = Err (mkError Help None None None [] (Some (h ++ to_string_lossy (shown_name argv0) ++ t)))).
Proof. exact (argv0_irrelevant d toks). Qed.
Print Assumptions C03_argv0_irrelevant.

Example C03_argv0_irrelevant_example :
  accepted app_ /\
  try_parse_from app_ (argv ["prog"; "--name=x"]) = try_parse_from app_ (argv ["--help"; "--name=x"]) /\
  try_parse_from app_ (argv ["prog"; "--help"]) <> try_parse_from app_ (argv ["other"; "--help"]).
Proof. split; [|split]; vm_compute; [reflexivity|reflexivity|discriminate]. Qed.

(** C49: a parse succeeds exactly when every token is read, every occurrence is
    good by itself and the constraints hold. *)
Theorem C49_success_iff {V : Type} (d : args_decl V) (argv0 : bytes) (toks : list bytes) :
  valid d -> defaults_readable d = true ->
  ((exists o, try_parse_from d (argv0 :: toks) = Ok o) <->
   (exists os stk, reads d toks os stk /\ no_error_in os /\ satisfied os stk)).
Proof. exact (success_iff d argv0 toks). Qed.
Print Assumptions C49_success_iff.

Example C49_success_iff_example :
  valid copy /\ defaults_readable copy = true /\
  (exists o, try_parse_from copy (argv ["cp"; "--force"; "a"; "--to=x"; "b"]) = Ok o) /\
  (exists e, try_parse_from copy (argv ["cp"; "a"; "--to=x"; "b"]) = Err e /\ e_kind e = ConstraintRequired).
Proof. split; [exact copy_valid|]. split; [vm_compute; reflexivity|]. split; show. Qed.

(** The result of a successful parse: every field, and the subcommands. *)
Theorem C49_success_value {V : Type} (d : args_decl V) (argv0 : bytes) (toks : list bytes) (o : outval V) :
  valid d -> try_parse_from d (argv0 :: toks) = Ok o ->
  exists os stk, reads d toks os stk /\ no_error_in os /\ satisfied os stk /\
    (forall ad a, In (ad, a) (stack_args stk) ->
       field_at ad o = field_value a (values_of os ad) /\ field_at ad o <> None) /\
    entered o = tl (rev (map sc_ident stk)).
Proof. exact (success d argv0 toks o). Qed.
Print Assumptions C49_success_value.

Example C49_success_value_example :
  valid app_ /\ exists o, try_parse_from app_ (argv ["prog"; "run"; "-v"; "x"]) = Ok o /\
    field_at (Addr 0 [bs "verbose"]) o = Some (FvBool true) /\ entered o = [bs "Run"].
Proof. split; [exact app_valid|]. show. Qed.
