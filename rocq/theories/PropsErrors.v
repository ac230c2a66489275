(** C35, C45, C52: which error a command line gives. *)
From Verif Require Import Bytes Utf8 Error Values Places Heck Decl Spec Derive Generated Observe Grammar Parts Blame Described Kit Samples.
From Verif Require Import TableFacts ResultFacts BlameFacts DescribedFacts.
Local Open Scope string_scope.
Local Open Scope list_scope.

(** C35: every error tells something that is wrong with the command line, and
    describes the argument or shows the token that is wrong.  ([blame] lists all
    there is.) *)
Theorem C35_errors {V : Type} (d : args_decl V) (argv0 : bytes) (toks : list bytes) (e : error) :
  valid d -> try_parse_from d (argv0 :: toks) = Err e -> blame argv0 d toks e.
Proof. exact (error_blame d argv0 toks e). Qed.
Print Assumptions C35_errors.

(** What [blame] lists is wrong: such a command line is never accepted. *)
Theorem C35_wrong {V : Type} (d : args_decl V) (argv0 : bytes) (toks : list bytes) (e : error) :
  valid d -> blame argv0 d toks e -> forall o, try_parse_from d (argv0 :: toks) <> Ok o.
Proof. exact (blame_wrong d argv0 toks e). Qed.
Print Assumptions C35_wrong.

(** The description in an error is that of an argument that the command line is about:
    its names and what stands for its value. *)
Theorem C35_described {V : Type} (d : args_decl V) (argv0 : bytes) (toks : list bytes) (e : error) (t : bytes) :
  valid d -> try_parse_from d (argv0 :: toks) = Err e -> e_arg_desc e = Some t ->
  exists a, concerned d toks a /\ described a t.
Proof. exact (error_described d argv0 toks e t). Qed.
Print Assumptions C35_described.

(** An argument has one description. *)
Theorem C35_one_description {V : Type} (a : sarg V) (t u : bytes) : described a t -> described a u -> t = u.
Proof. exact (described_unique a t u). Qed.
Print Assumptions C35_one_description.

(** An option with both names, and a positional. *)
Example C35_described_example :
  described (Arg (bs "dry_run") (short (long m0)) TString) (bs "-d, --dry-run <DRY_RUN>") /\
  described (Arg (bs "target") m0 (TyVec TString)) (bs "[TARGET]...") /\
  valid app_ /\
  match try_parse_from app_ (argv ["prog"; "-vk"; "-v"]) with Err e => e_arg_desc e = Some (bs "-n, --name <NAME>") | _ => False end.
Proof.
  split; [|split; [|split; [exact app_valid|vm_compute; reflexivity]]].
  - refine (described_option (Arg (bs "dry_run") (short (long m0)) TString) [bs "-d"; bs "--dry-run"] (bs " <DRY_RUN>") eq_refl _ _).
    + exact (own_both (Arg (bs "dry_run") (short (long m0)) TString) 100%N (bs "dry-run") eq_refl eq_refl).
    + exact (value_next (Arg (bs "dry_run") (short (long m0)) TString) (bs "DRY_RUN") eq_refl eq_refl (placeholder_field (Arg (bs "dry_run") (short (long m0)) TString) eq_refl)).
  - exact (described_optional (Arg (bs "target") m0 (TyVec TString)) (bs "TARGET") (bs "...") eq_refl eq_refl (placeholder_field (Arg (bs "target") m0 (TyVec TString)) eq_refl) eq_refl).
Qed.

Example C35_example :
  valid app_ /\ valid copy /\
  try_parse_from app_ (argv ["prog"; "-vdv"])
    = Err (mkError DuplicatedNamedArgument (Some (bs "-v, --verbose")) None None [] None) /\
  try_parse_from app_ (argv ["prog"; "--mode=SLOWER"])
    = Err (mkError InvalidValue (Some (bs "--mode <MODE>")) (Some (bs "slower")) None (bs "[possible values: fast, slow]") None) /\
  try_parse_from app_ (argv ["prog"; "--quiet=1"])
    = Err (mkError UnexpectedInlineValue (Some (bs "-q, --quiet")) (Some (bs "1")) None [] None) /\
  try_parse_from app_ (argv ["prog"; "-ved"])
    = Err (mkError MissingEq (Some (bs "-e, --equal=<EQUAL>")) None None [] None) /\
  try_parse_from app_ (argv ["prog"; "-vk"; "-v"])
    = Err (mkError MissingValue (Some (bs "-n, --name <NAME>")) None None [] None) /\
  try_parse_from app_ (argv ["prog"; "-vx"]) = Err (mkError UnknownNamedArgument None (Some (bs "-x")) None [] None) /\
  try_parse_from app_ (argv ["prog"; "run"])
    = Err (mkError MissingRequiredArgument (Some (bs "<TARGET>")) None None [] None) /\
  try_parse_from copy (argv ["cp"; "--to=x"; "a"])
    = Err (mkError ConstraintRequired (Some (bs "-f, --force")) None None [] None) /\
  try_parse_from copy (argv ["cp"; "-kf"; "a"])
    = Err (mkError ConstraintConflict (Some (bs "-f, --force")) None None [] None) /\
  try_parse_from copy (argv ["cp"; "--list"; "a"])
    = Err (mkError ConstraintExclusive (Some (bs "--list")) None None [] None).
Proof. split; [exact app_valid|]. split; [exact copy_valid|]. show. Qed.

(** That every error about a value names the argument is false: if the value is
    that of a positional argument, it is not named, and the message speaks of an
    unknown argument instead. *)
Theorem C35_positional_refuted : exists (d : args_decl tv) (l : list bytes) (e : error),
  valid d /\ try_parse_from d l = Err e /\ e_kind e = InvalidValue /\ e_arg_desc e = None /\
  error_display any_escapes e
    = bs "invalid value ""x"" for '<unknown argument>': invalid digit found in string".
Proof.
  exists (struct [arg "count" m0 TI]), (argv ["prog"; "x"]). eexists.
  split; [split; vm_compute; reflexivity|]. split; [vm_compute; reflexivity|].
  split; [reflexivity|]. split; [reflexivity|]. vm_compute. reflexivity.
Qed.
Print Assumptions C35_positional_refuted.

(** C45: an error of a parse converts into help exactly if it is a request for
    help. *)
Theorem C45_help_only {V : Type} (d : args_decl V) (argv : list bytes) (e : error) :
  valid d -> try_parse_from d argv = Err e -> (try_into_help e <> None <-> e_kind e = Help).
Proof. exact (help_iff d argv e). Qed.
Print Assumptions C45_help_only.

(** The kind [Custom] is left to the errors that programs make. *)
Theorem C45_never_custom {V : Type} (d : args_decl V) (argv : list bytes) (e : error) :
  valid d -> try_parse_from d argv = Err e -> e_kind e <> Custom.
Proof. exact (never_custom d argv e). Qed.
Print Assumptions C45_never_custom.

Example C45_help_example :
  valid app_ /\
  match try_parse_from app_ (argv ["prog"; "--help"]) with
  | Err e => e_kind e = Help /\ try_into_help e <> None
  | _ => False
  end /\
  match try_parse_from app_ (argv ["prog"; "--helped"]) with
  | Err e => e_kind e = UnknownNamedArgument /\ try_into_help e = None
  | _ => False
  end.
Proof. split; [exact app_valid|]. show. Qed.

(** C52: the first mistake is reported.  An error about a token is decided by the
    tokens up to it, whatever follows. *)
Theorem C52_first_mistake {V : Type} (d : args_decl V) (argv0 : bytes) (pre : list bytes) (e : error) :
  valid d -> try_parse_from d (argv0 :: pre) = Err e -> about_token (e_kind e) ->
  forall post, try_parse_from d (argv0 :: pre ++ post) = Err e.
Proof. exact (first_mistake d argv0 pre e). Qed.
Print Assumptions C52_first_mistake.

Example C52_example :
  valid app_ /\
  try_parse_from app_ (argv ["prog"; "--level=x"; "--nope"; "--help"])
    = try_parse_from app_ (argv ["prog"; "--level=x"]) /\
  match try_parse_from app_ (argv ["prog"; "--level=x"]) with Err e => about_token (e_kind e) | _ => False end.
Proof. split; [exact app_valid|]. show. Qed.
