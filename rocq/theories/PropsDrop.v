(** C79, C80: command lines cut short, and options left out. *)
From Verif Require Import Bytes Utf8 Error Values Places Heck Decl Spec Derive Generated Observe Grammar Kit Samples.
From Verif Require Import DropFacts.
Local Open Scope string_scope.
Local Open Scope list_scope.

(** C79: the beginning of a command line that is accepted is accepted, or
    something is missing. *)
Theorem C79_cut_short {V : Type} (d : args_decl V) (argv0 : bytes) (pre post : list bytes) (o : outval V) (e : error) :
  valid d -> try_parse_from d (argv0 :: pre ++ post) = Ok o -> try_parse_from d (argv0 :: pre) = Err e ->
  e_kind e = MissingValue \/ e_kind e = MissingRequiredArgument \/ e_kind e = ConstraintRequired \/
  e_kind e = MissingRequiredSubcommand.
Proof. exact (cut_short d argv0 pre post o e). Qed.
Print Assumptions C79_cut_short.

(** Each of the four, and a beginning that is accepted. *)
Example C79_example :
  let box := struct [arg "deep" (long m0) TBool; (bs "cmd", FSub false (MkSubDecl [(bs "Open", VDUnit no_attrs)]))] in
  valid copy /\ valid box /\
  succeeds copy (argv ["cp"; "--to"; "x"; "--force"; "a"; "b"]) (fun _ => True) /\
  succeeds box (argv ["box"; "--deep"; "open"]) (fun _ => True) /\
  match try_parse_from copy (argv ["cp"]), try_parse_from copy (argv ["cp"; "--to"]), try_parse_from copy (argv ["cp"; "--to"; "x"]),
        try_parse_from box (argv ["box"; "--deep"]), try_parse_from copy (argv ["cp"; "--to"; "x"; "--force"; "a"]) with
  | Err e1, Err e2, Err e3, Err e4, Ok _ =>
      (e_kind e1, e_kind e2, e_kind e3, e_kind e4) =
      (MissingRequiredArgument, MissingValue, ConstraintRequired, MissingRequiredSubcommand)
  | _, _, _, _, _ => False
  end.
Proof. intros box. split; [exact copy_valid|]. split; [split; vm_compute; reflexivity|]. split; [vm_compute; exact I|]. split; vm_compute; [exact I|reflexivity]. Qed.

(** C80: an option is left out of a command line that is accepted.  The result is
    the same but for the field of the option, or what is missing is this option. *)
Theorem C80_left_out {V : Type} (d : args_decl V) (argv0 : bytes) (pre : list bytes) (os : list (occ V))
    (stk : list (scope V)) (rem : list (sarg V)) (toks : list bytes) (ad : addr) (a : sarg V) (v : option bytes)
    (post : list bytes) (o : outval V) :
  valid d -> defaults_readable d = true -> at_option d pre os stk rem -> writes stk toks ad a v ->
  try_parse_from d (argv0 :: pre ++ toks ++ post) = Ok o ->
  match try_parse_from d (argv0 :: pre ++ post) with
  | Ok o' => entered o' = entered o /\
      exists os' stk', reads d (pre ++ post) os' stk' /\
        (forall ad' b, In (ad', b) (stack_args stk') -> ad' <> ad -> field_at ad' o' = field_at ad' o) /\
        (many a = false -> field_at ad o' = field_value a [])
  | Err e => e = error_about MissingRequiredArgument a \/ e = error_about ConstraintRequired a
  | Panic _ => False
  end.
Proof. exact (left_out d argv0 pre os stk rem toks ad a v post o). Qed.
Print Assumptions C80_left_out.

(** [--to=x] is left out, and [--force], which [--to] requires. *)
Example C80_example :
  valid copy /\ defaults_readable copy = true /\
  arrives copy (argv ["--force"; "a"]) (fun os stk rem =>
    denotes_arg stk (Long (bs "to")) (fun ad a => ad = Addr 0 [bs "to"] /\ takes_value a = true /\ needs_equals a = false)) /\
  succeeds copy (argv ["cp"; "--force"; "a"; "--to"; "x"; "b"]) (fun o =>
    field_at (Addr 0 [bs "to"]) o = Some (FvOption (Some (TStr (bs "x")))) /\
    succeeds copy (argv ["cp"; "--force"; "a"; "b"]) (fun o' =>
      field_at (Addr 0 [bs "to"]) o' = Some (FvOption None) /\
      field_at (Addr 0 [bs "more"]) o' = field_at (Addr 0 [bs "more"]) o /\
      field_at (Addr 0 [bs "force"]) o' = Some (FvBool true))) /\
  try_parse_from copy (argv ["cp"; "a"; "--to"; "x"; "b"]) =
    Err (error_about ConstraintRequired (Arg (bs "force") (short (long (conflicts ["keep"] m0))) TBool)).
Proof. split; [exact copy_valid|]. split; [vm_compute; reflexivity|]. split; [vm_compute; repeat split|]. split; vm_compute; repeat split. Qed.
