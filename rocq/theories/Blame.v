(** Everything that can be wrong with a command line, and the error for it. *)
From Verif Require Import Bytes Utf8 Attrs Error Values Heck Places Decl Spec Derive Observe Grammar Parts.

Section Blame.
Context {V : Type}.
Local Notation args_decl := (args_decl V).
Local Notation sarg := (sarg V).
Local Notation scope := (scope V).
Local Notation occ := (occ V).

(** The token [tok] mentions the name [n], and [rest] follows it in the token.
    A long name is followed by nothing or by [=]; a short one may come after
    options that do not take what follows as their value. *)
Inductive mentions (stk : list scope) : bytes -> name -> bytes -> Prop :=
| mentions_long s rest : (s <> [] \/ rest <> []) -> ~ In "="%byte s ->
    (rest = [] \/ exists v, rest = "="%byte :: v) ->
    mentions stk (spell (Long s) ++ rest) (Long s) rest
| mentions_short cs c rest : scalar c -> (cs = [] -> c <> 45%N) ->
    Forall (fun b => exists ad a, resolve stk (Short b) = Some (ad, a) /\ takes_value a = false) cs ->
    mentions stk (bs "-" ++ text cs ++ utf8_encode c ++ rest) (Short c) rest.

(** The names that ask for the help, if they are not names of arguments. *)
Definition asks_help (n : name) : Prop := n = Long (bs "help") \/ n = Short 104%N.

(** What was read of a command line, up to the first token that cannot be read. *)
Definition seen (d : args_decl) (toks : list bytes) : list occ := fst (read first_named (start d) toks).

(** Errors about values name the argument if it is an option. *)
Definition named (a : sarg) : option bytes := if is_option a then Some (describe a) else None.

(** [blame argv0 d toks e]: the error [e] tells something that is wrong with the
    arguments [toks] of the program [argv0]. *)
Inductive blame (argv0 : bytes) (d : args_decl) (toks : list bytes) : error -> Prop :=
(* An occurrence is wrong. *)
| blame_twice os1 os2 ad a v : seen d toks = os1 ++ Occ ad a v :: os2 ->
    many a = false -> given os1 ad = true ->
    blame argv0 d toks (mkError DuplicatedNamedArgument (named a) None None [] None)
| blame_inline os1 os2 ad a v : seen d toks = os1 ++ Occ ad a (Some v) :: os2 ->
    shape_a a = ShFlag ->
    blame argv0 d toks (mkError UnexpectedInlineValue (named a) (Some (text_of a v)) None [] None)
| blame_value os1 os2 ad a v p e : seen d toks = os1 ++ Occ ad a (Some v) :: os2 ->
    shape_a a <> ShFlag -> In p (pieces a (text_of a v)) ->
    read_value (value_of_ty (sa_ty a)) p = inr e ->
    blame argv0 d toks (mkError InvalidValue (named a) (Some p) (e_source e) (e_context e) None)
(* A token cannot be read. *)
| blame_unknown pre tok post os stk rem n rest : toks = pre ++ tok :: post ->
    at_option d pre os stk rem -> mentions stk tok n rest -> unknown stk n -> ~ asks_help n ->
    blame argv0 d toks (error_on UnknownNamedArgument (spell n))
| blame_help pre tok post os stk rem n rest : toks = pre ++ tok :: post ->
    at_option d pre os stk rem -> mentions stk tok n rest -> unknown stk n -> asks_help n ->
    blame argv0 d toks (mkError Help None None None [] (Some (help_text argv0 stk)))
| blame_junk pre cs junk post os stk rem : toks = pre ++ (bs "-" ++ text cs ++ junk) :: post ->
    at_option d pre os stk rem -> junk <> [] -> no_char junk ->
    Forall (fun b => exists ad a, resolve stk (Short b) = Some (ad, a) /\ takes_value a = false) cs ->
    blame argv0 d toks (error_on UnknownNamedArgument (bs "-" ++ junk))
| blame_equals pre tok post os stk rem n rest ad a : toks = pre ++ tok :: post ->
    at_option d pre os stk rem -> mentions stk tok n rest -> resolve stk n = Some (ad, a) ->
    needs_equals a = true -> (forall v, rest <> "="%byte :: v) -> (rest = [] -> takes_value a = true) ->
    blame argv0 d toks (error_about MissingEq a)
| blame_no_value pre tok post os stk rem n ad a : toks = pre ++ tok :: post ->
    at_option d pre os stk rem -> mentions stk tok n [] -> resolve stk n = Some (ad, a) ->
    takes_value a = true -> needs_equals a = false ->
    match post with [] => True | next :: _ => may_follow a next = false end ->
    blame argv0 d toks (error_about MissingValue a)
| blame_word pre w post os stk rem : toks = pre ++ w :: post ->
    at_option d pre os stk rem -> word w -> no_subcommand stk w -> next_word stk os = None ->
    blame argv0 d toks (extra_word stk w)
| blame_verbatim pre ws w post os stk rem : toks = pre ++ bs "--" :: ws ++ w :: post ->
    at_option d pre os stk rem -> next_verbatim stk os (length ws) = None ->
    (forall k, k < length ws -> next_verbatim stk os k <> None) ->
    blame argv0 d toks (extra_word stk w)
(* All the tokens can be read, but not together. *)
| blame_required os stk ad a : reads d toks os stk -> In (ad, a) (stack_args stk) ->
    is_required a = true -> given os ad = false ->
    blame argv0 d toks (error_about MissingRequiredArgument a)
| blame_requires os stk ad a id b : reads d toks os stk -> In (ad, a) (stack_args stk) ->
    given os ad = true -> In id (am_requires (sa_meta a)) ->
    In (sibling ad id, b) (stack_args stk) -> given os (sibling ad id) = false ->
    blame argv0 d toks (error_about ConstraintRequired b)
| blame_conflict os stk ad a id : reads d toks os stk -> In (ad, a) (stack_args stk) ->
    given os ad = true -> In id (am_conflicts_with (sa_meta a)) -> given os (sibling ad id) = true ->
    blame argv0 d toks (error_about ConstraintConflict a)
| blame_exclusive os stk ad a ad' b : reads d toks os stk -> In (ad, a) (stack_args stk) ->
    am_exclusive (sa_meta a) = true -> given os ad = true ->
    In (ad', b) (stack_args stk) -> same_struct ad ad' -> ad' <> ad -> given os ad' = true ->
    blame argv0 d toks (error_about ConstraintExclusive a)
| blame_exclusive_sub os stk ad a : reads d toks os stk -> In (ad, a) (stack_args stk) ->
    am_exclusive (sa_meta a) = true -> given os ad = true -> own_field ad ->
    S (ad_level ad) < length stk ->
    blame argv0 d toks (error_about ConstraintExclusive a)
| blame_subcommand os s outer id vs : reads d toks os (s :: outer) ->
    subcommand (sc_decl s) = Some (id, false, vs) ->
    blame argv0 d toks (err_new MissingRequiredSubcommand).

(** The errors that are about what was read so far, whatever follows. *)
Definition about_token (k : error_kind) : Prop :=
  match k with
  | UnknownNamedArgument | UnknownSubcommand | DuplicatedNamedArgument | ExtraPositionalArgument
  | UnexpectedInlineValue | InvalidValue | MissingEq | Help => True
  | _ => False
  end.
End Blame.
