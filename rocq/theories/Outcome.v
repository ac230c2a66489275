(** What the parser makes of the occurrences of a command line: the vocabulary
    for stating a property of the reader of [Spec.v] as one of the model of the
    code ([try_parse_from]). *)
From Verif Require Import Bytes Utf8 Error Values Heck Places Decl Spec Derive Generated Observe.

Section Outcome.
Context {V : Type}.

(** The field of every argument in scope has the value its occurrences give, and
    the commands are those that were entered. *)
Definition holds (o : outval V) (os : list (occ V)) (stk : list (scope V)) : Prop :=
  (forall ad a, In (ad, a) (stack_args stk) -> field_at ad o = field_value a (values_of os ad)) /\
  entered o = tl (rev (map sc_ident stk)).

(** The parser takes the tokens [toks] for the occurrences [os] in the commands
    [stk].  If one of them is bad the parse fails with the error it has.
    Otherwise the result holds their values if the rules on presence are obeyed,
    and if they are not the parse fails. *)
Definition shows (d : args_decl V) (toks : list bytes) (os : list (occ V)) (stk : list (scope V)) : Prop :=
  forall argv0,
  match first_bad [] os, try_parse_from d (argv0 :: toks) with
  | Some e, r => r = Err e
  | None, Ok o => satisfied os stk /\ holds o os stk
  | None, Err _ => defaults_readable d = true -> ~ satisfied os stk
  | None, Panic _ => defaults_readable d = false
  end.
End Outcome.
