(** Vocabulary: how an argument is described in an error message, for C35.  Nothing
    here refers to the model of the code. *)
From Verif Require Import Bytes Utf8 Error Values Heck Places Decl Spec Observe Grammar Parts Blame.

Section Described.
Context {V : Type}.
Local Notation args_decl := (args_decl V).
Local Notation sarg := (sarg V).
Local Notation occ := (occ V).

(** What stands for the value: the given [value_name], or the name of the field in
    capitals. *)
Inductive placeholder (a : sarg) : bytes -> Prop :=
| placeholder_given n : am_value_name (sa_meta a) = Some n -> placeholder a n
| placeholder_field : am_value_name (sa_meta a) = None -> placeholder a (shouty_snake_case (sa_id a)).

(** What follows the names of an option. *)
Inductive value_shown (a : sarg) : bytes -> Prop :=
| value_none : shape_a a = ShFlag -> value_shown a []
| value_optional n : shape_a a = ShOptOpt -> placeholder a n -> value_shown a (bs "[=<" ++ n ++ bs ">]")
| value_next n : takes_value a = true -> am_require_equals (sa_meta a) = false -> placeholder a n -> value_shown a (bs " <" ++ n ++ bs ">")
| value_equals n : takes_value a = true -> am_require_equals (sa_meta a) = true -> placeholder a n -> value_shown a (bs "=<" ++ n ++ bs ">").

(** The names of an option, without its aliases: the short one, then the long one. *)
Inductive own_names (a : sarg) : list bytes -> Prop :=
| own_both c l : short_name a = Some c -> long_name a = Some l -> own_names a [spell (Short c); spell (Long l)]
| own_short c : short_name a = Some c -> long_name a = None -> own_names a [spell (Short c)]
| own_long l : short_name a = None -> long_name a = Some l -> own_names a [spell (Long l)]
| own_neither : short_name a = None -> long_name a = None -> own_names a [].
Definition with_commas (l : list bytes) : bytes :=
  match l with [] => [] | x :: r => x ++ concat (map (fun y => bs ", " ++ y) r) end.

Inductive described (a : sarg) : bytes -> Prop :=
| described_option l v : is_option a = true -> own_names a l -> value_shown a v -> described a (with_commas l ++ v)
| described_required n dots : is_option a = false -> is_required a = true -> placeholder a n ->
    dots = (if many a then bs "..." else []) -> described a (bs "<" ++ n ++ bs ">" ++ dots)
| described_optional n dots : is_option a = false -> is_required a = false -> placeholder a n ->
    dots = (if many a then bs "..." else []) -> described a (bs "[" ++ n ++ bs "]" ++ dots).

(** The arguments that a command line is about: those that were given, that were named
    last, or that are declared by the commands entered. *)
Inductive concerned (d : args_decl) (toks : list bytes) (a : sarg) : Prop :=
| concerned_given ad v : In (Occ ad a v) (seen d toks) -> concerned d toks a
| concerned_named pre tok post os stk rem n rest ad : toks = pre ++ tok :: post -> at_option d pre os stk rem ->
    mentions stk tok n rest -> resolve stk n = Some (ad, a) -> concerned d toks a
| concerned_declared os stk ad : reads d toks os stk -> In (ad, a) (stack_args stk) -> concerned d toks a.
End Described.
