(** Plain command lines: every option is one token, the options of a command come
    before its words, and no two options are bundled. *)
From Verif Require Import Bytes Utf8 Error Values Heck Places Decl Spec Observe Grammar.

Section Plain.
Context {V : Type}.
Local Notation args_decl := (args_decl V).
Local Notation sarg := (sarg V).
Local Notation scope := (scope V).
Local Notation occ := (occ V).

(** [--name] or [-n]; [--name=value] or [-n=value]. *)
Inductive option_token (stk : list scope) : bytes -> occ -> Prop :=
| token_bare n ad a : resolve stk n = Some (ad, a) -> takes_value a = false ->
    option_token stk (spell n) (Occ ad a None)
| token_value n ad a v : resolve stk n = Some (ad, a) ->
    match n with Long _ => True | Short _ => takes_value a = true end ->
    option_token stk (spell_eq n v) (Occ ad a (Some v)).
Definition an_option (stk : list scope) (tok : bytes) : Prop := exists o, option_token stk tok o.

(** After the words: nothing, [--] and anything, or a word for a
    [trailing_var_arg] and anything. *)
Inductive ending (stk : list scope) : list bytes -> Prop :=
| ending_none : ending stk []
| ending_separator ws : ending stk (bs "--" :: ws)
| ending_trailing s outer p w ws : stk = s :: outer -> In p (positionals (sc_decl s)) -> greedy p = true ->
    word w -> ending stk (w :: ws).

Inductive plain : list scope -> list bytes -> Prop :=
| plain_end stk opts ws e : Forall (an_option stk) opts -> Forall word ws -> ending stk e ->
    plain stk (opts ++ ws ++ e)
| plain_subcommand stk opts ws v rest : Forall (an_option stk) opts -> Forall word ws ->
    In v (sub_variants stk) -> plain (variant_scope v :: stk) rest ->
    plain stk (opts ++ ws ++ sub_name v :: rest).
End Plain.
