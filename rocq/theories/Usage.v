(** Vocabulary: following the usage line.  Nothing here refers to the model of the
    code. *)
From Verif Require Import Bytes Utf8 Error Values Heck Places Decl Spec Observe Grammar.

Section Usage.
Context {V : Type}.
Local Notation args_decl := (args_decl V).
Local Notation sarg := (sarg V).
Local Notation scope := (scope V).
Local Notation occ := (occ V).

(** The name by which the usage line calls an option. *)
Definition called (a : sarg) : option name :=
  match long_name a, short_name a with
  | Some l, _ => Some (Long l)
  | None, Some c => Some (Short c)
  | None, None => None
  end.

(** A text that stands for a value of the argument. *)
Definition good_value (a : sarg) (v : option bytes) : Prop := exists fv, denotes a [option_map (text_of a) v] fv.

(** An option as the usage line shows it ([--name], [--name <VALUE>],
    [--name=<VALUE>]), with a value in the place of [<VALUE>]. *)
Inductive meets (stk : list scope) (ad : addr) (a : sarg) : list bytes -> occ -> Prop :=
| meets_bare n : called a = Some n -> resolve stk n = Some (ad, a) -> takes_value a = false ->
    meets stk ad a [spell n] (Occ ad a None)
| meets_next n v : called a = Some n -> resolve stk n = Some (ad, a) -> takes_value a = true -> needs_equals a = false ->
    may_follow a v = true -> good_value a (Some v) ->
    meets stk ad a [spell n; v] (Occ ad a (Some v))
| meets_equals n v : called a = Some n -> resolve stk n = Some (ad, a) -> takes_value a = true -> needs_equals a = true ->
    good_value a (Some v) ->
    meets stk ad a [spell_eq n v] (Occ ad a (Some v)).
Inductive meets_all (stk : list scope) : list (addr * sarg) -> list bytes -> list occ -> Prop :=
| meets_none : meets_all stk [] [] []
| meets_more ad a l toks o toks' os : meets stk ad a toks o -> meets_all stk l toks' os ->
    meets_all stk ((ad, a) :: l) (toks ++ toks') (o :: os).

(** The options that the usage line of a command shows: the required ones, of the
    command and its flattened structs.  They may be given in any order. *)
Definition asked (stk : list scope) (l : list (addr * sarg)) : Prop :=
  NoDup (map fst l) /\
  forall x, In x l <->
    exists s outer, stk = s :: outer /\ In x (scope_args (length outer) s) /\
      is_option (snd x) = true /\ is_required (snd x) = true /\ shown (snd x) = true.

(** A value in the place of [<VALUE>]. *)
Definition good_word (stk : list scope) (p : sarg) (w : bytes) : Prop :=
  word w /\ no_subcommand stk w /\ good_value p (Some w).
(** The words for positionals: one for [<VALUE>], some for [<VALUE>...].  The
    positionals [ps'] are left. *)
Inductive puts (stk : list scope) : list sarg -> list bytes -> list occ -> list sarg -> Prop :=
| puts_none ps : puts stk ps [] [] ps
| puts_one p ps w ws os ps' : is_required p = true -> shown p = true -> many p = false -> greedy p = false -> good_word stk p w ->
    puts stk ps ws os ps' -> puts stk (p :: ps) (w :: ws) (word_occ stk p w :: os) ps'
| puts_many p w ws : is_required p = true -> shown p = true -> many p = true -> greedy p = false -> Forall (good_word stk p) (w :: ws) ->
    puts stk [p] (w :: ws) (map (word_occ stk p) (w :: ws)) [].
(** The end: nothing else is asked for, but the values of a [trailing_var_arg] or,
    after [--], of the [last] argument. *)
Definition optional (p : sarg) : Prop := is_required p = false.
Inductive closes (stk : list scope) : list sarg -> list bytes -> list occ -> Prop :=
| closes_none ps : Forall optional ps -> Forall optional (last_args stk) -> closes stk ps [] []
| closes_trailing p w ws : is_required p = true -> shown p = true -> many p = true -> greedy p = true -> Forall optional (last_args stk) ->
    good_word stk p w -> Forall (fun u => good_value p (Some u)) ws ->
    closes stk [p] (w :: ws) (map (word_occ stk p) (w :: ws))
| closes_last ps p w ws : Forall optional ps -> last_args stk = [p] -> is_required p = true -> shown p = true ->
    Forall (fun u => good_value p (Some u)) (w :: ws) ->
    closes stk ps (bs "--" :: w :: ws) (map (word_occ stk p) (w :: ws)).

(** [follows stk toks os stk']: in the commands [stk], the tokens [toks] are what the
    usage line of the innermost one shows outside brackets, and after the name of a
    subcommand in the place of [<COMMAND>] or [[COMMAND]] what the usage line of that
    one shows, and so on; they are the occurrences [os] and end in the commands
    [stk']. *)
Inductive follows : list scope -> list bytes -> list occ -> list scope -> Prop :=
| follows_end s outer l opts oo ws wo ps rest ro : asked (s :: outer) l -> meets_all (s :: outer) l opts oo ->
    puts (s :: outer) (ordinary (sc_decl s)) ws wo ps -> closes (s :: outer) ps rest ro ->
    (forall id vs, subcommand (sc_decl s) <> Some (id, false, vs)) ->
    follows (s :: outer) (opts ++ ws ++ rest) (oo ++ wo ++ ro) (s :: outer)
| follows_command s outer l opts oo ws wo ps v rest os stk' : asked (s :: outer) l -> meets_all (s :: outer) l opts oo ->
    puts (s :: outer) (ordinary (sc_decl s)) ws wo ps -> Forall optional ps -> Forall optional (last_args (s :: outer)) ->
    In v (sub_variants (s :: outer)) -> follows (variant_scope v :: s :: outer) rest os stk' ->
    follows (s :: outer) (opts ++ ws ++ sub_name v :: rest) (oo ++ wo ++ os) stk'.

(** The required arguments of the commands [stk] are shown and have no rules on
    which arguments go together. *)
Definition simple_demands (stk : list scope) : Prop :=
  forall ad a, In (ad, a) (stack_args stk) -> is_required a = true ->
    shown a = true /\ am_requires (sa_meta a) = [] /\ am_conflicts_with (sa_meta a) = [] /\ am_exclusive (sa_meta a) = false.

(** ** The usage line itself *)

(** The items outside brackets: one for each required argument that is not hidden,
    and one for a required subcommand. *)
Inductive demanded (d : args_decl) : list bytes -> Prop :=
| demanded_option path a : In (path, a) (reach d) -> is_option a = true -> is_required a = true -> shown a = true ->
    demanded d [usage_form a]
| demanded_positional a : In a (own_args d) -> is_option a = false -> is_last a = false -> is_required a = true -> shown a = true ->
    demanded d [describe a]
| demanded_last a : In a (own_args d) -> is_option a = false -> is_last a = true -> is_required a = true -> shown a = true ->
    demanded d [bs "--"; describe a]
| demanded_command id vs : subcommand d = Some (id, false, vs) -> demanded d [bs "<COMMAND>"].
(** The items in brackets. *)
Inductive offered (d : args_decl) : list bytes -> Prop :=
| offered_options path a : In (path, a) (reach d) -> is_option a = true -> is_required a = false -> shown a = true ->
    offered d [bs "[OPTIONS]"]
| offered_positional a : In a (own_args d) -> is_option a = false -> is_last a = false -> is_required a = false -> many a = true ->
    shown a = true -> offered d [bs "[" ++ value_name a ++ bs "]..."]
| offered_last a : In a (own_args d) -> is_option a = false -> is_last a = true -> is_required a = false -> shown a = true ->
    offered d [bs "[--"; describe a ++ bs "]"]
| offered_command id vs : subcommand d = Some (id, true, vs) -> offered d [bs "[COMMAND]"].
End Usage.
