(** The grammar of command lines: which lists of tokens stand for which
    occurrences, as an inductive relation.  It is independent of the reader of
    [Spec.v] (no states, no outcomes); [GrammarFacts.v] shows that they agree. *)
From Verif Require Import Bytes Utf8 Error Values Heck Places Decl Spec Derive Observe.

Section Grammar.
Context {V : Type}.
Local Notation args_decl := (args_decl V).
Local Notation sarg := (sarg V).
Local Notation scope := (scope V).
Local Notation occ := (occ V).

(** A token that is neither an option nor [--]: it does not start with [-], or
    it is [-] itself. *)
Definition word (tok : bytes) : Prop := tok = bs "-" \/ forall b, tok <> "-"%byte :: b.

(** A word given to the positional [p] of the innermost command. *)
Definition word_occ (stk : list scope) (p : sarg) (w : bytes) : occ :=
  Occ (Addr (length stk - 1) [sa_id p]) p (Some w).

(** The name of no subcommand of the innermost command. *)
Definition no_subcommand (stk : list scope) (w : bytes) : Prop :=
  ~ In w (map sub_name (sub_variants stk)).

(** [ps] are the positionals still to be filled.  [fills]: the tokens after
    [--]. *)
Inductive fills (stk : list scope) : list sarg -> list bytes -> list occ -> Prop :=
| fills_end ps : fills stk ps [] []
| fills_word p ps w ws os : greedy p = false ->
    fills stk (if many p then p :: ps else ps) ws os ->
    fills stk (p :: ps) (w :: ws) (word_occ stk p w :: os)
| fills_greedy p ps w ws : greedy p = true ->
    fills stk (p :: ps) (w :: ws) (map (word_occ stk p) (w :: ws)).

(** The [last] argument of the innermost command, if there is one. *)
Definition last_args (stk : list scope) : list sarg :=
  match stk with s :: _ => filter is_last (positionals (sc_decl s)) | [] => [] end.

(** [accounts stk ps toks os stk']: in the commands [stk], with the positionals
    [ps] still to fill, the tokens [toks] are the occurrences [os] and end in
    the commands [stk']. *)
Inductive accounts : list scope -> list sarg -> list bytes -> list occ -> list scope -> Prop :=
| acc_end stk ps : accounts stk ps [] [] stk
| acc_option stk ps toks ad a v post os stk' : writes stk toks ad a v ->
    accounts stk ps post os stk' ->
    accounts stk ps (toks ++ post) (Occ ad a v :: os) stk'
| acc_bundle stk ps c ad a t post os stk' :
    resolve stk (Short c) = Some (ad, a) -> takes_value a = false -> needs_equals a = false ->
    t <> [] -> (forall w, t <> "="%byte :: w) -> (forall w, t <> "-"%byte :: w) ->
    accounts stk ps ((bs "-" ++ t) :: post) os stk' ->
    accounts stk ps ((spell (Short c) ++ t) :: post) (Occ ad a None :: os) stk'
| acc_subcommand stk ps v post os stk' : In v (sub_variants stk) ->
    accounts (variant_scope v :: stk) (positionals (sc_decl (variant_scope v))) post os stk' ->
    accounts stk ps (sub_name v :: post) os stk'
| acc_word stk ps p w post os stk' : word w -> no_subcommand stk w ->
    is_last p = false -> greedy p = false ->
    accounts stk (if many p then p :: ps else ps) post os stk' ->
    accounts stk (p :: ps) (w :: post) (word_occ stk p w :: os) stk'
| acc_trailing stk ps p w ws : word w -> no_subcommand stk w ->
    is_last p = false -> greedy p = true ->
    accounts stk (p :: ps) (w :: ws) (map (word_occ stk p) (w :: ws)) stk
| acc_separator stk ps ws os : last_args stk = [] -> fills stk ps ws os ->
    accounts stk ps (bs "--" :: ws) os stk
| acc_separator_last stk ps ws os : last_args stk <> [] -> fills stk (last_args stk) ws os ->
    accounts stk ps (bs "--" :: ws) os stk.

(** ** Positionals by number *)

(** The positional that receives the [k]-th word (from 0). *)
Fixpoint target (ps : list sarg) (k : nat) : option sarg :=
  match ps with
  | [] => None
  | p :: ps' =>
      if many p || greedy p then Some p
      else match k with O => Some p | S k' => target ps' k' end
  end.

(** The positionals of a struct in declaration order, without the [last] one. *)
Definition ordinary (d : args_decl) : list sarg :=
  filter (fun a => negb (is_option a) && negb (is_last a)) (own_args d).

(** The words among the occurrences that are given to positionals of the command
    at [level], except to a [last] one. *)
Definition words_at (level : nat) (os : list occ) : list occ :=
  filter (fun o => Nat.eqb (ad_level (oc_addr o)) level && negb (is_option (oc_arg o))
                   && negb (is_last (oc_arg o))) os.

(** The positional that the next word of the innermost command is given to, if
    the occurrences [os] have been read. *)
Definition next_word (stk : list scope) (os : list occ) : option sarg :=
  match stk with
  | s :: outer => target (ordinary (sc_decl s)) (length (words_at (length outer) os))
  | [] => None
  end.
(** The same after [--]: counting goes on, unless there is a [last] argument. *)
Definition next_verbatim (stk : list scope) (os : list occ) (k : nat) : option sarg :=
  match last_args stk, stk with
  | [], s :: outer => target (ordinary (sc_decl s)) (length (words_at (length outer) os) + k)
  | ls, _ => target ls k
  end.

(** A word nobody takes. *)
Definition extra_word (stk : list scope) (w : bytes) : error :=
  error_on (if has_subcommand stk then UnknownSubcommand else ExtraPositionalArgument) w.

(** An occurrence of an argument of the command at [level] or of a command
    inside it, or of a global option. *)
Definition belongs (level : nat) (o : occ) : Prop :=
  level <= ad_level (oc_addr o) \/ is_option (oc_arg o) = true /\ is_global (oc_arg o) = true.

(** A positional that takes one word. *)
Definition single (p : sarg) : Prop := many p || greedy p = false.
End Grammar.
