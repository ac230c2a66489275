(** The specification: what a command line means for a declaration.

    It is written from the documentation of the library (src/lib.rs:101-400,
    README.md) for declarations ([Decl.v]), and shares nothing with the model of
    the code but the data types, the primitives on byte strings and UTF-8, the
    case conversion and the processing of doc comments: no name tables, no
    packed attributes, no indexes, no frames, no continuations.

    A command line is read token by token ([step]); reading yields
    _occurrences_, i.e. which argument of which command was given which value.
    Everything else is a function of the list of occurrences. *)
From Verif Require Import Bytes Utf8 Error Values Heck Places Decl.

Section Spec.
Context {V : Type}.

(** ** Declared arguments *)

Record sarg := Arg { sa_id : ident; sa_meta : arg_meta V; sa_ty : ty V }.

Definition fields_of (d : args_decl V) : list (ident * field_decl V) :=
  let '(MkArgsDecl _ fs) := d in fs.
Definition attrs_of (d : args_decl V) : cmd_attrs := let '(MkArgsDecl a _) := d in a.

Definition own_arg (f : ident * field_decl V) : list sarg :=
  match snd f with FArg m t => [Arg (fst f) m t] | _ => [] end.
Definition own_args (d : args_decl V) : list sarg := flat_map own_arg (fields_of d).

Definition flat_field (f : ident * field_decl V) : list (ident * args_decl V) :=
  match snd f with FFlatten a => [(fst f, a)] | _ => [] end.
Definition flattened (d : args_decl V) : list (ident * args_decl V) :=
  flat_map flat_field (fields_of d).

Definition sub_field (f : ident * field_decl V) : list (ident * bool * list (ident * variant_decl V)) :=
  match snd f with FSub o (MkSubDecl vs) => [(fst f, o, vs)] | _ => [] end.
Definition subcommand (d : args_decl V) : option (ident * bool * list (ident * variant_decl V)) :=
  hd_error (flat_map sub_field (fields_of d)).

(** The shape of a field's type decides how often the argument may occur and
    whether it takes a value. *)
Inductive shape := ShFlag | ShOne | ShOpt | ShOptOpt | ShMany | ShOptMany.
Definition shape_of (t : ty V) : shape :=
  match t with
  | TyBool _ => ShFlag
  | TyOther _ => ShOne
  | TyOption (TyOption _) => ShOptOpt
  | TyOption (TyVec _) => ShOptMany
  | TyOption _ => ShOpt
  | TyVec _ => ShMany
  end.
Definition value_of_ty (t : ty V) : value_ty V :=
  match t with
  | TyBool u | TyOther u => u
  | TyOption (TyOption t) | TyOption (TyVec t) | TyOption t | TyVec t =>
      match t with TyBool u | TyOther u => u | _ => no_traits end
  end.

Definition shape_a (a : sarg) : shape := shape_of (sa_ty a).
Definition takes_value (a : sarg) : bool :=
  match shape_a a with ShFlag | ShOptOpt => false | _ => true end.
Definition many (a : sarg) : bool :=
  match shape_a a with ShMany | ShOptMany => true | _ => false end.
Definition needs_equals (a : sarg) : bool := am_require_equals (sa_meta a).
Definition is_global (a : sarg) : bool := am_global (sa_meta a).
Definition is_last (a : sarg) : bool := am_last (sa_meta a).
(** Does it take all the tokens after its first value? *)
Definition greedy (a : sarg) : bool := am_trailing_var_arg (sa_meta a) || am_last (sa_meta a).

(** ** Names *)

Inductive name := Long (s : bytes) | Short (c : N).

(** An argument is an option if it has a long or a short name, otherwise a
    positional. *)
Definition is_option (a : sarg) : bool :=
  match am_long (sa_meta a), am_short (sa_meta a) with None, None => false | _, _ => true end.
Definition long_name (a : sarg) : option bytes :=
  match am_long (sa_meta a) with
  | Some Inherit => Some (kebab_case (sa_id a))
  | Some (Explicit s) => Some s
  | None => None
  end.
Definition short_name (a : sarg) : option N :=
  match am_short (sa_meta a) with
  | Some Inherit => match sa_id a with b :: _ => Some (b2n b) | [] => None end
  | Some (Explicit c) => Some c
  | None => None
  end.
Definition has_name (a : sarg) (n : name) : Prop :=
  is_option a = true /\
  match n with
  | Long s => In s (am_alias (sa_meta a)) \/ long_name a = Some s
  | Short c => In c (am_short_alias (sa_meta a)) \/ short_name a = Some c
  end.

Definition opt_is {A} (eqb : A -> A -> bool) (o : option A) (x : A) : bool :=
  match o with Some y => eqb x y | None => false end.
Definition has_nameb (a : sarg) (n : name) : bool :=
  is_option a &&
  match n with
  | Long s => existsb (beqb s) (am_alias (sa_meta a)) || opt_is beqb (long_name a) s
  | Short c => existsb (N.eqb c) (am_short_alias (sa_meta a)) || opt_is N.eqb (short_name a) c
  end.

(** ** Commands in scope

    A scope is a command that was entered: the top-level struct, or a variant
    of a subcommand (a unit variant has an empty struct).  A stack of scopes has
    the innermost command first; the level of a command is its distance from
    the top-level one. *)
Record scope := Scope { sc_decl : args_decl V; sc_ident : ident; sc_unit : bool }.

Definition variant_scope (v : ident * variant_decl V) : scope :=
  match snd v with
  | VDUnit at_ => Scope (MkArgsDecl at_ []) (fst v) true
  | VDNewtype _ d | VDStruct d => Scope d (fst v) false
  end.

(** The place of a field: the level of its command, the flattened fields on the
    way to its struct, and its identifier. *)
Record addr := Addr { ad_level : nat; ad_path : list ident }.

Fixpoint path_eqb (p q : list ident) : bool :=
  match p, q with
  | [], [] => true
  | x :: p', y :: q' => beqb x y && path_eqb p' q'
  | _, _ => false
  end.
Definition addr_eqb (x y : addr) : bool :=
  Nat.eqb (ad_level x) (ad_level y) && path_eqb (ad_path x) (ad_path y).

(** All the arguments of a struct: its own ones first, then those of its
    flattened structs in order, depth first. *)
Fixpoint reach (d : args_decl V) : list (list ident * sarg) :=
  let '(MkArgsDecl _ fs) := d in
  flat_map (fun f => map (fun a => ([sa_id a], a)) (own_arg f)) fs
  ++ flat_map (fun (f : ident * field_decl V) =>
                 let '(id, fd) := f in
                 match fd with
                 | FFlatten a => map (fun pa => (id :: fst pa, snd pa)) (reach a)
                 | _ => []
                 end) fs.

Definition scope_args (level : nat) (s : scope) : list (addr * sarg) :=
  map (fun pa => (Addr level (fst pa), snd pa)) (reach (sc_decl s)).

Fixpoint stack_args (stk : list scope) : list (addr * sarg) :=
  match stk with
  | [] => []
  | s :: outer => scope_args (length outer) s ++ stack_args outer
  end.

(** The arguments that can be given by name: all those of the innermost
    command, and the global ones of the commands around it.  The first match
    wins. *)
Definition in_scope (stk : list scope) : list (addr * sarg) :=
  match stk with
  | [] => []
  | s :: outer =>
      scope_args (length outer) s ++ filter (fun x => is_global (snd x)) (stack_args outer)
  end.
Definition resolve (stk : list scope) (n : name) : option (addr * sarg) :=
  find (fun x => has_nameb (snd x) n) (in_scope stk).

(** The positionals of a struct, in the order in which they are filled. *)
Definition positionals (d : args_decl V) : list sarg :=
  let ps := filter (fun a => negb (is_option a)) (own_args d) in
  filter (fun a => negb (is_last a)) ps ++ filter is_last ps.

(** ** Reading tokens *)

(** The form of a token: the separator, a long option with an optional inline
    value, a bundle of short options, or a word. *)
Inductive form :=
| FSep
| FLong (s : bytes) (v : option bytes)
| FBundle (b : bytes)
| FWord.

(** Cut at the first equals sign. *)
Fixpoint cut_eq (b : bytes) : bytes * option bytes :=
  match b with
  | [] => ([], None)
  | x :: b' =>
      match x with
      | "="%byte => ([], Some b')
      | _ => let '(l, r) := cut_eq b' in (x :: l, r)
      end
  end.

Definition form_of (tok : bytes) : form :=
  match tok with
  | "-"%byte :: "-"%byte :: [] => FSep
  | "-"%byte :: "-"%byte :: b => let '(s, v) := cut_eq b in FLong s v
  | "-"%byte :: ((_ :: _) as b) => FBundle b
  | _ => FWord
  end.

(** May this token be the value of the option that waits for one? *)
Definition may_follow (a : sarg) (tok : bytes) : bool :=
  match tok with
  | "-"%byte :: ((_ :: _) as b) =>
      am_allow_hyphen_values (sa_meta a)
      || (am_allow_negative_numbers (sa_meta a) && forallb is_ascii_digit b)
  | _ => true
  end.

Record occ := Occ { oc_addr : addr; oc_arg : sarg; oc_val : option bytes }.

(** The reader: in option position with the positionals still to fill; waiting
    for the value of an option; after [--]; or giving everything to one
    positional. *)
Inductive state :=
| Normal (stk : list scope) (rem : list sarg)
| Await (stk : list scope) (rem : list sarg) (ad : addr) (a : sarg)
| Verbatim (stk : list scope) (rem : list sarg)
| Drain (stk : list scope) (p : sarg).

Definition state_stack (st : state) : list scope :=
  match st with
  | Normal stk _ | Await stk _ _ _ | Verbatim stk _ | Drain stk _ => stk
  end.

(** Why reading stopped: an error, or a request for the help of the innermost
    command of a stack. *)
Inductive stop := SErr (e : error) | SHelp (stk : list scope).
Inductive outcome := Go (st : state) | Stop (s : stop).

(** How an argument is shown in messages and in the help. *)
Definition value_name (a : sarg) : bytes :=
  match am_value_name (sa_meta a) with Some s => s | None => shouty_snake_case (sa_id a) end.
Definition has_default (a : sarg) : bool :=
  match am_default_value (sa_meta a), am_default_value_t (sa_meta a) with
  | None, None => false
  | _, _ => true
  end.
Definition is_required (a : sarg) : bool :=
  negb (has_default a)
  && (am_required (sa_meta a) || match shape_a a with ShOne => true | _ => false end).
Definition value_part (a : sarg) : bytes :=
  match shape_a a with
  | ShFlag => []
  | ShOptOpt => bs "[=<" ++ value_name a ++ bs ">]"
  | _ => (if needs_equals a then bs "=<" else bs " <") ++ value_name a ++ bs ">"
  end.
Definition describe (a : sarg) : bytes :=
  if is_option a then
    match short_name a, long_name a with
    | Some c, Some l => bs "-" ++ utf8_encode c ++ bs ", --" ++ l
    | Some c, None => bs "-" ++ utf8_encode c
    | None, Some l => bs "--" ++ l
    | None, None => []
    end ++ value_part a
  else
    (if is_required a then bs "<" ++ value_name a ++ bs ">" else bs "[" ++ value_name a ++ bs "]")
    ++ (if many a then bs "..." else []).

Definition error_about (k : error_kind) (a : sarg) : error :=
  mkError k (Some (describe a)) None None [] None.
Definition error_on (k : error_kind) (tok : bytes) : error :=
  mkError k None (Some tok) None [] None.

Definition dash : byte := "-"%byte.

Definition unknown_long (stk : list scope) (s : bytes) : stop :=
  if beqb s (bs "help") then SHelp stk
  else SErr (error_on UnknownNamedArgument (dash :: dash :: s)).
Definition unknown_short (stk : list scope) (c : N) : stop :=
  if (c =? b2n "h")%N then SHelp stk
  else SErr (error_on UnknownNamedArgument (dash :: utf8_encode c)).

(** An option given without an inline value, at the end of its token. *)
Definition bare (stk : list scope) (rem : list sarg) (ad : addr) (a : sarg) : list occ * outcome :=
  if takes_value a then
    if needs_equals a then ([], Stop (SErr (error_about MissingEq a)))
    else ([], Go (Await stk rem ad a))
  else ([Occ ad a None], Go (Normal stk rem)).

Definition read_long (stk : list scope) (rem : list sarg) (s : bytes) (v : option bytes)
  : list occ * outcome :=
  match resolve stk (Long s) with
  | None => ([], Stop (unknown_long stk s))
  | Some (ad, a) =>
      match v with
      | Some v => ([Occ ad a (Some v)], Go (Normal stk rem))
      | None => bare stk rem ad a
      end
  end.

(** The characters of a bundle, and the bytes after them that are not UTF-8.
    What follows an option in the bundle is its value if the option takes one;
    after an equals sign it is the value in any case. *)
Fixpoint read_bundle (stk : list scope) (rem : list sarg) (cs : list N) (junk : bytes)
  : list occ * outcome :=
  match cs with
  | [] =>
      match junk with
      | [] => ([], Go (Normal stk rem))
      | _ => ([], Stop (SErr (error_on UnknownNamedArgument (dash :: junk))))
      end
  | c :: cs' =>
      match resolve stk (Short c) with
      | None => ([], Stop (unknown_short stk c))
      | Some (ad, a) =>
          match encode_all cs' ++ junk with
          | [] => bare stk rem ad a
          | "="%byte :: v =>
              if takes_value a then ([Occ ad a (Some v)], Go (Normal stk rem))
              else
                let '(os, out) := read_bundle stk rem cs' junk in
                (Occ ad a (Some v) :: os, out)
          | tail =>
              if needs_equals a then ([], Stop (SErr (error_about MissingEq a)))
              else if takes_value a then ([Occ ad a (Some tail)], Go (Normal stk rem))
              else
                let '(os, out) := read_bundle stk rem cs' junk in
                (Occ ad a None :: os, out)
          end
      end
  end.

Definition sub_variants (stk : list scope) : list (ident * variant_decl V) :=
  match stk with
  | s :: _ => match subcommand (sc_decl s) with Some (_, _, vs) => vs | None => [] end
  | [] => []
  end.
Definition has_subcommand (stk : list scope) : bool :=
  match stk with
  | s :: _ => match subcommand (sc_decl s) with Some _ => true | None => false end
  | [] => false
  end.
Definition sub_name (v : ident * variant_decl V) : bytes := kebab_case (fst v).

(** Choosing the variant of a subcommand by name: the first one of that name.
    (The macro does not reject two variants of the same name,
    derive/src/derive_subcommand.rs:123; see [distinct_subcommands].) *)
Definition first_named (vs : list (ident * variant_decl V)) (tok : bytes)
  : option (ident * variant_decl V) :=
  find (fun v => beqb (sub_name v) tok) vs.

Section Reader.
Variable choose : list (ident * variant_decl V) -> bytes -> option (ident * variant_decl V).

(** A word as a positional value.  [sep] tells whether [--] was read. *)
Definition take_word (sep : bool) (stk : list scope) (rem : list sarg) (tok : bytes)
  : list occ * outcome :=
  let extra :=
    ([], Stop (SErr (error_on (if has_subcommand stk then UnknownSubcommand
                               else ExtraPositionalArgument) tok))) in
  match rem with
  | [] => extra
  | p :: rem' =>
      if sep || negb (is_last p) then
        let rest := if many p then rem else rem' in
        ([Occ (Addr (length stk - 1) [sa_id p]) p (Some tok)],
         Go (if greedy p then Drain stk p
             else if sep then Verbatim stk rest else Normal stk rest))
      else extra
  end.

(** What remains to be filled after [--]: only the [last] argument, if there is
    one. *)
Definition after_sep (stk : list scope) (rem : list sarg) : list sarg :=
  match stk with
  | s :: _ =>
      match filter is_last (positionals (sc_decl s)) with
      | [] => rem
      | ls => ls
      end
  | [] => rem
  end.

Definition step (st : state) (tok : bytes) : list occ * outcome :=
  match st with
  | Normal stk rem =>
      match form_of tok with
      | FSep => ([], Go (Verbatim stk (after_sep stk rem)))
      | FLong s v => read_long stk rem s v
      | FBundle b => let '(cs, junk) := utf8_prefix b in read_bundle stk rem cs junk
      | FWord =>
          match choose (sub_variants stk) tok with
          | Some v =>
              let s := variant_scope v in
              ([], Go (Normal (s :: stk) (positionals (sc_decl s))))
          | None => take_word false stk rem tok
          end
      end
  | Await stk rem ad a =>
      if may_follow a tok then ([Occ ad a (Some tok)], Go (Normal stk rem))
      else ([], Stop (SErr (error_about MissingValue a)))
  | Verbatim stk rem => take_word true stk rem tok
  | Drain stk p => ([Occ (Addr (length stk - 1) [sa_id p]) p (Some tok)], Go st)
  end.

Fixpoint read (st : state) (toks : list bytes) : list occ * outcome :=
  match toks with
  | [] => ([], Go st)
  | tok :: toks' =>
      let '(os, out) := step st tok in
      match out with
      | Go st' => let '(os', out') := read st' toks' in (os ++ os', out')
      | Stop s => (os, Stop s)
      end
  end.

Definition start (d : args_decl V) : state := Normal [Scope d [] false] (positionals d).
End Reader.

(** ** Values *)

Fixpoint position (b : bytes) (l : list bytes) : option nat :=
  match l with
  | [] => None
  | x :: l' => if beqb b x then Some 0 else option_map S (position b l')
  end.

(** The value of one piece of text, by the traits of the value type. *)
Definition read_value (u : value_ty V) (b : bytes) : V + error :=
  let bad src ctx := inr (mkError InvalidValue None (Some b) src ctx None) in
  let not_utf8 := Some (utf8_error_text b) in
  match vt_value_enum u, vt_try_from_os u, vt_from_str u with
  | Some (names, inj), _, _ =>
      let ctx :=
        bs "[possible values: " ++ join (bs ", ") (sort_by (fun n => n) names) ++ bs "]" in
      if utf8_valid b then
        match position b names with
        | Some i => inl (inj i)
        | None => bad None ctx
        end
      else bad not_utf8 ctx
  | None, Some f, _ => match f b with inl v => inl v | inr m => bad (Some m) [] end
  | None, None, Some f =>
      if utf8_valid b then match f b with inl v => inl v | inr m => bad (Some m) [] end
      else bad not_utf8 []
  | None, None, None => bad None []
  end.

(** The pieces of a value: cut at the delimiter, if the argument has one. *)
Definition pieces (a : sarg) (b : bytes) : list bytes :=
  match am_value_delimiter (sa_meta a) with
  | Some c => if many a then split_on (utf8_encode c) b else [b]
  | None => [b]
  end.

(** The text that is parsed: in lower case with [ignore_case]. *)
Definition folded (a : sarg) (v : option bytes) : option bytes :=
  match v with
  | Some b => Some (if am_ignore_case (sa_meta a) then map ascii_lower b else b)
  | None => None
  end.

Fixpoint first_error (u : value_ty V) (ps : list bytes) : option error :=
  match ps with
  | [] => None
  | p :: ps' => match read_value u p with inl _ => first_error u ps' | inr e => Some e end
  end.

(** Is this (folded) value an error for an argument that already has [prior]
    occurrences? *)
Definition value_error (a : sarg) (prior : bool) (v : option bytes) : option error :=
  let u := value_of_ty (sa_ty a) in
  let dup := err_new DuplicatedNamedArgument in
  let text := match v with Some b => b | None => [] end in
  match shape_a a with
  | ShFlag =>
      match v with
      | Some b => Some (error_on UnexpectedInlineValue b)
      | None => if prior then Some dup else None
      end
  | ShOne | ShOpt => if prior then Some dup else first_error u [text]
  | ShOptOpt =>
      if prior then Some dup
      else match v with Some b => first_error u [b] | None => None end
  | ShMany | ShOptMany => first_error u (pieces a text)
  end.

(** Errors about an option name it; those about a positional do not. *)
Definition occ_error (a : sarg) (prior : bool) (v : option bytes) : option error :=
  match value_error a prior (folded a v) with
  | Some e =>
      Some (if is_option a
            then mkError (e_kind e) (Some (describe a)) (e_input e) (e_source e) (e_context e)
                   (e_help e)
            else e)
  | None => None
  end.

Definition values_of (os : list occ) (ad : addr) : list (option bytes) :=
  map oc_val (filter (fun o => addr_eqb ad (oc_addr o)) os).
Definition given (os : list occ) (ad : addr) : bool :=
  match values_of os ad with [] => false | _ => true end.

(** The first occurrence that is an error. *)
Fixpoint first_bad (before : list occ) (os : list occ) : option error :=
  match os with
  | [] => None
  | o :: os' =>
      match occ_error (oc_arg o) (given before (oc_addr o)) (oc_val o) with
      | Some e => Some e
      | None => first_bad (before ++ [o]) os'
      end
  end.

(** The values of the pieces (those of a successful parse are all values). *)
Definition parsed (a : sarg) (b : bytes) : list V :=
  flat_map (fun p => match read_value (value_of_ty (sa_ty a)) p with inl v => [v] | inr _ => [] end)
    (pieces a b).

(** The value of a field with the given (folded) values; [None] if there is
    none, which a successful parse excludes. *)
Definition content (a : sarg) (vals : list (option bytes)) : option (fval V) :=
  let text v := match v with Some b => b | None => [] end in
  let all := flat_map (fun v => parsed a (text v)) vals in
  match shape_a a with
  | ShFlag => Some (FvBool (match vals with [] => false | _ => true end))
  | ShOne => option_map FvVal (hd_error all)
  | ShOpt => Some (FvOption (hd_error all))
  | ShOptOpt =>
      Some (FvOptionOption
        (match vals with
         | [] => None
         | None :: _ => Some None
         | Some b :: _ => Some (hd_error (parsed a b))
         end))
  | ShMany => Some (FvVec all)
  | ShOptMany => Some (FvOptionVec (match vals with [] => None | _ => Some all end))
  end.

(** ** Defaults *)

Inductive sdefault :=
| SdNone
| SdText (s : bytes)        (** [default_value = "s"]: read like a given value *)
| SdValue (d : dval V).     (** [default_value_t] *)
Definition default_of (a : sarg) : sdefault :=
  match am_default_value_t (sa_meta a), am_default_value (sa_meta a) with
  | Some (Explicit e), _ => SdValue (dx_val e)
  | Some Inherit, _ =>
      match shape_a a with
      | ShFlag => SdValue (DBool false)
      | _ => match vt_default (value_of_ty (sa_ty a)) with
             | Some v => SdValue (DVal v)
             | None => SdNone
             end
      end
  | None, Some s => SdText s
  | None, None => SdNone
  end.

Definition default_content (a : sarg) (d : dval V) : option (fval V) :=
  match shape_a a, d with
  | ShFlag, DBool b => Some (FvBool b)
  | ShOne, DVal v => Some (FvVal v)
  | ShOpt, DVal v => Some (FvOption (Some v))
  | ShOptOpt, DOpt o => Some (FvOptionOption (Some o))
  | ShMany, DVec l => Some (FvVec l)
  | ShOptMany, DVec l => Some (FvOptionVec (Some l))
  | _, _ => None
  end.

(** Is the default, if it is a text, a value of the argument? *)
Definition default_readable (a : sarg) : bool :=
  match default_of a with
  | SdText s => match value_error a false (Some s) with None => true | Some _ => false end
  | _ => true
  end.

(** The value of a field in a successful parse. *)
Definition field_value (a : sarg) (vals : list (option bytes)) : option (fval V) :=
  match vals with
  | [] =>
      match default_of a with
      | SdNone => content a []
      | SdText s => content a [Some s]
      | SdValue d => default_content a d
      end
  | _ => content a (map (folded a) vals)
  end.

(** ** Constraints *)

(** The order in which the arguments of a struct are checked and shown. *)
Definition checked (d : args_decl V) : list sarg :=
  filter is_option (own_args d) ++ positionals d.

Definition at_field (level : nat) (path : list ident) (id : ident) : addr :=
  Addr level (path ++ [id]).

Section Checks.
Variable os : list occ.
Variable level : nat.
Variable path : list ident.

Definition is_given (id : ident) : bool := given os (at_field level path id).

Definition error_about_id (k : error_kind) (d : args_decl V) (id : ident) : error :=
  match find (fun a => beqb id (sa_id a)) (own_args d) with
  | Some a => error_about k a
  | None => mkError k None None None [] None
  end.

(** The constraint that a given argument violates, if any. *)
Definition violation (d : args_decl V) (sub_given : bool) (a : sarg) : option error :=
  let others :=
    existsb (fun b => negb (beqb (sa_id b) (sa_id a)) && is_given (sa_id b)) (own_args d) in
  if is_given (sa_id a) then
    if am_exclusive (sa_meta a) && (others || sub_given)
    then Some (error_about ConstraintExclusive a)
    else
      match find (fun id => negb (is_given id)) (am_requires (sa_meta a)) with
      | Some id => Some (error_about_id ConstraintRequired d id)
      | None =>
          match find is_given (am_conflicts_with (sa_meta a)) with
          | Some _ => Some (error_about ConstraintConflict a)
          | None => None
          end
      end
  else None.

Fixpoint first_violation (d : args_decl V) (sub_given : bool) (l : list sarg) : option error :=
  match l with
  | [] => None
  | a :: l' =>
      match violation d sub_given a with
      | Some e => Some e
      | None => first_violation d sub_given l'
      end
  end.

(** An absent argument: missing if required; its default must be readable (a
    default that is not makes the program panic). *)
Fixpoint check_absent (l : list sarg) : res unit :=
  match l with
  | [] => Ok tt
  | a :: l' =>
      if is_given (sa_id a) then check_absent l'
      else if is_required a then Err (error_about MissingRequiredArgument a)
      else if default_readable a then check_absent l'
      else Panic PDefault
  end.

Definition direct_values (d : args_decl V) : list (ident * fval V) :=
  flat_map (fun a => match field_value a (values_of os (at_field level path (sa_id a))) with
                     | Some v => [(sa_id a, v)]
                     | None => []
                     end) (checked d).
End Checks.

Definition is_some {A} (o : option A) : bool := match o with Some _ => true | None => false end.

(** One struct, given the values of its flattened structs and its subcommand. *)
Definition finish_struct (os : list occ) (level : nat) (path : list ident) (d : args_decl V)
    (flats : list (ident * outval V)) (sub : option (subval V)) : res (outval V) :=
  match first_violation os level path d (is_some sub) (checked d) with
  | Some e => Err e
  | None =>
      let* _ := check_absent os level path (checked d) in
      match subcommand d, sub with
      | Some (_, false, _), None => Err (err_new MissingRequiredSubcommand)
      | Some (id, _, _), _ => Ok (Out (direct_values os level path d) flats (Some (id, sub)))
      | None, _ => Ok (Out (direct_values os level path d) flats None)
      end
  end.

(** A struct after its flattened ones. *)
Fixpoint finish_args (os : list occ) (level : nat) (path : list ident) (d : args_decl V)
    (sub : option (subval V)) : res (outval V) :=
  let '(MkArgsDecl at_ fs) := d in
  let flats :=
    fold_left (fun acc (f : ident * field_decl V) =>
      let '(id, fd) := f in
      match fd with
      | FFlatten a =>
          let* outs := acc in
          let* o := finish_args os level (path ++ [id]) a None in
          Ok (outs ++ [(id, o)])
      | _ => acc
      end) fs (Ok []) in
  let* outs := flats in
  finish_struct os level path (MkArgsDecl at_ fs) outs sub.

(** The commands, innermost first. *)
Fixpoint finish_stack (os : list occ) (stk : list scope) (sub : option (subval V))
  : res (outval V) :=
  match stk with
  | [] => Panic PShape
  | s :: outer =>
      let* o := finish_args os (length outer) [] (sc_decl s) sub in
      match outer with
      | [] => Ok o
      | _ =>
          finish_stack os outer
            (Some (SubV (sc_ident s) (if sc_unit s then None else Some o)))
      end
  end.

(** ** Help *)

(** The name of the program as shown: the last component of the path. *)
Fixpoint cut_slash (b acc : bytes) : list bytes :=
  match b with
  | [] => [rev acc]
  | x :: b' => if Byte.eqb x "/"%byte then rev acc :: cut_slash b' [] else cut_slash b' (x :: acc)
  end.
Definition real_component (c : bytes) : bool := negb (beqb c []) && negb (beqb c (bs ".")).
Definition shown_name (argv0 : bytes) : bytes :=
  match rev (filter real_component (cut_slash argv0 [])) with
  | c :: _ => if beqb c (bs "..") then argv0 else c
  | [] => argv0
  end.

Definition about (at_ : cmd_attrs) : bytes :=
  match cmd_meta_of at_ with
  | Some m => match cm_long_about m with Some t => t | None => cm_doc m end
  | None => []
  end.
Definition after_help (at_ : cmd_attrs) : bytes :=
  match cmd_meta_of at_ with
  | Some m => match cm_after_long_help m with Some t => t | None => [] end
  | None => []
  end.

Definition shown (a : sarg) : bool := negb (am_hide (sa_meta a)).
(** The text of a default value: the name of the variant, or what [Display]
    writes. *)
Definition value_text (u : value_ty V) (v : V) : option bytes :=
  match vt_value_enum u with
  | Some (names, _) => nth_error names (vt_variant u v)
  | None => option_map (fun f => f v) (vt_display u)
  end.
Definition default_text (a : sarg) : option bytes :=
  match am_default_value_t (sa_meta a), am_default_value (sa_meta a) with
  | Some (Explicit (mkDexpr _ (Some literal))), _ => Some literal
  | Some _, _ =>
      Some (match default_of a with
            | SdValue (DBool b) => if b then bs "true" else bs "false"
            | SdValue (DVal v) => match value_text (value_of_ty (sa_ty a)) v with Some t => t | None => [] end
            | _ => []
            end)
  | None, Some s => Some s
  | None, None => None
  end.

(** The entry of an argument in its section. *)
Definition entry (a : sarg) : bytes :=
  bs "  " ++ (if is_option a then match short_name a with None => bs "    " | Some _ => [] end else [])
  ++ describe a ++ [c_nl]
  ++ (match doc_process (am_doc (sa_meta a)) with
      | [] => []
      | t => bs "          " ++ t ++ [c_nl]
      end)
  ++ (match default_text a with
      | Some t => bs "          [default: " ++ t ++ bs "]" ++ [c_nl]
      | None => []
      end)
  ++ [c_nl].

(** The mention in the usage line: the long name if there is one.  (An option
    whose short name is not ASCII keeps both.) *)
Definition usage_form (a : sarg) : bytes :=
  match is_option a, short_name a, long_name a with
  | true, Some c, Some l => if (c <? 128)%N then bs "--" ++ l ++ value_part a else describe a
  | _, _, _ => describe a
  end.
Definition usage_of (a : sarg) : bytes :=
  if is_option a then if is_required a then bs " " ++ usage_form a else []
  else
    if is_last a then
      (if is_required a then bs " -- " ++ describe a else bs " [-- " ++ describe a ++ bs "]")
    else if is_required a || many a then bs " " ++ describe a else [].

Definition first_line (t : bytes) : bytes :=
  match split_once c_nl t with Some (l, _) => l | None => t end.
Definition variant_about (v : ident * variant_decl V) : bytes :=
  about (attrs_of (sc_decl (variant_scope v))).
Definition command_line (width : nat) (v : ident * variant_decl V) : bytes :=
  bs "    " ++ sub_name v
  ++ repeat " "%byte (Nat.min 24 (width - length (sub_name v) + 2))
  ++ first_line (variant_about v) ++ [c_nl].

Definition section (title body : bytes) : bytes :=
  match body with [] => [] | _ => title ++ [c_nl] ++ body end.

Fixpoint command_names (stk : list scope) : list bytes :=
  match stk with
  | [] | [_] => []
  | s :: outer => command_names outer ++ [kebab_case (sc_ident s)]
  end.

Definition help_text (argv0 : bytes) (stk : list scope) : bytes :=
  match stk with
  | [] => []
  | s :: _ =>
      let d := sc_decl s in
      let all := filter shown (map snd (reach d)) in
      let opts := filter is_option all in
      let poss := filter shown (positionals d) in
      (match about (attrs_of d) with [] => [] | t => t ++ [c_nl; c_nl] end)
      ++ bs "Usage:"
      ++ flat_map (fun n => bs " " ++ n) (to_string_lossy (shown_name argv0) :: command_names stk)
      ++ flat_map usage_of opts
      ++ (if existsb (fun a => negb (is_required a)) opts then bs " [OPTIONS]" else [])
      ++ flat_map usage_of poss
      ++ (match subcommand d with
          | Some (_, true, _) => bs " [COMMAND]"
          | Some (_, false, _) => bs " <COMMAND>"
          | None => []
          end)
      ++ [c_nl; c_nl]
      ++ (match subcommand d with
          | Some (_, _, vs) =>
              let width := fold_right Nat.max 0 (map (fun v => length (sub_name v)) vs) in
              bs "Commands:" ++ [c_nl] ++ flat_map (command_line width) vs ++ [c_nl]
          | None => []
          end)
      ++ section (bs "Arguments:") (flat_map entry poss)
      ++ section (bs "Options:") (flat_map entry opts)
      ++ after_help (attrs_of d)
  end.

(** ** The whole *)

(** Subcommand names identify variants, in every command.  The macro does not
    check this (derive/src/derive_subcommand.rs:123). *)
Fixpoint all_distinct (l : list bytes) : bool :=
  match l with
  | [] => true
  | x :: l' => negb (existsb (beqb x) l') && all_distinct l'
  end.
Fixpoint distinct_subcommands (d : args_decl V) : bool :=
  let '(MkArgsDecl _ fs) := d in
  forallb (fun (f : ident * field_decl V) =>
    let '(_, fd) := f in
    match fd with
    | FSub _ (MkSubDecl vs) =>
        all_distinct (map sub_name vs)
        && forallb (fun (v : ident * variant_decl V) =>
             let '(_, vd) := v in
             match vd with
             | VDUnit _ => true
             | VDNewtype _ x | VDStruct x => distinct_subcommands x
             end) vs
    | _ => true
    end) fs.

Definition spec_parse_with choose (d : args_decl V) (argv : list bytes) : res (outval V) :=
  match argv with
  | [] => Err (err_new MissingArg0)
  | argv0 :: toks =>
      let '(os, out) := read choose (start d) toks in
      match first_bad [] os with
      | Some e => Err e
      | None =>
          match out with
          | Stop (SErr e) => Err e
          | Stop (SHelp stk) =>
              Err (mkError Help None None None [] (Some (help_text argv0 stk)))
          | Go (Await _ _ _ a) => Err (error_about MissingValue a)
          | Go st => finish_stack os (state_stack st) None
          end
      end
  end.

Definition spec_parse := spec_parse_with first_named.
End Spec.
Arguments sarg : clear implicits.
Arguments scope : clear implicits.
Arguments occ : clear implicits.
Arguments state : clear implicits.
Arguments stop : clear implicits.
Arguments outcome : clear implicits.
