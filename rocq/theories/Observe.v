(** The vocabulary in which the properties are stated, on top of the
    specification ([Spec.v]): positions in a command line, spellings of an
    option, and looking up a field in a parsed value.  Nothing here refers to
    the model of the code except [valid], which says that the macros accept a
    declaration. *)
From Verif Require Import Bytes Utf8 Error Values Heck Places Decl Spec Derive.

Section Observe.
Context {V : Type}.
Local Notation args_decl := (args_decl V).
Local Notation sarg := (sarg V).
Local Notation scope := (scope V).
Local Notation occ := (occ V).

(** A declaration the macros accept, whose subcommand names are distinct in
    every command.  (The macros do not check the latter, so that two variants
    may have the same name; see C40.) *)
Definition valid (d : args_decl) : Prop := accepted d /\ distinct_subcommands d = true.

(** ** Positions *)

(** After the tokens [pre] the occurrences [os] have been read, the commands
    [stk] are entered (innermost first), the positionals [rem] of the innermost
    one are still to be filled, and the next token is in option position: it is
    not the value of an option and no [--] was read. *)
Definition at_option (d : args_decl) (pre : list bytes) (os : list occ) (stk : list scope)
    (rem : list sarg) : Prop :=
  read first_named (start d) pre = (os, Go (Normal stk rem)).

(** No token of [pre] is an error by itself: every occurrence has a value of its
    type and no single-valued argument was given twice. *)
Definition no_error_in (os : list occ) : Prop := first_bad [] os = None.

(** All the tokens are read: they are the occurrences [os] and enter the
    commands [stk]; no option waits for its value. *)
Definition complete (st : state V) : Prop := match st with Await _ _ _ _ => False | _ => True end.
Definition reads (d : args_decl) (toks : list bytes) (os : list occ) (stk : list scope) : Prop :=
  exists st, read first_named (start d) toks = (os, Go st) /\ complete st /\ state_stack st = stk.

(** What a command line gives, from what was read of it. *)
Definition conclude (argv0 : bytes) (x : list occ * outcome V) : res (outval V) :=
  let '(os, out) := x in
  match first_bad [] os with
  | Some e => Err e
  | None =>
      match out with
      | Stop (SErr e) => Err e
      | Stop (SHelp stk) => Err (mkError Help None None None [] (Some (help_text argv0 stk)))
      | Go (Await _ _ _ a) => Err (error_about MissingValue a)
      | Go st => finish_stack os (state_stack st) None
      end
  end.

(** ** Spellings *)

Definition spell (n : name) : bytes :=
  match n with Long s => bs "--" ++ s | Short c => bs "-" ++ utf8_encode c end.
Definition spell_eq (n : name) (v : bytes) : bytes := spell n ++ bs "=" ++ v.

(** The ways to give the value [v] to an option [a] by its name [n]: [--n=v],
    [-n=v], [--n v], [-n v], [-nv]. *)
Inductive gives_value (a : sarg) (n : name) (v : bytes) : list bytes -> Prop :=
| gives_eq : gives_value a n v [spell_eq n v]
| gives_next : needs_equals a = false -> may_follow a v = true -> gives_value a n v [spell n; v]
| gives_attached c : n = Short c -> needs_equals a = false ->
    v <> [] -> (forall w, v <> "="%byte :: w) -> gives_value a n v [spell n ++ v].

(** [writes stk toks ad a v]: the tokens [toks] give the option [a] at [ad], with
    the value [v] or without one, in one of the ways there are. *)
Inductive writes (stk : list scope) : list bytes -> addr -> sarg -> option bytes -> Prop :=
| writes_value n ad a v toks : resolve stk n = Some (ad, a) -> takes_value a = true ->
    gives_value a n v toks -> writes stk toks ad a (Some v)
| writes_bare n ad a : resolve stk n = Some (ad, a) -> takes_value a = false ->
    writes stk [spell n] ad a None
| writes_long s ad a v : resolve stk (Long s) = Some (ad, a) -> takes_value a = false ->
    writes stk [spell_eq (Long s) v] ad a (Some v).

(** The name of a flag: an option without a value (and without
    [require_equals]). *)
Definition plain_flag (stk : list scope) (c : N) : Prop :=
  exists ad a, resolve stk (Short c) = Some (ad, a) /\ takes_value a = false /\ needs_equals a = false.

(** Not the name of any argument in scope: of the innermost command, or global. *)
Definition unknown (stk : list scope) (n : name) : Prop :=
  forall ad a, In (ad, a) (stack_args stk) ->
  S (ad_level ad) = length stk \/ is_global a = true -> ~ has_name a n.

(** ** Looking up fields in a parsed value *)

Fixpoint assoc {A} (id : ident) (l : list (ident * A)) : option A :=
  match l with
  | [] => None
  | (id', x) :: l' => if beqb id id' then Some x else assoc id l'
  end.
(** The value of the subcommand entered at a level below [o]. *)
Fixpoint inside (level : nat) (o : outval V) : option (outval V) :=
  match level with
  | O => Some o
  | S level' =>
      match o with
      | Out _ _ (Some (_, Some (SubV _ (Some o')))) => inside level' o'
      | _ => None
      end
  end.
Fixpoint field_on (path : list ident) (o : outval V) : option (fval V) :=
  let '(Out direct flat _) := o in
  match path with
  | [] => None
  | [id] => assoc id direct
  | id :: path' => match assoc id flat with Some o' => field_on path' o' | None => None end
  end.
Definition field_at (ad : addr) (o : outval V) : option (fval V) :=
  match inside (ad_level ad) o with Some o' => field_on (ad_path ad) o' | None => None end.

(** The subcommand variants of a parsed value, outermost first. *)
Fixpoint entered (o : outval V) : list ident :=
  let '(Out _ _ sub) := o in
  match sub with
  | Some (_, Some (SubV v (Some o'))) => v :: entered o'
  | Some (_, Some (SubV v None)) => [v]
  | _ => []
  end.

(** ** The value of a field *)

(** The text of a value that is given to its type. *)
Definition text_of (a : sarg) (b : bytes) : bytes :=
  if am_ignore_case (sa_meta a) then map ascii_lower b else b.

(** [reads_as u ps xs]: the type [u] reads the pieces [ps] as the values [xs]. *)
Definition reads_as (u : value_ty V) (ps : list bytes) (xs : list V) : Prop :=
  map (read_value u) ps = map inl xs.

(** The value of a field whose argument was given the texts [texts] (for
    [Option<Option<T>>] and flags, [None] is an occurrence without a value). *)
Inductive denotes (a : sarg) : list (option bytes) -> fval V -> Prop :=
| denotes_flag : shape_a a = ShFlag -> denotes a [None] (FvBool true)
| denotes_one b x : shape_a a = ShOne -> reads_as (value_of_ty (sa_ty a)) [b] [x] ->
    denotes a [Some b] (FvVal x)
| denotes_opt b x : shape_a a = ShOpt -> reads_as (value_of_ty (sa_ty a)) [b] [x] ->
    denotes a [Some b] (FvOption (Some x))
| denotes_optopt_bare : shape_a a = ShOptOpt -> denotes a [None] (FvOptionOption (Some None))
| denotes_optopt b x : shape_a a = ShOptOpt -> reads_as (value_of_ty (sa_ty a)) [b] [x] ->
    denotes a [Some b] (FvOptionOption (Some (Some x)))
| denotes_many texts xs : shape_a a = ShMany ->
    reads_as (value_of_ty (sa_ty a)) (flat_map (pieces a) texts) xs ->
    denotes a (map Some texts) (FvVec xs)
| denotes_optmany texts xs : shape_a a = ShOptMany ->
    reads_as (value_of_ty (sa_ty a)) (flat_map (pieces a) texts) xs ->
    denotes a (map Some texts) (FvOptionVec (Some xs)).

(** The value of a field whose argument was not given. *)
Inductive denotes_absent (a : sarg) : fval V -> Prop :=
| absent_flag : has_default a = false -> shape_a a = ShFlag -> denotes_absent a (FvBool false)
| absent_opt : has_default a = false -> shape_a a = ShOpt -> denotes_absent a (FvOption None)
| absent_optopt : has_default a = false -> shape_a a = ShOptOpt ->
    denotes_absent a (FvOptionOption None)
| absent_many : has_default a = false -> shape_a a = ShMany -> denotes_absent a (FvVec [])
| absent_optmany : has_default a = false -> shape_a a = ShOptMany ->
    denotes_absent a (FvOptionVec None)
| absent_text s fv : am_default_value (sa_meta a) = Some s -> denotes a [Some s] fv ->
    denotes_absent a fv
| absent_type v : am_default_value_t (sa_meta a) = Some Inherit -> shape_a a <> ShFlag ->
    vt_default (value_of_ty (sa_ty a)) = Some v ->
    forall fv, default_content a (DVal v) = Some fv -> denotes_absent a fv
| absent_type_flag : am_default_value_t (sa_meta a) = Some Inherit -> shape_a a = ShFlag ->
    denotes_absent a (FvBool false)
| absent_expr e fv : am_default_value_t (sa_meta a) = Some (Explicit e) ->
    default_content a (dx_val e) = Some fv -> denotes_absent a fv.

(** ** Constraints *)

(** The field [id] of the struct that has the field at [ad]. *)
Definition sibling (ad : addr) (id : ident) : addr :=
  Addr (ad_level ad) (removelast (ad_path ad) ++ [id]).
Definition same_struct (ad ad' : addr) : Prop :=
  ad_level ad = ad_level ad' /\ removelast (ad_path ad) = removelast (ad_path ad').
(** Is it a field of the command's own struct, not of a flattened one? *)
Definition own_field (ad : addr) : Prop := removelast (ad_path ad) = [].

(** The occurrences [os] satisfy the constraints declared in the entered
    commands [stk]. *)
Record satisfied (os : list occ) (stk : list scope) : Prop := {
  sat_required : forall ad a, In (ad, a) (stack_args stk) ->
    is_required a = true -> given os ad = true;
  sat_conflicts : forall ad a id, In (ad, a) (stack_args stk) -> given os ad = true ->
    In id (am_conflicts_with (sa_meta a)) -> given os (sibling ad id) = false;
  sat_requires : forall ad a id, In (ad, a) (stack_args stk) -> given os ad = true ->
    In id (am_requires (sa_meta a)) -> given os (sibling ad id) = true;
  sat_exclusive : forall ad a ad' b, In (ad, a) (stack_args stk) -> In (ad', b) (stack_args stk) ->
    am_exclusive (sa_meta a) = true -> given os ad = true ->
    same_struct ad ad' -> ad' <> ad -> given os ad' = false;
  sat_exclusive_sub : forall ad a, In (ad, a) (stack_args stk) ->
    am_exclusive (sa_meta a) = true -> given os ad = true -> own_field ad ->
    S (ad_level ad) = length stk;
  sat_subcommand : forall s outer id vs, stk = s :: outer ->
    subcommand (sc_decl s) <> Some (id, false, vs)
}.

(** ** All the arguments of a declaration *)

(** Does [p] hold of all the arguments of a struct, its flattened structs and
    its subcommands? *)
Fixpoint every_arg (p : sarg -> bool) (d : args_decl) : bool :=
  let '(MkArgsDecl _ fs) := d in
  forallb (fun (f : ident * field_decl V) =>
    let '(id, fd) := f in
    match fd with
    | FArg m t => p (Arg id m t)
    | FFlatten x => every_arg p x
    | FSub _ (MkSubDecl vs) =>
        forallb (fun (v : ident * variant_decl V) =>
          let '(_, vd) := v in
          match vd with
          | VDUnit _ => true
          | VDNewtype _ x | VDStruct x => every_arg p x
          end) vs
    end) fs.
(** Every [default_value = ".."] is a text the argument's type parses. *)
Definition defaults_readable (d : args_decl) : bool := every_arg default_readable d.
End Observe.
