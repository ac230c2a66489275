(** What the attributes, types and items of a source say: the grammar of the
    attributes, the values they take, how often they may be written, and the
    declaration they stand for.  Nothing here refers to the way the macros read
    them. *)
From Verif Require Import Bytes Utf8 Error Values Heck Places Decl Spec EnumDerive WellFormed Source.
From Coq Require Import Permutation.

Section Each.
Context {A B : Type} (P : A -> Prop) (R : A -> B -> Prop).
Fixpoint each (l : list A) : Prop :=
  match l with [] => True | x :: l' => P x /\ each l' end.
Fixpoint each2 (l : list A) (m : list B) : Prop :=
  match l, m with
  | [], [] => True
  | x :: l', y :: m' => R x y /\ each2 l' m'
  | _, _ => False
  end.
End Each.

Section Written.
Context {V : Type}.
Local Notation aexpr := (aexpr V).
Local Notation tok := (tok V).
Local Notation attribute := (attribute V).

(** ** Items *)

(** [name] or [name = value]. *)
Record item := Item { it_name : bytes; it_value : option aexpr }.
Definition word (s : bytes) : path := mkPath false [s].
Definition item_toks (i : item) : list tok :=
  TPath (word (it_name i)) :: match it_value i with Some e => [TEq; TExpr e] | None => [] end.

(** Items separated by commas; a comma at the end is allowed. *)
Inductive item_list : list tok -> list item -> Prop :=
| il_nil : item_list [] []
| il_one i : item_list (item_toks i) [i]
| il_cons i ts l : item_list ts l -> item_list (item_toks i ++ TComma :: ts) (i :: l).

Definition bears (name : bytes) (a : attribute) : Prop :=
  match a with AtDoc _ => name = bs "doc" | AtList p _ | AtPlain p => p = word name end.

(** All the items in the attributes [#[name(..)]], in order. *)
Inductive items (name : bytes) : list attribute -> list item -> Prop :=
| is_nil : items name [] []
| is_list ts l attrs l' :
    item_list ts l -> items name attrs l' ->
    items name (AtList (word name) ts :: attrs) (l ++ l')
| is_other a attrs l :
    ~ bears name a -> items name attrs l -> items name (a :: attrs) l.

Definition uses (name : bytes) (attrs : list attribute) : Prop :=
  exists a, In a attrs /\ bears name a.
Definition docs (attrs : list attribute) : list bytes :=
  flat_map (fun a => match a with AtDoc (Some s) => [s] | _ => [] end) attrs.
Definition docs_literal (attrs : list attribute) : Prop := ~ In (AtDoc None) attrs.

(** ** Values *)

Inductive vkind :=
| VkNothing | VkStr | VkOptStr | VkChar | VkOptChar | VkStrs | VkChars | VkTrue
| VkExpr | VkOptExpr | VkField | VkFields | VkRename.

Definition is_str (f : form) : Prop := exists s, f = FoStr s.
Definition is_char (f : form) : Prop := exists c, f = FoChar c.
(** The name of a field, in quotes. *)
Definition is_field (f : form) : Prop :=
  exists s, f = FoStr s /\ identifier s /\ ~ In s keywords.
Definition one_or_more (P : form -> Prop) (f : form) : Prop :=
  P f \/ exists l, f = FoArray l /\ Forall P l.

Definition takes (k : vkind) (v : option aexpr) : Prop :=
  match k, v with
  | VkNothing, None | VkOptStr, None | VkOptChar, None | VkOptExpr, None => True
  | (VkStr | VkOptStr), Some e => is_str (ax_form e)
  | (VkChar | VkOptChar), Some e => is_char (ax_form e)
  | VkStrs, Some e => one_or_more is_str (ax_form e)
  | VkChars, Some e => one_or_more is_char (ax_form e)
  | VkTrue, Some e => ax_form e = FoBool true
  | (VkExpr | VkOptExpr), Some e => True
  | VkField, Some e => is_field (ax_form e)
  | VkFields, Some e => one_or_more is_field (ax_form e)
  | VkRename, Some e =>
      exists s, ax_form e = FoStr s /\
        In s [bs "camelCase"; bs "kebab-case"; bs "PascalCase"; bs "SCREAMING_SNAKE_CASE";
              bs "snake_case"; bs "lower"; bs "UPPER"; bs "verbatim"]
  | _, _ => False
  end.

(** ** Tables: name, value, and the slot that may be filled once (items without
    a slot may be repeated) *)

Record row := Row { r_name : bytes; r_kind : vkind; r_slot : option bytes }.

Definition once (n : bytes) (k : vkind) : row := Row n k (Some n).
Definition arg_table : list row :=
  [once (bs "long") VkOptStr; once (bs "short") VkOptChar;
   Row (bs "alias") VkStrs None; Row (bs "aliases") VkStrs None;
   Row (bs "short_alias") VkChars None; Row (bs "short_aliases") VkChars None;
   once (bs "value_name") VkStr;
   once (bs "require_equals") VkTrue; once (bs "global") VkTrue;
   once (bs "allow_hyphen_values") VkTrue; once (bs "allow_negative_numbers") VkTrue;
   once (bs "trailing_var_arg") VkTrue; once (bs "last") VkTrue; once (bs "ignore_case") VkTrue;
   once (bs "hide") VkTrue; once (bs "required") VkTrue; once (bs "exclusive") VkTrue;
   once (bs "default_value") VkStr;
   once (bs "default_value_t") VkOptExpr;
   Row (bs "default_values_t") VkOptExpr (Some (bs "default_value_t"));
   once (bs "value_delimiter") VkChar;
   Row (bs "use_value_delimiter") VkTrue (Some (bs "value_delimiter"));
   once (bs "value_enum") VkNothing; once (bs "help") VkStr; once (bs "long_help") VkStr;
   Row (bs "requires") VkField None; Row (bs "conflicts_with") VkField None;
   Row (bs "conflicts_with_all") VkFields None].
Definition cmd_table : list row :=
  [once (bs "name") VkStr; once (bs "version") VkOptExpr; once (bs "long_about") VkOptExpr;
   once (bs "after_long_help") VkExpr].
Definition enum_table : list row := [once (bs "rename_all") VkRename].
Definition variant_table : list row := [once (bs "name") VkStr].

Definition slots (table : list row) (l : list item) : list bytes :=
  flat_map (fun i => flat_map (fun r => if beqb (r_name r) (it_name i)
                                        then match r_slot r with Some s => [s] | None => [] end
                                        else []) table) l.
Definition good_items (table : list row) (l : list item) : Prop :=
  Forall (fun i => exists r, In r table /\ r_name r = it_name i /\ takes (r_kind r) (it_value i)) l /\
  NoDup (slots table l).
(** The attributes [#[name(..)]] are lists of such items. *)
Definition good_attrs (name : bytes) (table : list row) (attrs : list attribute) (l : list item)
  : Prop := items name attrs l /\ good_items table l.

(** ** What an [arg] field says *)

Definition strs (f : form) : list bytes :=
  match f with
  | FoStr s => [s]
  | FoArray l => flat_map (fun g => match g with FoStr s => [s] | _ => [] end) l
  | _ => []
  end.
Definition chars (f : form) : list N :=
  match f with
  | FoChar c => [c]
  | FoArray l => flat_map (fun g => match g with FoChar c => [c] | _ => [] end) l
  | _ => []
  end.
(** The values of all the items with one of the names, in order. *)
Definition gather {A} (ns : list bytes) (f : form -> list A) (l : list item) : list A :=
  flat_map (fun i => if existsb (beqb (it_name i)) ns
                     then match it_value i with Some e => f (ax_form e) | None => [] end
                     else []) l.

Definition says_str (l : list item) (n : bytes) (o : option bytes) : Prop :=
  forall s, o = Some s <-> exists e, In (Item n (Some e)) l /\ ax_form e = FoStr s.
Definition says_char (l : list item) (n : bytes) (o : option N) : Prop :=
  forall c, o = Some c <-> exists e, In (Item n (Some e)) l /\ ax_form e = FoChar c.
Definition says_true (l : list item) (n : bytes) (b : bool) : Prop :=
  b = true <-> exists v, In (Item n v) l.

Record arg_says (ds : list bytes) (l : list item) (m : arg_meta V) : Prop := {
  ay_doc : am_doc m = ds;
  ay_long_default : am_long m = Some Inherit <-> In (Item (bs "long") None) l;
  ay_long : says_str l (bs "long")
    (match am_long m with Some (Explicit s) => Some s | _ => None end);
  ay_short_default : am_short m = Some Inherit <-> In (Item (bs "short") None) l;
  ay_short : says_char l (bs "short")
    (match am_short m with Some (Explicit c) => Some c | _ => None end);
  ay_alias : am_alias m = gather [bs "alias"; bs "aliases"] strs l;
  ay_short_alias : am_short_alias m = gather [bs "short_alias"; bs "short_aliases"] chars l;
  ay_value_name : says_str l (bs "value_name") (am_value_name m);
  ay_require_equals : says_true l (bs "require_equals") (am_require_equals m);
  ay_global : says_true l (bs "global") (am_global m);
  ay_allow_hyphen_values : says_true l (bs "allow_hyphen_values") (am_allow_hyphen_values m);
  ay_allow_negative_numbers :
    says_true l (bs "allow_negative_numbers") (am_allow_negative_numbers m);
  ay_ignore_case : says_true l (bs "ignore_case") (am_ignore_case m);
  ay_trailing_var_arg : says_true l (bs "trailing_var_arg") (am_trailing_var_arg m);
  ay_last : says_true l (bs "last") (am_last m);
  ay_default_value : says_str l (bs "default_value") (am_default_value m);
  ay_default_default : am_default_value_t m = Some Inherit <->
    In (Item (bs "default_value_t") None) l \/ In (Item (bs "default_values_t") None) l;
  ay_default_value_t : forall x, am_default_value_t m = Some (Explicit x) <->
    exists e, (In (Item (bs "default_value_t") (Some e)) l \/
               In (Item (bs "default_values_t") (Some e)) l) /\ ax_default e = x;
  ay_value_delimiter : forall c, am_value_delimiter m = Some c <->
    (exists e, In (Item (bs "value_delimiter") (Some e)) l /\ ax_form e = FoChar c) \/
    (exists v, In (Item (bs "use_value_delimiter") v) l /\ c = b2n ",");
  ay_hide : says_true l (bs "hide") (am_hide m);
  ay_required : says_true l (bs "required") (am_required m);
  ay_exclusive : says_true l (bs "exclusive") (am_exclusive m);
  ay_requires : am_requires m = gather [bs "requires"] strs l;
  ay_conflicts_with :
    am_conflicts_with m = gather [bs "conflicts_with"; bs "conflicts_with_all"] strs l
}.

(** ** Fields *)

(** [#[command(subcommand)]] and [#[command(flatten)]]. *)
Definition command_word (s : bytes) : attribute := AtList (word (bs "command")) [TPath (word s)].

Inductive field_kind := AnArg (l : list item) | ASubcommand | AFlatten.
Inductive field_says (attrs : list attribute) : field_kind -> Prop :=
| fy_arg l :
    docs_literal attrs -> ~ uses (bs "command") attrs ->
    good_attrs (bs "arg") arg_table attrs l -> field_says attrs (AnArg l)
| fy_subcommand pre post :
    docs_literal attrs -> ~ uses (bs "arg") attrs ->
    attrs = pre ++ command_word (bs "subcommand") :: post ->
    ~ uses (bs "command") (pre ++ post) -> field_says attrs ASubcommand
| fy_flatten pre post :
    docs_literal attrs -> ~ uses (bs "arg") attrs ->
    attrs = pre ++ command_word (bs "flatten") :: post ->
    ~ uses (bs "command") (pre ++ post) -> field_says attrs AFlatten.

(** ** Structs and variants *)

Variable pkg_description : bytes.

Record cmd_says (attrs : list attribute) (ca : cmd_attrs) : Prop := {
  cy_doc : ca_doc ca = docs attrs;
  cy_command : ca_has_command ca = true <-> uses (bs "command") attrs;
  cy_text : exists l, good_attrs (bs "command") cmd_table attrs l /\
    (forall s, ca_long_about ca = Some s <->
       (In (Item (bs "long_about") None) l /\ s = pkg_description) \/
       exists e, In (Item (bs "long_about") (Some e)) l /\ ax_text e = Some s) /\
    (forall s, ca_after_long_help ca = Some s <->
       exists e, In (Item (bs "after_long_help") (Some e)) l /\ ax_text e = Some s)
}.
Definition good_command (attrs : list attribute) : Prop :=
  docs_literal attrs /\ ~ uses (bs "arg") attrs /\
  exists l, good_attrs (bs "command") cmd_table attrs l /\
    forall n e, In (Item n (Some e)) l -> n = bs "long_about" \/ n = bs "after_long_help" ->
      ax_text e <> None.

(** ** Types *)

(** [name] and [name<t>]. *)
Definition simple (n : bytes) (u : value_ty V) : rty V := RPath false false [(n, PaNone)] u.
Definition applied (n : bytes) (t : rty V) (u : value_ty V) : rty V :=
  RPath false false [(n, PaAngle [GaType t])] u.
Definition written_as (n : bytes) (t : rty V) : Prop := exists t' u, t = applied n t' u.

(** The shape of a field and the type of its values. *)
Inductive ty_says : rty V -> shape -> rty V -> Prop :=
| ty_flag u : ty_says (simple (bs "bool") u) ShFlag (simple (bs "bool") u)
| ty_opt t u :
    ~ written_as (bs "Option") t -> ~ written_as (bs "Vec") t ->
    ty_says (applied (bs "Option") t u) ShOpt t
| ty_opt_opt t u u' :
    ty_says (applied (bs "Option") (applied (bs "Option") t u') u) ShOptOpt t
| ty_opt_vec t u u' :
    ty_says (applied (bs "Option") (applied (bs "Vec") t u') u) ShOptMany t
| ty_vec t u : ty_says (applied (bs "Vec") t u) ShMany t
| ty_one t :
    (forall u, t <> simple (bs "bool") u) -> ~ written_as (bs "Option") t ->
    ~ written_as (bs "Vec") t -> ty_says t ShOne t.

(** ** The whole source *)

(** Is everything written as it should?  What is left are the rules on
    declarations, WellFormed.v. *)
Fixpoint good_struct (s : src_struct V) : Prop :=
  let '(SStruct attrs generic body) := s in
  generic = false /\
  match body with
  | SbNamed fs => good_command attrs /\ each (fun f => let '(_, x) := f in good_field x) fs
  | SbOther => False
  end
with good_field (f : src_field V) : Prop :=
  let '(SField attrs t tg) := f in
  exists k, field_says attrs k /\
  match k with
  | AnArg _ => True
  | AFlatten => match tg with TgArgs s => good_struct s | _ => False end
  | ASubcommand => match tg with TgSub e => good_enum e | _ => False end
  end
with good_enum (e : src_enum V) : Prop :=
  let '(SEnum _ generic body) := e in
  generic = false /\
  match body with
  | EbVariants vs => each (fun v => let '(_, x) := v in good_variant x) vs
  | EbOther => False
  end
with good_variant (v : src_variant V) : Prop :=
  match v with
  | SvUnit attrs => good_command attrs
  | SvTuple attrs [(_, TgArgs s)] => good_command attrs /\ good_struct s
  | SvTuple _ _ => False
  | SvStruct attrs fs => good_command attrs /\ each (fun f => let '(_, x) := f in good_field x) fs
  end.

(** The declaration that the source stands for. *)
Fixpoint struct_says (s : src_struct V) (d : args_decl V) : Prop :=
  let '(SStruct attrs _ body) := s in
  let '(MkArgsDecl ca fds) := d in
  cmd_says attrs ca /\
  match body with
  | SbNamed fs => each2 (fun f fd => let '(id, x) := f in id = fst fd /\ decl_says x (snd fd)) fs fds
  | SbOther => False
  end
with decl_says (f : src_field V) (fd : field_decl V) : Prop :=
  let '(SField attrs t tg) := f in
  match fd with
  | FArg m ty =>
      (exists l, field_says attrs (AnArg l) /\ arg_says (docs attrs) l m) /\
      exists t', ty_says t (shape_of ty) t' /\ value_of_ty ty = rty_value t'
  | FFlatten d =>
      field_says attrs AFlatten /\
      match tg with TgArgs s => struct_says s d | _ => False end
  | FSub optional d =>
      field_says attrs ASubcommand /\ (optional = true <-> written_as (bs "Option") t) /\
      match tg with TgSub e => enum_says e d | _ => False end
  end
with enum_says (e : src_enum V) (d : sub_decl V) : Prop :=
  let '(SEnum _ _ body) := e in
  let '(MkSubDecl vds) := d in
  match body with
  | EbVariants vs =>
      each2 (fun v vd => let '(id, x) := v in id = fst vd /\ variant_says x (snd vd)) vs vds
  | EbOther => False
  end
with variant_says (v : src_variant V) (vd : variant_decl V) : Prop :=
  match v with
  | SvUnit attrs => exists ca, vd = VDUnit ca /\ cmd_says attrs ca
  | SvTuple attrs [(_, TgArgs s)] =>
      exists ca d, vd = VDNewtype ca d /\ cmd_says attrs ca /\ struct_says s d
  | SvTuple _ _ => False
  | SvStruct attrs fs =>
      exists ca fds, vd = VDStruct (MkArgsDecl ca fds) /\ cmd_says attrs ca /\
      each2 (fun f fd => let '(id, x) := f in id = fst fd /\ decl_says x (snd fd)) fs fds
  end.

(** ** A field anywhere in a source *)

(** The surroundings of a field. *)
Inductive struct_around :=
| AroundStruct (attrs : list attribute) (generic : bool) (pre : list (ident * src_field V))
    (id : ident) (x : field_around) (post : list (ident * src_field V))
with field_around :=
| Here
| InArgs (attrs : list attribute) (t : rty V) (x : struct_around)
| InSub (attrs : list attribute) (t : rty V) (x : enum_around)
with enum_around :=
| AroundEnum (attrs : list attribute) (generic : bool) (pre : list (ident * src_variant V))
    (id : ident) (x : variant_around) (post : list (ident * src_variant V))
with variant_around :=
| InTuple (attrs attrs' : list attribute) (x : struct_around)
| InStruct (attrs : list attribute) (pre : list (ident * src_field V)) (id : ident)
    (x : field_around) (post : list (ident * src_field V)).

Fixpoint put_struct (c : struct_around) (f : src_field V) : src_struct V :=
  let '(AroundStruct attrs g pre id x post) := c in
  SStruct attrs g (SbNamed (pre ++ (id, put_field x f) :: post))
with put_field (c : field_around) (f : src_field V) : src_field V :=
  match c with
  | Here => f
  | InArgs attrs t x => SField attrs t (TgArgs (put_struct x f))
  | InSub attrs t x => SField attrs t (TgSub (put_enum x f))
  end
with put_enum (c : enum_around) (f : src_field V) : src_enum V :=
  let '(AroundEnum attrs g pre id x post) := c in
  SEnum attrs g (EbVariants (pre ++ (id, put_variant x f) :: post))
with put_variant (c : variant_around) (f : src_field V) : src_variant V :=
  match c with
  | InTuple attrs attrs' x => SvTuple attrs [(attrs', TgArgs (put_struct x f))]
  | InStruct attrs pre id x post => SvStruct attrs (pre ++ (id, put_field x f) :: post)
  end.

(** [#[arg(..)]] with these items. *)
Fixpoint commas (l : list item) : list tok :=
  match l with
  | [] => []
  | [i] => item_toks i
  | i :: l' => item_toks i ++ TComma :: commas l'
  end.
Definition arg_attr (l : list item) : attribute := AtList (word (bs "arg")) (commas l).

(** The same items in another order, except that the items that may be repeated
    keep theirs. *)
Definition repeatable (i : item) : bool :=
  existsb (beqb (it_name i))
    [bs "alias"; bs "aliases"; bs "short_alias"; bs "short_aliases"; bs "requires";
     bs "conflicts_with"; bs "conflicts_with_all"].
Definition reordered (l l' : list item) : Prop :=
  Permutation l l' /\ filter repeatable l = filter repeatable l'.

(** Items that say the same. *)
Inductive synonym : item -> item -> Prop :=
| sy_same i : synonym i i
| sy_alias v : synonym (Item (bs "alias") v) (Item (bs "aliases") v)
| sy_aliases v : synonym (Item (bs "aliases") v) (Item (bs "alias") v)
| sy_short_alias v : synonym (Item (bs "short_alias") v) (Item (bs "short_aliases") v)
| sy_short_aliases v : synonym (Item (bs "short_aliases") v) (Item (bs "short_alias") v)
| sy_default v : synonym (Item (bs "default_value_t") v) (Item (bs "default_values_t") v)
| sy_defaults v : synonym (Item (bs "default_values_t") v) (Item (bs "default_value_t") v)
| sy_conflicts v : synonym (Item (bs "conflicts_with") v) (Item (bs "conflicts_with_all") v)
| sy_comma e e' :
    ax_form e = FoBool true -> ax_form e' = FoChar (b2n ",") ->
    synonym (Item (bs "use_value_delimiter") (Some e)) (Item (bs "value_delimiter") (Some e'))
| sy_use_comma e e' :
    ax_form e = FoBool true -> ax_form e' = FoChar (b2n ",") ->
    synonym (Item (bs "value_delimiter") (Some e')) (Item (bs "use_value_delimiter") (Some e)).

(** Items that are accepted and mean nothing. *)
Definition idle (i : item) : bool :=
  existsb (beqb (it_name i)) [bs "help"; bs "long_help"; bs "value_enum"].
Definition idle_command (i : item) : bool :=
  existsb (beqb (it_name i)) [bs "name"; bs "version"].

(** The field is an argument of the program: the structs around it are
    flattened, and the enums are subcommands. *)
Fixpoint reached_struct (c : struct_around) : Prop :=
  let '(AroundStruct _ _ _ _ x _) := c in reached_field x
with reached_field (c : field_around) : Prop :=
  match c with
  | Here => True
  | InArgs attrs _ x => field_says attrs AFlatten /\ reached_struct x
  | InSub attrs _ x => field_says attrs ASubcommand /\ reached_enum x
  end
with reached_enum (c : enum_around) : Prop :=
  let '(AroundEnum _ _ _ _ x _) := c in reached_variant x
with reached_variant (c : variant_around) : Prop :=
  match c with
  | InTuple _ _ x => reached_struct x
  | InStruct _ _ _ x _ => reached_field x
  end.

(** ** The arguments and names of a command *)

(** A field of a struct, or of one that is flattened into it, with the fields on
    the way. *)
Inductive belongs : src_struct V -> list ident -> src_field V -> Prop :=
| be_own attrs g fs id f : In (id, f) fs -> belongs (SStruct attrs g (SbNamed fs)) [id] f
| be_flat attrs g fs id attrs' t s p f :
    In (id, SField attrs' t (TgArgs s)) fs -> field_says attrs' AFlatten -> belongs s p f ->
    belongs (SStruct attrs g (SbNamed fs)) (id :: p) f.

(** The argument that a field stands for. *)
Definition argument_says (f : src_field V) (id : ident) (a : sarg V) : Prop :=
  let '(SField attrs t _) := f in
  sa_id a = id /\
  (exists l, field_says attrs (AnArg l) /\ arg_says (docs attrs) l (sa_meta a)) /\
  exists t', ty_says t (shape_a a) t' /\ value_of_ty (sa_ty a) = rty_value t'.

(** The names that the items of the field [id] give to it. *)
Inductive names (l : list item) (id : ident) : name -> Prop :=
| nm_long e s :
    In (Item (bs "long") (Some e)) l -> ax_form e = FoStr s -> names l id (Long s)
| nm_long_default : In (Item (bs "long") None) l -> names l id (Long (kebab_case id))
| nm_short e c :
    In (Item (bs "short") (Some e)) l -> ax_form e = FoChar c -> names l id (Short c)
| nm_short_default b r : In (Item (bs "short") None) l -> id = b :: r -> names l id (Short (b2n b))
| nm_alias n e s v :
    In (Item n (Some e)) l -> n = bs "alias" \/ n = bs "aliases" -> In s (strs (ax_form e)) ->
    In (Item (bs "long") v) l \/ In (Item (bs "short") v) l -> names l id (Long s)
| nm_short_alias n e c v :
    In (Item n (Some e)) l -> n = bs "short_alias" \/ n = bs "short_aliases" ->
    In c (chars (ax_form e)) ->
    In (Item (bs "long") v) l \/ In (Item (bs "short") v) l -> names l id (Short c).

(** ** Value enums *)

(** The name of a variant: the one it is given, or its identifier in the case
    that the enum asks for. *)
Record good_value_enum (e : src_value_enum V) : Prop := {
  ge_enum : exists l, good_attrs (bs "value") enum_table (se_attrs e) l;
  ge_variants : forall v, In v (se_variants e) ->
    exists l, good_attrs (bs "value") variant_table (sv_attrs v) l
}.
Record value_enum_says (e : src_value_enum V) (d : enum_decl) : Prop := {
  ve_rename : exists l, items (bs "value") (se_attrs e) l /\
    says_str l (bs "rename_all") (ed_rename_all d);
  ve_variants : each2 (fun v x =>
      ev_ident x = sv_ident v /\ ev_unit x = sv_unit v /\
      exists l, items (bs "value") (sv_attrs v) l /\ says_str l (bs "name") (ev_name x))
    (se_variants e) (ed_variants d)
}.

(** Which case the enum asks for, kebab-case unless it says otherwise. *)
Inductive cased (l : list item) : rename -> Prop :=
| cased_default : (forall v, ~ In (Item (bs "rename_all") v) l) -> cased l KebabCase
| cased_as e s r :
    In (Item (bs "rename_all") (Some e)) l -> ax_form e = FoStr s ->
    In (s, r)
      [(bs "camelCase", CamelCase); (bs "kebab-case", KebabCase); (bs "PascalCase", PascalCase);
       (bs "SCREAMING_SNAKE_CASE", ScreamingSnakeCase); (bs "snake_case", SnakeCase);
       (bs "lower", Lower); (bs "UPPER", Upper); (bs "verbatim", Heck.Verbatim)] ->
    cased l r.
(** The name of the [i]-th variant. *)
Definition written_name (e : src_value_enum V) (i : nat) (n : bytes) : Prop :=
  exists v l, nth_error (se_variants e) i = Some v /\ items (bs "value") (sv_attrs v) l /\
  ((exists x, In (Item (bs "name") (Some x)) l /\ ax_form x = FoStr n) \/
   ((forall x, ~ In (Item (bs "name") x) l) /\
    exists l' r, items (bs "value") (se_attrs e) l' /\ cased l' r /\ n = do_rename r (sv_ident v))).
End Written.
