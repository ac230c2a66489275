(** The macro: from declarations to the data the generated code works with,
    derive/src/derive_args.rs and derive/src/derive_subcommand.rs. *)
From Verif Require Import Bytes Utf8 Attrs Refl Error Values Places Heck Decl.

(** Reasons why a declaration does not compile. *)
Inductive cerr :=
| CE_too_many_fields          (** derive_args.rs:287-289 *)
| CE_duplicated_subcommand    (** derive_args.rs:319-321 *)
| CE_default_conflict         (** derive_args.rs:347-350 *)
| CE_required_default         (** derive_args.rs:355-360 *)
| CE_delimiter_not_vec        (** derive_args.rs:364-369 *)
| CE_hyphen_both              (** derive_args.rs:375-383 *)
| CE_hyphen_no_value          (** derive_args.rs:385-391 *)
| CE_value_name_control       (** derive_args.rs:397-399 *)
| CE_optopt_require_equals    (** derive_args.rs:401-407 *)
| CE_named_last               (** derive_args.rs:418-424 *)
| CE_long_name                (** derive_args.rs:257-270 *)
| CE_short_name               (** derive_args.rs:272-278 *)
| CE_duplicated_name          (** derive_args.rs:300-305 *)
| CE_positional_named_only    (** derive_args.rs:499-504 *)
| CE_positional_hyphen        (** derive_args.rs:508-514 *)
| CE_last_not_vec             (** derive_args.rs:551-553 *)
| CE_duplicated_last          (** derive_args.rs:555-558 *)
| CE_duplicated_var_arg       (** derive_args.rs:561-564 *)
| CE_positional_after_var     (** derive_args.rs:568-573 *)
| CE_field_not_found          (** derive_args.rs:607-613 *)
| CE_exclusive_flatten        (** derive_args.rs:623-630 *)
| CE_flatten_positional       (** derive_args.rs:667-670, a const assertion *)
| CE_flatten_subcommand       (** derive_args.rs:671-674, a const assertion *)
| CE_ignore_case              (** derive_args.rs:677-686, a const assertion *)
| CE_newtype_attrs            (** derive_subcommand.rs:96-102 *)
(* Errors of rustc on the generated code or on the declaration itself. *)
| CE_unparsable_type          (** src/values.rs:120, 257-264: no [ValueParser] *)
| CE_default_type             (** the default expression is ill-typed at derive_args.rs:816 or 1081 *)
| CE_default_display          (** src/values.rs:97-103: the default cannot be displayed *)
| CE_duplicated_field         (** two fields with the same name *)
| CE_ident                    (** not an (ASCII) identifier; non-ASCII is not modelled *)
| CE_literal.                 (** not a Rust literal: bad UTF-8 or not a scalar value *)

Definition cerr_when (b : bool) (e : cerr) : list cerr := if b then [e] else [].

(** derive_args.rs:197-205 [MagicKind]. *)
Inductive magic_kind := KBool | KValue | KOption | KOptionOption | KVec | KOptionVec.

(** derive_args.rs:229-234 [require_value]. *)
Definition require_value (k : magic_kind) : bool :=
  match k with KBool | KOptionOption => false | _ => true end.

(** derive_args.rs:236-241 [accepts_multiple_values]. *)
Definition accepts_multiple_values (k : magic_kind) : bool :=
  match k with KVec | KOptionVec => true | _ => false end.

Definition kind_eqb (a b : magic_kind) : bool :=
  match a, b with
  | KBool, KBool | KValue, KValue | KOption, KOption
  | KOptionOption, KOptionOption | KVec, KVec | KOptionVec, KOptionVec => true
  | _, _ => false
  end.

(** derive_args.rs:257-270 [encode_long_name]. *)
Definition encode_long_name (s : bytes) : bytes * list cerr :=
  (bs "--" ++ s,
   cerr_when (match s with [] => true | _ => false end
              || starts_with [c_dash] s
              || existsb (fun b => Byte.eqb b c_eq || is_ascii_control b) s) CE_long_name).

(** derive_args.rs:272-278 [encode_short_name]. *)
Definition encode_short_name (c : N) : bytes * list cerr :=
  (utf8_encode c,
   cerr_when ((c =? 45) || (c =? 61) || ((c <=? 31) || (c =? 127)))%N CE_short_name).

(** An identifier (possibly raw, [r#type]) as the macro prints it.  The first
    character is not a digit. *)
Definition ident_char (b : byte) : bool := is_alnum b || Byte.eqb b "_"%byte.
Definition ident_ok (s : ident) : bool :=
  let s := match strip_prefix (bs "r#") s with Some s' => s' | None => s end in
  match s with
  | [] => false
  | c :: _ => negb (is_ascii_digit c) && forallb ident_char s
  end.

Section Derive.
Context {V : Type}.

(** derive_args.rs:207-227 [MagicKind::classify]. *)
Definition classify (t : ty V) : magic_kind * value_ty V :=
  match t with
  | TyBool u => (KBool, u)
  | TyOption t1 =>
      match t1 with
      | TyOption t2 => (KOptionOption, ty_value t2)
      | TyVec t2 => (KOptionVec, ty_value t2)
      | _ => (KOption, ty_value t1)
      end
  | TyVec t1 => (KVec, ty_value t1)
  | TyOther u => (KValue, u)
  end.

(** derive_args.rs:192-195 [DefaultValue].  An expression carries its value and
    the text shown in the help. *)
Inductive default_value :=
| DfParseStr (s : bytes)
| DfValueExpr (d : dval V) (shown : bytes).

(** derive_args.rs:118-149 [FieldInfo].  The delimiter is kept encoded; the
    resolved references replace the names ([[]] for [None]). *)
Record field_info := mkFieldInfo {
  fi_ident : ident;
  fi_kind : magic_kind;
  fi_value_ty : value_ty V;
  fi_delimiter : option bytes;
  fi_enc_names : list bytes;
  fi_attrs : attrs;
  fi_required : bool;
  fi_default : option default_value;
  fi_exclusive : bool;
  fi_requires : list ident;
  fi_conflicts : list ident;
  fi_requires_idx : list N;
  fi_conflicts_idx : list N;
  fi_description : bytes;
  fi_doc : bytes;
  fi_hide : bool
}.

(** derive_args.rs:335-351: the default value, with the typing of the generated
    [set_default(&mut field, || EXPR)] (derive_args.rs:815-817) and of the help
    arm (derive_args.rs:1066-1084, absent when hidden): the latter wants an
    expression of the bare value type. *)
Definition dval_fits (k : magic_kind) (d : dval V) : bool :=
  match k, d with
  | KBool, DBool _ => true
  | KValue, DVal _ | KOption, DVal _ => true
  | KOptionOption, DOpt _ => true
  | KVec, DVec _ | KOptionVec, DVec _ => true
  | _, _ => false
  end.
Definition dval_is_value (k : magic_kind) (d : dval V) : bool :=
  match k, d with
  | KBool, DBool _ => true
  | KBool, _ => false
  | _, DVal _ => true
  | _, _ => false
  end.
Definition inherit_default (k : magic_kind) (u : value_ty V) : option (dexpr V) :=
  match k with
  | KBool => Some (mkDexpr (DBool false) None)
  | _ =>
      match vt_default u with
      | Some v => Some (mkDexpr (DVal v) None)
      | None => None
      end
  end.
(** derive/src/derive_args.rs:1066-1082: a literal is formatted as it is, other
    expressions by inference; [bool] has [Display].  Lists and optional values
    are not of the type that is asked for. *)
Definition expr_display (u : value_ty V) (e : dexpr V) : option bytes :=
  match dx_literal e with
  | Some t => Some t
  | None =>
      match dx_val e with
      | DBool b => Some (if b then bs "true" else bs "false")
      | DVal v => option_map (fun f => f v) (infer_display u)
      | DVec _ | DOpt _ => None
      end
  end.
Definition value_expr (k : magic_kind) (u : value_ty V) (hide : bool) (e : option (dexpr V))
  : option default_value * list cerr :=
  match e with
  | None => (None, [CE_default_type])
  | Some e =>
      (Some (DfValueExpr (dx_val e) (match expr_display u e with Some s => s | None => [] end)),
       cerr_when (negb (dval_fits k (dx_val e))) CE_default_type
       ++ (if hide then []
           else cerr_when (negb (dval_is_value k (dx_val e))) CE_default_type
                ++ cerr_when (match expr_display u e with None => true | _ => false end)
                     CE_default_display))
  end.
Definition compute_default (k : magic_kind) (u : value_ty V) (m : arg_meta V)
  : option default_value * list cerr :=
  match am_default_value_t m, am_default_value m with
  | Some Inherit, None => value_expr k u (am_hide m) (inherit_default k u)
  | Some (Explicit e), None => value_expr k u (am_hide m) (Some e)
  | None, Some s => (Some (DfParseStr s), cerr_when (negb (utf8_valid s)) CE_literal)
  | None, None => (None, [])
  | Some _, Some _ => (None, [CE_default_conflict])
  end.

(** src/derive common.rs:169-171 [ArgMeta::is_named]. *)
Definition is_named (m : arg_meta V) : bool :=
  match am_long m, am_short m with None, None => false | _, _ => true end.

(** derive_args.rs:428-434 and 441-448. *)
Definition primary_long (id : ident) (m : arg_meta V) : option bytes :=
  match am_long m with
  | Some Inherit => Some (kebab_case id)
  | Some (Explicit n) => Some n
  | None => None
  end.
Definition primary_short (id : ident) (m : arg_meta V) : option N :=
  match am_short m with
  | Some (Explicit c) => Some c
  | Some Inherit => match id with b :: _ => Some (b2n b) | [] => None end
  | None => None
  end.
Definition opt_list {A} (o : option A) : list A := match o with Some x => [x] | None => [] end.

(** derive_args.rs:435-439, 449-453: aliases first, then the primary names. *)
Definition long_names (id : ident) (m : arg_meta V) : list bytes :=
  am_alias m ++ opt_list (primary_long id m).
Definition short_names (id : ident) (m : arg_meta V) : list N :=
  am_short_alias m ++ opt_list (primary_short id m).
Definition enc_names_of (id : ident) (m : arg_meta V) : list bytes :=
  map (fun s => fst (encode_long_name s)) (long_names id m)
  ++ map (fun c => fst (encode_short_name c)) (short_names id m).
Definition name_errs (id : ident) (m : arg_meta V) : list cerr :=
  concat (map (fun s => snd (encode_long_name s)) (long_names id m))
  ++ concat (map (fun c => snd (encode_short_name c)) (short_names id m))
  ++ cerr_when (existsb (fun s => negb (utf8_valid s)) (long_names id m)) CE_literal
  ++ cerr_when (existsb (fun c => negb (is_scalar c)) (short_names id m)) CE_literal.

(** derive_args.rs:393-396. *)
Definition value_name_of (id : ident) (m : arg_meta V) : bytes :=
  match am_value_name m with Some s => s | None => shouty_snake_case id end.

(** derive_args.rs:457-476. *)
Definition named_description (id : ident) (k : magic_kind) (m : arg_meta V) : bytes :=
  let vn := value_name_of id m in
  (match primary_short id m, primary_long id m with
   | Some c, Some l => bs "-" ++ utf8_encode c ++ bs ", --" ++ l
   | None, Some l => bs "--" ++ l
   | Some c, None => bs "-" ++ utf8_encode c
   | None, None => []
   end)
  ++ (if kind_eqb k KOptionOption then bs "[=<" ++ vn ++ bs ">]"
      else if require_value k
      then (if am_require_equals m then bs "=" else bs " ") ++ bs "<" ++ vn ++ bs ">"
      else []).

(** derive_args.rs:519-523. *)
Definition positional_description (id : ident) (k : magic_kind) (required : bool)
    (m : arg_meta V) : bytes :=
  let vn := value_name_of id m in
  (if required then bs "<" ++ vn ++ bs ">" else bs "[" ++ vn ++ bs "]")
  ++ (if accepts_multiple_values k then bs "..." else []).

(** Where a field goes, derive_args.rs:415-578. *)
Inductive field_class := CNamed | CSingle | CVar | CLast.

(** derive_args.rs:371-384. *)
Definition accept_hyphen_of (m : arg_meta V) : attrs :=
  match am_allow_hyphen_values m, am_allow_negative_numbers m with
  | true, false => ACCEPT_HYPHEN_ANY
  | false, true => ACCEPT_HYPHEN_NUM
  | _, _ => 0%N
  end.

(** derive_args.rs:409-413. *)
Definition base_attrs (k : magic_kind) (m : arg_meta V) : attrs :=
  let a := at_union 0%N (accept_hyphen_of m) in
  let a := at_set a REQUIRE_VALUE (require_value k) in
  let a := at_set a REQUIRE_EQ (am_require_equals m) in
  let a := at_set a GLOBAL (am_global m) in
  at_set a MAKE_LOWERCASE (am_ignore_case m).

(** derive_args.rs:525-528. *)
Definition positional_attrs_of (k : magic_kind) (m : arg_meta V) : attrs :=
  let a := base_attrs k m in
  let a := at_set a VAR_ARG (accepts_multiple_values k) in
  let a := at_set a LAST (am_last m) in
  at_set a GREEDY (am_trailing_var_arg m || am_last m).

(** derive_args.rs:352-362. *)
Definition required_of (k : magic_kind) (m : arg_meta V) (d : option default_value) : bool :=
  match d with
  | None => am_required m || kind_eqb k KValue
  | Some _ => false
  end.

(** derive_args.rs:333-578, one [arg] field: its class, its info, its errors. *)
Definition compile_field (id : ident) (m : arg_meta V) (t : ty V)
  : field_class * field_info * list cerr :=
  let '(k, u) := classify t in
  let '(dflt, errs_default) := compute_default k u m in
  let required := required_of k m dflt in
  let named := is_named m in
  let errs_common :=
    errs_default
    ++ cerr_when (match dflt with Some _ => am_required m | None => false end) CE_required_default
    ++ cerr_when (match am_value_delimiter m with Some _ => negb (accepts_multiple_values k)
                                              | None => false end) CE_delimiter_not_vec
    ++ cerr_when (am_allow_hyphen_values m && am_allow_negative_numbers m) CE_hyphen_both
    ++ cerr_when (negb (accept_hyphen_of m =? 0)%N
                  && (negb (require_value k) || am_require_equals m)) CE_hyphen_no_value
    ++ cerr_when (existsb is_ascii_control (value_name_of id m)) CE_value_name_control
    ++ cerr_when (kind_eqb k KOptionOption && negb (am_require_equals m)) CE_optopt_require_equals
    (* rustc-level *)
    ++ cerr_when (negb (kind_eqb k KBool)
                  && match infer_parser u with None => true | _ => false end) CE_unparsable_type
    ++ cerr_when (am_ignore_case m
                  && negb (match vt_value_enum u with
                           | Some (names, _) =>
                               match ve_expand names with
                               | inl vs => ve_no_upper_case vs
                               | inr _ => false
                               end
                           | None => false
                           end)) CE_ignore_case
    ++ cerr_when (negb (ident_ok id)) CE_ident
    ++ cerr_when (negb (utf8_valid (value_name_of id m))
                  || match am_value_delimiter m with Some c => negb (is_scalar c)
                                                | None => false end) CE_literal in
  let info names attrs desc :=
    mkFieldInfo id k u (option_map utf8_encode (am_value_delimiter m)) names attrs required dflt
      (am_exclusive m) (am_requires m) (am_conflicts_with m) [] []
      desc (doc_process (am_doc m)) (am_hide m) in
  if named then
    (CNamed,
     info (enc_names_of id m) (base_attrs k m) (named_description id k m),
     errs_common
     ++ cerr_when (am_last m || am_trailing_var_arg m) CE_named_last
     ++ name_errs id m)
  else
    ((if am_last m then CLast else if accepts_multiple_values k then CVar else CSingle),
     info [] (positional_attrs_of k m) (positional_description id k required m),
     errs_common
     ++ cerr_when (am_require_equals m || am_global m || am_ignore_case m) CE_positional_named_only
     ++ cerr_when (negb (accept_hyphen_of m =? 0)%N) CE_positional_hyphen
     ++ cerr_when (am_last m && negb (accepts_multiple_values k)) CE_last_not_vec).

(** The data the generator works with: [ArgsParse] (derive_args.rs:86-106),
    [SubcommandImpl] (derive_subcommand.rs:45-62). *)
Inductive args_impl :=
| MkArgs (direct : list field_info) (named_cnt : nat)
    (flat : list (ident * args_impl))
    (sub : option (ident * bool * sub_impl))
    (meta : option cmd_meta)
with sub_impl :=
| MkSub (variants : list (ident * variant))
with variant :=
| VUnit (meta : option cmd_meta)
| VNewtype (a : args_impl)
| VStruct (a : args_impl).

Definition ai_direct (a : args_impl) := let '(MkArgs d _ _ _ _) := a in d.
Definition ai_named_cnt (a : args_impl) := let '(MkArgs _ n _ _ _) := a in n.
Definition ai_flat (a : args_impl) := let '(MkArgs _ _ f _ _) := a in f.
Definition ai_sub (a : args_impl) := let '(MkArgs _ _ _ s _) := a in s.
Definition ai_meta (a : args_impl) := let '(MkArgs _ _ _ _ m) := a in m.
Definition si_variants (s : sub_impl) := let '(MkSub v) := s in v.

(** The mutable locals of [expand_args_parse], derive_args.rs:291-305. *)
Record expand_state := mkExpand {
  x_named : list field_info;
  x_positional : list field_info;
  x_var : option field_info;
  x_last : option field_info;
  x_sub : option (ident * bool * sub_impl);
  x_flat : list (ident * args_impl);
  x_seen : list bytes;
  x_errs : list cerr
}.
Definition expand_init : expand_state := mkExpand [] [] None None None [] [] [].

Definition x_add_errs (es : list cerr) (x : expand_state) : expand_state :=
  mkExpand (x_named x) (x_positional x) (x_var x) (x_last x) (x_sub x) (x_flat x)
    (x_seen x) (x_errs x ++ es).

(** derive_args.rs:300-305 [check_dup_name]. *)
Definition check_dup_name (x : expand_state) (n : bytes) : expand_state :=
  mkExpand (x_named x) (x_positional x) (x_var x) (x_last x) (x_sub x) (x_flat x)
    (n :: x_seen x)
    (x_errs x ++ cerr_when (existsb (beqb n) (x_seen x)) CE_duplicated_name).

(** derive_args.rs:478-577: file the field. *)
Definition place_field (x : expand_state) (c : field_class) (i : field_info) : expand_state :=
  match c with
  | CNamed =>
      let x := fold_left check_dup_name (fi_enc_names i) x in
      mkExpand (x_named x ++ [i]) (x_positional x) (x_var x) (x_last x) (x_sub x) (x_flat x)
        (x_seen x) (x_errs x)
  | CLast =>
      mkExpand (x_named x) (x_positional x) (x_var x) (Some i) (x_sub x) (x_flat x) (x_seen x)
        (x_errs x ++ match x_last x with Some _ => [CE_duplicated_last] | None => [] end)
  | CVar =>
      mkExpand (x_named x) (x_positional x) (Some i) (x_last x) (x_sub x) (x_flat x) (x_seen x)
        (x_errs x ++ match x_var x with Some _ => [CE_duplicated_var_arg] | None => [] end)
  | CSingle =>
      match x_var x with
      | Some _ => x_add_errs [CE_positional_after_var] x
      | None =>
          mkExpand (x_named x) (x_positional x ++ [i]) (x_var x) (x_last x) (x_sub x) (x_flat x)
            (x_seen x) (x_errs x)
      end
  end.

(** derive_args.rs:590-593: assign indexes (bit-or of the index). *)
Fixpoint assign_indexes (idx : N) (l : list field_info) : list field_info :=
  match l with
  | [] => []
  | f :: l' =>
      mkFieldInfo (fi_ident f) (fi_kind f) (fi_value_ty f) (fi_delimiter f) (fi_enc_names f)
        (at_set (fi_attrs f) (at_index idx) true) (fi_required f) (fi_default f) (fi_exclusive f)
        (fi_requires f) (fi_conflicts f) (fi_requires_idx f) (fi_conflicts_idx f)
        (fi_description f) (fi_doc f) (fi_hide f)
      :: assign_indexes (idx + 1) l'
  end.

(** derive_args.rs:595-617: look up a field by name, among the direct fields. *)
Fixpoint find_field (id : ident) (l : list field_info) : option N :=
  match l with
  | [] => None
  | f :: l' => if beqb id (fi_ident f) then Some (get_index (fi_attrs f)) else find_field id l'
  end.
Fixpoint resolve_refs (all : list field_info) (ids : list ident) : list N * list cerr :=
  match ids with
  | [] => ([], [])
  | id :: ids' =>
      let '(l, es) := resolve_refs all ids' in
      match find_field id all with
      | Some i => (i :: l, es)
      | None => (l, CE_field_not_found :: es)
      end
  end.
(** derive_args.rs:618-621. *)
Definition resolve_field (all : list field_info) (f : field_info) : field_info :=
  mkFieldInfo (fi_ident f) (fi_kind f) (fi_value_ty f) (fi_delimiter f) (fi_enc_names f)
    (fi_attrs f) (fi_required f) (fi_default f) (fi_exclusive f)
    (fi_requires f) (fi_conflicts f)
    (fst (resolve_refs all (fi_requires f))) (fst (resolve_refs all (fi_conflicts f)))
    (fi_description f) (fi_doc f) (fi_hide f).
Definition resolve_errs (all : list field_info) (f : field_info) : list cerr :=
  snd (resolve_refs all (fi_requires f)) ++ snd (resolve_refs all (fi_conflicts f)).

Fixpoint has_dup (l : list bytes) : bool :=
  match l with
  | [] => false
  | x :: l' => existsb (beqb x) l' || has_dup l'
  end.

Definition opt_is_some {A} (o : option A) : bool := match o with Some _ => true | None => false end.

(** derive_args.rs:581-639: everything after the loop over the fields. *)
Definition expand_finish (idents : list ident) (meta : option cmd_meta) (x : expand_state)
  : args_impl * list cerr :=
  let direct0 := x_named x ++ x_positional x ++ opt_list (x_var x) ++ opt_list (x_last x) in
  let direct1 := assign_indexes 0 direct0 in
  let direct := map (resolve_field direct1) direct1 in
  (MkArgs direct (length (x_named x)) (x_flat x) (x_sub x) meta,
   cerr_when (254 <? N.of_nat (length idents))%N CE_too_many_fields
   ++ cerr_when (has_dup idents) CE_duplicated_field
   ++ x_errs x
   ++ concat (map (resolve_errs direct1) direct1)
   ++ cerr_when (match x_flat x with [] => false | _ => existsb fi_exclusive direct end)
        CE_exclusive_flatten).

(** derive_args.rs:665-676: the const assertions on a flattened struct. *)
Definition flatten_errs (a : args_impl) : list cerr :=
  cerr_when (negb (length (ai_direct a) <=? ai_named_cnt a)) CE_flatten_positional
  ++ cerr_when (opt_is_some (ai_sub a)) CE_flatten_subcommand.

(** derive_args.rs:280-640 [expand_args_parse] and derive_subcommand.rs:64-128
    [expand_for_enum], on the whole tree of types. *)
Fixpoint compile_args (d : args_decl V) : args_impl * list cerr :=
  let '(MkArgsDecl attrs fields) := d in
  let x :=
    fold_left
      (fun x (f : ident * field_decl V) =>
         let '(id, fd) := f in
         match fd with
         | FArg m t =>
             let '(c, i, es) := compile_field id m t in
             x_add_errs es (place_field x c i)
         | FFlatten a =>
             let '(ai, es) := compile_args a in
             mkExpand (x_named x) (x_positional x) (x_var x) (x_last x) (x_sub x)
               (x_flat x ++ [(id, ai)]) (x_seen x)
               (x_errs x ++ es ++ flatten_errs ai ++ cerr_when (negb (ident_ok id)) CE_ident)
         | FSub optional s =>
             let '(si, es) := compile_sub s in
             let es := es ++ cerr_when (negb (ident_ok id)) CE_ident in
             match x_sub x with
             | Some _ => x_add_errs (es ++ [CE_duplicated_subcommand]) x
             | None =>
                 mkExpand (x_named x) (x_positional x) (x_var x) (x_last x)
                   (Some (id, optional, si)) (x_flat x) (x_seen x) (x_errs x ++ es)
             end
         end)
      fields expand_init in
  expand_finish (map fst fields) (cmd_meta_of attrs) x
with compile_sub (s : sub_decl V) : sub_impl * list cerr :=
  let '(MkSubDecl variants) := s in
  let vs :=
    map (fun (v : ident * variant_decl V) =>
           let '(id, vd) := v in
           let '(vi, es) :=
             match vd with
             | VDUnit attrs => (VUnit (cmd_meta_of attrs), [])
             | VDNewtype attrs a =>
                 let '(ai, es) := compile_args a in
                 (VNewtype ai, cerr_when (opt_is_some (cmd_meta_of attrs)) CE_newtype_attrs ++ es)
             | VDStruct a =>
                 let '(ai, es) := compile_args a in
                 (VStruct ai, es)
             end in
           ((id, vi), cerr_when (negb (ident_ok id)) CE_ident ++ es)) variants in
  (MkSub (map fst vs),
   cerr_when (has_dup (map fst variants)) CE_duplicated_field ++ concat (map snd vs)).

(** Does the declaration compile? *)
Definition accepted (d : args_decl V) : Prop := snd (compile_args d) = [].

(** ** Reflection data *)

Section HelpFmt.

(** derive_args.rs:1045-1092 [maybe_push_help_for]. *)
Definition help_for (f : field_info) : bytes :=
  bs "  "
  ++ (if starts_with (bs "--") (fi_description f) then bs "    " else [])
  ++ fi_description f ++ [c_nl]
  ++ (match fi_doc f with
      | [] => []
      | d => bs "          " ++ d ++ [c_nl]
      end)
  ++ (match fi_default f with
      | Some (DfParseStr s) => bs "          [default: " ++ s ++ bs "]" ++ [c_nl]
      | Some (DfValueExpr _ s) => bs "          [default: " ++ s ++ bs "]" ++ [c_nl]
      | None => []
      end)
  ++ [c_nl].

(** derive_args.rs:1094-1103 [maybe_push_usage_for]. *)
Definition usage_desc (d : bytes) : bytes :=
  match d with
  | b0 :: b1 :: b2 :: _ =>
      if Byte.eqb b0 c_dash && Byte.eqb b2 ","%byte && negb (Byte.eqb b1 c_dash)
      then skipn 4 d else d
  | _ => d
  end.

(** derive_args.rs:942-956, the usage part. *)
Definition usage_for (f : field_info) : bytes :=
  let is_last := contains (fi_attrs f) LAST in
  (if is_last then (if fi_required f then bs " --" else bs " [--") else [])
  ++ (if fi_required f || contains (fi_attrs f) VAR_ARG || is_last
      then bs " " ++ usage_desc (fi_description f) else [])
  ++ (if is_last && negb (fi_required f) then bs "]" else []).

(** derive_args.rs:984-995, the arms 4 and 5. *)
Definition meta_help (meta : option cmd_meta) : help_fmt :=
  fun prec =>
    match meta with
    | None => []
    | Some m =>
        match prec with
        | 4 => match cm_long_about m with Some t => t | None => cm_doc m end
        | 5 => match cm_after_long_help m with Some t => t | None => [] end
        | _ => []
        end
    end.

Definition visible (l : list field_info) : list field_info :=
  filter (fun f => negb (fi_hide f)) l.

(** derive_args.rs:918-1022 [HelpDisplay]; [flat] are the formatters of the
    flattened structs. *)
Definition args_help (direct : list field_info) (named_cnt : nat) (flat : list help_fmt)
    (meta : option cmd_meta) : help_fmt :=
  fun prec =>
    let named := visible (firstn named_cnt direct) in
    let positional := visible (skipn named_cnt direct) in
    match prec with
    | 0 => concat (map usage_for named) ++ concat (map (fun h => h 0) flat)
    | 1 => concat (map usage_for positional) ++ concat (map (fun h => h 1) flat)
    | 2 => concat (map help_for named) ++ concat (map (fun h => h 2) flat)
    | 3 => concat (map help_for positional) ++ concat (map (fun h => h 3) flat)
    | _ => meta_help meta prec
    end.
End HelpFmt.

(** derive_args.rs:870-871. *)
Definition descriptions_of (direct : list field_info) : bytes :=
  concat (map (fun f => fi_description f ++ [c_nul]) direct).

(** derive_args.rs:875-881: the sorted name table ([sort_by_key] is stable). *)
Definition named_map (named : list field_info) : list (bytes * attrs) :=
  sort_by fst (concat (map (fun f => map (fun n => (n, fi_attrs f)) (fi_enc_names f)) named)).

(** derive_subcommand.rs:76. *)
Definition variant_name (v : ident * variant) : bytes := kebab_case (fst v).

(** derive_subcommand.rs:123-124.  Simplification: [sort_unstable_by] is
    modelled by a stable sort; they differ only for equal names. *)
Definition name_map (vs : list (ident * variant)) : list (bytes * nat) :=
  sort_by fst (combine (map variant_name vs) (seq 0 (length vs))).

(** derive_args.rs:865-910 [RawArgsInfo], derive_subcommand.rs:79-86, 134-139,
    170-174 [RawSubcommandInfo], derive_args.rs:104 for newtype variants. *)
Fixpoint info_of (a : args_impl) : raw_args_info :=
  let '(MkArgs direct named_cnt flat sub meta) := a in
  let named := firstn named_cnt direct in
  let positional := skipn named_cnt direct in
  let flat_infos := map (fun (fa : ident * args_impl) => let '(_, a) := fa in info_of a) flat in
  info_new
    (descriptions_of direct)
    (named_map named)
    (map fi_attrs positional)
    (match sub with Some (_, _, s) => Some (sub_info_of s) | None => None end)
    (match sub with Some (_, o, _) => o | None => false end)
    (existsb (fun f => negb (fi_required f) && negb (fi_hide f)) named)
    (args_help direct named_cnt (map ri_help flat_infos) meta)
    flat_infos
with sub_info_of (s : sub_impl) : raw_subcommand_info :=
  let '(MkSub vs) := s in
  mkSubInfo
    (concat (map (fun v => variant_name v ++ [c_nul]) vs))
    (name_map vs)
    (map (fun (v : ident * variant) =>
            let '(_, v) := v in ri_help (variant_info v)) vs)
with variant_info (v : variant) : raw_args_info :=
  match v with
  | VUnit meta => info_new [] [] [] None false false (meta_help meta) []
  | VNewtype a => info_of a
  | VStruct a => info_of a
  end.

End Derive.
Arguments default_value : clear implicits.
Arguments field_info : clear implicits.
Arguments args_impl : clear implicits.
Arguments sub_impl : clear implicits.
Arguments variant : clear implicits.
