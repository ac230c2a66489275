(** The rules for declarations: what a struct with [derive(Args)] or
    [derive(Parser)], and an enum with [derive(Subcommand)], must look like to
    compile.  Written from the documentation of the library and of its error
    messages; nothing here refers to the model of the macros. *)
From Verif Require Import Bytes Utf8 Error Values Heck Places Decl Spec Observe EnumDerive Parts.

Definition is_text (s : bytes) : Prop := exists cs, Forall scalar cs /\ s = text cs.

(** A Rust identifier, possibly raw. *)
Definition ident_byte (b : byte) : Prop :=
  lower_letter b \/ upper_letter b \/ digit b \/ b = "_"%byte.
Definition identifier (s : ident) : Prop :=
  exists c r, (s = c :: r \/ s = bs "r#" ++ c :: r) /\ ~ digit c /\ Forall ident_byte (c :: r).

(** The names options may have. *)
Definition legal_name (n : name) : Prop :=
  match n with
  | Long s =>
      s <> [] /\ hd_error s <> Some c_dash /\ Forall (fun b => b <> c_eq /\ ~ control b) s /\
      is_text s
  | Short c => scalar c /\ c <> 45%N /\ c <> 61%N /\ (32 <= c)%N /\ c <> 127%N
  end.

Section WellFormed.
Context {V : Type}.
Local Notation args_decl := (args_decl V).
Local Notation sarg := (sarg V).

(** All the names of an option. *)
Definition names (a : sarg) : list name :=
  map Long (am_alias (sa_meta a)) ++ map Long (match long_name a with Some s => [s] | None => [] end)
  ++ map Short (am_short_alias (sa_meta a))
  ++ map Short (match short_name a with Some c => [c] | None => [] end).

(** A type whose values can be read from the command line. *)
Definition legal_enum (vs : list bytes) : Prop := NoDup vs /\ Forall (Forall (fun b => ~ control b)) vs.
Definition readable (u : value_ty V) : Prop :=
  match vt_value_enum u with
  | Some (vs, _) => legal_enum vs
  | None => vt_try_from_os u <> None \/ vt_from_str u <> None
  end.

(** The expression of [default_value_t]; without one it is [Default::default()]. *)
Inductive default_expr (a : sarg) : dexpr V -> Prop :=
| default_explicit e :
    am_default_value_t (sa_meta a) = Some (Explicit e) -> default_expr a e
| default_false :
    am_default_value_t (sa_meta a) = Some Inherit -> shape_a a = ShFlag ->
    default_expr a (mkDexpr (DBool false) None)
| default_default v :
    am_default_value_t (sa_meta a) = Some Inherit -> shape_a a <> ShFlag ->
    vt_default (value_of_ty (sa_ty a)) = Some v ->
    default_expr a (mkDexpr (DVal v) None).
(** It can be shown: it is a literal, a [bool], or of a type that is a value enum
    or has [Display]. *)
Definition showable (a : sarg) (e : dexpr V) : Prop :=
  dx_literal e <> None \/ shape_a a = ShFlag \/
  vt_value_enum (value_of_ty (sa_ty a)) <> None \/ vt_display (value_of_ty (sa_ty a)) <> None.
(** An expression of type [T] is a default for fields of type [T] and [Option<T>]. *)
Definition fits (s : shape) (v : dval V) : Prop :=
  match s, v with
  | ShFlag, DBool _ | ShOne, DVal _ | ShOpt, DVal _ | ShOptOpt, DOpt _
  | ShMany, DVec _ | ShOptMany, DVec _ => True
  | _, _ => False
  end.
Definition single (s : shape) : Prop := s = ShFlag \/ s = ShOne \/ s = ShOpt.

Record legal_arg (a : sarg) : Prop := {
  la_ident : identifier (sa_id a);
  (* Types *)
  la_type : shape_a a <> ShFlag -> readable (value_of_ty (sa_ty a));
  la_optopt : shape_a a = ShOptOpt -> needs_equals a = true;
  la_delimiter : forall c, am_value_delimiter (sa_meta a) = Some c -> many a = true /\ scalar c;
  la_ignore_case : am_ignore_case (sa_meta a) = true ->
    is_option a = true /\
    exists vs inj, vt_value_enum (value_of_ty (sa_ty a)) = Some (vs, inj) /\ legal_enum vs /\
                   Forall (Forall (fun b => ~ upper_letter b)) vs;
  la_value_name : is_text (value_name a) /\ Forall (fun b => ~ control b) (value_name a);
  (* Values with hyphens *)
  la_hyphen : am_allow_hyphen_values (sa_meta a) = true \/ am_allow_negative_numbers (sa_meta a) = true ->
    is_option a = true /\ takes_value a = true /\ needs_equals a = false;
  la_hyphen_one :
    ~ (am_allow_hyphen_values (sa_meta a) = true /\ am_allow_negative_numbers (sa_meta a) = true);
  (* Defaults *)
  la_default_value : forall s, am_default_value (sa_meta a) = Some s ->
    am_default_value_t (sa_meta a) = None /\ am_required (sa_meta a) = false /\ is_text s;
  la_default_value_t : am_default_value_t (sa_meta a) <> None ->
    am_default_value (sa_meta a) = None /\ am_required (sa_meta a) = false /\
    exists e, default_expr a e /\ fits (shape_a a) (dx_val e) /\
              (am_hide (sa_meta a) = false -> single (shape_a a) /\ showable a e);
  (* Options and positionals *)
  la_names : forall n, has_name a n -> legal_name n;
  la_option : is_option a = true -> greedy a = false;
  la_positional : is_option a = false -> needs_equals a = false /\ is_global a = false;
  la_last : is_last a = true -> many a = true
}.

(** A variant that holds a struct has the struct's documentation. *)
Definition bare_attrs (at_ : cmd_attrs) : Prop :=
  ca_has_command at_ = false /\ Forall (Forall space) (ca_doc at_).
Definition legal_variant (v : ident * variant_decl V) : Prop :=
  identifier (fst v) /\ match snd v with VDNewtype at_ _ => bare_attrs at_ | _ => True end.

(** The positionals that are not [last], in the order of declaration. *)
Definition plain_positionals (d : args_decl) : list sarg :=
  filter (fun a => negb (is_option a) && negb (is_last a)) (own_args d).
Definition last_positionals (d : args_decl) : list sarg :=
  filter (fun a => negb (is_option a) && is_last a) (own_args d).
Definition subcommands (d : args_decl) : list (ident * bool * list (ident * variant_decl V)) :=
  flat_map sub_field (fields_of d).

Record legal_struct (d : args_decl) : Prop := {
  ls_count : length (fields_of d) <= 254;
  ls_fields : NoDup (map fst (fields_of d));
  ls_idents : forall id f, In (id, f) (fields_of d) -> identifier id;
  ls_args : forall a, In a (own_args d) -> legal_arg a;
  (* No name is declared twice. *)
  ls_names : NoDup (flat_map names (filter is_option (own_args d)));
  (* Only the last positional may take several values, beside a [last] one. *)
  ls_many : forall l a r, plain_positionals d = l ++ a :: r -> many a = true -> r = [];
  ls_last : length (last_positionals d) <= 1;
  ls_subcommand : length (subcommands d) <= 1;
  (* [requires] and [conflicts_with] name arguments of the same struct. *)
  ls_refs : forall a id, In a (own_args d) ->
    In id (am_requires (sa_meta a)) \/ In id (am_conflicts_with (sa_meta a)) ->
    exists b, In b (own_args d) /\ sa_id b = id;
  ls_exclusive : forall a, In a (own_args d) -> am_exclusive (sa_meta a) = true -> flattened d = [];
  (* Flattened structs have options only. *)
  ls_flat : forall id x, In (id, x) (flattened d) ->
    (forall a, In a (own_args x) -> is_option a = true) /\ subcommands x = [];
  ls_variants : forall id o vs, In (id, o, vs) (subcommands d) ->
    NoDup (map fst vs) /\ forall v, In v vs -> legal_variant v
}.

(** The rules hold for the struct and all the structs in it. *)
Inductive well_formed : args_decl -> Prop :=
| wf_struct d :
    legal_struct d ->
    (forall id x, In (id, x) (flattened d) -> well_formed x) ->
    (forall id o vs v, In (id, o, vs) (subcommands d) -> In v vs ->
       well_formed (sc_decl (variant_scope v))) ->
    well_formed d.
End WellFormed.
