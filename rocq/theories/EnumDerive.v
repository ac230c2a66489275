(** [derive(ValueEnum)] on a whole enum: the names of the variants, then the
    tables of Values.v. *)
From Verif Require Import Bytes Utf8 Refl Error Values Heck.

(** A variant as written: its identifier, whether it has no fields, and the name
    in [#[value(name = "..")]] if there is one (derive/src/common.rs:366-391
    [ValueVariantMeta]).  Simplification: ASCII identifiers, as in Heck.v. *)
Record enum_variant := mkEnumVariant {
  ev_ident : bytes;
  ev_unit : bool;
  ev_name : option bytes
}.

(** The enum, with the argument of [#[value(rename_all = "..")]]:
    derive/src/common.rs:344-364 [ValueEnumMeta]. *)
Record enum_decl := mkEnumDecl {
  ed_rename_all : option bytes;
  ed_variants : list enum_variant
}.

(** derive/src/common.rs:362: kebab-case is the default; an unknown case
    conversion is an error (derive/src/common.rs:421). *)
Definition enum_rename (e : enum_decl) : option rename :=
  match ed_rename_all e with
  | None => Some KebabCase
  | Some s => parse_rename s
  end.

(** derive/src/derive_value_enum.rs:49-52 [parse_name]. *)
Definition parse_name (r : rename) (v : enum_variant) : bytes :=
  match ev_name v with
  | Some n => n
  | None => do_rename r (ev_ident v)
  end.

(** derive/src/derive_value_enum.rs:36-73 [expand_for_enum]: [Some vs] if the
    enum is accepted.  A variant with fields is an error (43-46). *)
Definition enum_expand (e : enum_decl) : option (list ve_variant) :=
  match enum_rename e with
  | None => None
  | Some r =>
      if forallb ev_unit (ed_variants e) then
        match ve_expand (map (parse_name r) (ed_variants e)) with
        | inl vs => Some vs
        | inr _ => None
        end
      else None
  end.
