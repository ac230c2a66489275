(** The user's declarations: what is written in the source next to
    [derive(Parser)], [derive(Args)] and [derive(Subcommand)], after the
    attributes are parsed.  How they are parsed is in Source.v, with the
    attributes that the code generator never uses ([value_enum], [help],
    [long_help], and [name], [version] on commands). *)
From Verif Require Import Bytes Utf8 Attrs Refl Error Values Places.

Definition ident : Type := bytes.

(** derive/src/common.rs:484-487. *)
Inductive override (A : Type) := Inherit | Explicit (a : A).
Arguments Inherit {A}.
Arguments Explicit {A} a.

(** ** Doc comments, derive/src/common.rs:548-579 *)

Definition ends_with_nl (s : bytes) : bool :=
  match rev s with x :: _ => Byte.eqb x c_nl | [] => false end.

(** [Doc::extend_from_attr], one doc line. *)
Definition doc_extend (doc line : bytes) : bytes :=
  let s := trim_ascii line in
  match s with
  | [] => if ends_with_nl doc then doc else doc ++ [c_nl]
  | _ =>
      (match doc with
       | [] => doc
       | _ => if ends_with_nl doc then doc else doc ++ bs " "
       end) ++ s
  end.

(** All the lines, then [Doc::post_process]. *)
Definition doc_process (lines : list bytes) : bytes := trim_end (fold_left doc_extend lines []).

(** ** Commands *)

(** The attributes on a struct or variant.  [ca_long_about]/[ca_after_long_help]
    hold the text of the constant expression. *)
Record cmd_attrs := mkCmdAttrs {
  ca_doc : list bytes;
  ca_has_command : bool;              (** is there any [#[command(..)]]? *)
  ca_long_about : option bytes;
  ca_after_long_help : option bytes
}.

(** derive/src/common.rs:262-271 [CommandMeta]. *)
Record cmd_meta := mkCmdMeta {
  cm_doc : bytes;
  cm_long_about : option bytes;
  cm_after_long_help : option bytes
}.

(** derive/src/common.rs:274-291 [CommandMeta::parse_attrs_opt]. *)
Definition cmd_meta_of (ca : cmd_attrs) : option cmd_meta :=
  let doc := doc_process (ca_doc ca) in
  if ca_has_command ca || (match doc with [] => false | _ => true end)
  then Some (mkCmdMeta doc (ca_long_about ca) (ca_after_long_help ca))
  else None.

Section Decl.
Context {V : Type}.

(** ** Fields *)

(** A default expression of [arg(default_value_t = EXPR)]: its value, and, if it
    is a literal [true], [b'c'], ['c'], [1.5] or [1], the text that
    [format_args!] writes for it (derive/src/derive_args.rs:1067-1082). *)
Record dexpr := mkDexpr { dx_val : dval V; dx_literal : option bytes }.

(** derive/src/common.rs:121-166 [ArgMeta], without the unused attributes.
    Characters are scalar values. *)
Record arg_meta := mkArgMeta {
  am_doc : list bytes;
  am_long : option (override bytes);
  am_short : option (override N);
  am_alias : list bytes;
  am_short_alias : list N;
  am_value_name : option bytes;
  am_require_equals : bool;
  am_global : bool;
  am_allow_hyphen_values : bool;
  am_allow_negative_numbers : bool;
  am_ignore_case : bool;
  am_trailing_var_arg : bool;
  am_last : bool;
  am_default_value : option bytes;
  am_default_value_t : option (override dexpr);
  am_value_delimiter : option N;
  am_hide : bool;
  am_required : bool;
  am_exclusive : bool;
  am_requires : list ident;
  am_conflicts_with : list ident
}.

(** Field types as the macro sees them: it matches the tokens [bool],
    [Option<_>] and [Vec<_>] literally (derive/src/common.rs:22-37,
    derive/src/derive_args.rs:208-227); anything else is [TyOther].  A value
    type is represented by the traits it implements. *)
Inductive ty :=
| TyBool (u : value_ty V)
| TyOther (u : value_ty V)
| TyOption (t : ty)
| TyVec (t : ty).

(** [Option<_>] and [Vec<_>] implement none of the traits of a value type. *)
Definition no_traits : value_ty V := mkValueTy None None None None None (fun _ => 0).
Definition ty_value (t : ty) : value_ty V :=
  match t with
  | TyBool u | TyOther u => u
  | TyOption _ | TyVec _ => no_traits
  end.

(** A struct with named fields, a subcommand enum, its variants. *)
Inductive args_decl :=
| MkArgsDecl (attrs : cmd_attrs) (fields : list (ident * field_decl))
with field_decl :=
| FArg (m : arg_meta) (t : ty)
| FFlatten (a : args_decl)
| FSub (optional : bool) (s : sub_decl)
with sub_decl :=
| MkSubDecl (variants : list (ident * variant_decl))
with variant_decl :=
| VDUnit (attrs : cmd_attrs)
| VDNewtype (attrs : cmd_attrs) (a : args_decl)
| VDStruct (a : args_decl).
(** ** Results: the values of the user's types *)

(** The value of a direct field, by its magic kind. *)
Inductive fval :=
| FvBool (b : bool)
| FvVal (v : V)
| FvOption (o : option V)
| FvOptionOption (o : option (option V))
| FvVec (l : list V)
| FvOptionVec (o : option (list V)).

(** A parsed struct: its direct fields, its flattened structs, its subcommand;
    and a parsed subcommand: the variant and its contents. *)
Inductive outval :=
| Out (direct : list (ident * fval)) (flat : list (ident * outval))
    (sub : option (ident * option subval))
with subval :=
| SubV (variant : ident) (payload : option outval).

End Decl.
Arguments dexpr : clear implicits.
Arguments arg_meta : clear implicits.
Arguments ty : clear implicits.
Arguments args_decl : clear implicits.
Arguments field_decl : clear implicits.
Arguments sub_decl : clear implicits.
Arguments variant_decl : clear implicits.
Arguments fval : clear implicits.
Arguments outval : clear implicits.
Arguments subval : clear implicits.
