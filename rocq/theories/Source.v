(** The source text next to the derive macros: attributes, field types, structs
    and enums as they are written, and how the macros read them into the
    declarations of Decl.v and EnumDerive.v (derive/src/common.rs).

    Rust's lexer and [syn]'s parsers of expressions, types and items are not
    modelled: an attribute is given as a list of coarse tokens, in which the
    expression after an equals sign is one token. *)
From Verif Require Import Bytes Utf8 Attrs Refl Error Values Places Help Heck Decl Derive EnumDerive.

(** ** Tokens *)

(** A path such as [arg] or [std::fmt]: is there a leading [::], and the
    identifiers. *)
Record path := mkPath { pa_leading : bool; pa_segments : list bytes }.

(** [syn::Path::is_ident]. *)
Definition is_ident (p : path) (s : bytes) : bool :=
  negb (pa_leading p) && match pa_segments p with [x] => beqb x s | _ => false end.

(** The syntactic form of an expression, as far as the attribute parsers look at
    it: literals and arrays of them. *)
Inductive form :=
| FoStr (s : bytes)
| FoChar (c : N)
| FoBool (b : bool)
| FoArray (l : list form)
| FoOther.

(** Errors about attributes. *)
Inductive aerr :=
| AE_syntax            (** an error of [syn], derive/src/error.rs:31-41 *)
| AE_duplicated        (** common.rs:58, 73, 215 *)
| AE_not_true          (** common.rs:71, 207 *)
| AE_unknown           (** common.rs:235, 336, 358, 385 *)
| AE_dup_command       (** common.rs:97 *)
| AE_command_and_arg   (** common.rs:107 *)
| AE_arg_not_allowed   (** common.rs:284 *)
| AE_unsupported       (** common.rs:308-334 *)
| AE_doc.              (** common.rs:577 *)

(** ** Types of fields as written *)

Section Source.
Context {V : Type}.

(** An expression: its form, and, for the attributes that take any expression,
    what it stands for: as a default its value and how that is displayed, as a
    text what [format_args!("{}", EXPR)] writes ([None]: it does not compile). *)
Record aexpr := mkAexpr {
  ax_form : form;
  ax_default : dexpr V;
  ax_text : option bytes
}.

(** A token of an attribute: a path, an equals sign, a comma, a whole expression
    after an equals sign, or anything else. *)
Inductive tok :=
| TPath (p : path)
| TEq
| TComma
| TExpr (e : aexpr)
| TOther.

(** An attribute: a doc comment, which is [#[doc = "line"]] ([None]: the value is
    not a string literal); a list [#[name(..)]]; or a path alone or with a value. *)
Inductive attribute :=
| AtDoc (line : option bytes)
| AtList (name : path) (args : list tok)
| AtPlain (name : path).

(** ** Parsing pieces of tokens

    [None] is an error of [syn]. *)

Definition parsed_as (A : Type) : Type := option (A * list tok).

(** [ParseNestedMeta::value]: an equals sign. *)
Definition meta_value (ts : list tok) : option (list tok) :=
  match ts with TEq :: r => Some r | _ => None end.

Definition parse_form {A} (f : form -> option A) (ts : list tok) : parsed_as A :=
  match ts with
  | TExpr e :: r => match f (ax_form e) with Some x => Some (x, r) | None => None end
  | _ => None
  end.

(** [LitStr], [LitChar], [LitBool]. *)
Definition as_str (f : form) : option bytes := match f with FoStr s => Some s | _ => None end.
Definition as_char (f : form) : option N := match f with FoChar c => Some c | _ => None end.
Definition as_bool (f : form) : option bool := match f with FoBool b => Some b | _ => None end.

(** The words that [syn] does not parse as an identifier. *)
Definition keywords : list bytes :=
  [bs "_"; bs "abstract"; bs "as"; bs "async"; bs "await"; bs "become"; bs "box"; bs "break";
   bs "const"; bs "continue"; bs "crate"; bs "do"; bs "dyn"; bs "else"; bs "enum"; bs "extern";
   bs "false"; bs "final"; bs "fn"; bs "for"; bs "if"; bs "impl"; bs "in"; bs "let"; bs "loop";
   bs "macro"; bs "match"; bs "mod"; bs "move"; bs "mut"; bs "override"; bs "priv"; bs "pub";
   bs "ref"; bs "return"; bs "Self"; bs "self"; bs "static"; bs "struct"; bs "super"; bs "trait";
   bs "true"; bs "try"; bs "type"; bs "typeof"; bs "unsafe"; bs "unsized"; bs "use";
   bs "virtual"; bs "where"; bs "while"; bs "yield"].

(** derive/src/common.rs:502-509 [FieldIdent]: an identifier in a string.
    Simplifications: ASCII; no space or comment around the identifier. *)
Definition as_field (f : form) : option ident :=
  match f with
  | FoStr s => if ident_ok s && negb (existsb (beqb s) keywords) then Some s else None
  | _ => None
  end.

Fixpoint all_some {A B} (f : A -> option B) (l : list A) : option (list B) :=
  match l with
  | [] => Some []
  | x :: l' =>
      match f x, all_some f l' with
      | Some y, Some ys => Some (y :: ys)
      | _, _ => None
      end
  end.

(** derive/src/common.rs:471-482 [OneOrArray]. *)
Definition one_or_array {A} (f : form -> option A) (x : form) : option (list A) :=
  match x with
  | FoArray l => all_some f l
  | _ => match f x with Some y => Some [y] | None => None end
  end.

(** derive/src/common.rs:514-518 [VerbatimExpr]: any expression. *)
Definition parse_expr (ts : list tok) : parsed_as aexpr :=
  match ts with TExpr e :: r => Some (e, r) | _ => None end.

(** derive/src/common.rs:489-498 [Override]. *)
Definition parse_override {A} (p : list tok -> parsed_as A) (ts : list tok)
  : parsed_as (override A) :=
  match ts with
  | TEq :: r => match p r with Some (x, r') => Some (Explicit x, r') | None => None end
  | _ => Some (Inherit, ts)
  end.

(** [meta.value()?.parse()?]. *)
Definition value_of {A} (p : list tok -> parsed_as A) (ts : list tok) : parsed_as A :=
  match meta_value ts with Some r => p r | None => None end.

(** derive/src/common.rs:53-61 [set_once]. *)
Definition set_once {A} (cur : option A) (v : A) : option A * list aerr :=
  match cur with
  | None => (Some v, [])
  | Some _ => (cur, [AE_duplicated])
  end.

(** derive/src/common.rs:66-78 [parse_true], after the literal was parsed. *)
Definition set_true (cur b : bool) : bool * list aerr :=
  if negb b then (cur, [AE_not_true])
  else if cur then (cur, [AE_duplicated])
  else (true, []).

(** ** Lists of nested attributes

    What one nested attribute does: the new state, the errors emitted, and the
    tokens left; [None] for an error of [syn]. *)
Definition update (S : Type) : Type := S -> path -> list tok -> S * list aerr * option (list tok).

(** [syn::meta::parse_nested_meta]: nested attributes separated by commas, with
    an optional comma at the end.  Every round takes a token at least. *)
Fixpoint nested_loop {S} (upd : update S) (fuel : nat) (st : S) (ts : list tok) : S * list aerr :=
  match fuel with
  | O => (st, [AE_syntax])
  | Datatypes.S fuel =>
      match ts with
      | TPath p :: r =>
          let '(st', es, o) := upd st p r in
          match o with
          | None => (st', es ++ [AE_syntax])
          | Some [] => (st', es)
          | Some [TComma] => (st', es)
          | Some (TComma :: r') =>
              let '(st'', es') := nested_loop upd fuel st' r' in (st'', es ++ es')
          | Some _ => (st', es ++ [AE_syntax])
          end
      | _ => (st, [AE_syntax])
      end
  end.

(** [Attribute::parse_nested_meta], with derive/src/error.rs:31-41 [try_syn]: the
    attribute must be a list, possibly empty. *)
Definition parse_nested_meta {S} (upd : update S) (st : S) (a : attribute) : S * list aerr :=
  match a with
  | AtList _ [] => (st, [])
  | AtList _ ts => nested_loop upd (length ts) st ts
  | _ => (st, [AE_syntax])
  end.

Definition attr_is (a : attribute) (s : bytes) : bool :=
  match a with
  | AtDoc _ => beqb s (bs "doc")
  | AtList p _ | AtPlain p => is_ident p s
  end.

(** derive/src/common.rs:556-579 [Doc::extend_from_attr]: the line of a doc
    comment (the lines are put together in Decl.v). *)
Definition doc_lines (a : attribute) : list bytes * list aerr :=
  match a with
  | AtDoc (Some l) => ([l], [])
  | AtDoc None => ([], [AE_doc])
  | _ => ([], [])
  end.

(** ** [#[arg(..)]] *)

(** Setters of [ArgMeta]. *)
Definition with_doc (m : arg_meta V) (x : list bytes) : arg_meta V :=
  mkArgMeta
    x (am_long m) (am_short m) (am_alias m) (am_short_alias m) (am_value_name m)
    (am_require_equals m) (am_global m) (am_allow_hyphen_values m) (am_allow_negative_numbers m)
    (am_ignore_case m) (am_trailing_var_arg m) (am_last m) (am_default_value m)
    (am_default_value_t m) (am_value_delimiter m) (am_hide m) (am_required m) (am_exclusive m)
    (am_requires m) (am_conflicts_with m).
Definition with_long (m : arg_meta V) (x : option (override bytes)) : arg_meta V :=
  mkArgMeta
    (am_doc m) x (am_short m) (am_alias m) (am_short_alias m) (am_value_name m)
    (am_require_equals m) (am_global m) (am_allow_hyphen_values m) (am_allow_negative_numbers m)
    (am_ignore_case m) (am_trailing_var_arg m) (am_last m) (am_default_value m)
    (am_default_value_t m) (am_value_delimiter m) (am_hide m) (am_required m) (am_exclusive m)
    (am_requires m) (am_conflicts_with m).
Definition with_short (m : arg_meta V) (x : option (override N)) : arg_meta V :=
  mkArgMeta
    (am_doc m) (am_long m) x (am_alias m) (am_short_alias m) (am_value_name m)
    (am_require_equals m) (am_global m) (am_allow_hyphen_values m) (am_allow_negative_numbers m)
    (am_ignore_case m) (am_trailing_var_arg m) (am_last m) (am_default_value m)
    (am_default_value_t m) (am_value_delimiter m) (am_hide m) (am_required m) (am_exclusive m)
    (am_requires m) (am_conflicts_with m).
Definition with_alias (m : arg_meta V) (x : list bytes) : arg_meta V :=
  mkArgMeta
    (am_doc m) (am_long m) (am_short m) x (am_short_alias m) (am_value_name m)
    (am_require_equals m) (am_global m) (am_allow_hyphen_values m) (am_allow_negative_numbers m)
    (am_ignore_case m) (am_trailing_var_arg m) (am_last m) (am_default_value m)
    (am_default_value_t m) (am_value_delimiter m) (am_hide m) (am_required m) (am_exclusive m)
    (am_requires m) (am_conflicts_with m).
Definition with_short_alias (m : arg_meta V) (x : list N) : arg_meta V :=
  mkArgMeta
    (am_doc m) (am_long m) (am_short m) (am_alias m) x (am_value_name m) (am_require_equals m)
    (am_global m) (am_allow_hyphen_values m) (am_allow_negative_numbers m) (am_ignore_case m)
    (am_trailing_var_arg m) (am_last m) (am_default_value m) (am_default_value_t m)
    (am_value_delimiter m) (am_hide m) (am_required m) (am_exclusive m) (am_requires m)
    (am_conflicts_with m).
Definition with_value_name (m : arg_meta V) (x : option bytes) : arg_meta V :=
  mkArgMeta
    (am_doc m) (am_long m) (am_short m) (am_alias m) (am_short_alias m) x (am_require_equals m)
    (am_global m) (am_allow_hyphen_values m) (am_allow_negative_numbers m) (am_ignore_case m)
    (am_trailing_var_arg m) (am_last m) (am_default_value m) (am_default_value_t m)
    (am_value_delimiter m) (am_hide m) (am_required m) (am_exclusive m) (am_requires m)
    (am_conflicts_with m).
Definition with_require_equals (m : arg_meta V) (x : bool) : arg_meta V :=
  mkArgMeta
    (am_doc m) (am_long m) (am_short m) (am_alias m) (am_short_alias m) (am_value_name m) x
    (am_global m) (am_allow_hyphen_values m) (am_allow_negative_numbers m) (am_ignore_case m)
    (am_trailing_var_arg m) (am_last m) (am_default_value m) (am_default_value_t m)
    (am_value_delimiter m) (am_hide m) (am_required m) (am_exclusive m) (am_requires m)
    (am_conflicts_with m).
Definition with_global (m : arg_meta V) (x : bool) : arg_meta V :=
  mkArgMeta
    (am_doc m) (am_long m) (am_short m) (am_alias m) (am_short_alias m) (am_value_name m)
    (am_require_equals m) x (am_allow_hyphen_values m) (am_allow_negative_numbers m)
    (am_ignore_case m) (am_trailing_var_arg m) (am_last m) (am_default_value m)
    (am_default_value_t m) (am_value_delimiter m) (am_hide m) (am_required m) (am_exclusive m)
    (am_requires m) (am_conflicts_with m).
Definition with_allow_hyphen_values (m : arg_meta V) (x : bool) : arg_meta V :=
  mkArgMeta
    (am_doc m) (am_long m) (am_short m) (am_alias m) (am_short_alias m) (am_value_name m)
    (am_require_equals m) (am_global m) x (am_allow_negative_numbers m) (am_ignore_case m)
    (am_trailing_var_arg m) (am_last m) (am_default_value m) (am_default_value_t m)
    (am_value_delimiter m) (am_hide m) (am_required m) (am_exclusive m) (am_requires m)
    (am_conflicts_with m).
Definition with_allow_negative_numbers (m : arg_meta V) (x : bool) : arg_meta V :=
  mkArgMeta
    (am_doc m) (am_long m) (am_short m) (am_alias m) (am_short_alias m) (am_value_name m)
    (am_require_equals m) (am_global m) (am_allow_hyphen_values m) x (am_ignore_case m)
    (am_trailing_var_arg m) (am_last m) (am_default_value m) (am_default_value_t m)
    (am_value_delimiter m) (am_hide m) (am_required m) (am_exclusive m) (am_requires m)
    (am_conflicts_with m).
Definition with_ignore_case (m : arg_meta V) (x : bool) : arg_meta V :=
  mkArgMeta
    (am_doc m) (am_long m) (am_short m) (am_alias m) (am_short_alias m) (am_value_name m)
    (am_require_equals m) (am_global m) (am_allow_hyphen_values m) (am_allow_negative_numbers m) x
    (am_trailing_var_arg m) (am_last m) (am_default_value m) (am_default_value_t m)
    (am_value_delimiter m) (am_hide m) (am_required m) (am_exclusive m) (am_requires m)
    (am_conflicts_with m).
Definition with_trailing_var_arg (m : arg_meta V) (x : bool) : arg_meta V :=
  mkArgMeta
    (am_doc m) (am_long m) (am_short m) (am_alias m) (am_short_alias m) (am_value_name m)
    (am_require_equals m) (am_global m) (am_allow_hyphen_values m) (am_allow_negative_numbers m)
    (am_ignore_case m) x (am_last m) (am_default_value m) (am_default_value_t m)
    (am_value_delimiter m) (am_hide m) (am_required m) (am_exclusive m) (am_requires m)
    (am_conflicts_with m).
Definition with_last (m : arg_meta V) (x : bool) : arg_meta V :=
  mkArgMeta
    (am_doc m) (am_long m) (am_short m) (am_alias m) (am_short_alias m) (am_value_name m)
    (am_require_equals m) (am_global m) (am_allow_hyphen_values m) (am_allow_negative_numbers m)
    (am_ignore_case m) (am_trailing_var_arg m) x (am_default_value m) (am_default_value_t m)
    (am_value_delimiter m) (am_hide m) (am_required m) (am_exclusive m) (am_requires m)
    (am_conflicts_with m).
Definition with_default_value (m : arg_meta V) (x : option bytes) : arg_meta V :=
  mkArgMeta
    (am_doc m) (am_long m) (am_short m) (am_alias m) (am_short_alias m) (am_value_name m)
    (am_require_equals m) (am_global m) (am_allow_hyphen_values m) (am_allow_negative_numbers m)
    (am_ignore_case m) (am_trailing_var_arg m) (am_last m) x (am_default_value_t m)
    (am_value_delimiter m) (am_hide m) (am_required m) (am_exclusive m) (am_requires m)
    (am_conflicts_with m).
Definition with_default_value_t (m : arg_meta V) (x : option (override (dexpr V))) : arg_meta V :=
  mkArgMeta
    (am_doc m) (am_long m) (am_short m) (am_alias m) (am_short_alias m) (am_value_name m)
    (am_require_equals m) (am_global m) (am_allow_hyphen_values m) (am_allow_negative_numbers m)
    (am_ignore_case m) (am_trailing_var_arg m) (am_last m) (am_default_value m) x
    (am_value_delimiter m) (am_hide m) (am_required m) (am_exclusive m) (am_requires m)
    (am_conflicts_with m).
Definition with_value_delimiter (m : arg_meta V) (x : option N) : arg_meta V :=
  mkArgMeta
    (am_doc m) (am_long m) (am_short m) (am_alias m) (am_short_alias m) (am_value_name m)
    (am_require_equals m) (am_global m) (am_allow_hyphen_values m) (am_allow_negative_numbers m)
    (am_ignore_case m) (am_trailing_var_arg m) (am_last m) (am_default_value m)
    (am_default_value_t m) x (am_hide m) (am_required m) (am_exclusive m) (am_requires m)
    (am_conflicts_with m).
Definition with_hide (m : arg_meta V) (x : bool) : arg_meta V :=
  mkArgMeta
    (am_doc m) (am_long m) (am_short m) (am_alias m) (am_short_alias m) (am_value_name m)
    (am_require_equals m) (am_global m) (am_allow_hyphen_values m) (am_allow_negative_numbers m)
    (am_ignore_case m) (am_trailing_var_arg m) (am_last m) (am_default_value m)
    (am_default_value_t m) (am_value_delimiter m) x (am_required m) (am_exclusive m)
    (am_requires m) (am_conflicts_with m).
Definition with_required (m : arg_meta V) (x : bool) : arg_meta V :=
  mkArgMeta
    (am_doc m) (am_long m) (am_short m) (am_alias m) (am_short_alias m) (am_value_name m)
    (am_require_equals m) (am_global m) (am_allow_hyphen_values m) (am_allow_negative_numbers m)
    (am_ignore_case m) (am_trailing_var_arg m) (am_last m) (am_default_value m)
    (am_default_value_t m) (am_value_delimiter m) (am_hide m) x (am_exclusive m) (am_requires m)
    (am_conflicts_with m).
Definition with_exclusive (m : arg_meta V) (x : bool) : arg_meta V :=
  mkArgMeta
    (am_doc m) (am_long m) (am_short m) (am_alias m) (am_short_alias m) (am_value_name m)
    (am_require_equals m) (am_global m) (am_allow_hyphen_values m) (am_allow_negative_numbers m)
    (am_ignore_case m) (am_trailing_var_arg m) (am_last m) (am_default_value m)
    (am_default_value_t m) (am_value_delimiter m) (am_hide m) (am_required m) x (am_requires m)
    (am_conflicts_with m).
Definition with_requires (m : arg_meta V) (x : list ident) : arg_meta V :=
  mkArgMeta
    (am_doc m) (am_long m) (am_short m) (am_alias m) (am_short_alias m) (am_value_name m)
    (am_require_equals m) (am_global m) (am_allow_hyphen_values m) (am_allow_negative_numbers m)
    (am_ignore_case m) (am_trailing_var_arg m) (am_last m) (am_default_value m)
    (am_default_value_t m) (am_value_delimiter m) (am_hide m) (am_required m) (am_exclusive m) x
    (am_conflicts_with m).
Definition with_conflicts_with (m : arg_meta V) (x : list ident) : arg_meta V :=
  mkArgMeta
    (am_doc m) (am_long m) (am_short m) (am_alias m) (am_short_alias m) (am_value_name m)
    (am_require_equals m) (am_global m) (am_allow_hyphen_values m) (am_allow_negative_numbers m)
    (am_ignore_case m) (am_trailing_var_arg m) (am_last m) (am_default_value m)
    (am_default_value_t m) (am_value_delimiter m) (am_hide m) (am_required m) (am_exclusive m)
    (am_requires m) x.

(** [ArgMeta] with the attributes that the code generator never looks at
    ([help], [long_help], [value_enum]; derive/src/common.rs:151-156). *)
Record arg_src := mkArgSrc {
  as_meta : arg_meta V;
  as_value_enum : bool;
  as_help : option bytes;
  as_long_help : option bytes
}.
Definition arg_default : arg_src :=
  mkArgSrc
    (mkArgMeta [] None None [] [] None false false false false false false false None None None
       false false false [] []) false None None.

(** The attributes with a truth value. *)
Inductive bool_key :=
| BRequireEquals | BGlobal | BAllowHyphenValues | BAllowNegativeNumbers | BTrailingVarArg | BLast
| BIgnoreCase | BHide | BRequired | BExclusive.

Inductive arg_key :=
| KLong | KShort | KAlias | KShortAlias | KValueName | KTrue (b : bool_key)
| KDefaultValue | KDefaultValueT | KUseValueDelimiter | KValueDelimiter | KValueEnum
| KHelp | KLongHelp | KRequires | KConflictsWith | KConflictsWithAll.

(** The tests of [parse_update], derive/src/common.rs:177-234, in order. *)
Definition arg_keys : list (bytes * arg_key) :=
  [(bs "long", KLong); (bs "short", KShort);
   (bs "alias", KAlias); (bs "aliases", KAlias);
   (bs "short_alias", KShortAlias); (bs "short_aliases", KShortAlias);
   (bs "value_name", KValueName);
   (bs "require_equals", KTrue BRequireEquals); (bs "global", KTrue BGlobal);
   (bs "allow_hyphen_values", KTrue BAllowHyphenValues);
   (bs "allow_negative_numbers", KTrue BAllowNegativeNumbers);
   (bs "trailing_var_arg", KTrue BTrailingVarArg); (bs "last", KTrue BLast);
   (bs "default_value", KDefaultValue);
   (bs "default_value_t", KDefaultValueT); (bs "default_values_t", KDefaultValueT);
   (bs "use_value_delimiter", KUseValueDelimiter); (bs "value_delimiter", KValueDelimiter);
   (bs "value_enum", KValueEnum); (bs "ignore_case", KTrue BIgnoreCase);
   (bs "help", KHelp); (bs "long_help", KLongHelp); (bs "hide", KTrue BHide);
   (bs "required", KTrue BRequired); (bs "exclusive", KTrue BExclusive);
   (bs "requires", KRequires); (bs "conflicts_with", KConflictsWith);
   (bs "conflicts_with_all", KConflictsWithAll)].
Definition key_of {K} (keys : list (bytes * K)) (p : path) : option K :=
  option_map snd (find (fun k => is_ident p (fst k)) keys).

Definition get_true (m : arg_meta V) (b : bool_key) : bool :=
  match b with
  | BRequireEquals => am_require_equals m
  | BGlobal => am_global m
  | BAllowHyphenValues => am_allow_hyphen_values m
  | BAllowNegativeNumbers => am_allow_negative_numbers m
  | BTrailingVarArg => am_trailing_var_arg m
  | BLast => am_last m
  | BIgnoreCase => am_ignore_case m
  | BHide => am_hide m
  | BRequired => am_required m
  | BExclusive => am_exclusive m
  end.
Definition put_true (m : arg_meta V) (b : bool_key) (x : bool) : arg_meta V :=
  match b with
  | BRequireEquals => with_require_equals m x
  | BGlobal => with_global m x
  | BAllowHyphenValues => with_allow_hyphen_values m x
  | BAllowNegativeNumbers => with_allow_negative_numbers m x
  | BTrailingVarArg => with_trailing_var_arg m x
  | BLast => with_last m x
  | BIgnoreCase => with_ignore_case m x
  | BHide => with_hide m x
  | BRequired => with_required m x
  | BExclusive => with_exclusive m x
  end.

Definition with_meta (s : arg_src) (m : arg_meta V) : arg_src :=
  mkArgSrc m (as_value_enum s) (as_help s) (as_long_help s).

(** What a nested attribute does once its value is parsed: the value goes to
    [f], which gives the new state and the errors. *)
Definition commit {S A} (st : S) (x : parsed_as A) (f : A -> S * list aerr)
  : S * list aerr * option (list tok) :=
  match x with
  | Some (v, r) => let '(st', es) := f v in (st', es, Some r)
  | None => (st, [], None)
  end.

(** derive/src/common.rs:173-238 [ArgMeta::parse_update]. *)
Definition arg_update : update arg_src := fun s p ts =>
  let m := as_meta s in
  match key_of arg_keys p with
  | None => (s, [AE_unknown], Some ts)
  | Some KLong =>
      commit s (parse_override (parse_form as_str) ts)
        (fun v => let '(x, es) := set_once (am_long m) v in (with_meta s (with_long m x), es))
  | Some KShort =>
      commit s (parse_override (parse_form as_char) ts)
        (fun v => let '(x, es) := set_once (am_short m) v in (with_meta s (with_short m x), es))
  | Some KAlias =>
      commit s (value_of (parse_form (one_or_array as_str)) ts)
        (fun v => (with_meta s (with_alias m (am_alias m ++ v)), []))
  | Some KShortAlias =>
      commit s (value_of (parse_form (one_or_array as_char)) ts)
        (fun v => (with_meta s (with_short_alias m (am_short_alias m ++ v)), []))
  | Some KValueName =>
      commit s (value_of (parse_form as_str) ts)
        (fun v => let '(x, es) := set_once (am_value_name m) v in
                  (with_meta s (with_value_name m x), es))
  | Some (KTrue b) =>
      commit s (value_of (parse_form as_bool) ts)
        (fun v => let '(x, es) := set_true (get_true m b) v in (with_meta s (put_true m b x), es))
  | Some KDefaultValue =>
      commit s (value_of (parse_form as_str) ts)
        (fun v => let '(x, es) := set_once (am_default_value m) v in
                  (with_meta s (with_default_value m x), es))
  | Some KDefaultValueT =>
      commit s (parse_override parse_expr ts)
        (fun v =>
           let v := match v with Inherit => Inherit | Explicit e => Explicit (ax_default e) end in
           let '(x, es) := set_once (am_default_value_t m) v in
           (with_meta s (with_default_value_t m x), es))
  | Some KUseValueDelimiter =>
      commit s (value_of (parse_form as_bool) ts)
        (fun v =>
           let '(x, es) := set_once (am_value_delimiter m) (b2n ","%byte) in
           (with_meta s (with_value_delimiter m x), (if v then [] else [AE_not_true]) ++ es))
  | Some KValueDelimiter =>
      commit s (value_of (parse_form as_char) ts)
        (fun v => let '(x, es) := set_once (am_value_delimiter m) v in
                  (with_meta s (with_value_delimiter m x), es))
  | Some KValueEnum =>
      (mkArgSrc m true (as_help s) (as_long_help s),
       (if as_value_enum s then [AE_duplicated] else []), Some ts)
  | Some KHelp =>
      commit s (value_of (parse_form as_str) ts)
        (fun v => let '(x, es) := set_once (as_help s) v in
                  (mkArgSrc m (as_value_enum s) x (as_long_help s), es))
  | Some KLongHelp =>
      commit s (value_of (parse_form as_str) ts)
        (fun v => let '(x, es) := set_once (as_long_help s) v in
                  (mkArgSrc m (as_value_enum s) (as_help s) x, es))
  | Some KRequires =>
      commit s (value_of (parse_form as_field) ts)
        (fun v => (with_meta s (with_requires m (am_requires m ++ [v])), []))
  | Some KConflictsWith =>
      commit s (value_of (parse_form as_field) ts)
        (fun v => (with_meta s (with_conflicts_with m (am_conflicts_with m ++ [v])), []))
  | Some KConflictsWithAll =>
      commit s (value_of (parse_form (one_or_array as_field)) ts)
        (fun v => (with_meta s (with_conflicts_with m (am_conflicts_with m ++ v)), []))
  end.

(** ** Fields *)

(** derive/src/common.rs:242-259 [ArgsCommandMeta]: exactly one identifier. *)
Inductive args_command := CSubcommand | CFlatten.
Definition parse_args_command (a : attribute) : option args_command :=
  match a with
  | AtList _ [TPath p] =>
      if is_ident p (bs "subcommand") then Some CSubcommand
      else if is_ident p (bs "flatten") then Some CFlatten
      else None
  | _ => None
  end.

(** The state of the loop of derive/src/common.rs:87-102. *)
Record field_state := mkFieldState {
  fs_doc : list bytes;
  fs_arg : option arg_src;
  fs_command : option args_command;
  fs_errs : list aerr
}.
Definition is_somef {A} (o : option A) : bool := match o with Some _ => true | None => false end.
Definition field_step (st : field_state) (a : attribute) : field_state :=
  let '(ls, des) := doc_lines a in
  let doc := fs_doc st ++ ls in
  if attr_is a (bs "arg") then
    let cur := match fs_arg st with Some x => x | None => arg_default end in
    let '(x, es) := parse_nested_meta arg_update cur a in
    mkFieldState doc (Some x) (fs_command st) (fs_errs st ++ des ++ es)
  else if attr_is a (bs "command") then
    match parse_args_command a with
    | Some c =>
        mkFieldState doc (fs_arg st) (Some c)
          (fs_errs st ++ des ++ (if is_somef (fs_command st) then [AE_dup_command] else []))
    | None => mkFieldState doc (fs_arg st) (fs_command st) (fs_errs st ++ des ++ [AE_syntax])
    end
  else mkFieldState doc (fs_arg st) (fs_command st) (fs_errs st ++ des).

(** derive/src/common.rs:86-117 [ArgOrCommand::parse_attrs]. *)
Inductive arg_or_command := Arg (m : arg_meta V) | Command (c : args_command).
Definition field_attrs (l : list attribute) : arg_or_command * list aerr :=
  let st := fold_left field_step l (mkFieldState [] None None []) in
  match fs_command st with
  | Some c =>
      (Command c, fs_errs st ++ (if is_somef (fs_arg st) then [AE_command_and_arg] else []))
  | None =>
      let x := match fs_arg st with Some x => x | None => arg_default end in
      (Arg (with_doc (as_meta x) (fs_doc st)), fs_errs st)
  end.

(** ** [#[command(..)]] on structs and variants *)

(** derive/src/common.rs:262-271 [CommandMeta], with the attributes that are never
    looked at ([name], [version]). *)
Record cmd_src := mkCmdSrc {
  cs_name : option bytes;
  cs_version : option (override aexpr);
  cs_long_about : option (override aexpr);
  cs_after_long_help : option aexpr
}.
Definition cmd_default : cmd_src := mkCmdSrc None None None None.

Inductive cmd_key :=
| CkName | CkVersion | CkLongAbout | CkAfterLongHelp | CkUnsupported | CkUnsupportedValue.

(** The tests of derive/src/common.rs:297-329, in order. *)
Definition cmd_keys : list (bytes * cmd_key) :=
  [(bs "name", CkName); (bs "version", CkVersion); (bs "long_about", CkLongAbout);
   (bs "after_long_help", CkAfterLongHelp);
   (bs "author", CkUnsupported); (bs "about", CkUnsupported); (bs "after_help", CkUnsupported);
   (bs "term_width", CkUnsupportedValue); (bs "max_term_width", CkUnsupportedValue)].

(** derive/src/common.rs:293-340 [CommandMeta::parse_update]. *)
Definition cmd_update : update cmd_src := fun s p ts =>
  match key_of cmd_keys p with
  | None => (s, [AE_unknown], Some ts)
  | Some CkName =>
      commit s (value_of (parse_form as_str) ts)
        (fun v => let '(x, es) := set_once (cs_name s) v in
                  (mkCmdSrc x (cs_version s) (cs_long_about s) (cs_after_long_help s), es))
  | Some CkVersion =>
      commit s (parse_override parse_expr ts)
        (fun v => let '(x, es) := set_once (cs_version s) v in
                  (mkCmdSrc (cs_name s) x (cs_long_about s) (cs_after_long_help s), es))
  | Some CkLongAbout =>
      commit s (parse_override parse_expr ts)
        (fun v => let '(x, es) := set_once (cs_long_about s) v in
                  (mkCmdSrc (cs_name s) (cs_version s) x (cs_after_long_help s), es))
  | Some CkAfterLongHelp =>
      commit s (value_of parse_expr ts)
        (fun v => let '(x, es) := set_once (cs_after_long_help s) v in
                  (mkCmdSrc (cs_name s) (cs_version s) (cs_long_about s) x, es))
  | Some CkUnsupported =>
      commit s (parse_override parse_expr ts) (fun _ => (s, [AE_unsupported]))
  | Some CkUnsupportedValue =>
      commit s (value_of parse_expr ts) (fun _ => (s, [AE_unsupported]))
  end.

Record cmd_state := mkCmdState {
  ct_doc : list bytes;
  ct_cmd : option cmd_src;
  ct_errs : list aerr
}.
Definition cmd_step (st : cmd_state) (a : attribute) : cmd_state :=
  let '(ls, des) := doc_lines a in
  let doc := ct_doc st ++ ls in
  if attr_is a (bs "command") then
    let cur := match ct_cmd st with Some x => x | None => cmd_default end in
    let '(x, es) := parse_nested_meta cmd_update cur a in
    mkCmdState doc (Some x) (ct_errs st ++ des ++ es)
  else if attr_is a (bs "arg") then
    mkCmdState doc (ct_cmd st) (ct_errs st ++ des ++ [AE_arg_not_allowed])
  else mkCmdState doc (ct_cmd st) (ct_errs st ++ des).

(** Reasons why a source does not compile before Derive.v comes into play. *)
Inductive serr :=
| SE_attr (e : aerr)
| SE_generics          (** derive/src/error.rs:77-91 *)
| SE_not_struct        (** derive_parser.rs:17, derive_args.rs:28 *)
| SE_not_enum          (** derive_subcommand.rs:14-18, derive_value_enum.rs:13 *)
| SE_tuple_variant     (** derive_subcommand.rs:88-94 *)
| SE_macro_panic       (** derive_subcommand.rs:122: index out of bounds in the macro *)
| SE_not_args          (** rustc: the type of a flattened field does not derive [Args] *)
| SE_not_subcommand    (** rustc: the type of a subcommand field does not derive [Subcommand] *)
| SE_text.             (** rustc: an expression for the help that cannot be displayed *)

(** [long_about] without a value is the description of the package
    ([env!("CARGO_PKG_DESCRIPTION")], derive_args.rs:987-991). *)
Variable pkg_description : bytes.

Definition text_expr (e : aexpr) : bytes * list serr :=
  match ax_text e with Some s => (s, []) | None => ([], [SE_text]) end.

(** derive/src/common.rs:274-291 [CommandMeta::parse_attrs_opt]; the expressions
    are taken for their texts. *)
Definition command_attrs (l : list attribute) : cmd_attrs * list serr :=
  let st := fold_left cmd_step l (mkCmdState [] None []) in
  let cmd := match ct_cmd st with Some x => x | None => cmd_default end in
  let '(about, es1) :=
    match cs_long_about cmd with
    | None => (None, [])
    | Some Inherit => (Some pkg_description, [])
    | Some (Explicit e) => let '(s, es) := text_expr e in (Some s, es)
    end in
  let '(after, es2) :=
    match cs_after_long_help cmd with
    | None => (None, [])
    | Some e => let '(s, es) := text_expr e in (Some s, es)
    end in
  (mkCmdAttrs (ct_doc st) (is_somef (ct_cmd st)) about after,
   map SE_attr (ct_errs st) ++ es1 ++ es2).

(** ** Types *)

(** A type as written: a path with generic arguments, or anything else (in
    parentheses, a tuple, a reference, ...).  [u] is what the type is as the type
    of a value. *)
Inductive rty :=
| RPath (qself leading : bool) (segments : list (bytes * path_args)) (u : value_ty V)
| ROther (u : value_ty V)
with path_args :=
| PaNone
| PaAngle (args : list generic_arg)
| PaParen
with generic_arg :=
| GaType (t : rty)
| GaOther.

Definition rty_value (t : rty) : value_ty V := match t with RPath _ _ _ u | ROther u => u end.

(** derive/src/common.rs:22-37 [strip_ty_ctor]. *)
Definition strip_ty_ctor (t : rty) (ctor : bytes) : option rty :=
  match t with
  | RPath false false [(i, PaAngle [GaType a])] _ => if beqb i ctor then Some a else None
  | _ => None
  end.

Definition is_bool_path (t : rty) : bool :=
  match t with
  | RPath false false [(i, PaNone)] _ => beqb i (bs "bool")
  | _ => false
  end.

(** derive_args.rs:207-227 [MagicKind::classify]. *)
Definition classify_ty (t : rty) : magic_kind * rty :=
  if is_bool_path t then (KBool, t)
  else
    match strip_ty_ctor t (bs "Option") with
    | Some t1 =>
        match strip_ty_ctor t1 (bs "Option") with
        | Some t2 => (KOptionOption, t2)
        | None =>
            match strip_ty_ctor t1 (bs "Vec") with
            | Some t2 => (KOptionVec, t2)
            | None => (KOption, t1)
            end
        end
    | None =>
        match strip_ty_ctor t (bs "Vec") with
        | Some t1 => (KVec, t1)
        | None => (KValue, t)
        end
    end.

(** The type for Decl.v. *)
Definition ty_of (t : rty) : ty V :=
  let '(k, t') := classify_ty t in
  let u := rty_value t' in
  match k with
  | KBool => TyBool u
  | KValue => TyOther u
  | KOption => TyOption (TyOther u)
  | KOptionOption => TyOption (TyOption (TyOther u))
  | KVec => TyVec (TyOther u)
  | KOptionVec => TyOption (TyVec (TyOther u))
  end.

(** ** Structs and enums

    A field has attributes and a type; if the type, or what is inside an [Option]
    written around it, derives [Args] or [Subcommand], that item is the target.
    (Names of types are resolved by rustc.)  [generic]: are there generics?
    Attributes on an enum and on the field of a tuple variant are kept, although
    the macros never look at them. *)
Inductive src_struct := SStruct (attrs : list attribute) (generic : bool) (body : struct_body)
with struct_body :=
| SbNamed (fields : list (ident * src_field))
| SbOther
with src_field := SField (attrs : list attribute) (t : rty) (tg : target)
with target := TgNone | TgArgs (s : src_struct) | TgSub (e : src_enum)
with src_enum := SEnum (attrs : list attribute) (generic : bool) (body : enum_body)
with enum_body :=
| EbVariants (vs : list (ident * src_variant))
| EbOther
with src_variant :=
| SvUnit (attrs : list attribute)
| SvTuple (attrs : list attribute) (fields : list (list attribute * target))
| SvStruct (attrs : list attribute) (fields : list (ident * src_field)).

Definition no_struct : args_decl V := MkArgsDecl (mkCmdAttrs [] false None None) [].

(** Is the variant dropped from the list of variants?  derive_subcommand.rs:93,
    110-111 with derive_args.rs:287-289. *)
Definition dropped (v : src_variant) : bool :=
  match v with
  | SvUnit _ => false
  | SvTuple _ [_] => false
  | SvTuple _ _ => true
  | SvStruct _ fs => (254 <? N.of_nat (length fs))%N
  end.

(** The whole source: the declaration, and the errors.  The names of the
    variants are sorted by index into the list of variants
    (derive_subcommand.rs:121-122), which is too short if one was dropped: with
    two variants or more the macro panics, and no other error of this enum is
    shown. *)
Fixpoint elab_struct (s : src_struct) : args_decl V * list serr :=
  let '(SStruct attrs generic body) := s in
  let errs_generic := if generic then [SE_generics] else [] in
  match body with
  | SbOther => (no_struct, errs_generic ++ [SE_not_struct])
  | SbNamed fs =>
      let '(ca, es) := command_attrs attrs in
      let l := map (fun (f : ident * src_field) =>
                      let '(id, x) := f in let '(fd, es) := elab_field x in ((id, fd), es)) fs in
      (MkArgsDecl ca (map fst l), errs_generic ++ es ++ concat (map snd l))
  end
with elab_field (f : src_field) : field_decl V * list serr :=
  let '(SField attrs t tg) := f in
  let '(x, aes) := field_attrs attrs in
  let es := map SE_attr aes in
  match x with
  | Arg m => (FArg m (ty_of t), es)
  | Command CFlatten =>
      match tg with
      | TgArgs s => let '(d, es') := elab_struct s in (FFlatten d, es ++ es')
      | _ => (FFlatten no_struct, es ++ [SE_not_args])
      end
  | Command CSubcommand =>
      let optional := match strip_ty_ctor t (bs "Option") with Some _ => true | None => false end in
      match tg with
      | TgSub e => let '(d, es') := elab_enum e in (FSub optional d, es ++ es')
      | _ => (FSub optional (MkSubDecl []), es ++ [SE_not_subcommand])
      end
  end
with elab_enum (e : src_enum) : sub_decl V * list serr :=
  let '(SEnum _ generic body) := e in
  let errs_generic := if generic then [SE_generics] else [] in
  match body with
  | EbOther => (MkSubDecl [], errs_generic ++ [SE_not_enum])
  | EbVariants vs =>
      let l := map (fun (v : ident * src_variant) =>
                      let '(id, x) := v in let '(vd, es) := elab_variant x in ((id, vd), es)) vs in
      (MkSubDecl (map fst l),
       errs_generic
       ++ if existsb (fun v => dropped (snd v)) vs && (2 <=? length vs)
          then [SE_macro_panic] else concat (map snd l))
  end
with elab_variant (v : src_variant) : variant_decl V * list serr :=
  match v with
  | SvUnit attrs => let '(ca, es) := command_attrs attrs in (VDUnit ca, es)
  | SvTuple attrs [(_, tg)] =>
      let '(ca, es) := command_attrs attrs in
      match tg with
      | TgArgs s => let '(d, es') := elab_struct s in (VDNewtype ca d, es ++ es')
      | _ => (VDNewtype ca no_struct, es ++ [SE_not_args])
      end
  | SvTuple attrs _ =>
      let '(ca, es) := command_attrs attrs in (VDUnit ca, es ++ [SE_tuple_variant])
  | SvStruct attrs fs =>
      let '(ca, es) := command_attrs attrs in
      let l := map (fun (f : ident * src_field) =>
                      let '(id, x) := f in let '(fd, es) := elab_field x in ((id, fd), es)) fs in
      (VDStruct (MkArgsDecl ca (map fst l)), es ++ concat (map snd l))
  end.

(** Does the program compile, and to which declaration? *)
Definition compiles (s : src_struct) : Prop :=
  snd (elab_struct s) = [] /\ accepted (fst (elab_struct s)).
Definition declared (s : src_struct) : args_decl V := fst (elab_struct s).

(** ** [derive(ValueEnum)] *)

(** derive/src/common.rs:349-363 [ValueEnumMeta::parse_attrs]; the string must be a
    known case conversion (410-424). *)
Definition as_rename (f : form) : option bytes :=
  match f with
  | FoStr s => match parse_rename s with Some _ => Some s | None => None end
  | _ => None
  end.
Definition value_enum_update : update (option bytes) := fun s p ts =>
  match key_of [(bs "rename_all", tt)] p with
  | None => (s, [AE_unknown], Some ts)
  | Some tt => commit s (value_of (parse_form as_rename) ts) (set_once s)
  end.

(** derive/src/common.rs:374-390 [ValueVariantMeta::parse_attrs]. *)
Definition value_variant_update : update (option bytes) := fun s p ts =>
  match key_of [(bs "name", tt)] p with
  | None => (s, [AE_unknown], Some ts)
  | Some tt => commit s (value_of (parse_form as_str) ts) (set_once s)
  end.

Definition value_step (upd : update (option bytes)) (acc : option bytes * list aerr)
    (a : attribute) : option bytes * list aerr :=
  if attr_is a (bs "value") then
    let '(st, es) := parse_nested_meta upd (fst acc) a in (st, snd acc ++ es)
  else acc.
Definition value_attrs (upd : update (option bytes)) (l : list attribute)
  : option bytes * list aerr :=
  fold_left (value_step upd) l (None, []).

(** A variant of a [ValueEnum]: its identifier, its attributes, and whether it
    has no fields; and the enum. *)
Record src_value_variant := mkSrcValueVariant {
  sv_ident : ident;
  sv_attrs : list attribute;
  sv_unit : bool
}.
Record src_value_enum := mkSrcValueEnum {
  se_attrs : list attribute;
  se_variants : list src_value_variant
}.

(** derive_value_enum.rs:36-73 [expand_for_enum], the attributes.  (Those of a
    variant with fields are not looked at, 43-47, but such a variant is an error
    anyway.) *)
Definition elab_value_enum (e : src_value_enum) : enum_decl * list aerr :=
  let '(r, es) := value_attrs value_enum_update (se_attrs e) in
  let l := map (fun v => let '(n, es) := value_attrs value_variant_update (sv_attrs v) in
                         (mkEnumVariant (sv_ident v) (sv_unit v) n, es)) (se_variants e) in
  (mkEnumDecl r (map fst l), es ++ concat (map snd l)).

(** The names under which the values are parsed, if the enum compiles. *)
Definition value_enum_compiles (e : src_value_enum) : Prop :=
  snd (elab_value_enum e) = [] /\ enum_expand (fst (elab_value_enum e)) <> None.
End Source.
Arguments aexpr : clear implicits.
Arguments tok : clear implicits.
Arguments attribute : clear implicits.
Arguments arg_src : clear implicits.
Arguments cmd_src : clear implicits.
Arguments rty : clear implicits.
Arguments path_args : clear implicits.
Arguments generic_arg : clear implicits.
Arguments src_struct : clear implicits.
Arguments struct_body : clear implicits.
Arguments src_field : clear implicits.
Arguments target : clear implicits.
Arguments src_enum : clear implicits.
Arguments enum_body : clear implicits.
Arguments src_variant : clear implicits.
Arguments src_value_variant : clear implicits.
Arguments src_value_enum : clear implicits.
