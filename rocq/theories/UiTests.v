(** The repository's programs that must not compile, replayed on the model:
    tests/ui/*.rs, with the errors of the macros and of rustc that the *.stderr
    files show.  These are checks of the model's fidelity, not of any property.

    Left out: the unions and the tests that are about types only
    (parser-manual-impl.rs).  An item without named fields is [SbOther], [EbOther]. *)
From Verif Require Import Bytes Utf8 Error Values Places Heck Decl Spec Derive Generated EnumDerive
  Source Written Kit SourceSamples.
Local Open Scope string_scope.
Local Open Scope list_scope.

Local Ltac t := vm_compute; reflexivity.

(** The errors on the attributes and the shapes, and those on the declaration. *)
Definition errors (s : src_struct tv) : list serr * list cerr :=
  (snd (elab_struct desc s), snd (compile_args (fst (elab_struct desc s)))).
Definition named (l : list (ident * src_field tv)) : src_struct tv := SStruct [] false (SbNamed l).
Definition t_path : rty tv := simple (bs "PathBuf") path_ty.
Definition t_my : rty tv := simple (bs "MyType") no_traits.
Definition flattened (id : string) (tg : target tv) : ident * src_field tv :=
  (bs id, SField [command_word (bs "flatten")] t_item tg).
Definition subcommand (id : string) (tg : target tv) : ident * src_field tv :=
  (bs id, SField [command_word (bs "subcommand")] t_item tg).
Arguments flattened id%string_scope tg.
Arguments subcommand id%string_scope tg.
Definition no_variants : src_enum tv := SEnum [] false (EbVariants []).
Definition expr (d : dval tv) (literal : option bytes) : @item tv :=
  Item (bs "default_value_t") (Some (mkAexpr FoOther (mkDexpr d literal) None)).

(** args-default-value.rs *)
Definition t_enum : rty tv := simple (bs "Enum") (enum_ty [bs "foo"]).
Definition default_ok : list (ident * src_field tv) :=
  [field "default_string" [[it_s "default_value" "/"]] t_path;
   field "default_i32" [[it "default_value_t"]] t_int;
   field "value_enum" [[it "default_value_t"]] t_enum].
Definition default_bad : list (ident * src_field tv) :=
  [field "default_value" [[expr (DVal (TStr (bs "/"))) None]] t_path;
   field "default_trait" [[it "default_value_t"]] t_path;
   field "wrong_type" [[expr (DBool true) (Some (bs "true"))]] t_int].
Example u_default_ok : errors (named default_ok) = ([], []). Proof. t. Qed.
Example u_default_bad : map (fun f => errors (named (default_ok ++ [f]))) default_bad =
  [([], [CE_default_display]); ([], [CE_default_display]);
   ([], [CE_default_type; CE_default_type])].
Proof. t. Qed.

(** args-duplicated-names.rs *)
Example u_duplicated : errors (named
  [field "hello" [[it "short"]] t_int; field "hell" [[it "short"]] t_int;
   field "long1" [[it "long"]] t_int; field "long2" [[it_s "long" "long1"]] t_int])
  = ([], [CE_duplicated_name; CE_duplicated_name]).
Proof. t. Qed.

(** args-flatten-non-args.rs, args-flatten-positional.rs, args-flatten-subcommand.rs *)
Example u_flatten : map (fun tg => errors (named [flattened "inner" tg]))
  [TgNone; TgSub no_variants;
   TgArgs (named [field "arg" [] t_string]);
   TgArgs (named [subcommand "subcmd" (TgSub no_variants)])]
  = [([SE_not_args], []); ([SE_not_args], []);
     ([], [CE_flatten_positional]); ([], [CE_flatten_subcommand])].
Proof. t. Qed.

(** args-invalid-ignore_case.rs *)
Definition value_items : list (@item tv) := [it "long"; it "value_enum"; it_true "ignore_case"].
Example u_ignore_case : errors (named
  [field "lower" [value_items] (simple (bs "LowerCase") (enum_ty [bs "hello"]));
   field "upper" [value_items] (simple (bs "UpperCase") (enum_ty [bs "HELLO"]))])
  = ([], [CE_ignore_case]).
Proof. t. Qed.
Example u_upper : enum_expand (fst (elab_value_enum
  (mkSrcValueEnum [value_attr [it_s "rename_all" "UPPER"]] [mkSrcValueVariant (bs "Hello") [] true])))
  = Some (enum_vs [bs "HELLO"]).
Proof. t. Qed.

(** args-invalid-names.rs *)
Definition nul : bytes := ["000"%byte].
Example u_names : errors (named
  [field "long_empty" [[it_s "long" ""]] t_int;
   (bs "long_control", SField [arg_attr [Item (bs "long") (Some (lit (FoStr nul) None))]] t_int TgNone);
   field "long_dash" [[it_s "long" "-foo"]] t_int;
   field "long_eq" [[it_s "long" "a=b"]] t_int;
   field "short_dash" [[it_c "short" "-"]] t_int;
   field "short_eq" [[it_c "short" "="]] t_bool;
   field "short_control" [[it_c "short" "030"]] t_bool])
  = ([], [CE_long_name; CE_long_name; CE_long_name; CE_long_name;
          CE_short_name; CE_short_name; CE_short_name]).
Proof. t. Qed.

(** args-subcommand-non-subcommand.rs *)
Example u_subcommand : map (fun tg => errors (named [subcommand "cmd" tg]))
  [TgNone; TgArgs (named [])] = [([SE_not_subcommand], []); ([SE_not_subcommand], [])].
Proof. t. Qed.

(** args-type-unparsable.rs *)
Example u_unparsable : errors (named
  [field "positional" [] t_my; field "arg" [[it "long"]] t_my;
   field "vec" [] (t_vec t_my); field "vec_arg" [[it "long"]] (t_vec t_my)])
  = ([], [CE_unparsable_type; CE_unparsable_type; CE_unparsable_type; CE_unparsable_type]).
Proof. t. Qed.
Example u_unparsable2 : errors (named
  [field "option_vec" [] (t_opt (t_vec t_my)); field "option_vec_arg" [[it "long"]] (t_opt (t_vec t_my))])
  = ([], [CE_unparsable_type; CE_unparsable_type]).
Proof. t. Qed.

(** args-unsupported-data.rs, parser-unsupported-data.rs *)
Example u_not_struct : errors (SStruct [] false SbOther) = ([SE_not_struct], []). Proof. t. Qed.

(** no-generic.rs: [T] is no type that can be parsed, but the message is about generics. *)
Example u_generic :
  fst (errors (SStruct [] true (SbNamed [field "a" [] (simple (bs "T") no_traits)]))) = [SE_generics] /\
  fst (errors (named [subcommand "c" (TgSub (SEnum [] true (EbVariants [(bs "A", SvTuple [] [([], TgNone)])])))]))
  = [SE_generics; SE_not_args].
Proof. split; t. Qed.

(** subcommand-unsupported-data.rs *)
Example u_not_enum : errors (named [subcommand "c" (TgSub (SEnum [] false EbOther))]) = ([SE_not_enum], []).
Proof. t. Qed.
