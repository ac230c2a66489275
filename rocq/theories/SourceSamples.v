(** A source and the declaration it stands for, for the examples beside the
    theorems. *)
From Verif Require Import Bytes Utf8 Error Values Places Heck Decl Spec Derive Generated EnumDerive
  Source Written Kit.
Local Open Scope string_scope.
Local Open Scope list_scope.

(** Items with literals: [name], [name = "s"], [name = 'c'], [name = true], [name = ["s"]],
    [name = 3]. *)
Definition no_default : dexpr tv := mkDexpr (DVal (TStr [])) None.
Definition lit (f : form) (t : option bytes) : aexpr tv := mkAexpr f no_default t.
Definition it (n : string) : @item tv := Item (bs n) None.
Definition it_as (n : string) (f : form) : @item tv := Item (bs n) (Some (lit f None)).
Definition it_s (n s : string) : @item tv := Item (bs n) (Some (lit (FoStr (bs s)) (Some (bs s)))).
Definition it_c (n : string) (c : byte) : @item tv := it_as n (FoChar (b2n c)).
Definition it_true (n : string) : @item tv := it_as n (FoBool true).
Definition it_strs (n : string) (l : list string) : @item tv :=
  it_as n (FoArray (map (fun s => FoStr (bs s)) l)).
Definition it_int (n : string) (z : Z) : @item tv :=
  Item (bs n) (Some (mkAexpr FoOther (mkDexpr (DVal (TInt z)) (Some (show_int z))) None)).
Arguments it n%string_scope.
Arguments it_as n%string_scope f.
Arguments it_s n%string_scope s%string_scope.
Arguments it_c n%string_scope c%byte_scope.
Arguments it_true n%string_scope.
Arguments it_strs n%string_scope l%list_scope.
Arguments it_int n%string_scope z%Z_scope.

Definition doc_line (s : string) : attribute tv := AtDoc (Some (bs s)).
Definition command_attr (l : list (@item tv)) : attribute tv := AtList (word (bs "command")) (commas l).
Definition value_attr (l : list (@item tv)) : attribute tv := AtList (word (bs "value")) (commas l).

(** Types. *)
Definition t_bool : rty tv := simple (bs "bool") bool_ty.
Definition t_string : rty tv := simple (bs "String") string_ty.
Definition t_int : rty tv := simple (bs "i64") int_ty.
Definition t_opt (t : rty tv) : rty tv := applied (bs "Option") t no_traits.
Definition t_vec (t : rty tv) : rty tv := applied (bs "Vec") t no_traits.
(** [std::option::Option<t>]. *)
Definition t_std_opt (t : rty tv) : rty tv :=
  RPath false false [(bs "std", PaNone); (bs "option", PaNone); (bs "Option", PaAngle [GaType t])]
    no_traits.
(** An alias of [bool]. *)
Definition t_flag : rty tv := simple (bs "Flag") bool_ty.
Definition t_item : rty tv := simple (bs "Item") no_traits.

Definition field (id : string) (ls : list (list (@item tv))) (t : rty tv) : ident * src_field tv :=
  (bs id, SField (map arg_attr ls) t TgNone).
Arguments field id%string_scope ls t.

(** [struct Common { #[arg(long, value_delimiter = ',')] files: Vec<String> }] *)
Definition s_common : src_struct tv := SStruct [] false (SbNamed
  [field "files" [[it "long"; it_c "value_delimiter" ","]] (t_vec t_string)]).
(** [enum Cmd { Run { .. }, List, Show(Common) }] *)
Definition s_cmd : src_enum tv := SEnum [] false (EbVariants
  [(bs "Run", SvStruct [doc_line " Run it."]
      [field "jobs" [[it "long"]] (t_opt t_int); field "target" [] t_string]);
   (bs "List", SvUnit [doc_line " List all."]);
   (bs "Show", SvTuple [] [([], TgArgs s_common)])]).
Definition cli_with (level : list (list (@item tv))) : src_struct tv := SStruct
  [doc_line " A copier."; command_attr [it_s "name" "cp"; it "long_about"]] false (SbNamed
  [(bs "verbose", SField [doc_line " Say more."; arg_attr [it "short"; it "long"; it_true "global"]]
      t_bool TgNone);
   field "out" [[it_s "long" "out-file"];
                [it_strs "aliases" ["output"; "to"]; it_c "short_alias" "O"; it_s "value_name" "FILE"]]
     (t_opt t_string);
   field "level" level t_int;
   (bs "common", SField [command_word (bs "flatten")] t_item (TgArgs s_common));
   (bs "cmd", SField [command_word (bs "subcommand")] (t_opt t_item) (TgSub s_cmd))]).
Definition cli : src_struct tv :=
  cli_with [[it "long"; it_int "default_value_t" 3; it_s "conflicts_with" "out"]].

(** What is around the field [level], and the field [jobs] of [Run]. *)
Definition around_level : struct_around := AroundStruct
  [doc_line " A copier."; command_attr [it_s "name" "cp"; it "long_about"]] false
  [(bs "verbose", SField [doc_line " Say more."; arg_attr [it "short"; it "long"; it_true "global"]]
      t_bool TgNone);
   field "out" [[it_s "long" "out-file"];
                [it_strs "aliases" ["output"; "to"]; it_c "short_alias" "O"; it_s "value_name" "FILE"]]
     (t_opt t_string)] (bs "level") Here
  [(bs "common", SField [command_word (bs "flatten")] t_item (TgArgs s_common));
   (bs "cmd", SField [command_word (bs "subcommand")] (t_opt t_item) (TgSub s_cmd))].
Definition around_jobs : struct_around := AroundStruct [] false [field "top" [[it "long"]] t_bool]
  (bs "cmd")
  (InSub [command_word (bs "subcommand")] (t_opt t_item) (AroundEnum [] false
     [(bs "List", SvUnit [doc_line " List all."])]
     (bs "Run") (InStruct [doc_line " Run it."] [] (bs "jobs") Here [field "target" [] t_string]) [])) [].

(** [#[value(rename_all = "snake_case")] enum Mode { VeryFast, #[value(name = "s")] Slow }] *)
Definition s_mode : src_value_enum tv := mkSrcValueEnum [value_attr [it_s "rename_all" "snake_case"]]
  [mkSrcValueVariant (bs "VeryFast") [doc_line " Hurry."] true;
   mkSrcValueVariant (bs "Slow") [value_attr [it_s "name" "s"]] true].

Definition desc : bytes := bs "Copies things.".
