(** C53-C59: from the source next to the derive macros to the command line. *)
From Verif Require Import Bytes Utf8 Attrs Refl Error Values Places Heck Decl Spec Derive Generated
  EnumDerive Observe Parts Page WellFormed Source Written Kit SourceSamples.
From Verif Require Import SourceArg SourceField SourceWhole SourceSame SourceValue SourceNames SourceTests.
From Coq Require Import Permutation.
Local Open Scope string_scope.
Local Open Scope list_scope.

(** C53: a source compiles exactly if its attributes are lists of known items
    with values of the right kind, none that may be written once is repeated, all
    parts are of the right sort, and the declaration is well formed. *)
Theorem C53_compiles {V : Type} (pd : bytes) (s : src_struct V) :
  compiles pd s <-> good_struct s /\ well_formed (declared pd s).
Proof. exact (compiles_iff pd s). Qed.
Print Assumptions C53_compiles.

(** So a field, however deep, cannot have an item with an unknown name or a value
    of the wrong kind ... *)
Theorem C53_wrong_item {V : Type} (pd : bytes) (c : struct_around) (attrs : list (attribute V)) (t : rty V) (tg : target V)
    (l : list item) (i : item) :
  reached_struct c -> items (bs "arg") attrs l -> In i l ->
  (forall r, In r arg_table -> r_name r = it_name i -> ~ takes (r_kind r) (it_value i)) ->
  ~ compiles pd (put_struct c (SField attrs t tg)).
Proof. exact (bad_item pd c attrs t tg l i). Qed.
Print Assumptions C53_wrong_item.

(** ... nor the same item twice, in one attribute or in two. *)
Theorem C53_repeated_item {V : Type} (pd : bytes) (c : struct_around) (attrs : list (attribute V)) (t : rty V) (tg : target V)
    (l1 l2 l3 : list item) (i j : item) (r : row) (s : bytes) :
  reached_struct c -> items (bs "arg") attrs (l1 ++ i :: l2 ++ j :: l3) ->
  In r arg_table -> r_name r = it_name i -> r_slot r = Some s ->
  (exists r', In r' arg_table /\ r_name r' = it_name j /\ r_slot r' = Some s) ->
  ~ compiles pd (put_struct c (SField attrs t tg)).
Proof. exact (repeated_item pd c attrs t tg l1 i l2 j l3 r s). Qed.
Print Assumptions C53_repeated_item.

Example C53_example :
  compiles desc cli /\
  (reached_struct around_jobs /\ compiles desc (put_struct around_jobs (SField (map arg_attr [[it "long"]]) (t_opt t_int) TgNone)) /\
   items (bs "arg") (map arg_attr [[it "long"]; [it_as "hide" (FoBool false)]]) [it "long"; it_as "hide" (FoBool false)] /\
   (forall r, In r arg_table -> r_name r = bs "hide" -> ~ takes (r_kind r) (Some (lit (FoBool false) None))) /\
   (forall r, In r arg_table -> r_name r <> bs "num_args")) /\
  (items (bs "arg") (map arg_attr [[it_c "value_delimiter" ";"]; [it "long"; it_true "use_value_delimiter"]])
     ([] ++ it_c "value_delimiter" ";" :: [it "long"] ++ it_true "use_value_delimiter" :: []) /\
   In (once (bs "value_delimiter") VkChar) arg_table /\
   In (Row (bs "use_value_delimiter") VkTrue (Some (bs "value_delimiter"))) arg_table).
Proof. exact source_C53. Qed.

(** C54: the declaration of a source that compiles is what its attributes and
    types say. *)
Theorem C54_means {V : Type} (pd : bytes) (s : src_struct V) :
  compiles pd s -> struct_says pd s (declared pd s).
Proof. exact (compiles_says pd s). Qed.
Print Assumptions C54_means.

(** The arguments of a command are the fields of its struct and of those
    flattened into it, and each is what its attributes say. *)
Theorem C54_arguments {V : Type} (pd : bytes) (s : src_struct V) (p : list ident) : compiles pd s ->
  (forall a, In (p, a) (reach (declared pd s)) ->
     exists f, belongs s p f /\ argument_says f (last p []) a) /\
  (forall attrs t tg l, belongs s p (SField attrs t tg) -> field_says attrs (AnArg l) ->
     exists a, In (p, a) (reach (declared pd s)) /\ argument_says (SField attrs t tg) (last p []) a).
Proof. exact (source_arguments pd s p). Qed.
Print Assumptions C54_arguments.

(** A command has exactly the names that are written. *)
Theorem C54_names {V : Type} (pd : bytes) (s : src_struct V) (n : name) : compiles pd s ->
  offers (declared pd s) n <->
  exists p attrs t tg l, belongs s p (SField attrs t tg) /\ field_says attrs (AnArg l) /\ names l (last p []) n.
Proof. exact (source_offers pd s n). Qed.
Print Assumptions C54_names.

Example C54_example :
  compiles desc cli /\
  map (fun pa => (fst pa, long_name (snd pa), am_alias (sa_meta (snd pa)), shape_a (snd pa))) (reach (declared desc cli)) =
    [([bs "verbose"], Some (bs "verbose"), [], ShFlag);
     ([bs "out"], Some (bs "out-file"), [bs "output"; bs "to"], ShOpt);
     ([bs "level"], Some (bs "level"), [], ShOne);
     ([bs "common"; bs "files"], Some (bs "files"), [], ShMany)] /\
  offers (declared desc cli) (Long (bs "to")) /\
  match try_parse_from (declared desc cli) (argv ["cp"; "--to"; "x"; "--files=a,b"; "run"; "--jobs"; "2"; "t"; "-v"]) with
  | Ok _ => True
  | _ => False
  end /\
  match render_long_help (declared desc cli) (bs "cp") with
  | Ok t => firstn 14 t = desc
  | _ => False
  end.
Proof. exact source_C54. Qed.

(** C55: it does not matter how the items of a field are distributed over
    attributes, nor in which order they are, except that aliases, requirements and
    conflicts keep theirs; *)
Theorem C55_order {V : Type} (pd : bytes) (c : struct_around) (attrs attrs' : list (attribute V)) (t : rty V) (tg : target V)
    (l l' : list item) :
  field_says attrs (AnArg l) -> reordered l l' ->
  items (bs "arg") attrs' l' -> docs attrs' = docs attrs -> docs_literal attrs' -> ~ uses (bs "command") attrs' ->
  declared pd (put_struct c (SField attrs t tg)) = declared pd (put_struct c (SField attrs' t tg)) /\
  (compiles pd (put_struct c (SField attrs t tg)) <-> compiles pd (put_struct c (SField attrs' t tg))).
Proof. exact (reordered_put pd c attrs attrs' t tg l l'). Qed.
Print Assumptions C55_order.

(** and an item may be replaced by a synonym. *)
Theorem C55_synonym {V : Type} (pd : bytes) (c : struct_around) (attrs attrs' : list (attribute V)) (t : rty V) (tg : target V)
    (l l' : list item) :
  field_says attrs (AnArg l) -> Forall2 synonym l l' ->
  items (bs "arg") attrs' l' -> docs attrs' = docs attrs -> docs_literal attrs' -> ~ uses (bs "command") attrs' ->
  declared pd (put_struct c (SField attrs t tg)) = declared pd (put_struct c (SField attrs' t tg)) /\
  (compiles pd (put_struct c (SField attrs t tg)) <-> compiles pd (put_struct c (SField attrs' t tg))).
Proof. exact (synonym_put pd c attrs attrs' t tg l l'). Qed.
Print Assumptions C55_synonym.

Example C55_example :
  let l := [it "long"; it_s "alias" "size"; it_int "default_value_t" 3; it_s "alias" "depth"] in
  let l' := [it_int "default_value_t" 3; it_s "alias" "size"; it_s "alias" "depth"; it "long"] in
  let l'' := [it "long"; it_s "aliases" "size"; it_int "default_values_t" 3; it_s "alias" "depth"] in
  field_says (map arg_attr [l]) (AnArg l) /\ reordered l l' /\ Forall2 synonym l l'' /\
  items (bs "arg") (map arg_attr [firstn 1 l'; skipn 1 l']) l' /\
  ~ uses (bs "command") (map arg_attr [firstn 1 l'; skipn 1 l']) /\
  compiles desc (put_struct around_level (SField (map arg_attr [l]) t_int TgNone)).
Proof. exact source_C55. Qed.

(** C56: [help], [long_help] and [value_enum] on a field are accepted and have no
    effect; *)
Theorem C56_field {V : Type} (pd : bytes) (c : struct_around) (attrs attrs' : list (attribute V)) (t : rty V) (tg : target V)
    (l : list item) :
  field_says attrs (AnArg l) -> items (bs "arg") attrs' (filter (fun i => negb (idle i)) l) ->
  docs attrs' = docs attrs -> docs_literal attrs' -> ~ uses (bs "command") attrs' ->
  declared pd (put_struct c (SField attrs t tg)) = declared pd (put_struct c (SField attrs' t tg)) /\
  (compiles pd (put_struct c (SField attrs t tg)) <-> compiles pd (put_struct c (SField attrs' t tg))).
Proof. exact (idle_put pd c attrs attrs' t tg l). Qed.
Print Assumptions C56_field.

(** nor have [name] and [version] on the struct. *)
Theorem C56_command {V : Type} (pd : bytes) (attrs attrs' : list (attribute V)) (g : bool) (b : struct_body V) (l : list item) :
  items (bs "command") attrs l -> items (bs "command") attrs' (filter (fun i => negb (idle_command i)) l) ->
  docs attrs' = docs attrs -> docs_literal attrs' -> ~ uses (bs "arg") attrs' ->
  (uses (bs "command") attrs' <-> uses (bs "command") attrs) -> compiles pd (SStruct attrs g b) ->
  compiles pd (SStruct attrs' g b) /\ declared pd (SStruct attrs g b) = declared pd (SStruct attrs' g b).
Proof. exact (idle_command_top pd attrs attrs' g b l). Qed.
Print Assumptions C56_command.

(** So a text given by [help] is not on the help page. *)
Theorem C56_help_is_shown_refuted :
  exists (pd argv0 : bytes) (c : struct_around) (l : list item) (e : aexpr tv) (text t : bytes),
    reached_struct c /\ compiles pd (put_struct c (SField (map arg_attr [l]) t_string TgNone)) /\
    In (Item (bs "help") (Some e)) l /\ ax_form e = FoStr text /\
    render_long_help (declared pd (put_struct c (SField (map arg_attr [l]) t_string TgNone))) argv0 = Ok t /\
    ~ exists x y, t = x ++ text ++ y.
Proof. exact source_help_not_shown. Qed.
Print Assumptions C56_help_is_shown_refuted.

Example C56_example :
  let l := [it "long"; it_s "help" "How deep."; it_int "default_value_t" 3; it "value_enum"] in
  field_says (map arg_attr [l]) (AnArg l) /\
  items (bs "arg") (map arg_attr [[it "long"; it_int "default_value_t" 3]]) (filter (fun i => negb (idle i)) l) /\
  compiles desc (put_struct around_level (SField (map arg_attr [l]) t_int TgNone)) /\
  items (bs "command") [command_attr [it_s "name" "cp"; it "long_about"]] [it_s "name" "cp"; it "long_about"] /\
  items (bs "command") [command_attr [it "long_about"]]
    (filter (fun i => negb (idle_command i)) [it_s "name" "cp"; it "long_about"]).
Proof. exact source_C56. Qed.

(** C57: the shape of a field is read off the letters of its type. *)
Theorem C57_types {V : Type} (t : rty V) : exists t',
  ty_says t (shape_of (ty_of t)) t' /\ value_of_ty (ty_of t) = rty_value t' /\
  forall sh u, ty_says t sh u -> sh = shape_of (ty_of t) /\ u = t'.
Proof. exact (ty_of_says t). Qed.
Print Assumptions C57_types.

(** The same type written in another way is another shape: an optional argument
    written [std::option::Option<String>] does not compile, *)
Theorem C57_any_path_refuted :
  exists (pd : bytes) (c : struct_around) (attrs : list (attribute tv)),
    compiles pd (put_struct c (SField attrs (t_opt t_string) TgNone)) /\
    ~ compiles pd (put_struct c (SField attrs (t_std_opt t_string) TgNone)).
Proof. exact source_std_option. Qed.
Print Assumptions C57_any_path_refuted.

(** and a flag whose type is an alias of [bool] takes a value. *)
Theorem C57_alias_refuted :
  exists (pd argv0 : bytes) (c : struct_around) (attrs : list (attribute tv)) (o : outval tv) (e : error),
    rty_value t_flag = rty_value t_bool /\
    compiles pd (put_struct c (SField attrs t_bool TgNone)) /\ compiles pd (put_struct c (SField attrs t_flag TgNone)) /\
    try_parse_from (declared pd (put_struct c (SField attrs t_bool TgNone))) [argv0; bs "--quiet"] = Ok o /\
    try_parse_from (declared pd (put_struct c (SField attrs t_flag TgNone))) [argv0; bs "--quiet"] = Err e.
Proof. exact source_bool_alias. Qed.
Print Assumptions C57_alias_refuted.

Example C57_example :
  shape_of (ty_of t_bool) = ShFlag /\ shape_of (ty_of (t_opt t_int)) = ShOpt /\
  shape_of (ty_of (t_opt (t_vec t_string))) = ShOptMany /\ shape_of (ty_of (t_opt (t_opt t_string))) = ShOptOpt /\
  shape_of (ty_of (t_vec t_bool)) = ShMany /\ shape_of (ty_of (t_std_opt t_string)) = ShOne /\
  shape_of (ty_of t_flag) = ShOne.
Proof. vm_compute. repeat split. Qed.

(** C58: a value enum compiles exactly if its attributes are in order, its
    variants have no fields, and their names are distinct and have no control
    characters; *)
Theorem C58_compiles {V : Type} (e : src_value_enum V) : value_enum_compiles e <->
  good_value_enum e /\ (forall v, In v (se_variants e) -> sv_unit v = true) /\
  (forall i j n, written_name e i n -> written_name e j n -> i = j) /\
  (forall i n, written_name e i n -> Forall (fun b => ~ control b) n).
Proof. exact (value_enum_accepts e). Qed.
Print Assumptions C58_compiles.

(** and then a variant is parsed from its name, and only from it. *)
Theorem C58_parse {V : Type} (e : src_value_enum V) : value_enum_compiles e ->
  exists vs, enum_expand (fst (elab_value_enum e)) = Some vs /\
  forall s i, ve_parse vs s = Some i <-> written_name e i s.
Proof. exact (value_enum_parse e). Qed.
Print Assumptions C58_parse.

Example C58_example :
  value_enum_compiles s_mode /\
  match enum_expand (fst (elab_value_enum s_mode)) with
  | Some vs => ve_parse vs (bs "very_fast") = Some 0 /\ ve_parse vs (bs "s") = Some 1 /\ ve_parse vs (bs "slow") = None
  | None => False
  end.
Proof. split; [split; [|intros H; vm_compute in H; discriminate H]|]; vm_compute; repeat split. Qed.

(** C59: attributes on a subcommand enum, anywhere, are not looked at. *)
Theorem C59_enum_attributes {V : Type} (pd : bytes) (c : struct_around) (fattrs : list (attribute V)) (t : rty V)
    (attrs attrs' : list (attribute V)) (g : bool) (b : enum_body V) :
  declared pd (put_struct c (SField fattrs t (TgSub (SEnum attrs g b)))) =
  declared pd (put_struct c (SField fattrs t (TgSub (SEnum attrs' g b)))) /\
  (compiles pd (put_struct c (SField fattrs t (TgSub (SEnum attrs g b)))) <->
   compiles pd (put_struct c (SField fattrs t (TgSub (SEnum attrs' g b))))).
Proof. exact (enum_attrs_put pd c fattrs t attrs attrs' g b). Qed.
Print Assumptions C59_enum_attributes.

(** Not even those that are no attributes of this library at all. *)
Theorem C59_enum_attributes_checked_refuted :
  exists (pd : bytes) (c : struct_around) (fattrs : list (attribute tv)) (t : rty tv) (b : enum_body tv),
    ~ good_command [command_attr [it "no_such_attribute"]] /\
    compiles pd (put_struct c (SField fattrs t (TgSub (SEnum [command_attr [it "no_such_attribute"]] false b)))).
Proof. exact source_enum_unchecked. Qed.
Print Assumptions C59_enum_attributes_checked_refuted.

(** The attribute that the documentation calls [after_long_about] does not
    exist; it is [after_long_help]. *)
Theorem C59_after_long_about_refuted :
  exists (pd : bytes) (b : struct_body tv),
    compiles pd (SStruct [command_attr [it_s "after_long_help" "See also."]] false b) /\
    ~ compiles pd (SStruct [command_attr [it_s "after_long_about" "See also."]] false b).
Proof. exact source_after_long_about. Qed.
Print Assumptions C59_after_long_about_refuted.

(** A tuple variant with two fields is reported as such if it is the only
    variant; otherwise the macro panics. *)
Theorem C59_tuple_variant_refuted :
  exists (pd : bytes) (v : src_variant tv) (vs : list (ident * src_variant tv)),
    In SE_tuple_variant (snd (elab_enum pd (SEnum [] false (EbVariants [(bs "Both", v)])))) /\
    snd (elab_enum pd (SEnum [] false (EbVariants ((bs "Both", v) :: vs)))) = [SE_macro_panic].
Proof. exact source_tuple_variant. Qed.
Print Assumptions C59_tuple_variant_refuted.

Example C59_example :
  compiles desc cli /\ compiles desc (put_struct around_jobs (SField (map arg_attr [[it "long"]]) (t_opt t_int) TgNone)).
Proof. split; split; vm_compute; reflexivity. Qed.
