(** C11, C27, C28, C33, C34, C40, C45-C47, C51: delimiters, enums, tables,
    subcommand names, messages, doc comments, UTF-8, default names. *)
From Verif Require Import Bytes Utf8 Attrs Refl Error Values Places Heck Decl Spec Derive Generated Observe Outcome EnumDerive Parts Kit Samples.
From Verif Require Import SortFacts PartsFacts NameFacts TextFacts EnumFacts PackFacts TwinFacts DisplayFacts PositionalFacts ShowFacts LossyFacts.
From Coq Require Import Sorted.
Local Open Scope string_scope.
Local Open Scope list_scope.

(** C11: the field is the values of the pieces of the values given. *)
Theorem C11_field {V : Type} (d : args_decl V) (argv0 : bytes) (toks : list bytes) (o : outval V) (os : list (occ V))
    (stk : list (scope V)) (ad : addr) (a : sarg V) (c : N) :
  valid d -> try_parse_from d (argv0 :: toks) = Ok o -> reads d toks os stk -> In (ad, a) (stack_args stk) ->
  am_value_delimiter (sa_meta a) = Some c -> given os ad = true ->
  exists texts pss xs, values_of os ad = map Some texts /\ Forall2 (cut_at c) (map (text_of a) texts) pss /\
    reads_as (value_of_ty (sa_ty a)) (concat pss) xs /\
    (field_at ad o = Some (FvVec xs) \/ field_at ad o = Some (FvOptionVec (Some xs))).
Proof. exact (delimited_field d argv0 toks o os stk ad a c). Qed.
Print Assumptions C11_field.

(** There is one way to cut a text. *)
Theorem C11_unique (c : N) (s : bytes) : scalar c -> exists ps, cut_at c s ps /\ forall ps', cut_at c s ps' -> ps' = ps.
Proof. exact (cut_exists c s). Qed.
Print Assumptions C11_unique.

Example C11_example :
  valid app_ /\
  reads_such app_ (argv ["-f"; "a,,b"; "--file="]) (fun os stk =>
    given os (Addr 0 [bs "file"]) = true /\
    has_arg stk (Addr 0 [bs "file"]) (fun a => am_value_delimiter (sa_meta a) = Some (b2n ","))) /\
  succeeds app_ (argv ["prog"; "-f"; "a,,b"; "--file="]) (fun o =>
    field_at (Addr 0 [bs "file"]) o = Some (FvVec (map TStr (argv ["a"; ""; "b"; ""])))) /\
  cut_at (b2n ",") (bs "a,,b") (argv ["a"; ""; "b"]) /\ cut_at (b2n ",") [] [[]].
Proof.
  split; [exact app_valid|]. split; [show|]. split; [show|].
  assert (H : forall s, existsb (Byte.eqb ",") s = false -> ~ infix (utf8_encode (b2n ",")) s).
  { intros s Hs (l & r & ->). change (utf8_encode (b2n ",")) with [","%byte] in Hs. rewrite !existsb_app in Hs. cbn in Hs.
    rewrite orb_true_r in Hs. discriminate. }
  split; (constructor; [discriminate| |reflexivity]); repeat constructor; apply H; reflexivity.
Qed.

(** C27: an enum parses exactly the names of its variants; what is displayed
    for a variant parses as that variant. *)
Theorem C27_parse (e : enum_decl) (vs : list ve_variant) (s : bytes) (i : nat) :
  enum_expand e = Some vs -> ve_parse vs s = Some i <-> nth_named e i s.
Proof. exact (enum_parse e vs s i). Qed.
Print Assumptions C27_parse.
Theorem C27_display (e : enum_decl) (vs : list ve_variant) (i : nat) (n : bytes) :
  enum_expand e = Some vs -> ve_display vs i = Some n <-> nth_named e i n.
Proof. exact (enum_display e vs i n). Qed.
Print Assumptions C27_display.
Theorem C27_roundtrip (e : enum_decl) (vs : list ve_variant) (i : nat) :
  enum_expand e = Some vs -> i < length (ed_variants e) ->
  exists n, ve_display vs i = Some n /\ ve_parse vs n = Some i.
Proof. exact (enum_roundtrip e vs i). Qed.
Print Assumptions C27_roundtrip.

Example C27_example :
  match enum_expand sample_enum with
  | Some vs => ve_parse vs (bs "very-fast") = Some 0 /\ ve_parse vs (bs "s") = Some 1 /\ ve_parse vs (bs "Slow") = None /\
               ve_display vs 2 = Some (bs "auto")
  | None => False
  end.
Proof. vm_compute. repeat split. Qed.

(** C28: which enums are accepted. *)
Theorem C28_accepted (e : enum_decl) : (exists vs, enum_expand e = Some vs) <->
  (exists r, convention e r) /\
  Forall (fun v => ev_unit v = true) (ed_variants e) /\
  (forall i j n, nth_named e i n -> nth_named e j n -> i = j) /\
  (forall i n, nth_named e i n -> Forall (fun b => ~ control b) n).
Proof. exact (enum_accepts e). Qed.
Print Assumptions C28_accepted.

(** The list of possible values is that of all the names. *)
Theorem C28_lists (e : enum_decl) (vs : list ve_variant) : enum_expand e = Some vs ->
  exists names, (forall i n, nth_error names i = Some n <-> nth_named e i n) /\
                lists_names names (possible_values (ve_possible_nul vs)).
Proof. exact (enum_lists e vs). Qed.
Print Assumptions C28_lists.

(** It is in the error of an unknown value. *)
Theorem C28_message {V : Type} (d : args_decl V) (argv0 : bytes) (pre : list bytes) (os : list (occ V)) (stk : list (scope V))
    (rem : list (sarg V)) (toks : list bytes) (ad : addr) (a : sarg V) (v : bytes) (names : list bytes) (inj : nat -> V) (post : list bytes) :
  valid d -> at_option d pre os stk rem -> no_error_in os -> writes stk toks ad a (Some v) -> takes_value a = true -> many a = false ->
  given os ad = false -> vt_value_enum (value_of_ty (sa_ty a)) = Some (names, inj) -> ~ In (text_of a v) names ->
  exists e, try_parse_from d (argv0 :: pre ++ toks ++ post) = Err e /\ e_kind e = InvalidValue /\
    e_arg_desc e = Some (describe a) /\ e_input e = Some (text_of a v) /\ lists_names names (e_context e).
Proof. exact (enum_message d argv0 pre os stk rem toks ad a v names inj post). Qed.
Print Assumptions C28_message.

Example C28_example :
  enum_expand (mkEnumDecl None [mkEnumVariant (bs "FooBar") true None; mkEnumVariant (bs "Foo_Bar") true None]) = None /\
  enum_expand (mkEnumDecl (Some (bs "verbatim")) [mkEnumVariant (bs "FooBar") true None; mkEnumVariant (bs "Foo_Bar") true None]) <> None /\
  match enum_expand sample_enum with
  | Some vs => possible_values (ve_possible_nul vs) = bs "[possible values: auto, s, very-fast]"
  | None => False
  end /\
  match try_parse_from app_ (argv ["prog"; "--mode"; "Medium"]) with
  | Err e => e_input e = Some (bs "medium") /\ e_context e = bs "[possible values: fast, slow]"
  | _ => False
  end.
Proof. vm_compute. split; [reflexivity|]. split; [discriminate|]. repeat split. Qed.

(** C33: the name table of a struct has the names of its options and no others. *)
Theorem C33_options {V : Type} (d : args_decl V) (n : name) : accepted d -> (forall c, n = Short c -> scalar c) ->
  (exists w, get_named (info_of (fst (compile_args d))) (table_key n) = Some w) <->
  exists a, In a (own_args d) /\ has_name a n.
Proof. exact (option_table d n). Qed.
Print Assumptions C33_options.

(** The same for subcommands. *)
Theorem C33_subcommand {V : Type} (vs : list (ident * variant_decl V)) (v : ident * variant_decl V) : In v vs ->
  exists i w, sub_search (sub_info_of (fst (compile_sub (MkSubDecl vs)))) (sub_name v) = Some (sub_name v, i) /\
    nth_error vs i = Some w /\ sub_name w = sub_name v.
Proof. exact (sub_found vs v). Qed.
Print Assumptions C33_subcommand.
Theorem C33_only_subcommands {V : Type} (vs : list (ident * variant_decl V)) (tok : bytes) (i : nat) :
  sub_search (sub_info_of (fst (compile_sub (MkSubDecl vs)))) tok = Some (tok, i) ->
  exists v, nth_error vs i = Some v /\ sub_name v = tok.
Proof. exact (sub_table vs tok i). Qed.
Print Assumptions C33_only_subcommands.

Example C33_example :
  let info := info_of (fst (compile_args app_)) in
  length (ri_named_attrs info) = 21 /\
  get_named info (table_key (Long (bs "dry-run"))) <> None /\ get_named info (table_key (Long (bs "dry"))) = None /\
  get_named info (table_key (Short (b2n "k"))) <> None /\ get_named info (table_key (Short (b2n "K"))) = None.
Proof. vm_compute. repeat split; discriminate. Qed.

(** C34: an entry of the name table is the packed form of the option of that
    name and its index; that of the positionals likewise. *)
Theorem C34_option {V : Type} (d : args_decl V) (n : name) (w : attrs) : accepted d -> (forall c, n = Short c -> scalar c) ->
  get_named (info_of (fst (compile_args d))) (table_key n) = Some w ->
  exists a i, In a (own_args d) /\ has_name a n /\ nth_error (checked d) i = Some a /\ i < 255 /\ packs_option a i w.
Proof. exact (option_packed d n w). Qed.
Print Assumptions C34_option.
Theorem C34_positional {V : Type} (d : args_decl V) (j : nat) (w : attrs) : accepted d ->
  nth_error (ri_positional_attrs (info_of (fst (compile_args d)))) j = Some w ->
  exists a i, nth_error (positionals d) j = Some a /\ nth_error (checked d) i = Some a /\ i < 255 /\ packs_positional a i w.
Proof. exact (positional_packed d j w). Qed.
Print Assumptions C34_positional.

Example C34_example :
  match get_named (info_of (fst (compile_args app_))) (table_key (Long (bs "verbose"))) with
  | Some w => get_index w = 0%N /\ contains w GLOBAL = true /\ contains w REQUIRE_VALUE = false
  | None => False
  end /\
  match nth_error (ri_positional_attrs (info_of (fst (compile_args copy)))) 2 with
  | Some w => get_index w = 6%N /\ contains w VAR_ARG = true /\ contains w LAST = true
  | None => False
  end.
Proof. vm_compute. repeat split. Qed.

(** C40: with distinct names, the name of a variant enters that variant. *)
Theorem C40_enters {V : Type} (d : args_decl V) (pre : list bytes) (os : list (occ V)) (stk : list (scope V)) (rem : list (sarg V))
    (v : ident * variant_decl V) :
  valid d -> at_option d pre os stk rem -> In v (sub_variants stk) ->
  at_option d (pre ++ [sub_name v]) os (variant_scope v :: stk) (positionals (sc_decl (variant_scope v))) /\
  shows d (pre ++ [sub_name v]) os (variant_scope v :: stk).
Proof. exact (sub_shows d pre os stk rem v). Qed.
Print Assumptions C40_enters.

(** The macros do not make sure that they are distinct: there is an accepted
    declaration with a variant that no command line selects. *)
Theorem C40_refuted : exists (V : Type) (d : args_decl V) (v : ident),
  accepted d /\ In v (map fst (sub_variants [Scope d [] false])) /\
  (forall argv o, try_parse_from d argv = Ok o -> ~ In v (entered o)) /\
  exists argv o, try_parse_from d argv = Ok o.
Proof.
  exists tv, twins, (bs "FooBar"). split; [vm_compute; reflexivity|]. split; [left; reflexivity|]. split.
  - intros argv o H. rewrite (twins_unreachable argv o H). intros [E|[]]. discriminate.
  - exists (argv ["prog"; "foo-bar"]). eexists. vm_compute. reflexivity.
Qed.
Print Assumptions C40_refuted.

Example C40_example :
  valid app_ /\ arrives app_ (argv ["-v"]) (fun os stk rem => map sub_name (sub_variants stk) = argv ["run"; "list-all"]) /\
  succeeds app_ (argv ["prog"; "list-all"]) (fun o => entered o = [bs "ListAll"]).
Proof. split; [exact app_valid|]. split; [show|]. show. Qed.

(** C45: the text of an error has the offending input, quoted, ... *)
Theorem C45_input (esc : escapes) (e : error) (i : bytes) :
  In (e_kind e) [UnknownNamedArgument; UnknownSubcommand; ExtraPositionalArgument; UnexpectedInlineValue; InvalidValue] ->
  e_input e = Some i -> infix (os_debug esc i) (error_display esc e).
Proof. exact (display_input esc e i). Qed.
Print Assumptions C45_input.
(** ... in a form that determines it and has no control characters, ... *)
Theorem C45_quoted (esc : escapes) (s t : bytes) : os_debug esc s = os_debug esc t -> s = t.
Proof. exact (os_debug_inj esc s t). Qed.
Print Assumptions C45_quoted.
Theorem C45_no_control (esc : escapes) (s : bytes) : Forall (fun b => ~ control b) (os_debug esc s).
Proof. exact (os_debug_clean esc s). Qed.
Print Assumptions C45_no_control.
(** ... and which shows printable text as it is, and a byte that is not UTF-8 by
    its two digits; ... *)
Theorem C45_verbatim (esc : escapes) (cs : list N) :
  Forall scalar cs -> Forall (plain_char esc) cs -> os_debug esc (text cs) = bs """" ++ text cs ++ bs """".
Proof. exact (os_debug_plain esc cs). Qed.
Print Assumptions C45_verbatim.
Theorem C45_byte (esc : escapes) (cs : list N) (b hi lo : byte) :
  Forall scalar cs -> Forall (plain_char esc) cs -> (128 <= b2n b)%N ->
  nth_error (bs "0123456789ABCDEF") (N.to_nat (b2n b / 16)) = Some hi ->
  nth_error (bs "0123456789ABCDEF") (N.to_nat (b2n b mod 16)) = Some lo ->
  os_debug esc (text cs ++ [b]) = bs """" ++ text cs ++ bs "\x" ++ [hi; lo] ++ bs """".
Proof. exact (os_debug_byte esc cs b hi lo). Qed.
Print Assumptions C45_byte.
Example C45_verbatim_example :
  let cs := [45; 45; 110; 61; 233]%N in
  Forall scalar cs /\ Forall (plain_char any_escapes) cs /\ text cs = bs "--n=" ++ utf8_encode 233 /\
  os_debug any_escapes (text cs ++ ["254"%byte]) = bs """--n=" ++ utf8_encode 233 ++ bs "\xFE""".
Proof.
  split; [repeat constructor; unfold scalar; lia|]. split; [|split; vm_compute; reflexivity].
  repeat constructor; unfold plain_char; cbn [In]; lia.
Qed.
(** ... the argument concerned, ... *)
Theorem C45_argument (esc : escapes) (e : error) (desc : bytes) :
  In (e_kind e) [DuplicatedNamedArgument; UnexpectedInlineValue; MissingValue; InvalidValue; MissingEq;
    MissingRequiredArgument; ConstraintRequired; ConstraintExclusive; ConstraintConflict] ->
  e_arg_desc e = Some desc -> infix (bs "'" ++ desc ++ bs "'") (error_display esc e).
Proof. exact (display_arg esc e desc). Qed.
Print Assumptions C45_argument.
(** ... what is wrong, ... *)
Theorem C45_phrase (esc : escapes) (e : error) (p : bytes) : In (e_kind e, p)
   [(MissingArg0, bs "missing executable argument"); (UnknownNamedArgument, bs "unexpected argument");
    (UnknownSubcommand, bs "unrecognized subcommand"); (DuplicatedNamedArgument, bs "cannot be used multiple times");
    (ExtraPositionalArgument, bs "unexpected argument"); (UnexpectedInlineValue, bs "unexpected value");
    (MissingValue, bs "a value is required"); (InvalidValue, bs "invalid value"); (MissingEq, bs "equal sign is needed");
    (MissingRequiredArgument, bs "is required but not provided");
    (MissingRequiredSubcommand, bs "the subcommand is required but not provided");
    (ConstraintRequired, bs "is required because some dependency arguments are provided");
    (ConstraintExclusive, bs "cannot be used with one or more of the other specified arguments");
    (ConstraintConflict, bs "cannot be used with some other arguments")] ->
  infix p (error_display esc e).
Proof. exact (message_phrase esc e p). Qed.
Print Assumptions C45_phrase.
(** ... the text of the source error and the context. *)
Theorem C45_source (esc : escapes) (e : error) (s : bytes) : error_source e = Some s -> infix s (error_display esc e).
Proof. exact (display_source esc e s). Qed.
Print Assumptions C45_source.
Theorem C45_context (esc : escapes) (e : error) : e_kind e <> Custom -> infix (e_context e) (error_display esc e).
Proof. exact (display_context esc e). Qed.
Print Assumptions C45_context.
(** A request for help is displayed as the help text. *)
Theorem C45_help (esc : escapes) (e : error) (h : bytes) :
  e_kind e = Help -> e_source e = None -> e_context e = [] -> e_help e = Some h -> error_display esc e = h.
Proof. exact (display_help esc e h). Qed.
Print Assumptions C45_help.

Example C45_example :
  match try_parse_from app_ (argv ["prog"; "--offset=x"]) with
  | Err e => forall esc, error_display esc e = bs "invalid value """ ++ bs "x""" ++ bs " for '-o, --offset <OFFSET>': invalid digit found in string"
  | _ => False
  end.
Proof. vm_compute. reflexivity. Qed.

(** [Debug] of an error tells as much as [Display]. *)
Theorem C45_debug (esc : escapes) (e1 e2 : error) :
  error_debug esc e1 = error_debug esc e2 -> error_display esc e1 = error_display esc e2.
Proof. exact (error_debug_inj esc e1 e2). Qed.
Print Assumptions C45_debug.
Example C45_debug_example :
  match try_parse_from app_ (argv ["prog"; "it's"; "x"]) with
  | Err e =>
      error_debug any_escapes e = bs "Error { message: ""unrecognized subcommand \""x\"""", .. }"
  | _ => False
  end /\
  os_debug (mkEscapes true (fun c => (c =? 8203)%N)) (bs "it's" ++ utf8_encode 8203 ++ utf8_encode 233 ++ ["255"%byte])
  = bs """it\'s\u{200b}" ++ utf8_encode 233 ++ bs "\xFF""".
Proof. split; vm_compute; reflexivity. Qed.

(** C46: if the first line is not blank, the text is the paragraphs, each on a
    line of its own. *)
Theorem C46_paragraphs (ls ts : list bytes) : Forall2 trimmed ls ts -> hd_error ts <> Some [] ->
  doc_process ls = glue [c_nl] (map (glue (bs " ")) (paragraphs ts)).
Proof. exact (doc_paragraphs ls ts). Qed.
Print Assumptions C46_paragraphs.
(** No line is lost: the paragraphs have all the lines that are not blank. *)
Theorem C46_lines (ts : list bytes) :
  concat (paragraphs ts) = filter (fun t => match t with [] => false | _ => true end) ts.
Proof. exact (paragraphs_lines ts). Qed.
Print Assumptions C46_lines.
Theorem C46_end (ls : list bytes) (l : bytes) (b : byte) : doc_process ls = l ++ [b] -> ~ space b.
Proof. exact (doc_end ls l b). Qed.
Print Assumptions C46_end.
(** A blank first line gives an empty line at the beginning. *)
Theorem C46_leading_blank (ls ts : list bytes) : Forall2 trimmed ls ts -> hd_error ts = Some [] -> paragraphs ts <> [] ->
  doc_process ls = c_nl :: glue [c_nl] (map (glue (bs " ")) (paragraphs ts)).
Proof. exact (doc_leading ls ts). Qed.
Print Assumptions C46_leading_blank.
Theorem C46_any_first_line_refuted : exists ls ts, Forall2 trimmed ls ts /\
  doc_process ls <> glue [c_nl] (map (glue (bs " ")) (paragraphs ts)).
Proof.
  exists [[]; bs "x"], [[]; bs "x"]. split; [|vm_compute; discriminate].
  constructor; [apply trim_ascii_iff; reflexivity|]. constructor; [apply trim_ascii_iff; reflexivity|constructor].
Qed.
Print Assumptions C46_any_first_line_refuted.

Example C46_example :
  Forall2 trimmed (argv [" Copies "; " a file."; " "; ""; " Fast."]) (argv ["Copies"; "a file."; ""; ""; "Fast."]) /\
  doc_process (argv [" Copies "; " a file."; " "; ""; " Fast."]) = bs "Copies a file." ++ [c_nl] ++ bs "Fast.".
Proof. split; [|vm_compute; reflexivity]. repeat (constructor; [apply trim_ascii_iff; reflexivity|]). constructor. Qed.

(** C47: the decoding of a bundle is exact: all the characters up to the first
    byte that does not start one. *)
Theorem C47_prefix (s : bytes) (cs : list N) (r : bytes) :
  utf8_prefix s = (cs, r) <-> Forall scalar cs /\ no_char r /\ s = text cs ++ r.
Proof. exact (utf8_prefix_iff s cs r). Qed.
Print Assumptions C47_prefix.
Theorem C47_valid (s : bytes) : utf8_valid s = true <-> exists cs, Forall scalar cs /\ s = text cs.
Proof. exact (utf8_valid_iff s). Qed.
Print Assumptions C47_valid.
Theorem C47_unique (cs cs' : list N) : Forall scalar cs -> Forall scalar cs' -> text cs = text cs' -> cs = cs'.
Proof. exact (text_inj cs cs'). Qed.
Print Assumptions C47_unique.
(** Lossy conversion gives a text, and keeps one as it is. *)
Theorem C47_lossy (s : bytes) : exists cs, Forall scalar cs /\ to_string_lossy s = text cs.
Proof. exact (lossy_valid s). Qed.
Print Assumptions C47_lossy.
Theorem C47_lossy_text (cs : list N) : Forall scalar cs -> to_string_lossy (text cs) = text cs.
Proof. exact (lossy_text cs). Qed.
Print Assumptions C47_lossy_text.
(** It keeps the characters and puts U+FFFD for everything else. *)
Theorem C47_replaced (s t : bytes) : to_string_lossy s = t <-> lossily s t.
Proof. exact (lossy_iff s t). Qed.
Print Assumptions C47_replaced.

Example C47_example :
  utf8_prefix (map n2b [97; 195; 169; 240; 159; 166; 128; 255; 98]%N) = ([97; 233; 129408]%N, map n2b [255; 98]%N) /\
  utf8_valid (map n2b [237; 160; 128]%N) = false /\ utf8_valid (map n2b [192; 128]%N) = false /\
  Forall scalar [97; 233; 129408]%N.
Proof. split; [vm_compute; reflexivity|]. split; [vm_compute; reflexivity|]. split; [vm_compute; reflexivity|]. repeat constructor; unfold scalar; lia. Qed.

Example C47_replaced_example :
  lossily (bs "a" ++ map n2b [226; 130]%N) (bs "a" ++ utf8_encode 65533) /\ broken (map n2b [226; 130]%N) [] /\
  to_string_lossy (bs "a" ++ map n2b [255; 49; 240; 159; 65]%N) = bs "a" ++ utf8_encode 65533 ++ bs "1" ++ utf8_encode 65533 ++ bs "A".
Proof. split; [apply lossy_iff; vm_compute; reflexivity|]. split; [exact cut_euro|vm_compute; reflexivity]. Qed.

(** C51: [#[arg(long)]] on a snake_case field is the name with hyphens, ... *)
Theorem C51_long {V : Type} (a : sarg V) (ws : list bytes) :
  am_long (sa_meta a) = Some Inherit -> Forall snake_word ws -> sa_id a = glue (bs "_") ws ->
  has_name a (Long (glue (bs "-") ws)) /\
  forall d, accepted d -> In a (own_args d) ->
  exists w, get_named (info_of (fst (compile_args d))) (table_key (Long (glue (bs "-") ws))) = Some w.
Proof. exact (default_long_found a ws). Qed.
Print Assumptions C51_long.
(** ... [#[arg(short)]] is the first letter, ... *)
Theorem C51_short {V : Type} (a : sarg V) (b : byte) (r : bytes) :
  am_short (sa_meta a) = Some Inherit -> sa_id a = b :: r -> has_name a (Short (b2n b)) /\
  forall d, accepted d -> In a (own_args d) ->
  exists w, get_named (info_of (fst (compile_args d))) (table_key (Short (b2n b))) = Some w.
Proof. exact (default_short_found a b r). Qed.
Print Assumptions C51_short.
(** ... the value is shown as the name in capitals, ... *)
Theorem C51_value_name {V : Type} (a : sarg V) (ws : list bytes) (s : bytes) :
  am_value_name (sa_meta a) = None -> Forall snake_word ws -> sa_id a = glue (bs "_") ws ->
  Forall2 raised (sa_id a) s -> Spec.value_name a = s.
Proof. exact (NameFacts.default_value_name a ws s). Qed.
Print Assumptions C51_value_name.
(** ... and the subcommand of a PascalCase variant is its words with hyphens. *)
Theorem C51_subcommand {V : Type} (v : ident * variant_decl V) (ws cs : list bytes) :
  Forall pascal_word ws -> Forall2 capitalized ws cs -> fst v = concat cs -> sub_name v = glue (bs "-") ws /\
  forall vs, In v vs -> exists i w,
  sub_search (sub_info_of (fst (compile_sub (MkSubDecl vs)))) (glue (bs "-") ws) = Some (glue (bs "-") ws, i) /\
  nth_error vs i = Some w /\ sub_name w = glue (bs "-") ws.
Proof. exact (default_subcommand_found v ws cs). Qed.
Print Assumptions C51_subcommand.
(** The conventions of [rename_all] on the variants of an enum. *)
Theorem C51_rename_all (ws cs : list bytes) : Forall pascal_word ws -> Forall2 capitalized ws cs ->
  do_rename KebabCase (concat cs) = glue (bs "-") ws
  /\ do_rename SnakeCase (concat cs) = glue (bs "_") ws
  /\ Forall2 raised (glue (bs "_") ws) (do_rename ScreamingSnakeCase (concat cs))
  /\ do_rename PascalCase (concat cs) = concat cs
  /\ do_rename CamelCase (concat cs) = hd [] ws ++ concat (tl cs)
  /\ do_rename Lower (concat cs) = concat ws
  /\ Forall2 raised (concat ws) (do_rename Upper (concat cs))
  /\ do_rename Heck.Verbatim (concat cs) = concat cs.
Proof. exact (renames_pascal ws cs). Qed.
Print Assumptions C51_rename_all.

Example C51_example :
  Forall snake_word (argv ["log"; "file2"]) /\ glue (bs "_") (argv ["log"; "file2"]) = bs "log_file2" /\
  Forall pascal_word (argv ["list"; "all"]) /\ Forall2 capitalized (argv ["list"; "all"]) (argv ["List"; "All"]).
Proof.
  assert (H : forall s, forallb (fun b => (97 <=? b2n b)%N && (b2n b <=? 122)%N || (48 <=? b2n b)%N && (b2n b <=? 57)%N) s = true ->
     Forall (fun b => lower_letter b \/ digit b) s).
  { intros s Hs. apply Forall_forall. intros b Hb. rewrite forallb_forall in Hs. specialize (Hs b Hb). unfold lower_letter, digit. lia. }
  split; [repeat constructor; try discriminate; apply H; reflexivity|]. split; [reflexivity|]. split.
  - repeat constructor; do 3 eexists; (split; [reflexivity|]); repeat split; try (vm_compute; discriminate); apply H; reflexivity.
  - repeat constructor; do 3 eexists; (split; [reflexivity|]); (split; [reflexivity|]); apply raised_spec; reflexivity.
Qed.
