(** C09, C10, C17, C19-C23, C25, C29, C30, C39, C42: what the occurrences of an
    argument do to its field, and the constraints. *)
From Verif Require Import Bytes Utf8 Error Values Places Heck Decl Spec Derive Generated Observe Outcome Meaning Parts Kit Samples.
From Verif Require Import ValueFacts OptionFacts SameFacts WriteFacts ShowFacts MeaningFacts LossyFacts.
Local Open Scope string_scope.
Local Open Scope list_scope.

(** C09: a single-valued argument given twice. *)
Theorem C09_duplicate {V : Type} (d : args_decl V) (argv0 : bytes) (pre : list bytes) (os : list (occ V))
    (stk : list (scope V)) (rem : list (sarg V)) (toks : list bytes) (ad : addr) (a : sarg V)
    (v : option bytes) (post : list bytes) :
  valid d -> at_option d pre os stk rem -> no_error_in os -> writes stk toks ad a v ->
  many a = false -> given os ad = true -> (shape_a a = ShFlag -> v = None) ->
  try_parse_from d (argv0 :: pre ++ toks ++ post) = Err (error_about DuplicatedNamedArgument a).
Proof. exact (duplicate d argv0 pre os stk rem toks ad a v post). Qed.
Print Assumptions C09_duplicate.

Example C09_duplicate_example :
  valid app_ /\ arrives app_ (argv ["-v"; "--nick"; "x"; "-d"]) (fun os stk rem => no_error_in os /\
    denotes_arg stk (Short (b2n "n")) (fun ad a =>
      takes_value a = true /\ many a = false /\ given os ad = true /\ shape_a a <> ShFlag)).
Proof. split; [exact app_valid|]. vm_compute. repeat split. discriminate. Qed.

(** No success keeps one of several values. *)
Theorem C09_at_most_once {V : Type} (d : args_decl V) (argv0 : bytes) (toks : list bytes) (o : outval V)
    (os : list (occ V)) (stk : list (scope V)) (ad : addr) (a : sarg V) :
  valid d -> try_parse_from d (argv0 :: toks) = Ok o -> reads d toks os stk -> In (ad, a) (stack_args stk) ->
  many a = false -> length (values_of os ad) <= 1.
Proof. exact (at_most_once d argv0 toks o os stk ad a). Qed.
Print Assumptions C09_at_most_once.

Example C09_at_most_once_example :
  valid app_ /\ succeeds app_ (argv ["prog"; "-d"; "-nme"; "run"; "t"]) (fun _ => True) /\
  reads_such app_ (argv ["-d"; "-nme"; "run"; "t"]) (fun os stk =>
    has_arg stk (Addr 0 [bs "name"]) (fun a => many a = false) /\
    values_of os (Addr 0 [bs "name"]) = [Some (bs "me")]).
Proof. split; [exact app_valid|]. show. Qed.

(** C10: a [Vec] argument collects its values in order. *)
Theorem C10_vec {V : Type} (d : args_decl V) (argv0 : bytes) (toks : list bytes) (o : outval V)
    (os : list (occ V)) (stk : list (scope V)) (ad : addr) (a : sarg V) :
  valid d -> try_parse_from d (argv0 :: toks) = Ok o -> reads d toks os stk -> In (ad, a) (stack_args stk) ->
  shape_a a = ShMany -> given os ad = true \/ has_default a = false ->
  exists texts xs, values_of os ad = map Some texts /\ field_at ad o = Some (FvVec xs) /\
    reads_as (value_of_ty (sa_ty a)) (flat_map (pieces a) (map (text_of a) texts)) xs.
Proof. exact (vec_value d argv0 toks o os stk ad a). Qed.
Print Assumptions C10_vec.

Theorem C10_option_vec {V : Type} (d : args_decl V) (argv0 : bytes) (toks : list bytes) (o : outval V)
    (os : list (occ V)) (stk : list (scope V)) (ad : addr) (a : sarg V) :
  valid d -> try_parse_from d (argv0 :: toks) = Ok o -> reads d toks os stk -> In (ad, a) (stack_args stk) ->
  shape_a a = ShOptMany -> given os ad = true ->
  exists texts xs, values_of os ad = map Some texts /\ field_at ad o = Some (FvOptionVec (Some xs)) /\
    reads_as (value_of_ty (sa_ty a)) (flat_map (pieces a) (map (text_of a) texts)) xs.
Proof. exact (optvec_value d argv0 toks o os stk ad a). Qed.
Print Assumptions C10_option_vec.

(** Every occurrence adds its value at the end, and changes no other argument's. *)
Theorem C10_appended {V : Type} (d : args_decl V) (pre : list bytes) (os : list (occ V))
    (stk : list (scope V)) (rem : list (sarg V)) (toks : list bytes) (ad : addr) (a : sarg V) (v : option bytes) :
  valid d -> at_option d pre os stk rem -> writes stk toks ad a v ->
  exists os', at_option d (pre ++ toks) os' stk rem /\ shows d (pre ++ toks) os' stk /\
  values_of os' ad = values_of os ad ++ [v] /\ forall ad', ad' <> ad -> values_of os' ad' = values_of os ad'.
Proof. exact (written_shows d pre os stk rem toks ad a v). Qed.
Print Assumptions C10_appended.

Example C10_example :
  valid app_ /\
  succeeds app_ (argv ["prog"; "-f"; "a,b"; "-v"; "--file="; "-d"; "-fc"]) (fun o =>
    field_at (Addr 0 [bs "file"]) o = Some (FvVec [TStr (bs "a"); TStr (bs "b"); TStr []; TStr (bs "c")])) /\
  reads_such app_ (argv ["-f"; "a,b"; "-v"; "--file="; "-d"; "-fc"]) (fun os stk =>
    has_arg stk (Addr 0 [bs "file"]) (fun a => shape_a a = ShMany) /\
    values_of os (Addr 0 [bs "file"]) = [Some (bs "a,b"); Some []; Some (bs "c")]).
Proof. split; [exact app_valid|]. show. Qed.

(** C17: inside a subcommand, only global options of the enclosing commands. *)
Theorem C17_only_global {V : Type} (d : args_decl V) (pre : list bytes) (os : list (occ V))
    (stk : list (scope V)) (rem : list (sarg V)) (n : name) (ad : addr) (a : sarg V) :
  valid d -> at_option d pre os stk rem -> resolve stk n = Some (ad, a) -> S (ad_level ad) < length stk ->
  is_global a = true.
Proof. exact (outer_global d pre os stk rem n ad a). Qed.
Print Assumptions C17_only_global.

Theorem C17_not_recognised {V : Type} (d : args_decl V) (pre : list bytes) (os : list (occ V))
    (stk : list (scope V)) (rem : list (sarg V)) (n : name) :
  valid d -> at_option d pre os stk rem ->
  (forall ad a, In (ad, a) (stack_args stk) -> has_name a n -> S (ad_level ad) < length stk /\ is_global a = false) ->
  resolve stk n = None.
Proof. exact (outer_hidden d pre os stk rem n). Qed.
Print Assumptions C17_not_recognised.
Theorem C17_not_recognised_error {V : Type} (d : args_decl V) (argv0 : bytes) (pre : list bytes) (os : list (occ V))
    (stk : list (scope V)) (rem : list (sarg V)) (n : name) (ad : addr) (a : sarg V) (post : list bytes) :
  valid d -> at_option d pre os stk rem -> no_error_in os -> In (ad, a) (stack_args stk) -> has_name a n ->
  (forall ad' b, In (ad', b) (stack_args stk) -> has_name b n -> S (ad_level ad') < length stk /\ is_global b = false) ->
  n <> Long (bs "help") -> n <> Short (b2n "h") ->
  try_parse_from d (argv0 :: pre ++ spell n :: post) = Err (error_on UnknownNamedArgument (spell n)).
Proof. exact (hidden_error d argv0 pre os stk rem n ad a post). Qed.
Print Assumptions C17_not_recognised_error.

(** A global option that no inner argument shadows is recognised... *)
Theorem C17_recognised {V : Type} (d : args_decl V) (pre : list bytes)
    (os : list (occ V)) (stk : list (scope V)) (rem : list (sarg V)) (n : name) (ad : addr) (a : sarg V) :
  valid d -> at_option d pre os stk rem -> In (ad, a) (stack_args stk) -> is_global a = true -> has_name a n ->
  (forall ad' b, In (ad', b) (stack_args stk) -> has_name b n -> ad' = ad) ->
  resolve stk n = Some (ad, a).
Proof. intros Hd H Hi Hg. exact (names_denote d pre os stk rem n ad a Hd H Hi (or_intror Hg)). Qed.
Print Assumptions C17_recognised.

(** ...and sets the field of its own command. *)
Theorem C17_sets_field {V : Type} (d : args_decl V) (argv0 : bytes) (pre : list bytes) (os : list (occ V))
    (stk : list (scope V)) (rem : list (sarg V)) (toks : list bytes) (ad : addr) (a : sarg V)
    (v : option bytes) (post : list bytes) (o : outval V) :
  valid d -> at_option d pre os stk rem -> writes stk toks ad a v ->
  try_parse_from d (argv0 :: pre ++ toks ++ post) = Ok o ->
  exists vals fv, In v vals /\ field_at ad o = Some fv /\ denotes a (map (option_map (text_of a)) vals) fv.
Proof. exact (written_field d argv0 pre os stk rem toks ad a v post o). Qed.
Print Assumptions C17_sets_field.

Example C17_example :
  valid app_ /\ arrives app_ (argv ["run"; "t"]) (fun os stk rem => length stk = 2 /\
    denotes_arg stk (Long (bs "verbose")) (fun ad a => ad = Addr 0 [bs "verbose"] /\ is_global a = true) /\
    resolve stk (Long (bs "dry-run")) = None) /\
  arrives app_ [] (fun os stk rem =>
    denotes_arg stk (Long (bs "dry-run")) (fun ad a => ad = Addr 0 [bs "dry_run"] /\ is_global a = false)) /\
  succeeds app_ (argv ["prog"; "run"; "-v"; "t"]) (fun o => field_at (Addr 0 [bs "verbose"]) o = Some (FvBool true)) /\
  try_parse_from app_ (argv ["prog"; "run"; "t"; "--dry-run"]) = Err (error_on UnknownNamedArgument (bs "--dry-run")).
Proof.
  split; [exact app_valid|]. split; [vm_compute; repeat constructor|]. split; [show|]. split; [show|]. vm_compute. reflexivity.
Qed.

(** C19: required arguments and subcommands. *)
Theorem C19_required {V : Type} (d : args_decl V) (argv0 : bytes) (toks : list bytes) (o : outval V)
    (os : list (occ V)) (stk : list (scope V)) (ad : addr) (a : sarg V) :
  valid d -> try_parse_from d (argv0 :: toks) = Ok o -> reads d toks os stk -> In (ad, a) (stack_args stk) ->
  is_required a = true -> given os ad = true.
Proof. exact (required_given d argv0 toks o os stk ad a). Qed.
Print Assumptions C19_required.

Theorem C19_missing_fails {V : Type} (d : args_decl V) (argv0 : bytes) (toks : list bytes)
    (os : list (occ V)) (stk : list (scope V)) (ad : addr) (a : sarg V) :
  valid d -> defaults_readable d = true -> reads d toks os stk ->
  In (ad, a) (stack_args stk) -> is_required a = true -> given os ad = false ->
  exists e, try_parse_from d (argv0 :: toks) = Err e.
Proof. exact (required_fails d argv0 toks os stk ad a). Qed.
Print Assumptions C19_missing_fails.

Theorem C19_required_subcommand {V : Type} (d : args_decl V) (argv0 : bytes) (toks : list bytes) (o : outval V)
    (os : list (occ V)) (s : scope V) (outer : list (scope V)) (id : ident) (vs : list (ident * variant_decl V)) :
  valid d -> try_parse_from d (argv0 :: toks) = Ok o -> reads d toks os (s :: outer) ->
  subcommand (sc_decl s) <> Some (id, false, vs).
Proof. exact (subcommand_given d argv0 toks o os s outer id vs). Qed.
Print Assumptions C19_required_subcommand.

Theorem C19_missing_subcommand_fails {V : Type} (d : args_decl V) (argv0 : bytes) (toks : list bytes)
    (os : list (occ V)) (s : scope V) (outer : list (scope V)) (id : ident) (vs : list (ident * variant_decl V)) :
  valid d -> defaults_readable d = true -> reads d toks os (s :: outer) ->
  subcommand (sc_decl s) = Some (id, false, vs) ->
  exists e, try_parse_from d (argv0 :: toks) = Err e.
Proof. exact (subcommand_fails d argv0 toks os s outer id vs). Qed.
Print Assumptions C19_missing_subcommand_fails.

Example C19_example :
  valid app_ /\ defaults_readable app_ = true /\
  reads_such app_ (argv ["-v"; "run"; "-j"; "3"]) (fun os stk =>
    has_arg stk (Addr 1 [bs "target"]) (fun a => is_required a = true) /\ given os (Addr 1 [bs "target"]) = false) /\
  succeeds app_ (argv ["prog"; "run"; "-v"; "t"]) (fun _ => True).
Proof. split; [exact app_valid|]. show. Qed.

(** C20: [conflicts_with]. *)
Theorem C20_conflicts {V : Type} (d : args_decl V) (argv0 : bytes) (toks : list bytes) (o : outval V)
    (os : list (occ V)) (stk : list (scope V)) (ad : addr) (a : sarg V) (id : ident) :
  valid d -> try_parse_from d (argv0 :: toks) = Ok o -> reads d toks os stk -> In (ad, a) (stack_args stk) ->
  In id (am_conflicts_with (sa_meta a)) -> given os ad = true -> given os (sibling ad id) = false.
Proof. exact (conflicts_apart d argv0 toks o os stk ad a id). Qed.
Print Assumptions C20_conflicts.

Theorem C20_fails {V : Type} (d : args_decl V) (argv0 : bytes) (toks : list bytes)
    (os : list (occ V)) (stk : list (scope V)) (ad : addr) (a : sarg V) (id : ident) :
  valid d -> defaults_readable d = true -> reads d toks os stk -> In (ad, a) (stack_args stk) ->
  In id (am_conflicts_with (sa_meta a)) -> given os ad = true -> given os (sibling ad id) = true ->
  exists e, try_parse_from d (argv0 :: toks) = Err e.
Proof. exact (conflicts_fail d argv0 toks os stk ad a id). Qed.
Print Assumptions C20_fails.

Example C20_example :
  valid copy /\ defaults_readable copy = true /\
  reads_such copy (argv ["src"; "--keep"; "-f"; "b"]) (fun os stk =>
    has_arg stk (Addr 0 [bs "force"]) (fun a => am_conflicts_with (sa_meta a) = [bs "keep"]) /\
    given os (Addr 0 [bs "force"]) = true /\ given os (sibling (Addr 0 [bs "force"]) (bs "keep")) = true) /\
  succeeds copy (argv ["cp"; "src"; "-f"]) (fun _ => True).
Proof. split; [exact copy_valid|]. show. Qed.

(** C21: [requires]. *)
Theorem C21_requires {V : Type} (d : args_decl V) (argv0 : bytes) (toks : list bytes) (o : outval V)
    (os : list (occ V)) (stk : list (scope V)) (ad : addr) (a : sarg V) (id : ident) :
  valid d -> try_parse_from d (argv0 :: toks) = Ok o -> reads d toks os stk -> In (ad, a) (stack_args stk) ->
  In id (am_requires (sa_meta a)) -> given os ad = true -> given os (sibling ad id) = true.
Proof. exact (requires_given d argv0 toks o os stk ad a id). Qed.
Print Assumptions C21_requires.

Theorem C21_fails {V : Type} (d : args_decl V) (argv0 : bytes) (toks : list bytes)
    (os : list (occ V)) (stk : list (scope V)) (ad : addr) (a : sarg V) (id : ident) :
  valid d -> defaults_readable d = true -> reads d toks os stk -> In (ad, a) (stack_args stk) ->
  In id (am_requires (sa_meta a)) -> given os ad = true -> given os (sibling ad id) = false ->
  exists e, try_parse_from d (argv0 :: toks) = Err e.
Proof. exact (requires_fail d argv0 toks os stk ad a id). Qed.
Print Assumptions C21_fails.

Example C21_example :
  valid copy /\ defaults_readable copy = true /\
  reads_such copy (argv ["src"; "--to"; "x"; "b"]) (fun os stk =>
    has_arg stk (Addr 0 [bs "to"]) (fun a => am_requires (sa_meta a) = [bs "force"]) /\
    given os (Addr 0 [bs "to"]) = true /\ given os (sibling (Addr 0 [bs "to"]) (bs "force")) = false) /\
  succeeds copy (argv ["cp"; "src"; "--to"; "x"; "-f"]) (fun _ => True).
Proof. split; [exact copy_valid|]. show. Qed.

(** C22: [exclusive]. *)
Theorem C22_exclusive {V : Type} (d : args_decl V) (argv0 : bytes) (toks : list bytes) (o : outval V)
    (os : list (occ V)) (stk : list (scope V)) (ad : addr) (a : sarg V) :
  valid d -> try_parse_from d (argv0 :: toks) = Ok o -> reads d toks os stk -> In (ad, a) (stack_args stk) ->
  am_exclusive (sa_meta a) = true -> given os ad = true ->
  (forall ad' b, In (ad', b) (stack_args stk) -> same_struct ad ad' -> given os ad' = true -> ad' = ad) /\
  (own_field ad -> S (ad_level ad) = length stk).
Proof. exact (exclusive_alone d argv0 toks o os stk ad a). Qed.
Print Assumptions C22_exclusive.

Theorem C22_fails {V : Type} (d : args_decl V) (argv0 : bytes) (toks : list bytes)
    (os : list (occ V)) (stk : list (scope V)) (ad : addr) (a : sarg V) :
  valid d -> defaults_readable d = true -> reads d toks os stk -> In (ad, a) (stack_args stk) ->
  am_exclusive (sa_meta a) = true -> given os ad = true ->
  (exists ad' b, In (ad', b) (stack_args stk) /\ same_struct ad ad' /\ given os ad' = true /\ ad' <> ad) \/
  (own_field ad /\ S (ad_level ad) < length stk) ->
  exists e, try_parse_from d (argv0 :: toks) = Err e.
Proof. exact (exclusive_fails d argv0 toks os stk ad a). Qed.
Print Assumptions C22_fails.

Example C22_example :
  valid copy /\ defaults_readable copy = true /\
  reads_such copy (argv ["--list"; "src"]) (fun os stk =>
    has_arg stk (Addr 0 [bs "list"]) (fun a => am_exclusive (sa_meta a) = true) /\
    given os (Addr 0 [bs "list"]) = true /\ given os (Addr 0 [bs "source"]) = true) /\
  same_struct (Addr 0 [bs "list"]) (Addr 0 [bs "source"]) /\ own_field (Addr 0 [bs "list"]).
Proof. split; [exact copy_valid|]. split; [vm_compute; reflexivity|]. split; [show|]. split; [split|]; reflexivity. Qed.

(** C23: defaults. *)
Theorem C23_given {V : Type} (d : args_decl V) (argv0 : bytes) (toks : list bytes) (o : outval V)
    (os : list (occ V)) (stk : list (scope V)) (ad : addr) (a : sarg V) :
  valid d -> try_parse_from d (argv0 :: toks) = Ok o -> reads d toks os stk -> In (ad, a) (stack_args stk) ->
  given os ad = true ->
  exists fv, field_at ad o = Some fv /\ denotes a (map (option_map (text_of a)) (values_of os ad)) fv.
Proof. exact (given_value d argv0 toks o os stk ad a). Qed.
Print Assumptions C23_given.

Theorem C23_absent {V : Type} (d : args_decl V) (argv0 : bytes) (toks : list bytes) (o : outval V)
    (os : list (occ V)) (stk : list (scope V)) (ad : addr) (a : sarg V) :
  valid d -> try_parse_from d (argv0 :: toks) = Ok o -> reads d toks os stk -> In (ad, a) (stack_args stk) ->
  given os ad = false ->
  exists fv, field_at ad o = Some fv /\ denotes_absent a fv.
Proof. exact (absent_value d argv0 toks o os stk ad a). Qed.
Print Assumptions C23_absent.

(** A textual default is read as a given value would be. *)
Theorem C23_text_default {V : Type} (d : args_decl V) (argv0 : bytes) (toks : list bytes) (o : outval V)
    (os : list (occ V)) (stk : list (scope V)) (ad : addr) (a : sarg V) (s : bytes) :
  valid d -> try_parse_from d (argv0 :: toks) = Ok o -> reads d toks os stk -> In (ad, a) (stack_args stk) ->
  given os ad = false -> am_default_value (sa_meta a) = Some s -> am_default_value_t (sa_meta a) = None ->
  exists fv, field_at ad o = Some fv /\ denotes a [Some s] fv.
Proof. exact (text_default d argv0 toks o os stk ad a s). Qed.
Print Assumptions C23_text_default.

Example C23_example :
  valid app_ /\
  succeeds app_ (argv ["prog"; "-v"]) (fun o => field_at (Addr 0 [bs "level"]) o = Some (FvVal (TInt 3))) /\
  succeeds app_ (argv ["prog"; "--level=7"]) (fun o => field_at (Addr 0 [bs "level"]) o = Some (FvVal (TInt 7))) /\
  reads_such app_ (argv ["-v"]) (fun os stk => given os (Addr 0 [bs "level"]) = false /\
    has_arg stk (Addr 0 [bs "level"]) (fun a => am_default_value (sa_meta a) = Some (bs "3") /\
      am_default_value_t (sa_meta a) = None)).
Proof. split; [exact app_valid|]. show. Qed.

(** C25: [Option<Option<T>>]. *)
Theorem C25_bare_takes_nothing {V : Type} (d : args_decl V) (pre : list bytes) (os : list (occ V))
    (stk : list (scope V)) (rem : list (sarg V)) (n : name) (ad : addr) (a : sarg V) :
  valid d -> at_option d pre os stk rem -> resolve stk n = Some (ad, a) -> takes_value a = false ->
  at_option d (pre ++ [spell n]) (os ++ [Occ ad a None]) stk rem /\ shows d (pre ++ [spell n]) (os ++ [Occ ad a None]) stk.
Proof. intros Hd H Hr Ht. exact (at_both _ _ _ _ _ Hd (bare_occ d pre os stk rem n ad a Hd H Hr Ht)). Qed.
Print Assumptions C25_bare_takes_nothing.

Theorem C25_field {V : Type} (d : args_decl V) (argv0 : bytes) (toks : list bytes) (o : outval V)
    (os : list (occ V)) (stk : list (scope V)) (ad : addr) (a : sarg V) :
  valid d -> try_parse_from d (argv0 :: toks) = Ok o -> reads d toks os stk -> In (ad, a) (stack_args stk) ->
  shape_a a = ShOptOpt -> has_default a = false ->
  (values_of os ad = [] /\ field_at ad o = Some (FvOptionOption None)) \/
  (values_of os ad = [None] /\ field_at ad o = Some (FvOptionOption (Some None))) \/
  (exists b x, values_of os ad = [Some b] /\ reads_as (value_of_ty (sa_ty a)) [text_of a b] [x] /\
     field_at ad o = Some (FvOptionOption (Some (Some x)))).
Proof. exact (optopt_field d argv0 toks o os stk ad a). Qed.
Print Assumptions C25_field.

Example C25_example :
  valid app_ /\
  succeeds app_ (argv ["prog"; "--color"; "x"]) (fun o =>
    field_at (Addr 0 [bs "color"]) o = Some (FvOptionOption (Some None)) /\
    field_at (Addr 0 [bs "input"]) o = Some (FvOption (Some (TStr (bs "x"))))) /\
  succeeds app_ (argv ["prog"; "--color=x"]) (fun o =>
    field_at (Addr 0 [bs "color"]) o = Some (FvOptionOption (Some (Some (TStr (bs "x")))))) /\
  succeeds app_ (argv ["prog"]) (fun o => field_at (Addr 0 [bs "color"]) o = Some (FvOptionOption None)) /\
  arrives app_ (argv ["-v"]) (fun os stk rem =>
    denotes_arg stk (Short (b2n "c")) (fun ad a => shape_a a = ShOptOpt /\ has_default a = false)).
Proof. split; [exact app_valid|]. show. Qed.

(** C29: [ignore_case]. *)
Theorem C29_same {V : Type} (d : args_decl V) (argv0 : bytes) (pre : list bytes) (os : list (occ V))
    (stk : list (scope V)) (rem : list (sarg V)) (t1 t2 : list bytes) (ad : addr) (a : sarg V)
    (v w : bytes) (post : list bytes) :
  valid d -> at_option d pre os stk rem -> writes stk t1 ad a (Some v) -> writes stk t2 ad a (Some w) ->
  am_ignore_case (sa_meta a) = true -> map ascii_lower v = map ascii_lower w ->
  try_parse_from d (argv0 :: pre ++ t1 ++ post) = try_parse_from d (argv0 :: pre ++ t2 ++ post).
Proof. exact (fold_case d argv0 pre os stk rem t1 t2 ad a v w post). Qed.
Print Assumptions C29_same.

(** With or without it: a value is accepted iff its text (in lower case with
    [ignore_case]) is the name of a variant. *)
Theorem C29_accepted {V : Type} (d : args_decl V) (argv0 : bytes) (pre : list bytes) (os : list (occ V))
    (stk : list (scope V)) (rem : list (sarg V)) (toks : list bytes) (ad : addr) (a : sarg V)
    (v : bytes) (names : list bytes) (inj : nat -> V) (post : list bytes) (o : outval V) :
  valid d -> at_option d pre os stk rem -> writes stk toks ad a (Some v) -> takes_value a = true -> many a = false ->
  vt_value_enum (value_of_ty (sa_ty a)) = Some (names, inj) ->
  try_parse_from d (argv0 :: pre ++ toks ++ post) = Ok o ->
  exists i, nth_error names i = Some (text_of a v) /\
    field_at ad o = Some (if match shape_a a with ShOne => true | _ => false end then FvVal (inj i) else FvOption (Some (inj i))).
Proof. exact (enum_fold d argv0 pre os stk rem toks ad a v names inj post o). Qed.
Print Assumptions C29_accepted.

Theorem C29_rejected {V : Type} (d : args_decl V) (argv0 : bytes) (pre : list bytes) (os : list (occ V))
    (stk : list (scope V)) (rem : list (sarg V)) (toks : list bytes) (ad : addr) (a : sarg V)
    (v : bytes) (names : list bytes) (inj : nat -> V) (post : list bytes) :
  valid d -> at_option d pre os stk rem -> no_error_in os -> writes stk toks ad a (Some v) -> takes_value a = true ->
  many a = false -> given os ad = false ->
  vt_value_enum (value_of_ty (sa_ty a)) = Some (names, inj) -> ~ In (text_of a v) names ->
  exists e, try_parse_from d (argv0 :: pre ++ toks ++ post) = Err e /\ e_kind e = InvalidValue /\
    e_arg_desc e = Some (describe a) /\ e_input e = Some (text_of a v) /\
    e_context e = bs "[possible values: " ++ join (bs ", ") (sort_by (fun n => n) names) ++ bs "]".
Proof. exact (enum_unknown d argv0 pre os stk rem toks ad a v names inj post). Qed.
Print Assumptions C29_rejected.

Theorem C29_taken {V : Type} (d : args_decl V) (pre : list bytes) (os : list (occ V))
    (stk : list (scope V)) (rem : list (sarg V)) (toks : list bytes) (ad : addr) (a : sarg V)
    (v : bytes) (names : list bytes) (inj : nat -> V) :
  valid d -> at_option d pre os stk rem -> no_error_in os -> writes stk toks ad a (Some v) -> takes_value a = true ->
  many a = false -> given os ad = false ->
  vt_value_enum (value_of_ty (sa_ty a)) = Some (names, inj) -> In (text_of a v) names -> utf8_valid (text_of a v) = true ->
  at_option d (pre ++ toks) (os ++ [Occ ad a (Some v)]) stk rem /\ no_error_in (os ++ [Occ ad a (Some v)]).
Proof. exact (enum_taken d pre os stk rem toks ad a v names inj). Qed.
Print Assumptions C29_taken.

(** Lower case, precisely: the 26 ASCII capitals, and no other byte. *)
Theorem C29_lower (x : byte) :
  (65 <= b2n x <= 90 -> b2n (ascii_lower x) = b2n x + 32)%N /\ (~ (65 <= b2n x <= 90)%N -> ascii_lower x = x).
Proof. exact (lower_exact x). Qed.
Print Assumptions C29_lower.

Example C29_example :
  valid app_ /\ arrives app_ (argv ["-v"]) (fun os stk rem => no_error_in os /\
    denotes_arg stk (Long (bs "mode")) (fun ad a => takes_value a = true /\ many a = false /\ given os ad = false /\
      am_ignore_case (sa_meta a) = true /\
      match vt_value_enum (value_of_ty (sa_ty a)) with Some (names, _) => names = [bs "fast"; bs "slow"] | None => False end)) /\
  succeeds app_ (argv ["prog"; "--mode=SloW"]) (fun o => field_at (Addr 0 [bs "mode"]) o = Some (FvOption (Some (TEnum 1)))) /\
  map ascii_lower (bs "SloW") = map ascii_lower (bs "sLOw").
Proof. split; [exact app_valid|]. split; [vm_compute; repeat split|]. show. Qed.

(** C30: values reach the type's own conversion byte for byte. *)
Theorem C30_os_bytes {V : Type} (d : args_decl V) (argv0 : bytes) (pre : list bytes) (os : list (occ V))
    (stk : list (scope V)) (rem : list (sarg V)) (toks : list bytes) (ad : addr) (a : sarg V)
    (v : bytes) (f : bytes -> V + bytes) (post : list bytes) (o : outval V) :
  valid d -> at_option d pre os stk rem -> writes stk toks ad a (Some v) -> takes_value a = true -> many a = false ->
  am_ignore_case (sa_meta a) = false -> vt_value_enum (value_of_ty (sa_ty a)) = None ->
  vt_try_from_os (value_of_ty (sa_ty a)) = Some f ->
  try_parse_from d (argv0 :: pre ++ toks ++ post) = Ok o ->
  exists x, f v = inl x /\
    field_at ad o = Some (if match shape_a a with ShOne => true | _ => false end then FvVal x else FvOption (Some x)).
Proof. exact (os_bytes d argv0 pre os stk rem toks ad a v f post o). Qed.
Print Assumptions C30_os_bytes.

Theorem C30_str_bytes {V : Type} (d : args_decl V) (argv0 : bytes) (pre : list bytes) (os : list (occ V))
    (stk : list (scope V)) (rem : list (sarg V)) (toks : list bytes) (ad : addr) (a : sarg V)
    (v : bytes) (f : bytes -> V + bytes) (post : list bytes) (o : outval V) :
  valid d -> at_option d pre os stk rem -> writes stk toks ad a (Some v) -> takes_value a = true -> many a = false ->
  am_ignore_case (sa_meta a) = false -> vt_value_enum (value_of_ty (sa_ty a)) = None ->
  vt_try_from_os (value_of_ty (sa_ty a)) = None -> vt_from_str (value_of_ty (sa_ty a)) = Some f ->
  try_parse_from d (argv0 :: pre ++ toks ++ post) = Ok o ->
  utf8_valid v = true /\ exists x, f v = inl x /\
    field_at ad o = Some (if match shape_a a with ShOne => true | _ => false end then FvVal x else FvOption (Some x)).
Proof. exact (str_bytes d argv0 pre os stk rem toks ad a v f post o). Qed.
Print Assumptions C30_str_bytes.

(** A value that the conversion takes is no error. *)
Theorem C30_taken {V : Type} (d : args_decl V) (pre : list bytes) (os : list (occ V))
    (stk : list (scope V)) (rem : list (sarg V)) (toks : list bytes) (ad : addr) (a : sarg V)
    (v : bytes) (f : bytes -> V + bytes) (x : V) :
  valid d -> at_option d pre os stk rem -> no_error_in os -> writes stk toks ad a (Some v) -> takes_value a = true ->
  many a = false -> given os ad = false ->
  am_ignore_case (sa_meta a) = false -> vt_value_enum (value_of_ty (sa_ty a)) = None ->
  vt_try_from_os (value_of_ty (sa_ty a)) = Some f \/
  (vt_try_from_os (value_of_ty (sa_ty a)) = None /\ vt_from_str (value_of_ty (sa_ty a)) = Some f /\ utf8_valid v = true) ->
  f v = inl x ->
  at_option d (pre ++ toks) (os ++ [Occ ad a (Some v)]) stk rem /\ no_error_in (os ++ [Occ ad a (Some v)]).
Proof. exact (os_taken d pre os stk rem toks ad a v f x). Qed.
Print Assumptions C30_taken.

Theorem C30_not_utf8 {V : Type} (d : args_decl V) (argv0 : bytes) (pre : list bytes) (os : list (occ V))
    (stk : list (scope V)) (rem : list (sarg V)) (toks : list bytes) (ad : addr) (a : sarg V)
    (v : bytes) (post : list bytes) :
  valid d -> at_option d pre os stk rem -> no_error_in os -> writes stk toks ad a (Some v) -> takes_value a = true ->
  many a = false -> given os ad = false ->
  vt_try_from_os (value_of_ty (sa_ty a)) = None -> utf8_valid (text_of a v) = false ->
  exists e, try_parse_from d (argv0 :: pre ++ toks ++ post) = Err e /\ e_kind e = InvalidValue /\
    e_arg_desc e = Some (describe a) /\ e_input e = Some (text_of a v).
Proof. exact (str_not_utf8 d argv0 pre os stk rem toks ad a v post). Qed.
Print Assumptions C30_not_utf8.
(** The source of that error tells where the value stops being UTF-8, and whether
    it ends within a character. *)
Theorem C30_where {V : Type} (d : args_decl V) (argv0 : bytes) (pre : list bytes) (os : list (occ V))
    (stk : list (scope V)) (rem : list (sarg V)) (toks : list bytes) (ad : addr) (a : sarg V)
    (v : bytes) (post : list bytes) (cs : list N) (p s len at_ : bytes) :
  valid d -> at_option d pre os stk rem -> no_error_in os -> writes stk toks ad a (Some v) -> takes_value a = true ->
  many a = false -> given os ad = false ->
  vt_value_enum (value_of_ty (sa_ty a)) <> None \/
    vt_try_from_os (value_of_ty (sa_ty a)) = None /\ vt_from_str (value_of_ty (sa_ty a)) <> None ->
  text_of a v = text cs ++ p ++ s -> Forall scalar cs -> broken p s -> decimal (length p) len -> decimal (length (text cs)) at_ ->
  exists e t, try_parse_from d (argv0 :: pre ++ toks ++ post) = Err e /\ error_source e = Some t /\
    (s = [] -> starts_char p -> t = bs "incomplete utf-8 byte sequence from index " ++ at_) /\
    (s <> [] \/ ~ starts_char p -> t = bs "invalid utf-8 sequence of " ++ len ++ bs " bytes from index " ++ at_).
Proof. exact (not_utf8_where d argv0 pre os stk rem toks ad a v post cs p s len at_). Qed.
Print Assumptions C30_where.

Example C30_example :
  valid app_ /\ arrives app_ (argv ["-v"]) (fun os stk rem => no_error_in os /\
    denotes_arg stk (Short (b2n "r")) (fun ad a => takes_value a = true /\ many a = false /\ given os ad = false /\
      am_ignore_case (sa_meta a) = false /\ vt_value_enum (value_of_ty (sa_ty a)) = None /\
      vt_try_from_os (value_of_ty (sa_ty a)) <> None) /\
    denotes_arg stk (Short (b2n "o")) (fun ad a => takes_value a = true /\ many a = false /\ given os ad = false /\
      vt_value_enum (value_of_ty (sa_ty a)) = None /\
      vt_try_from_os (value_of_ty (sa_ty a)) = None /\ vt_from_str (value_of_ty (sa_ty a)) <> None)) /\
  utf8_valid ["255"; "1"]%byte = false /\
  succeeds app_ [bs "prog"; bs "-r"; ["-"; "255"; "1"]%byte]
    (fun o => field_at (Addr 0 [bs "raw"]) o = Some (FvOption (Some (TStr ["-"; "255"; "1"]%byte)))).
Proof. split; [exact app_valid|]. split; [vm_compute; repeat split; discriminate|]. show. Qed.

Example C30_where_example :
  broken (map n2b [226; 130]%N) [] /\ starts_char (map n2b [226; 130]%N) /\ broken ["255"%byte] ["1"%byte] /\
  decimal 2 (bs "2") /\ decimal 10 (bs "10") /\
  match try_parse_from app_ [bs "prog"; bs "--mode"; bs "x" ++ map n2b [226; 130]%N],
        try_parse_from app_ [bs "prog"; bs "--mode"; bs "x" ++ map n2b [255; 49]%N] with
  | Err e, Err e' =>
      error_source e = Some (bs "incomplete utf-8 byte sequence from index 1") /\
      error_source e' = Some (bs "invalid utf-8 sequence of 1 bytes from index 1")
  | _, _ => False
  end.
Proof.
  split; [exact cut_euro|]. split; [exact euro_starts|]. split; [exact lone_255|].
  split; [|split; [|vm_compute; split; reflexivity]].
  - split; [repeat constructor; cbn; lia|]. split; [reflexivity|]. split; [discriminate|]. intros b r E. injection E as <- <-. reflexivity.
  - split; [repeat constructor; cbn; lia|]. split; [reflexivity|]. split; [discriminate|]. intros b r E. injection E as <- <-. discriminate.
Qed.

(** C39: neighbouring options commute. *)
Theorem C39_exchange {V : Type} (d : args_decl V) (argv0 : bytes) (pre : list bytes) (os : list (occ V))
    (stk : list (scope V)) (rem : list (sarg V)) (t1 t2 : list bytes) (ad1 : addr) (a1 : sarg V) (v1 : option bytes)
    (ad2 : addr) (a2 : sarg V) (v2 : option bytes) (post : list bytes) (o : outval V) :
  valid d -> at_option d pre os stk rem -> writes stk t1 ad1 a1 v1 -> writes stk t2 ad2 a2 v2 -> ad1 <> ad2 ->
  try_parse_from d (argv0 :: pre ++ t1 ++ t2 ++ post) = Ok o ->
  try_parse_from d (argv0 :: pre ++ t2 ++ t1 ++ post) = Ok o.
Proof. exact (exchange d argv0 pre os stk rem t1 t2 ad1 a1 v1 ad2 a2 v2 post o). Qed.
Print Assumptions C39_exchange.

Example C39_example :
  valid app_ /\
  arrives app_ (argv ["run"]) (fun os stk rem =>
    denotes_arg stk (Short (b2n "j")) (fun ad a => ad = Addr 1 [bs "jobs"] /\ takes_value a = true /\
      needs_equals a = false /\ may_follow a (bs "4") = true) /\
    denotes_arg stk (Long (bs "verbose")) (fun ad a => ad = Addr 0 [bs "verbose"] /\ takes_value a = false)) /\
  succeeds app_ (argv ["prog"; "run"; "-j"; "4"; "--verbose"; "x"]) (fun _ => True).
Proof. split; [exact app_valid|]. split; [vm_compute; repeat split|]. show. Qed.

(** C42: a field depends on its own declaration and occurrences alone. *)
Theorem C42_field_alone {V : Type} (d d' : args_decl V) (argv0 argv0' : bytes) (toks toks' : list bytes)
    (o o' : outval V) (os os' : list (occ V)) (stk stk' : list (scope V)) (ad ad' : addr) (a : sarg V)
    (vs : list (option bytes)) :
  valid d -> valid d' -> try_parse_from d (argv0 :: toks) = Ok o -> try_parse_from d' (argv0' :: toks') = Ok o' ->
  reads d toks os stk -> reads d' toks' os' stk' -> In (ad, a) (stack_args stk) -> In (ad', a) (stack_args stk') ->
  own_values os ad vs -> own_values os' ad' vs -> field_at ad o = field_at ad' o'.
Proof. exact (field_own d d' argv0 argv0' toks toks' o o' os os' stk stk' ad ad' a vs). Qed.
Print Assumptions C42_field_alone.

Example C42_example :
  valid app_ /\ succeeds app_ (argv ["prog"; "-d"; "-fx"; "run"; "t"; "-v"]) (fun _ => True) /\
  succeeds app_ (argv ["prog"; "--file"; "x"; "list-all"]) (fun _ => True) /\
  reads_such app_ (argv ["-d"; "-fx"; "run"; "t"; "-v"]) (fun os _ => own_values os (Addr 0 [bs "file"]) [Some (bs "x")]) /\
  reads_such app_ (argv ["--file"; "x"; "list-all"]) (fun os _ => own_values os (Addr 0 [bs "file"]) [Some (bs "x")]).
Proof.
  split; [exact app_valid|]. split; [vm_compute; exact I|]. split; [vm_compute; exact I|].
  split; vm_compute; repeat (constructor; try discriminate).
Qed.
