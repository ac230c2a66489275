(** C04, C12-C16, C31, C39, C41, C43, C78: words, positionals, subcommands and [--]. *)
From Verif Require Import Bytes Utf8 Error Values Places Heck Decl Spec Derive Generated Observe WellFormed Grammar Outcome Page Kit Samples.
From Verif Require Import TableFacts ResultFacts GrammarFacts PositionalFacts WordValueFacts ShowFacts MoveFacts SepFacts.
Local Open Scope string_scope.
Local Open Scope list_scope.

(** C04: the [k]-th token after [--] is a value of the [k]-th positional that
    remains (of the [last] argument if there is one), whatever its bytes; the
    innermost command stays the same. *)
Theorem C04_verbatim {V : Type} (d : args_decl V) (pre : list bytes) (os : list (occ V))
    (stk : list (scope V)) (rem : list (sarg V)) (ws : list bytes) (os2 : list (occ V)) (stk2 : list (scope V)) :
  valid d -> at_option d pre os stk rem -> reads d (pre ++ bs "--" :: ws) os2 stk2 ->
  stk2 = stk /\ exists os', os2 = os ++ os' /\ length os' = length ws /\
  forall k w, nth_error ws k = Some w ->
  exists p, next_verbatim stk os k = Some p /\ nth_error os' k = Some (word_occ stk p w).
Proof. exact (sep_words d pre os stk rem ws os2 stk2). Qed.
Print Assumptions C04_verbatim.

(** So the fields of a result have these values, and the commands are the same. *)
Theorem C04_fields {V : Type} (d : args_decl V) (argv0 : bytes) (pre : list bytes) (os : list (occ V))
    (stk : list (scope V)) (rem : list (sarg V)) (ws : list bytes) (o : outval V) :
  valid d -> at_option d pre os stk rem -> try_parse_from d (argv0 :: pre ++ bs "--" :: ws) = Ok o ->
  exists os', length os' = length ws /\
  (forall k w, nth_error ws k = Some w ->
     exists p, next_verbatim stk os k = Some p /\ nth_error os' k = Some (word_occ stk p w)) /\
  holds o (os ++ os') stk.
Proof. exact (sep_fields d argv0 pre os stk rem ws o). Qed.
Print Assumptions C04_fields.

(** They are all read if there are positionals for them. *)
Theorem C04_reads {V : Type} (d : args_decl V) (pre : list bytes) (os : list (occ V))
    (stk : list (scope V)) (rem : list (sarg V)) (ws : list bytes) :
  valid d -> at_option d pre os stk rem -> (forall k, k < length ws -> next_verbatim stk os k <> None) ->
  exists os', length os' = length ws /\
  (forall k w, nth_error ws k = Some w ->
     exists p, next_verbatim stk os k = Some p /\ nth_error os' k = Some (word_occ stk p w)) /\
  reads d (pre ++ bs "--" :: ws) (os ++ os') stk /\ shows d (pre ++ bs "--" :: ws) (os ++ os') stk.
Proof. exact (sep_shows d pre os stk rem ws). Qed.
Print Assumptions C04_reads.

(** If there is none the parse fails, and names the token. *)
Theorem C04_extra {V : Type} (d : args_decl V) (argv0 : bytes) (pre : list bytes) (os : list (occ V))
    (stk : list (scope V)) (rem : list (sarg V)) (ws : list bytes) (w : bytes) (post : list bytes) (os' : list (occ V)) :
  valid d -> at_option d pre os stk rem -> reads d (pre ++ bs "--" :: ws) (os ++ os') stk -> no_error_in (os ++ os') ->
  next_verbatim stk os (length ws) = None ->
  try_parse_from d (argv0 :: pre ++ bs "--" :: ws ++ w :: post) = Err (extra_word stk w).
Proof. exact (sep_extra d argv0 pre os stk rem ws w post os'). Qed.
Print Assumptions C04_extra.

Example C04_example :
  valid copy /\
  arrives copy (argv ["--force"; "a"]) (fun os stk rem => next_verbatim stk os 5 <> None) /\
  succeeds copy (argv ["cp"; "a"; "--"; "--force"; "--"; "-x"; ""]) (fun o =>
    field_at (Addr 0 [bs "force"]) o = Some (FvBool false) /\
    field_at (Addr 0 [bs "tail"]) o = Some (FvVec [TStr (bs "--force"); TStr (bs "--"); TStr (bs "-x"); TStr []])) /\
  valid app_ /\
  arrives app_ (argv ["-v"]) (fun os stk rem => next_verbatim stk os 0 <> None /\ next_verbatim stk os 1 = None) /\
  succeeds app_ (argv ["prog"; "--"; "run"]) (fun o => entered o = [] /\
    field_at (Addr 0 [bs "input"]) o = Some (FvOption (Some (TStr (bs "run"))))) /\
  try_parse_from app_ (argv ["prog"; "--"; "run"; "-v"]) = Err (error_on UnknownSubcommand (bs "-v")).
Proof.
  split; [exact copy_valid|]. split; [vm_compute; discriminate|]. split; [show|]. split; [exact app_valid|].
  split; [vm_compute; split; [discriminate|reflexivity]|]. split; [show|]. vm_compute. reflexivity.
Qed.

(** C12: the [k]-th word of a command is given to the positional of that
    number, whatever options there are, and its field has it. *)
Theorem C12_order {V : Type} (d : args_decl V) (toks : list bytes) (os : list (occ V)) (stk : list (scope V))
    (level : nat) (s : scope V) (k : nat) (o : occ V) :
  valid d -> reads d toks os stk -> nth_error (rev stk) level = Some s -> nth_error (words_at level os) k = Some o ->
  target (ordinary (sc_decl s)) k = Some (oc_arg o) /\ oc_addr o = Addr level [sa_id (oc_arg o)] /\
  forall (argv0 : bytes) (r : outval V), try_parse_from d (argv0 :: toks) = Ok r ->
  exists vals fv, In (oc_val o) vals /\ field_at (oc_addr o) r = Some fv /\
    denotes (oc_arg o) (map (option_map (text_of (oc_arg o))) vals) fv.
Proof. exact (kth_word_field d toks os stk level s k o). Qed.
Print Assumptions C12_order.

(** A word in option position is a value of the next positional. *)
Theorem C12_next_word {V : Type} (d : args_decl V) (pre : list bytes) (os : list (occ V))
    (stk : list (scope V)) (rem : list (sarg V)) (w : bytes) (p : sarg V) :
  valid d -> at_option d pre os stk rem -> word w -> no_subcommand stk w -> next_word stk os = Some p -> greedy p = false ->
  exists rem', at_option d (pre ++ [w]) (os ++ [word_occ stk p w]) stk rem' /\
               shows d (pre ++ [w]) (os ++ [word_occ stk p w]) stk.
Proof. exact (word_shows d pre os stk rem w p). Qed.
Print Assumptions C12_next_word.

(** So a positional that takes one word has the word of its number, if there is one. *)
Theorem C12_single_value {V : Type} (d : args_decl V) (toks : list bytes) (os : list (occ V)) (stk : list (scope V))
    (level : nat) (s : scope V) (singles : list (sarg V)) (p : sarg V) (rest : list (sarg V)) :
  valid d -> reads d toks os stk -> nth_error (rev stk) level = Some s ->
  ordinary (sc_decl s) = singles ++ p :: rest -> Forall single (singles ++ [p]) ->
  values_of os (Addr level [sa_id p]) =
  match nth_error (words_at level os) (length singles) with Some o => [oc_val o] | None => [] end.
Proof. exact (single_value d toks os stk level s singles p rest). Qed.
Print Assumptions C12_single_value.

Theorem C12_single_field {V : Type} (d : args_decl V) (argv0 : bytes) (toks : list bytes) (os : list (occ V))
    (stk : list (scope V)) (level : nat) (s : scope V) (singles : list (sarg V)) (p : sarg V) (rest : list (sarg V))
    (o : outval V) :
  valid d -> try_parse_from d (argv0 :: toks) = Ok o -> reads d toks os stk -> nth_error (rev stk) level = Some s ->
  ordinary (sc_decl s) = singles ++ p :: rest -> Forall single (singles ++ [p]) ->
  field_at (Addr level [sa_id p]) o =
  field_value p (match nth_error (words_at level os) (length singles) with Some x => [oc_val x] | None => [] end).
Proof. exact (single_field d argv0 toks os stk level s singles p rest o). Qed.
Print Assumptions C12_single_field.

Example C12_example :
  valid app_ /\
  reads_such app_ (argv ["-v"; "run"; "-j"; "4"; "x"; "-v"]) (fun os stk =>
    match nth_error (rev stk) 1 with
    | Some s => map sa_id (ordinary (sc_decl s)) = [bs "target"; bs "args"] /\
                map oc_val (words_at 1 os) = [Some (bs "x")] /\
                Forall single (firstn 1 (ordinary (sc_decl s)))
    | None => False
    end) /\
  succeeds app_ (argv ["prog"; "-v"; "run"; "-j"; "4"; "x"]) (fun o =>
    field_at (Addr 1 [bs "target"]) o = Some (FvVal (TStr (bs "x")))).
Proof. split; [exact app_valid|]. split; [vm_compute; repeat split; repeat constructor|]. show. Qed.

(** C13: a [Vec] positional has all the words after those of the single ones,
    in order. *)
Theorem C13_variadic {V : Type} (d : args_decl V) (toks : list bytes) (os : list (occ V)) (stk : list (scope V))
    (level : nat) (s : scope V) (singles : list (sarg V)) (p : sarg V) :
  valid d -> reads d toks os stk -> nth_error (rev stk) level = Some s ->
  ordinary (sc_decl s) = singles ++ [p] -> Forall single singles -> many p = true ->
  values_of os (Addr level [sa_id p]) = skipn (length singles) (map oc_val (words_at level os)).
Proof. exact (variadic_values d toks os stk level s singles p). Qed.
Print Assumptions C13_variadic.

Theorem C13_field {V : Type} (d : args_decl V) (argv0 : bytes) (toks : list bytes) (os : list (occ V))
    (stk : list (scope V)) (level : nat) (s : scope V) (singles : list (sarg V)) (p : sarg V) (o : outval V) :
  valid d -> try_parse_from d (argv0 :: toks) = Ok o -> reads d toks os stk -> nth_error (rev stk) level = Some s ->
  ordinary (sc_decl s) = singles ++ [p] -> Forall single singles -> many p = true ->
  field_at (Addr level [sa_id p]) o = field_value p (skipn (length singles) (map oc_val (words_at level os))).
Proof. exact (variadic_field d argv0 toks os stk level s singles p o). Qed.
Print Assumptions C13_field.

(** Without one, a further word is an error that names it. *)
Theorem C13_extra {V : Type} (d : args_decl V) (argv0 : bytes) (pre : list bytes) (os : list (occ V))
    (stk : list (scope V)) (rem : list (sarg V)) (w : bytes) (post : list bytes) :
  valid d -> at_option d pre os stk rem -> no_error_in os -> word w -> no_subcommand stk w -> next_word stk os = None ->
  try_parse_from d (argv0 :: pre ++ w :: post) = Err (extra_word stk w).
Proof. exact (word_extra d argv0 pre os stk rem w post). Qed.
Print Assumptions C13_extra.

Example C13_example :
  valid copy /\
  reads_such copy (argv ["a"; "-f"; "b"; "c"; "--"; "d"]) (fun os stk =>
    match nth_error (rev stk) 0 with
    | Some s => match ordinary (sc_decl s) with
                | [x; p] => single x /\ many p = true /\ sa_id p = bs "more" /\
                            values_of os (Addr 0 [sa_id p]) = [Some (bs "b"); Some (bs "c")]
                | _ => False
                end
    | None => False
    end) /\
  valid app_ /\
  arrives app_ (argv ["-v"; "file"]) (fun os stk rem => no_error_in os /\ next_word stk os = None /\
    map sub_name (sub_variants stk) = [bs "run"; bs "list-all"]) /\
  try_parse_from app_ (argv ["prog"; "-v"; "file"; "more"]) = Err (error_on UnknownSubcommand (bs "more")).
Proof.
  split; [exact copy_valid|]. split; [vm_compute; repeat split; repeat constructor|]. split; [exact app_valid|].
  split; [vm_compute; repeat split; tauto|]. vm_compute. reflexivity.
Qed.

(** C14: after the first word of a trailing var arg all the tokens are its values. *)
Theorem C14_trailing {V : Type} (d : args_decl V) (pre : list bytes) (os : list (occ V))
    (stk : list (scope V)) (rem : list (sarg V)) (w : bytes) (p : sarg V) (ws : list bytes) :
  valid d -> at_option d pre os stk rem -> word w -> no_subcommand stk w -> next_word stk os = Some p -> greedy p = true ->
  reads d (pre ++ w :: ws) (os ++ map (word_occ stk p) (w :: ws)) stk /\
  shows d (pre ++ w :: ws) (os ++ map (word_occ stk p) (w :: ws)) stk.
Proof. exact (drain_shows d pre os stk rem w p ws). Qed.
Print Assumptions C14_trailing.

Theorem C14_field {V : Type} (d : args_decl V) (argv0 : bytes) (pre : list bytes) (os : list (occ V))
    (stk : list (scope V)) (rem : list (sarg V)) (w : bytes) (p : sarg V) (ws : list bytes) (o : outval V) :
  valid d -> at_option d pre os stk rem -> word w -> no_subcommand stk w -> next_word stk os = Some p -> greedy p = true ->
  try_parse_from d (argv0 :: pre ++ w :: ws) = Ok o ->
  exists fv, field_at (Addr (length stk - 1) [sa_id p]) o = Some fv /\ denotes p (map Some (w :: ws)) fv.
Proof. exact (trailing_field d argv0 pre os stk rem w p ws o). Qed.
Print Assumptions C14_field.

Example C14_example :
  valid app_ /\
  arrives app_ (argv ["run"; "x"; "-j1"]) (fun os stk rem => match next_word stk os with Some p => greedy p = true | None => False end) /\
  succeeds app_ (argv ["prog"; "run"; "x"; "-j1"; "make"; "--"; "-j2"; "list-all"; "--help"]) (fun o =>
    field_at (Addr 1 [bs "args"]) o = Some (FvVec (map (fun b => TStr b) (argv ["make"; "--"; "-j2"; "list-all"; "--help"]))) /\
    field_at (Addr 1 [bs "jobs"]) o = Some (FvOption (Some (TInt 1)))).
Proof. split; [exact app_valid|]. split; [vm_compute; reflexivity|]. show. Qed.

(** C15: without [--] a [last] argument has no values. *)
Theorem C15_absent {V : Type} (d : args_decl V) (toks : list bytes) (os : list (occ V)) (stk : list (scope V))
    (ad : addr) (a : sarg V) :
  valid d -> reads d toks os stk -> In (ad, a) (stack_args stk) -> is_last a = true -> ~ In (bs "--") toks ->
  values_of os ad = [].
Proof. exact (last_absent d toks os stk ad a). Qed.
Print Assumptions C15_absent.

Theorem C15_absent_field {V : Type} (d : args_decl V) (argv0 : bytes) (toks : list bytes) (os : list (occ V))
    (stk : list (scope V)) (ad : addr) (a : sarg V) (o : outval V) :
  valid d -> try_parse_from d (argv0 :: toks) = Ok o -> reads d toks os stk ->
  In (ad, a) (stack_args stk) -> is_last a = true -> ~ In (bs "--") toks ->
  field_at ad o = field_value a [].
Proof. exact (last_absent_field d argv0 toks os stk ad a o). Qed.
Print Assumptions C15_absent_field.

(** With [--] it has the tokens after it, and nobody else gets one of them. *)
Theorem C15_exact {V : Type} (d : args_decl V) (pre : list bytes) (os : list (occ V))
    (stk : list (scope V)) (rem : list (sarg V)) (l : sarg V) (ws : list bytes) :
  valid d -> at_option d pre os stk rem -> last_args stk = [l] ->
  exists os', reads d (pre ++ bs "--" :: ws) os' stk /\ shows d (pre ++ bs "--" :: ws) os' stk /\
  values_of os' (Addr (length stk - 1) [sa_id l]) = map Some ws /\
  forall ad, ad <> Addr (length stk - 1) [sa_id l] -> values_of os' ad = values_of os ad.
Proof. exact (last_shows d pre os stk rem l ws). Qed.
Print Assumptions C15_exact.

Example C15_example :
  valid copy /\
  arrives copy (argv ["a"; "b"]) (fun os stk rem => map sa_id (last_args stk) = [bs "tail"]) /\
  succeeds copy (argv ["cp"; "a"; "b"; "c"]) (fun o => field_at (Addr 0 [bs "tail"]) o = Some (FvVec [])) /\
  succeeds copy (argv ["cp"; "a"; "b"; "--"; "c"]) (fun o => field_at (Addr 0 [bs "tail"]) o = Some (FvVec [TStr (bs "c")])).
Proof. split; [exact copy_valid|]. split; [vm_compute; reflexivity|]. show. Qed.

(** C16: the name of a subcommand enters it, whatever positionals [rem] are still unfilled. *)
Theorem C16_enters {V : Type} (d : args_decl V) (pre : list bytes) (os : list (occ V))
    (stk : list (scope V)) (rem : list (sarg V)) (v : ident * variant_decl V) :
  valid d -> at_option d pre os stk rem -> In v (sub_variants stk) ->
  at_option d (pre ++ [sub_name v]) os (variant_scope v :: stk) (positionals (sc_decl (variant_scope v))) /\
  shows d (pre ++ [sub_name v]) os (variant_scope v :: stk).
Proof. exact (sub_shows d pre os stk rem v). Qed.
Print Assumptions C16_enters.

(** All later occurrences are of arguments of the subcommand (or inside it), or
    of global options. *)
Theorem C16_takes_rest {V : Type} (d : args_decl V) (pre : list bytes) (os : list (occ V))
    (stk : list (scope V)) (rem : list (sarg V)) (v : ident * variant_decl V) (post : list bytes)
    (os2 : list (occ V)) (stk2 : list (scope V)) :
  valid d -> at_option d pre os stk rem -> In v (sub_variants stk) -> reads d (pre ++ sub_name v :: post) os2 stk2 ->
  exists os' inner, os2 = os ++ os' /\ stk2 = inner ++ variant_scope v :: stk /\ Forall (belongs (length stk)) os'.
Proof. exact (sub_rest d pre os stk rem v post os2 stk2). Qed.
Print Assumptions C16_takes_rest.

(** So the result has the subcommand, and the later tokens change no field of an
    outer command except those of global options. *)
Theorem C16_fields {V : Type} (d : args_decl V) (argv0 : bytes) (pre : list bytes) (os : list (occ V))
    (stk : list (scope V)) (rem : list (sarg V)) (v : ident * variant_decl V) (post : list bytes) (o : outval V) :
  valid d -> at_option d pre os stk rem -> In v (sub_variants stk) ->
  try_parse_from d (argv0 :: pre ++ sub_name v :: post) = Ok o ->
  (exists inner, entered o = tl (rev (map sc_ident stk)) ++ fst v :: inner) /\
  forall ad a, In (ad, a) (stack_args stk) -> is_option a = false \/ is_global a = false ->
  field_at ad o = field_value a (values_of os ad).
Proof. exact (sub_fields d argv0 pre os stk rem v post o). Qed.
Print Assumptions C16_fields.

Example C16_example :
  valid app_ /\
  arrives app_ (argv ["-d"]) (fun os stk rem => map sa_id rem = [bs "input"] /\
    map sub_name (sub_variants stk) = [bs "run"; bs "list-all"]) /\
  succeeds app_ (argv ["prog"; "-d"; "run"; "run"; "list-all"]) (fun o => entered o = [bs "Run"] /\
    field_at (Addr 0 [bs "input"]) o = Some (FvOption None) /\
    field_at (Addr 1 [bs "target"]) o = Some (FvVal (TStr (bs "run")))).
Proof. split; [exact app_valid|]. split; [vm_compute; repeat split|]. show. Qed.

(** C31: a successful parse accounts for every token by the grammar of
    [Grammar.v], and its value is that of the occurrences. *)
Theorem C31_accounted {V : Type} (d : args_decl V) (argv0 : bytes) (toks : list bytes) (o : outval V) :
  valid d -> try_parse_from d (argv0 :: toks) = Ok o ->
  exists os stk, accounts [Scope d [] false] (positionals d) toks os stk /\
    (forall ad a, In (ad, a) (stack_args stk) -> field_at ad o = field_value a (values_of os ad)) /\
    entered o = tl (rev (map sc_ident stk)).
Proof. exact (accounted d argv0 toks o). Qed.
Print Assumptions C31_accounted.

Theorem C31_success_iff {V : Type} (d : args_decl V) (argv0 : bytes) (toks : list bytes) :
  valid d -> defaults_readable d = true ->
  ((exists o, try_parse_from d (argv0 :: toks) = Ok o) <->
   (exists os stk, accounts [Scope d [] false] (positionals d) toks os stk /\ no_error_in os /\ satisfied os stk)).
Proof. exact (accounted_iff d argv0 toks). Qed.
Print Assumptions C31_success_iff.

(** There is one way to account for the tokens. *)
Theorem C31_one_way {V : Type} (d : args_decl V) (toks : list bytes) (os os' : list (occ V)) (stk stk' : list (scope V)) :
  valid d -> accounts [Scope d [] false] (positionals d) toks os stk ->
  accounts [Scope d [] false] (positionals d) toks os' stk' -> os = os' /\ stk = stk'.
Proof. exact (accounts_unique d toks os os' stk stk'). Qed.
Print Assumptions C31_one_way.

(** A word that nobody takes is an error that names it.  (Unknown options:
    [C32_unknown_long], [C32_unknown_short], [C32_not_utf8].) *)
Theorem C31_extra_word {V : Type} (d : args_decl V) (argv0 : bytes) (pre : list bytes) (os : list (occ V))
    (stk : list (scope V)) (rem : list (sarg V)) (w : bytes) (post : list bytes) :
  valid d -> at_option d pre os stk rem -> no_error_in os -> word w -> no_subcommand stk w -> next_word stk os = None ->
  try_parse_from d (argv0 :: pre ++ w :: post) = Err (extra_word stk w).
Proof. exact (word_extra d argv0 pre os stk rem w post). Qed.
Print Assumptions C31_extra_word.

Example C31_example :
  valid app_ /\
  succeeds app_ (argv ["prog"; "-vd"; "--name"; "x"; "run"; "t"; "--"; "u"]) (fun _ => True) /\
  arrives app_ (argv ["-v"; "w"]) (fun os stk rem => no_error_in os /\ next_word stk os = None) /\
  word (bs "x") /\
  try_parse_from app_ (argv ["prog"; "-v"; "w"; "x"]) = Err (error_on UnknownSubcommand (bs "x")).
Proof.
  split; [exact app_valid|]. split; [vm_compute; exact I|]. split; [vm_compute; repeat split|].
  split; [right; discriminate|]. vm_compute. reflexivity.
Qed.

(** C41: any byte string reaches a positional after [--].  (Options:
    [C41_option_value].) *)
Theorem C41_positional {V : Type} (d : args_decl V) (argv0 : bytes) (pre : list bytes) (os : list (occ V))
    (stk : list (scope V)) (rem : list (sarg V)) (w : bytes) (p : sarg V) (o : outval V) :
  valid d -> at_option d pre os stk rem -> next_verbatim stk os 0 = Some p -> many p = false ->
  try_parse_from d (argv0 :: pre ++ [bs "--"; w]) = Ok o ->
  exists fv, field_at (Addr (length stk - 1) [sa_id p]) o = Some fv /\ denotes p [Some w] fv.
Proof. exact (verbatim_value d argv0 pre os stk rem w p o). Qed.
Print Assumptions C41_positional.

Theorem C41_positional_reads {V : Type} (d : args_decl V) (pre : list bytes) (os : list (occ V))
    (stk : list (scope V)) (rem : list (sarg V)) (w : bytes) (p : sarg V) :
  valid d -> at_option d pre os stk rem -> next_verbatim stk os 0 = Some p ->
  reads d (pre ++ [bs "--"; w]) (os ++ [word_occ stk p w]) stk /\
  shows d (pre ++ [bs "--"; w]) (os ++ [word_occ stk p w]) stk.
Proof. intros Hd H Hn. exact (reads_both _ _ _ _ Hd (verbatim_reads d pre os stk rem w p Hd H Hn)). Qed.
Print Assumptions C41_positional_reads.

Example C41_positional_example :
  valid app_ /\ arrives app_ (argv ["-v"]) (fun os stk rem =>
    match next_verbatim stk os 0 with Some p => sa_id p = bs "input" /\ many p = false | None => False end) /\
  succeeds app_ (argv ["prog"; "-v"; "--"; "-v=x"]) (fun o =>
    field_at (Addr 0 [bs "input"]) o = Some (FvOption (Some (TStr (bs "-v=x"))))).
Proof. split; [exact app_valid|]. split; [vm_compute; repeat split|]. show. Qed.

(** C43: [-] and the empty token are words. *)
Theorem C43_dash_and_empty {V : Type} (d : args_decl V) (argv0 : bytes) (pre : list bytes) (os : list (occ V))
    (stk : list (scope V)) (rem : list (sarg V)) (w : bytes) (post : list bytes) :
  valid d -> at_option d pre os stk rem -> w = bs "-" \/ w = [] ->
  (exists v, In v (sub_variants stk) /\ sub_name v = w /\
     at_option d (pre ++ [w]) os (variant_scope v :: stk) (positionals (sc_decl (variant_scope v))) /\
     shows d (pre ++ [w]) os (variant_scope v :: stk)) \/
  (exists p, next_word stk os = Some p /\ reads d (pre ++ [w]) (os ++ [word_occ stk p w]) stk /\
     shows d (pre ++ [w]) (os ++ [word_occ stk p w]) stk) \/
  (next_word stk os = None /\ (no_error_in os -> try_parse_from d (argv0 :: pre ++ w :: post) = Err (extra_word stk w))).
Proof. exact (dash_shows d argv0 pre os stk rem w post). Qed.
Print Assumptions C43_dash_and_empty.

(** [-] is not the name of a subcommand. *)
Theorem C43_no_dash_subcommand {V : Type} (stk : list (scope V)) :
  no_subcommand stk (bs "-").
Proof. exact (dash_no_subcommand stk). Qed.
Print Assumptions C43_no_dash_subcommand.

Example C43_example :
  valid copy /\
  arrives copy (argv ["-f"]) (fun os stk rem => no_error_in os /\ next_word stk os <> None) /\
  succeeds copy (argv ["cp"; "-"; ""; "-f"; "-"]) (fun o =>
    field_at (Addr 0 [bs "source"]) o = Some (FvVal (TStr (bs "-"))) /\
    field_at (Addr 0 [bs "more"]) o = Some (FvVec [TStr []; TStr (bs "-")])).
Proof. split; [exact copy_valid|]. split; [vm_compute; split; [reflexivity|discriminate]|]. show. Qed.

(** C39: an option and a word can be exchanged ... *)
Theorem C39_past_word {V : Type} (d : args_decl V) (argv0 : bytes) (pre : list bytes) (os : list (occ V))
    (stk : list (scope V)) (rem : list (sarg V)) (toks : list bytes) (ad : addr) (a : sarg V) (v : option bytes)
    (w : bytes) (p : sarg V) (post : list bytes) (o : outval V) :
  valid d -> at_option d pre os stk rem -> writes stk toks ad a v ->
  word w -> no_subcommand stk w -> next_word stk os = Some p -> greedy p = false ->
  (try_parse_from d (argv0 :: pre ++ toks ++ w :: post) = Ok o <->
   try_parse_from d (argv0 :: pre ++ w :: toks ++ post) = Ok o).
Proof. exact (past_word d argv0 pre os stk rem toks ad a v w p post o). Qed.
Print Assumptions C39_past_word.

(** ... and so can a global option and the name of a subcommand in which its names
    are free. *)
Theorem C39_past_subcommand {V : Type} (d : args_decl V) (argv0 : bytes) (pre : list bytes) (os : list (occ V))
    (stk : list (scope V)) (rem : list (sarg V)) (toks : list bytes) (ad : addr) (a : sarg V) (v : option bytes)
    (sub : ident * variant_decl V) (post : list bytes) :
  valid d -> at_option d pre os stk rem -> writes stk toks ad a v -> is_global a = true ->
  In sub (sub_variants stk) -> (forall n, has_name a n -> ~ offers (sc_decl (variant_scope sub)) n) ->
  try_parse_from d (argv0 :: pre ++ toks ++ sub_name sub :: post) =
  try_parse_from d (argv0 :: pre ++ sub_name sub :: toks ++ post).
Proof. exact (past_subcommand d argv0 pre os stk rem toks ad a v sub post). Qed.
Print Assumptions C39_past_subcommand.

Example C39_past_example :
  valid paint /\
  arrives paint (argv ["--plain"]) (fun os stk rem => map sub_name (sub_variants stk) = [bs "wall"] /\
    denotes_arg stk (Short (b2n "w")) (fun ad a => takes_value a = true /\ needs_equals a = false /\ is_global a = true)) /\
  succeeds paint (argv ["paint"; "--plain"; "-w"; "9"; "wall"; "left"]) (fun o =>
    field_at (Addr 0 [bs "width"]) o = Some (FvVal (TInt 9)) /\
    try_parse_from paint (argv ["paint"; "--plain"; "wall"; "-w"; "9"; "left"]) = Ok o /\
    try_parse_from paint (argv ["paint"; "--plain"; "wall"; "left"; "-w"; "9"]) = Ok o) /\
  arrives paint (argv ["--plain"; "wall"]) (fun os stk rem =>
    match next_word stk os with Some p => sa_id p = bs "side" /\ greedy p = false | None => False end /\
    sub_variants stk = []) /\
  word (bs "left").
Proof.
  split; [exact paint_valid|]. split; [show|]. split; [show|]. split; [show|].
  right. intros b. discriminate.
Qed.

(** The names of [width] are free in [wall]. *)
Example C39_past_example_names n : has_name (Arg (bs "width") (global (short (long (default_value "80" m0)))) TI) n ->
  ~ offers (struct [arg "side" m0 (TyOption TString)]) n.
Proof.
  intros _ (q & b & Hi & Ho & _). vm_compute in Hi. destruct Hi as [E|[]]. injection E as <- <-. discriminate Ho.
Qed.

(** C78: [--] may be put before words that are not names of subcommands, if the
    command has no [last] argument; *)
Theorem C78_words {V : Type} (d : args_decl V) (argv0 : bytes) (pre : list bytes) (os : list (occ V))
    (stk : list (scope V)) (rem : list (sarg V)) (ws : list bytes) :
  valid d -> at_option d pre os stk rem ->
  match stk with s :: _ => last_positionals (sc_decl s) = [] | [] => True end ->
  Forall (fun w => word w /\ no_subcommand stk w) ws ->
  try_parse_from d (argv0 :: pre ++ bs "--" :: ws) = try_parse_from d (argv0 :: pre ++ ws).
Proof. exact (sep_inserted d argv0 pre os stk rem ws). Qed.
Print Assumptions C78_words.
(** and at the end in any case. *)
Theorem C78_end {V : Type} (d : args_decl V) (argv0 : bytes) (pre : list bytes) (os : list (occ V))
    (stk : list (scope V)) (rem : list (sarg V)) :
  valid d -> at_option d pre os stk rem ->
  try_parse_from d (argv0 :: pre ++ [bs "--"]) = try_parse_from d (argv0 :: pre).
Proof. exact (sep_at_end d argv0 pre os stk rem). Qed.
Print Assumptions C78_end.

Example C78_example :
  valid app_ /\
  arrives app_ (argv ["-v"; "--level"; "4"]) (fun os stk rem =>
    match stk with s :: _ => last_positionals (sc_decl s) = [] | [] => True end /\
    Forall (fun w => word w /\ no_subcommand stk w) (argv ["here"])) /\
  succeeds app_ (argv ["prog"; "-v"; "--level"; "4"; "--"; "here"]) (fun o =>
    field_at (Addr 0 [bs "input"]) o = Some (FvOption (Some (TStr (bs "here")))) /\
    try_parse_from app_ (argv ["prog"; "-v"; "--level"; "4"; "here"]) = Ok o).
Proof.
  split; [exact app_valid|]. split; [|vm_compute; auto].
  cbv [arrives]. vm_compute. split; [reflexivity|]. constructor; [|constructor]. split; [right; discriminate|].
  intros [E|[E|[]]]; discriminate E.
Qed.

(** Not so if there is a [last] argument. *)
Theorem C78_last_refuted : exists (d : args_decl tv) (argv0 w : bytes),
  valid d /\ word w /\ no_subcommand [Scope d [] false] w /\
  (exists o, try_parse_from d [argv0; w] = Ok o) /\
  match try_parse_from d [argv0; bs "--"; w] with Err e => e_kind e = MissingRequiredArgument | _ => False end.
Proof.
  exists copy, (bs "cp"), (bs "a"). split; [exact copy_valid|]. split; [right; discriminate|]. split; [intros []|].
  split; [eexists; vm_compute; reflexivity|vm_compute; reflexivity].
Qed.
Print Assumptions C78_last_refuted.
