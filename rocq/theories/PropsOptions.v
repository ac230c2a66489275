(** C05-C08, C24, C26, C32, C36, C41, C50: the spellings of options. *)
From Verif Require Import Bytes Utf8 Error Values Places Heck Decl Spec Derive Generated Observe Outcome Kit Samples.
From Verif Require Import OptionFacts ShowFacts.
Local Open Scope string_scope.
Local Open Scope list_scope.

(** C05: [--name=value] and [--name value]. *)
Theorem C05_inline_or_next {V : Type} (d : args_decl V) (argv0 : bytes) (pre : list bytes)
    (os : list (occ V)) (stk : list (scope V)) (rem : list (sarg V)) (s : bytes) (ad : addr)
    (a : sarg V) (v : bytes) (post : list bytes) :
  valid d -> at_option d pre os stk rem -> resolve stk (Long s) = Some (ad, a) ->
  takes_value a = true -> needs_equals a = false -> may_follow a v = true ->
  try_parse_from d (argv0 :: pre ++ [bs "--" ++ s; v] ++ post) =
  try_parse_from d (argv0 :: pre ++ [bs "--" ++ s ++ bs "=" ++ v] ++ post).
Proof. exact (inline_or_next_long d argv0 pre os stk rem s ad a v post). Qed.
Print Assumptions C05_inline_or_next.

Example C05_inline_or_next_example :
  valid app_ /\ arrives app_ (argv ["-v"; "run"; "x"]) (fun os stk rem =>
    denotes_arg stk (Long (bs "jobs")) (fun ad a =>
      takes_value a = true /\ needs_equals a = false /\ may_follow a (bs "8") = true /\ ad = Addr 1 [bs "jobs"])).
Proof. split; [exact app_valid|]. show. Qed.

(** C06: [-nvalue], [-n=value] and [-n value]. *)
Theorem C06_separate {V : Type} (d : args_decl V) (argv0 : bytes) (pre : list bytes)
    (os : list (occ V)) (stk : list (scope V)) (rem : list (sarg V)) (c : N) (ad : addr)
    (a : sarg V) (v : bytes) (post : list bytes) :
  valid d -> at_option d pre os stk rem -> resolve stk (Short c) = Some (ad, a) ->
  takes_value a = true -> needs_equals a = false -> may_follow a v = true ->
  try_parse_from d (argv0 :: pre ++ [bs "-" ++ utf8_encode c; v] ++ post) =
  try_parse_from d (argv0 :: pre ++ [bs "-" ++ utf8_encode c ++ bs "=" ++ v] ++ post).
Proof. exact (inline_or_next_short d argv0 pre os stk rem c ad a v post). Qed.
Print Assumptions C06_separate.

Theorem C06_attached {V : Type} (d : args_decl V) (argv0 : bytes) (pre : list bytes)
    (os : list (occ V)) (stk : list (scope V)) (rem : list (sarg V)) (c : N) (ad : addr)
    (a : sarg V) (v : bytes) (post : list bytes) :
  valid d -> at_option d pre os stk rem -> resolve stk (Short c) = Some (ad, a) ->
  takes_value a = true -> needs_equals a = false -> v <> [] -> (forall w, v <> "="%byte :: w) ->
  try_parse_from d (argv0 :: pre ++ [bs "-" ++ utf8_encode c ++ v] ++ post) =
  try_parse_from d (argv0 :: pre ++ [bs "-" ++ utf8_encode c ++ bs "=" ++ v] ++ post).
Proof. exact (attached_or_inline d argv0 pre os stk rem c ad a v post). Qed.
Print Assumptions C06_attached.

Example C06_example :
  valid app_ /\ arrives app_ (argv ["-d"; "--name"; "x"]) (fun os stk rem =>
    denotes_arg stk (Short (b2n "f")) (fun ad a =>
      takes_value a = true /\ needs_equals a = false /\ may_follow a (bs "a,b") = true /\ ad = Addr 0 [bs "file"])).
Proof. split; [exact app_valid|]. show. Qed.

(** C07: bundles of flags, before any other option, value or unknown name. *)
Theorem C07_bundle {V : Type} (d : args_decl V) (argv0 : bytes) (pre : list bytes)
    (os : list (occ V)) (stk : list (scope V)) (rem : list (sarg V)) (cs : list N) (t : bytes)
    (post : list bytes) :
  valid d -> at_option d pre os stk rem -> Forall (plain_flag stk) cs ->
  t <> [] -> (forall w, t <> "="%byte :: w) -> (forall w, t <> "-"%byte :: w) ->
  try_parse_from d (argv0 :: pre ++ [bs "-" ++ encode_all cs ++ t] ++ post) =
  try_parse_from d (argv0 :: pre ++ (map (fun c => spell (Short c)) cs ++ [bs "-" ++ t]) ++ post).
Proof. exact (bundle_separate d argv0 pre os stk rem cs t post). Qed.
Print Assumptions C07_bundle.

(** In particular, a bundle of declared names only. *)
Theorem C07_bundle_names {V : Type} (d : args_decl V) (argv0 : bytes) (pre : list bytes)
    (os : list (occ V)) (stk : list (scope V)) (rem : list (sarg V)) (cs : list N) (c : N)
    (post : list bytes) :
  valid d -> at_option d pre os stk rem -> Forall (plain_flag stk) cs -> resolve stk (Short c) <> None ->
  try_parse_from d (argv0 :: pre ++ [bs "-" ++ encode_all (cs ++ [c])] ++ post) =
  try_parse_from d (argv0 :: pre ++ map (fun c => spell (Short c)) (cs ++ [c]) ++ post).
Proof. exact (bundle_names d argv0 pre os stk rem cs c post). Qed.
Print Assumptions C07_bundle_names.

Example C07_bundle_example :
  valid app_ /\ arrives app_ (argv ["--level=2"]) (fun os stk rem =>
    Forall (fun c => denotes_arg stk (Short c) (fun _ a => takes_value a = false /\ needs_equals a = false))
      [b2n "v"; b2n "d"; b2n "q"] /\
    denotes_arg stk (Short (b2n "n")) (fun ad a => ad = Addr 0 [bs "name"])).
Proof. split; [exact app_valid|]. split; [|vm_compute; reflexivity]. repeat constructor. Qed.

(** C08: two names that denote the same argument are interchangeable, in every
    form they share. *)
Theorem C08_bare {V : Type} (d : args_decl V) (argv0 : bytes) (pre : list bytes)
    (os : list (occ V)) (stk : list (scope V)) (rem : list (sarg V)) (n m : name) (ad : addr)
    (a : sarg V) (post : list bytes) :
  valid d -> at_option d pre os stk rem -> resolve stk n = Some (ad, a) -> resolve stk m = Some (ad, a) ->
  try_parse_from d (argv0 :: pre ++ [spell n] ++ post) = try_parse_from d (argv0 :: pre ++ [spell m] ++ post).
Proof. exact (names_same d argv0 pre os stk rem n m ad a post). Qed.
Print Assumptions C08_bare.

Theorem C08_with_value {V : Type} (d : args_decl V) (argv0 : bytes) (pre : list bytes)
    (os : list (occ V)) (stk : list (scope V)) (rem : list (sarg V)) (n m : name) (ad : addr)
    (a : sarg V) (v : bytes) (post : list bytes) :
  valid d -> at_option d pre os stk rem -> resolve stk n = Some (ad, a) -> resolve stk m = Some (ad, a) ->
  takes_value a = true ->
  try_parse_from d (argv0 :: pre ++ [spell_eq n v] ++ post) = try_parse_from d (argv0 :: pre ++ [spell_eq m v] ++ post).
Proof. exact (names_same_eq d argv0 pre os stk rem n m ad a v post). Qed.
Print Assumptions C08_with_value.

Theorem C08_long {V : Type} (d : args_decl V) (argv0 : bytes) (pre : list bytes)
    (os : list (occ V)) (stk : list (scope V)) (rem : list (sarg V)) (n m : bytes) (ad : addr)
    (a : sarg V) (v : bytes) (post : list bytes) :
  valid d -> at_option d pre os stk rem -> resolve stk (Long n) = Some (ad, a) -> resolve stk (Long m) = Some (ad, a) ->
  try_parse_from d (argv0 :: pre ++ [spell_eq (Long n) v] ++ post) =
  try_parse_from d (argv0 :: pre ++ [spell_eq (Long m) v] ++ post).
Proof. exact (names_same_long d argv0 pre os stk rem n m ad a v post). Qed.
Print Assumptions C08_long.

(** Whatever follows a short name in its token. *)
Theorem C08_short {V : Type} (d : args_decl V) (argv0 : bytes) (pre : list bytes)
    (os : list (occ V)) (stk : list (scope V)) (rem : list (sarg V)) (n m : N) (ad : addr)
    (a : sarg V) (t : bytes) (post : list bytes) :
  valid d -> at_option d pre os stk rem -> resolve stk (Short n) = Some (ad, a) -> resolve stk (Short m) = Some (ad, a) ->
  try_parse_from d (argv0 :: pre ++ [spell (Short n) ++ t] ++ post) =
  try_parse_from d (argv0 :: pre ++ [spell (Short m) ++ t] ++ post).
Proof. exact (names_same_short d argv0 pre os stk rem n m ad a t post). Qed.
Print Assumptions C08_short.

(** All the names of an argument denote it, unless another argument in scope
    has the name. *)
Theorem C08_names_denote {V : Type} (d : args_decl V) (pre : list bytes)
    (os : list (occ V)) (stk : list (scope V)) (rem : list (sarg V)) (n : name) (ad : addr) (a : sarg V) :
  valid d -> at_option d pre os stk rem -> In (ad, a) (stack_args stk) ->
  S (ad_level ad) = length stk \/ is_global a = true -> has_name a n ->
  (forall ad' b, In (ad', b) (stack_args stk) -> has_name b n -> ad' = ad) ->
  resolve stk n = Some (ad, a).
Proof. exact (names_denote d pre os stk rem n ad a). Qed.
Print Assumptions C08_names_denote.

Example C08_example :
  valid app_ /\ arrives app_ (argv ["-q"]) (fun os stk rem =>
    Forall (fun n => denotes_arg stk n (fun ad a => ad = Addr 0 [bs "name"] /\ takes_value a = true))
      [Long (bs "name"); Long (bs "nick"); Long (bs "nom"); Short (b2n "n"); Short (b2n "k")]).
Proof. split; [exact app_valid|]. repeat constructor. Qed.

(** C24: [require_equals]. *)
Theorem C24_missing_eq {V : Type} (d : args_decl V) (argv0 : bytes) (pre : list bytes)
    (os : list (occ V)) (stk : list (scope V)) (rem : list (sarg V)) (n : name) (ad : addr)
    (a : sarg V) (post : list bytes) :
  valid d -> at_option d pre os stk rem -> no_error_in os -> resolve stk n = Some (ad, a) ->
  takes_value a = true -> needs_equals a = true ->
  try_parse_from d (argv0 :: pre ++ spell n :: post) = Err (error_about MissingEq a).
Proof. exact (missing_eq d argv0 pre os stk rem n ad a post). Qed.
Print Assumptions C24_missing_eq.

Theorem C24_missing_eq_attached {V : Type} (d : args_decl V) (argv0 : bytes) (pre : list bytes)
    (os : list (occ V)) (stk : list (scope V)) (rem : list (sarg V)) (c : N) (ad : addr)
    (a : sarg V) (t : bytes) (post : list bytes) :
  valid d -> at_option d pre os stk rem -> no_error_in os -> resolve stk (Short c) = Some (ad, a) ->
  needs_equals a = true -> t <> [] -> (forall w, t <> "="%byte :: w) ->
  try_parse_from d (argv0 :: pre ++ (spell (Short c) ++ t) :: post) = Err (error_about MissingEq a).
Proof. exact (missing_eq_attached d argv0 pre os stk rem c ad a t post). Qed.
Print Assumptions C24_missing_eq_attached.

(** With [=] the value is accepted as an occurrence, whatever its bytes. *)
Theorem C24_with_eq {V : Type} (d : args_decl V) (pre : list bytes)
    (os : list (occ V)) (stk : list (scope V)) (rem : list (sarg V)) (n : name) (ad : addr)
    (a : sarg V) (v : bytes) :
  valid d -> at_option d pre os stk rem -> resolve stk n = Some (ad, a) -> takes_value a = true ->
  at_option d (pre ++ [spell_eq n v]) (os ++ [Occ ad a (Some v)]) stk rem /\
  shows d (pre ++ [spell_eq n v]) (os ++ [Occ ad a (Some v)]) stk.
Proof. intros Hd H Hr Ht. exact (at_both _ _ _ _ _ Hd (eq_value_taken d pre os stk rem n ad a v Hd H Hr Ht)). Qed.
Print Assumptions C24_with_eq.

Example C24_example :
  valid app_ /\ arrives app_ (argv ["-vq"]) (fun os stk rem => no_error_in os /\
    Forall (fun n => denotes_arg stk n (fun ad a =>
        ad = Addr 0 [bs "equal"] /\ takes_value a = true /\ needs_equals a = true))
      [Long (bs "equal"); Short (b2n "e")]).
Proof. split; [exact app_valid|]. repeat constructor. Qed.

(** C26: the token after an option that takes a value. *)
Theorem C26_next_token {V : Type} (d : args_decl V) (argv0 : bytes) (pre : list bytes)
    (os : list (occ V)) (stk : list (scope V)) (rem : list (sarg V)) (n : name) (ad : addr)
    (a : sarg V) (tok : bytes) :
  valid d -> at_option d pre os stk rem -> resolve stk n = Some (ad, a) -> takes_value a = true -> needs_equals a = false ->
  (tok = bs "-" \/ (forall b, tok <> "-"%byte :: b) \/ am_allow_hyphen_values (sa_meta a) = true \/
   (am_allow_negative_numbers (sa_meta a) = true /\
    exists b, tok = "-"%byte :: b /\ Forall (fun x => (48 <= b2n x <= 57)%N) b)) ->
  at_option d (pre ++ [spell n; tok]) (os ++ [Occ ad a (Some tok)]) stk rem /\
  shows d (pre ++ [spell n; tok]) (os ++ [Occ ad a (Some tok)]) stk.
Proof.
  intros Hd H Hr Ht Hn Hf. exact (at_both _ _ _ _ _ Hd (next_token_taken d argv0 pre os stk rem n ad a tok Hd H Hr Ht Hn Hf)).
Qed.
Print Assumptions C26_next_token.

Theorem C26_not_swallowed {V : Type} (d : args_decl V) (argv0 : bytes) (pre : list bytes)
    (os : list (occ V)) (stk : list (scope V)) (rem : list (sarg V)) (n : name) (ad : addr)
    (a : sarg V) (x : byte) (b : bytes) (post : list bytes) :
  valid d -> at_option d pre os stk rem -> no_error_in os -> resolve stk n = Some (ad, a) ->
  takes_value a = true -> needs_equals a = false -> am_allow_hyphen_values (sa_meta a) = false ->
  (am_allow_negative_numbers (sa_meta a) = false \/ Exists (fun y => ~ (48 <= b2n y <= 57)%N) (x :: b)) ->
  try_parse_from d (argv0 :: pre ++ spell n :: ("-"%byte :: x :: b) :: post) = Err (error_about MissingValue a).
Proof. exact (next_token_refused d argv0 pre os stk rem n ad a x b post). Qed.
Print Assumptions C26_not_swallowed.

Theorem C26_no_token {V : Type} (d : args_decl V) (argv0 : bytes) (pre : list bytes)
    (os : list (occ V)) (stk : list (scope V)) (rem : list (sarg V)) (n : name) (ad : addr) (a : sarg V) :
  valid d -> at_option d pre os stk rem -> no_error_in os -> resolve stk n = Some (ad, a) ->
  takes_value a = true -> needs_equals a = false ->
  try_parse_from d (argv0 :: pre ++ [spell n]) = Err (error_about MissingValue a).
Proof. exact (next_token_missing d argv0 pre os stk rem n ad a). Qed.
Print Assumptions C26_no_token.

Example C26_example :
  valid app_ /\ arrives app_ (argv ["-vq"]) (fun os stk rem => no_error_in os /\
    denotes_arg stk (Short (b2n "o")) (fun ad a =>
      takes_value a = true /\ needs_equals a = false /\
      am_allow_negative_numbers (sa_meta a) = true /\ am_allow_hyphen_values (sa_meta a) = false) /\
    denotes_arg stk (Long (bs "name")) (fun ad a =>
      takes_value a = true /\ needs_equals a = false /\
      am_allow_negative_numbers (sa_meta a) = false /\ am_allow_hyphen_values (sa_meta a) = false)).
Proof. split; [exact app_valid|]. repeat constructor. Qed.

(** C32: names are matched exactly.  A name is resolved iff an argument in scope
    declares it. *)
Theorem C32_exact {V : Type} (d : args_decl V) (pre : list bytes)
    (os : list (occ V)) (stk : list (scope V)) (rem : list (sarg V)) (n : name) :
  valid d -> at_option d pre os stk rem ->
  (resolve stk n <> None <->
   exists ad a, In (ad, a) (stack_args stk) /\ has_name a n /\ (S (ad_level ad) = length stk \/ is_global a = true)).
Proof. exact (resolve_exact d pre os stk rem n). Qed.
Print Assumptions C32_exact.

(** Any other name is an error that shows it (except the requests for help). *)
Theorem C32_unknown_long {V : Type} (d : args_decl V) (argv0 : bytes) (pre : list bytes)
    (os : list (occ V)) (stk : list (scope V)) (rem : list (sarg V)) (s tok : bytes) (post : list bytes) :
  valid d -> at_option d pre os stk rem -> no_error_in os ->
  ((tok = bs "--" ++ s /\ s <> []) \/ exists v, tok = bs "--" ++ s ++ bs "=" ++ v) -> ~ In "="%byte s ->
  unknown stk (Long s) -> s <> bs "help" ->
  try_parse_from d (argv0 :: pre ++ tok :: post) = Err (error_on UnknownNamedArgument (bs "--" ++ s)).
Proof. exact (unknown_long_error d argv0 pre os stk rem s tok post). Qed.
Print Assumptions C32_unknown_long.

Theorem C32_unknown_short {V : Type} (d : args_decl V) (argv0 : bytes) (pre : list bytes)
    (os : list (occ V)) (stk : list (scope V)) (rem : list (sarg V)) (c : N) (t : bytes) (post : list bytes) :
  valid d -> at_option d pre os stk rem -> no_error_in os ->
  is_scalar c = true -> c <> b2n "-" -> unknown stk (Short c) -> c <> b2n "h" ->
  try_parse_from d (argv0 :: pre ++ (bs "-" ++ utf8_encode c ++ t) :: post)
  = Err (error_on UnknownNamedArgument (bs "-" ++ utf8_encode c)).
Proof. exact (unknown_short_error d argv0 pre os stk rem c t post). Qed.
Print Assumptions C32_unknown_short.

(** Bytes that are not UTF-8 are no option either. *)
Theorem C32_not_utf8 {V : Type} (d : args_decl V) (argv0 : bytes) (pre : list bytes)
    (os : list (occ V)) (stk : list (scope V)) (rem : list (sarg V)) (t : bytes) (post : list bytes) :
  valid d -> at_option d pre os stk rem -> no_error_in os ->
  t <> [] -> fst (utf8_prefix t) = [] ->
  try_parse_from d (argv0 :: pre ++ (bs "-" ++ t) :: post) = Err (error_on UnknownNamedArgument (bs "-" ++ t)).
Proof. exact (not_utf8_error d argv0 pre os stk rem t post). Qed.
Print Assumptions C32_not_utf8.

Example C32_example :
  valid app_ /\
  try_parse_from app_ (argv ["prog"; "-v"; "--verbos"]) = Err (error_on UnknownNamedArgument (bs "--verbos")) /\
  try_parse_from app_ (argv ["prog"; "-v"; "--Verbose"]) = Err (error_on UnknownNamedArgument (bs "--Verbose")) /\
  try_parse_from app_ (argv ["prog"; "-v"; "--n=1"]) = Err (error_on UnknownNamedArgument (bs "--n")) /\
  try_parse_from app_ [bs "prog"; "-"%byte :: ["255"%byte; "v"%byte]] = Err (error_on UnknownNamedArgument ["-"; "255"; "v"]%byte).
Proof. split; [exact app_valid|]. repeat split; vm_compute; reflexivity. Qed.

(** C36: help. *)
Theorem C36_help_long {V : Type} (d : args_decl V) (argv0 : bytes) (pre : list bytes)
    (os : list (occ V)) (stk : list (scope V)) (rem : list (sarg V)) (tok : bytes) (post : list bytes) :
  valid d -> at_option d pre os stk rem -> no_error_in os ->
  (tok = bs "--help" \/ exists v, tok = bs "--help=" ++ v) -> unknown stk (Long (bs "help")) ->
  try_parse_from d (argv0 :: pre ++ tok :: post) = Err (mkError Help None None None [] (Some (help_text argv0 stk))).
Proof. exact (help_long d argv0 pre os stk rem tok post). Qed.
Print Assumptions C36_help_long.

Theorem C36_help_short {V : Type} (d : args_decl V) (argv0 : bytes) (pre : list bytes)
    (os : list (occ V)) (stk : list (scope V)) (rem : list (sarg V)) (cs : list N) (t : bytes) (post : list bytes) :
  valid d -> at_option d pre os stk rem -> Forall (plain_flag stk) cs -> unknown stk (Short (b2n "h")) ->
  exists os', read first_named (start d) (pre ++ map (fun c => spell (Short c)) cs) = (os ++ os', Go (Normal stk rem)) /\
  (no_error_in (os ++ os') ->
   try_parse_from d (argv0 :: pre ++ (bs "-" ++ encode_all cs ++ bs "h" ++ t) :: post)
   = Err (mkError Help None None None [] (Some (help_text argv0 stk)))).
Proof. exact (help_in_bundle d argv0 pre os stk rem cs t post). Qed.
Print Assumptions C36_help_short.

Example C36_example :
  valid app_ /\ arrives app_ (argv ["-d"; "run"; "x"]) (fun os stk rem => no_error_in os /\
    resolve stk (Long (bs "help")) = None /\ resolve stk (Short (b2n "h")) = None /\
    try_parse_from app_ (argv ["prog"; "-d"; "run"; "x"; "-vh"; "--bad"])
    = Err (mkError Help None None None [] (Some (help_text (bs "prog") stk)))).
Proof. split; [exact app_valid|]. vm_compute. repeat constructor. Qed.

(** C41: every byte string can be the value of an option. *)
Theorem C41_option_value {V : Type} (d : args_decl V) (pre : list bytes)
    (os : list (occ V)) (stk : list (scope V)) (rem : list (sarg V)) (s : bytes) (ad : addr)
    (a : sarg V) (v : bytes) :
  valid d -> at_option d pre os stk rem -> resolve stk (Long s) = Some (ad, a) ->
  at_option d (pre ++ [bs "--" ++ s ++ bs "=" ++ v]) (os ++ [Occ ad a (Some v)]) stk rem /\
  shows d (pre ++ [bs "--" ++ s ++ bs "=" ++ v]) (os ++ [Occ ad a (Some v)]) stk.
Proof. intros Hd H Hr. exact (at_both _ _ _ _ _ Hd (long_eq_value_taken d pre os stk rem s ad a v Hd H Hr)). Qed.
Print Assumptions C41_option_value.

Example C41_option_value_example :
  valid app_ /\
  arrives app_ (argv ["-d"]) (fun os stk rem =>
    denotes_arg stk (Long (bs "raw")) (fun ad a => ad = Addr 0 [bs "raw"])) /\
  succeeds app_ [bs "prog"; bs "-d"; bs "--raw=" ++ ["-"; "255"; "="]%byte]
    (fun o => field_at (Addr 0 [bs "raw"]) o = Some (FvOption (Some (TStr ["-"; "255"; "="]%byte)))).
Proof. split; [exact app_valid|]. show. Qed.

(** C50: a short option that needs no value is never given one by [=]. *)
Theorem C50_short_value_rejected {V : Type} (d : args_decl V) (argv0 : bytes) (pre : list bytes)
    (os : list (occ V)) (stk : list (scope V)) (rem : list (sarg V)) (c : N) (ad : addr)
    (a : sarg V) (v : bytes) (post : list bytes) :
  valid d -> at_option d pre os stk rem -> no_error_in os -> resolve stk (Short c) = Some (ad, a) ->
  takes_value a = false ->
  exists e, try_parse_from d (argv0 :: pre ++ (bs "-" ++ utf8_encode c ++ bs "=" ++ v) :: post) = Err e /\
    (occ_error a (given os ad) (Some v) = None -> e = error_on UnknownNamedArgument (bs "-=")).
Proof. exact (short_value_error d argv0 pre os stk rem c ad a v post). Qed.
Print Assumptions C50_short_value_rejected.

(** One would expect that it means the same as with the long name; it does not. *)
Theorem C50_like_long_refuted :
  exists (d : args_decl tv) (argv0 s : bytes) (c : N) (ad : addr) (a : sarg tv) (v : bytes),
    valid d /\ resolve [Scope d [] false] (Long s) = Some (ad, a) /\ resolve [Scope d [] false] (Short c) = Some (ad, a) /\
    shape_a a = ShOptOpt /\
    (exists o, try_parse_from d [argv0; bs "--" ++ s ++ bs "=" ++ v] = Ok o) /\
    forall o, try_parse_from d [argv0; bs "-" ++ utf8_encode c ++ bs "=" ++ v] <> Ok o.
Proof.
  exists app_, (bs "prog"), (bs "color"), (b2n "c"). eexists _, _, (bs "red"). split; [exact app_valid|].
  split; [vm_compute; reflexivity|]. split; [vm_compute; reflexivity|]. split; [reflexivity|].
  split; [eexists; vm_compute; reflexivity|]. intros o. vm_compute. discriminate.
Qed.
Print Assumptions C50_like_long_refuted.

Example C50_example :
  valid app_ /\
  succeeds app_ (argv ["prog"; "--color=red"])
    (fun o => field_at (Addr 0 [bs "color"]) o = Some (FvOptionOption (Some (Some (TStr (bs "red")))))) /\
  try_parse_from app_ (argv ["prog"; "-c=red"]) = Err (error_on UnknownNamedArgument (bs "-=")).
Proof. split; [exact app_valid|]. show. Qed.
