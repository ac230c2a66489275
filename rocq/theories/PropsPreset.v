(** C72: the default on the help page is the default. *)
From Verif Require Import Bytes Utf8 Error Values Places Heck Decl Spec Derive Generated Observe Page Unsaid Preset Kit Samples.
From Verif Require Import PresetFacts.
Local Open Scope string_scope.
Local Open Scope list_scope.

(** C72: below the description of an argument and its documentation the page shows
    its default: the text or the literal in the declaration, the name of the
    variant, or what [Display] prints. *)
Theorem C72_shown {V : Type} (argv0 : bytes) (s : scope V) (outer : list (scope V)) (t : bytes) (a : sarg V) (x : bytes) :
  page argv0 (s :: outer) t -> listed (sc_decl s) a -> shows a x -> described a (default_line x) t.
Proof. exact (default_shown argv0 s outer t a x). Qed.
Print Assumptions C72_shown.

(** Without a default there is no such line. *)
Theorem C72_none {V : Type} (argv0 : bytes) (s : scope V) (outer : list (scope V)) (t : bytes) (a : sarg V) :
  page argv0 (s :: outer) t -> listed (sc_decl s) a -> has_default a = false -> described a [] t.
Proof. exact (no_default_shown argv0 s outer t a). Qed.
Print Assumptions C72_none.

(** The name of the default variant can be passed, and it changes nothing: the
    result is the same, or one of the rules on which arguments go together is
    broken. *)
Theorem C72_variant {V : Type} (d : args_decl V) (argv0 : bytes) (pre : list bytes) (os : list (occ V))
    (stk : list (scope V)) (rem : list (sarg V)) (toks : list bytes) (ad : addr) (a : sarg V) (n : bytes) (v : V)
    (post : list bytes) (o : outval V) (os' : list (occ V)) (stk' : list (scope V)) :
  valid d -> at_option d pre os stk rem -> writes stk toks ad a (Some n) ->
  try_parse_from d (argv0 :: pre ++ post) = Ok o -> reads d (pre ++ post) os' stk' -> given os' ad = false ->
  default_is a v -> variant_named a v n ->
  match try_parse_from d (argv0 :: pre ++ toks ++ post) with
  | Ok o' => o' = o
  | Err e => about_company e
  | Panic _ => False
  end.
Proof. exact (variant_said d argv0 pre os stk rem toks ad a n v post o os' stk'). Qed.
Print Assumptions C72_variant.

(** So can any text that the type reads as the default. *)
Theorem C72_value {V : Type} (d : args_decl V) (argv0 : bytes) (pre : list bytes) (os : list (occ V))
    (stk : list (scope V)) (rem : list (sarg V)) (toks : list bytes) (ad : addr) (a : sarg V) (t : bytes) (v : V)
    (post : list bytes) (o : outval V) (os' : list (occ V)) (stk' : list (scope V)) :
  valid d -> at_option d pre os stk rem -> writes stk toks ad a (Some t) ->
  try_parse_from d (argv0 :: pre ++ post) = Ok o -> reads d (pre ++ post) os' stk' -> given os' ad = false ->
  default_is a v -> read_value (value_of_ty (sa_ty a)) (text_of a t) = inl v ->
  match try_parse_from d (argv0 :: pre ++ toks ++ post) with
  | Ok o' => o' = o
  | Err e => about_company e
  | Panic _ => False
  end.
Proof. exact (value_said d argv0 pre os stk rem toks ad a t v post o os' stk'). Qed.
Print Assumptions C72_value.

Example C72_example :
  valid lamp /\
  render_long_help lamp (bs "lamp") = Ok (lines
    ["Usage: lamp [OPTIONS]"; ""; "Options:";
     "      --shade <SHADE>"; "          How it looks."; "          [default: dark]"; "";
     "      --bulb <BULB>"; "          [default: light]"; "";
     "      --dim"; "";
     "  -w <WATTS>"; "          [default: 0]"; "";
     "      --level <LEVEL>"; "          [default: 7]"; "";
     "      --room <ROOM>"; "          [default: hall]"; "";
     "      --name <NAME>"; ""]) /\
  succeeds lamp (argv ["lamp"; "--name"; "x"]) (fun o =>
    try_parse_from lamp (argv ["lamp"; "--shade=DARK"; "--name"; "x"]) = Ok o /\
    try_parse_from lamp (argv ["lamp"; "--name"; "x"; "--bulb"; "light"]) = Ok o /\
    try_parse_from lamp (argv ["lamp"; "--name"; "x"; "-w0"]) = Ok o) /\
  (* A rule is broken. *)
  match try_parse_from lamp (argv ["lamp"; "--bulb=light"; "--dim"]) with
  | Err e => e_kind e = ConstraintConflict
  | _ => False
  end.
Proof. split; [exact lamp_valid|]. split; [show|]. split; show. Qed.

(** The hypotheses: a variant, and a displayed value. *)
Example C72_hypotheses :
  let shade := Arg (bs "shade") (ignore_case (long (default_value_t (doc [bs "How it looks."] m0)))) (TyOther shade_ty) in
  let watts := Arg (bs "watts") (short (default_value_t m0)) TI in
  arrives lamp (argv ["--name"; "x"]) (fun os stk rem =>
    denotes_arg stk (Long (bs "shade")) (fun ad a => a = shade /\ takes_value a = true /\ given os ad = false) /\
    denotes_arg stk (Short (b2n "w")) (fun ad a => a = watts /\ takes_value a = true /\ given os ad = false)) /\
  listed lamp shade /\ shows shade (bs "dark") /\ default_is shade (TEnum 0) /\ variant_named shade (TEnum 0) (bs "dark") /\
  listed lamp watts /\ shows watts (bs "0") /\ default_is watts (TInt 0) /\
  read_value (value_of_ty (sa_ty watts)) (text_of watts (bs "0")) = inl (TInt 0).
Proof.
  intros shade watts.
  assert (H1 : default_is shade (TEnum 0)) by (left; split; [reflexivity|]; split; [discriminate|reflexivity]).
  assert (H2 : variant_named shade (TEnum 0) (bs "dark"))
    by (exists [bs "dark"; bs "light"], TEnum; split; [reflexivity|]; split; [reflexivity|]; split; reflexivity).
  assert (H3 : default_is watts (TInt 0)) by (left; split; [reflexivity|]; split; [discriminate|reflexivity]).
  split; [show|].
  split; [apply (listed_option _ _ [bs "shade"]); [vm_compute; tauto|reflexivity|reflexivity]|].
  split; [exact (shows_variant shade _ _ H1 ltac:(intros l [w H]; discriminate) H2)|].
  split; [exact H1|]. split; [exact H2|].
  split; [apply (listed_option _ _ [bs "watts"]); [vm_compute; tauto|reflexivity|reflexivity]|].
  split; [exact (shows_display watts _ _ H3 ltac:(intros l [w H]; discriminate) eq_refl eq_refl)|].
  split; [exact H3|]. vm_compute. reflexivity.
Qed.
