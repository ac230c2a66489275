(** C74: the usage line. *)
From Verif Require Import Bytes Utf8 Error Values Places Heck Decl Spec Derive Generated Observe Grammar Outcome Page Usage Kit Samples.
From Verif Require Import UsageFacts.
Local Open Scope string_scope.
Local Open Scope list_scope.

(** C74: a command line that gives what the usage line of each command shows outside
    brackets, with values that can be read in the places of [<VALUE>], and nothing
    else, is accepted. *)
Theorem C74_enough {V : Type} (d : args_decl V) (argv0 : bytes) (toks : list bytes) (os : list (occ V)) (stk : list (scope V)) :
  valid d -> defaults_readable d = true -> follows [Scope d [] false] toks os stk -> simple_demands stk ->
  exists o, try_parse_from d (argv0 :: toks) = Ok o /\ holds o os stk.
Proof. exact (followed d argv0 toks os stk). Qed.
Print Assumptions C74_enough.

(** Less than that is not. *)
Theorem C74_needed {V : Type} (d : args_decl V) (argv0 : bytes) (toks : list bytes) (o : outval V) :
  valid d -> try_parse_from d (argv0 :: toks) = Ok o ->
  exists os stk, reads d toks os stk /\ entered o = tl (rev (map sc_ident stk)) /\
  forall ad a, In (ad, a) (stack_args stk) -> is_required a = true -> exists v, In (Occ ad a v) os.
Proof. exact (needed d argv0 toks o). Qed.
Print Assumptions C74_needed.

(** The usage line that is printed: outside brackets it has an item for each required
    argument that is not hidden and for a required subcommand, and no others. *)
Theorem C74_line {V : Type} (d : args_decl V) (argv0 : bytes) (toks : list bytes) (e : error) (t : bytes) :
  valid d -> try_parse_from d (argv0 :: toks) = Err e -> try_into_help e = Some t ->
  exists pre tok post os s outer rem, toks = pre ++ tok :: post /\ at_option d pre os (s :: outer) rem /\
  exists prog intro items rest, program argv0 prog /\
  t = intro ++ bs "Usage:" ++ concat (map (fun w => bs " " ++ w) (to_string_lossy prog :: command_names (s :: outer) ++ concat items))
      ++ nl ++ nl ++ rest /\
  (forall i, demanded (sc_decl s) i -> In i items) /\
  (forall i, In i items -> demanded (sc_decl s) i \/ offered (sc_decl s) i).
Proof. exact (help_usage_line d argv0 toks e t). Qed.
Print Assumptions C74_line.

(** The items are [--key <KEY>] and [<INPUT>], and in brackets [[OPTIONS]],
    [[-- [REST]...]] and [[COMMAND]]. *)
Example C74_line_example :
  valid tool /\ demanded tool [bs "--key <KEY>"] /\ demanded tool [bs "<INPUT>"] /\ offered tool [bs "[OPTIONS]"] /\
  offered tool [bs "[--"; bs "[REST]...]"] /\ offered tool [bs "[COMMAND]"] /\
  match try_parse_from tool (argv ["tool"; "--help"]) with
  | Err e => match try_into_help e with
             | Some t => exists rest, t = bs "A tool." ++ nl ++ nl ++ bs "Usage: tool --key <KEY> [OPTIONS] <INPUT> [-- [REST]...] [COMMAND]" ++ nl ++ nl ++ rest
             | None => False
             end
  | _ => False
  end.
Proof.
  split; [exact tool_valid|].
  split; [apply (demanded_option tool [bs "key"] (Arg (bs "key") (required (short (long m0))) TString)); vm_compute; auto 10|].
  split; [apply (demanded_positional tool (Arg (bs "input") (doc [bs " What to read."] m0) TString)); vm_compute; auto 10|].
  split; [apply (offered_options tool [bs "flags"; bs "quiet"] (Arg (bs "quiet") (doc [bs " Say less."] (short (long m0))) TBool)); vm_compute; auto 10|].
  split; [apply (offered_last tool (Arg (bs "rest") (last_ m0) (TyVec TString))); vm_compute; auto 10|].
  split; [eapply offered_command; vm_compute; reflexivity|]. vm_compute. eexists. reflexivity.
Qed.

(** How the usage line shows an option (and see [page], C38). *)
Theorem C74_shown {V : Type} (a : sarg V) (n : name) :
  is_option a = true -> called a = Some n ->
  exists pre part, usage_form a = pre ++ spell n ++ part /\
  (pre = [] \/ exists c l, n = Long l /\ (128 <= c)%N /\ short_name a = Some c /\ pre = spell (Short c) ++ bs ", ") /\
  (takes_value a = true -> needs_equals a = false -> part = bs " <" ++ Spec.value_name a ++ bs ">") /\
  (takes_value a = true -> needs_equals a = true -> part = bs "=<" ++ Spec.value_name a ++ bs ">") /\
  (takes_value a = false -> part = [] \/ part = bs "[=<" ++ Spec.value_name a ++ bs ">]").
Proof. exact (usage_shows a n). Qed.
Print Assumptions C74_shown.

(** The usage line is not enough if an optional positional is before a required one. *)
Theorem C74_optional_first_refuted :
  exists (d : args_decl tv) (b : bytes), valid d /\ simple_demands [Scope d [] false] /\
    render_long_help d (bs "prog") = Ok (bs "Usage: prog <TO>" ++ b) /\
    match try_parse_from d (argv ["prog"; "x"]) with Err e => e_kind e = MissingRequiredArgument | _ => False end.
Proof.
  exists (struct [arg "from" m0 (TyOption TString); arg "to" m0 TString]). eexists.
  split; [split; vm_compute; reflexivity|]. split; [|split; [vm_compute; reflexivity|vm_compute; reflexivity]].
  intros ad a [E|[E|[]]] _; injection E as _ <-; repeat split.
Qed.
Print Assumptions C74_optional_first_refuted.

(** The usage line of a subcommand does not show what the commands around it
    require. *)
Theorem C74_inner_line_refuted :
  exists (d : args_decl tv) (a b : bytes), valid d /\
    match try_parse_from d (argv ["prog"; "go"; "--help"]) with Err e => e_help e = Some (a ++ bs "Usage: prog go" ++ nl ++ b) | _ => False end /\
    match try_parse_from d (argv ["prog"; "go"]) with Err e => e_kind e = MissingRequiredArgument | _ => False end.
Proof.
  exists tool, (lines ["Go on."; "At once."; ""]), nl. split; [exact tool_valid|]. split; vm_compute; reflexivity.
Qed.
Print Assumptions C74_inner_line_refuted.

(** The usage lines are those in C37_example and [Usage: tool stop-it [OPTIONS]]. *)
Example C74_example :
  valid tool /\ defaults_readable tool = true /\
  (exists os stk, follows [Scope tool [] false] (argv ["--key"; "k"; "in"; "stop-it"]) os stk /\ simple_demands stk) /\
  succeeds tool (argv ["tool"; "--key"; "k"; "in"; "stop-it"]) (fun o =>
    field_at (Addr 0 [bs "key"]) o = Some (FvVal (TStr (bs "k"))) /\
    field_at (Addr 0 [bs "input"]) o = Some (FvVal (TStr (bs "in"))) /\ entered o = [bs "StopIt"]).
Proof.
  split; [exact tool_valid|]. split; [vm_compute; reflexivity|]. split; [|show].
  assert (Hask : forall (s : scope tv) outer x,
    (exists s' outer', s :: outer = s' :: outer' /\ In x (scope_args (length outer') s') /\
      is_option (snd x) = true /\ is_required (snd x) = true /\ shown (snd x) = true) <->
    In x (filter (fun y => is_option (snd y) && is_required (snd y) && shown (snd y)) (scope_args (length outer) s))).
  { intros s outer x. rewrite filter_In, !Bool.andb_true_iff. split.
    - intros (s' & outer' & E & H). injection E as <- <-. tauto.
    - intros H. exists s, outer. tauto. }
  eexists. eexists. split.
  - refine (follows_command (Scope tool [] false) [] [(Addr 0 [bs "key"], Arg (bs "key") (required (short (long m0))) TString)]
      (argv ["--key"; "k"]) _ [bs "in"] _ [Arg (bs "old") (hide m0) (TyOption TString)]
      (bs "StopIt", VDStruct (struct [arg "now" (long m0) TBool])) [] _ _ _ _ _ _ _ _ _).
    + split; [constructor; [intros []|constructor]|]. intros x. rewrite Hask. vm_compute. tauto.
    + refine (meets_more _ (Addr 0 [bs "key"]) (Arg (bs "key") (required (short (long m0))) TString) [] (argv ["--key"; "k"]) _ [] _ _ (meets_none _)).
      refine (meets_next _ _ _ (Long (bs "key")) (bs "k") _ _ _ _ _ _); try (vm_compute; reflexivity).
      eexists. apply denotes_one; [reflexivity|]. vm_compute. reflexivity.
    + refine (puts_one _ (Arg (bs "input") (doc [bs " What to read."] m0) TString) _ (bs "in") [] _ _ _ _ _ _ _ (puts_none _ _)); try reflexivity.
      split; [right; intros b C; discriminate C|]. split; [vm_compute; intros [C|[C|[]]]; discriminate C|].
      eexists. apply denotes_one; [reflexivity|]. vm_compute. reflexivity.
    + constructor; [reflexivity|constructor].
    + vm_compute. constructor; [reflexivity|constructor].
    + right. left. reflexivity.
    + refine (follows_end _ _ [] [] _ [] _ _ [] _ _ (meets_none _) (puts_none _ _) (closes_none _ _ _ _) _).
      * split; [constructor|]. intros x. rewrite Hask. vm_compute. tauto.
      * vm_compute. constructor.
      * vm_compute. constructor.
      * intros id vs C. vm_compute in C. discriminate C.
  - intros ad a Hin. vm_compute in Hin.
    repeat (destruct Hin as [E|Hin]; [injection E as <- <-; intros H; vm_compute in H; first [discriminate H|repeat split]|]). destruct Hin.
Qed.
