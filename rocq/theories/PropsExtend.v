(** C67, C69, C77: a declaration with more arguments, with more subcommands. *)
From Verif Require Import Bytes Utf8 Error Values Places Heck Decl Spec Derive Generated Observe Wording Extend Kit Samples.
From Verif Require Import ExtendFacts KeepFacts.
Local Open Scope string_scope.
Local Open Scope list_scope.

(** C67: what is added to a declaration and need not be given breaks no command
    line in which no new subcommand is named. *)
Theorem C67_compatible {V : Type} (added : sarg V -> Prop) (fresh : bytes -> Prop) (d d' : args_decl V) argv o :
  valid d -> valid d' -> extended added fresh d d' -> harmless added d -> (forall tok, In tok (tl argv) -> ~ fresh tok) ->
  try_parse_from d argv = Ok o -> exists o', try_parse_from d' argv = Ok o' /\ more_values o o'.
Proof. exact (option_added added fresh d d' argv o). Qed.
Print Assumptions C67_compatible.

Example C67_example :
  let line := argv ["sync"; "-qv"; "here"; "push"; "--all"] in
  valid (sync false) /\ valid (sync true) /\ extended sync_new sync_fresh (sync false) (sync true) /\ harmless sync_new (sync false) /\
  (forall tok, In tok (tl line) -> ~ sync_fresh tok) /\
  succeeds (sync false) line (fun o =>
    o = Out [fB "verbose" true; fS "dir" "here"; fV "rest" []] [(bs "common", Out [fB "quiet" true] [] None)]
          (Some (bs "cmd", Some (SubV (bs "Push") (Some (Out [fB "all" true; fO "what" None] [] None)))))) /\
  succeeds (sync true) line (fun o =>
    o = Out [fB "verbose" true; fB "dry_run" false; fS "dir" "here"; fO "target" None; fV "rest" []]
          [(bs "common", Out [fB "quiet" true; fO "color" None] [] None); (bs "limits", Out [(bs "max_size", FvOption None)] [] None)]
          (Some (bs "cmd", Some (SubV (bs "Push") (Some (Out [fI "retries" 3; fB "all" true; fO "what" None] [] (Some (bs "cmd", None)))))))).
Proof.
  split; [split; vm_compute; reflexivity|]. split; [split; vm_compute; reflexivity|]. split.
  { unfold sync, sync_new, sync_fresh. cbn [app]. constructor. apply fields_keep; [constructor|]. apply fields_add; [cbn; tauto|left; reflexivity|].
    apply fields_keep; [constructor; constructor; apply fields_keep; [constructor|]; apply fields_add; [cbn; tauto|left; reflexivity|constructor]|].
    apply fields_keep; [constructor|]. apply fields_keep; [constructor|]. apply fields_add; [cbn; tauto|right; intros b []|].
    apply fields_flat; [intros pa [<-|[]]; cbn; tauto|]. apply fields_keep; [|constructor]. constructor.
    apply extended_one; [|apply extended_new; [vm_compute; tauto|apply extended_one; constructor]].
    constructor. constructor. apply fields_add; [cbn; tauto|left; reflexivity|]. cbn [app]. repeat (apply fields_keep; [constructor|]).
    apply fields_sub; [intros v [<-|[]]; vm_compute; tauto|reflexivity|constructor]. }
  split; [|split; [|split; vm_compute; reflexivity]].
  - intros a Ha. unfold sync_new in Ha. cbn [In] in Ha.
    destruct Ha as [<-|[<-|[<-|[<-|[<-|[]]]]]]; (split; [reflexivity|]; split; [reflexivity|]; split; [vm_compute; reflexivity|]);
      intros [s|c] [_ [[]|Hn]]; vm_compute in Hn; try discriminate Hn; injection Hn as <-; vm_compute; reflexivity.
  - intros tok Ht [E|[E|[]]]; subst tok; vm_compute in Ht; repeat destruct Ht as [Ht|Ht]; try discriminate Ht; exact Ht.
Qed.

(** A word that was a value can become the name of a new subcommand. *)
Theorem C67_variant_refuted : exists vs v argv o o',
  valid (tail_ vs) /\ valid (tail_ (v :: vs)) /\
  try_parse_from (tail_ vs) argv = Ok o /\ try_parse_from (tail_ (v :: vs)) argv = Ok o' /\ ~ more_values o o'.
Proof.
  exists [(bs "Push", VDUnit no_attrs)], (bs "Pull", VDUnit no_attrs), (argv ["tail"; "pull"]),
    (Out [fB "verbose" false; fO "input" (Some "pull")] [] (Some (bs "cmd", None))),
    (Out [fB "verbose" false; fO "input" None] [] (Some (bs "cmd", Some (SubV (bs "Pull") None)))).
  split; [split; vm_compute; reflexivity|]. split; [split; vm_compute; reflexivity|]. split; [vm_compute; reflexivity|].
  split; [vm_compute; reflexivity|]. intros H. inversion H; subst. match goal with C : more_sub _ _ |- _ => inversion C end.
Qed.
Print Assumptions C67_variant_refuted.

(** An option with a name that is known from outside is not harmless; *)
Example C67_known_name :
  let old := tail_ [(bs "Push", VDUnit no_attrs)] in
  let new := tail_ [(bs "Push", VDStruct (struct [arg "vanish" (short m0) TBool]))] in
  valid old /\ valid new /\
  match try_parse_from old (argv ["tail"; "push"; "-v"]), try_parse_from new (argv ["tail"; "push"; "-v"]) with
  | Ok (Out l _ _), Ok (Out l' _ _) => In (fB "verbose" true) l /\ In (fB "verbose" false) l'
  | _, _ => False
  end.
Proof. split; [split; vm_compute; reflexivity|]. split; [split; vm_compute; reflexivity|]. vm_compute. tauto. Qed.

(** nor is a positional before others, nor a [last] one. *)
Example C67_order :
  let old := struct [arg "a" m0 TString; arg "b" m0 (TyOption TString)] in
  let new := struct [arg "new" m0 (TyOption TString); arg "a" m0 TString; arg "b" m0 (TyOption TString)] in
  let new_last := struct [arg "a" m0 TString; arg "b" m0 (TyOption TString); arg "new" (last_ m0) (TyVec TString)] in
  valid old /\ valid new /\ valid new_last /\
  succeeds old (argv ["p"; "x"]) (fun o => o = Out [fS "a" "x"; fO "b" None] [] None) /\
  match try_parse_from new (argv ["p"; "x"]) with Err e => e_kind e = MissingRequiredArgument | _ => False end /\
  succeeds old (argv ["p"; "x"; "--"; "y"]) (fun o => o = Out [fS "a" "x"; fO "b" (Some "y")] [] None) /\
  succeeds new_last (argv ["p"; "x"; "--"; "y"]) (fun o => o = Out [fS "a" "x"; fO "b" None; fV "new" ["y"]] [] None).
Proof. repeat (split; [split; vm_compute; reflexivity|]). repeat split; vm_compute; reflexivity. Qed.

(** C77: a command line that uses nothing of what is added is accepted only if it
    was accepted before, with the same values. *)
Theorem C77_nothing_new {V : Type} (added : sarg V -> Prop) (fresh : bytes -> Prop) (d d' : args_decl V) (argv0 : bytes)
    (toks : list bytes) o' os stk :
  valid d -> valid d' -> extended added fresh d d' -> harmless added d -> (forall tok, In tok toks -> ~ fresh tok) ->
  reads d' toks os stk -> (forall o, In o os -> ~ added (oc_arg o)) ->
  try_parse_from d' (argv0 :: toks) = Ok o' -> exists o, try_parse_from d (argv0 :: toks) = Ok o /\ more_values o o'.
Proof. exact (nothing_new_used added fresh d d' argv0 toks o' os stk). Qed.
Print Assumptions C77_nothing_new.

Example C77_example :
  let line := argv ["-qv"; "here"; "push"; "--all"] in
  (exists os stk, reads (sync true) line os stk /\ (forall o, In o os -> ~ sync_new (oc_arg o)) /\
     map (fun o => sa_id (oc_arg o)) os = [bs "quiet"; bs "verbose"; bs "dir"; bs "all"]) /\
  (exists o, try_parse_from (sync true) (bs "sync" :: line) = Ok o) /\
  (* What only the second one accepts. *)
  let line' := argv ["here"; "there"] in
  reads_such (sync true) line' (fun os _ => map (fun o => sa_id (oc_arg o)) os = [bs "dir"; bs "target"]) /\
  (exists o, try_parse_from (sync true) (bs "sync" :: line') = Ok o) /\
  match try_parse_from (sync false) (bs "sync" :: line') with Err e => e_kind e = UnknownSubcommand | _ => False end.
Proof.
  split.
  - assert (H : reads_such (sync true) (argv ["-qv"; "here"; "push"; "--all"]) (fun os _ =>
      map (fun o => sa_id (oc_arg o)) os = [bs "quiet"; bs "verbose"; bs "dir"; bs "all"])) by (vm_compute; reflexivity).
    apply reads_such_iff in H. destruct H as (os & stk & Hr & E). exists os, stk. split; [exact Hr|]. split; [|exact E].
    intros o Ho Hn. apply (in_map (fun o => sa_id (oc_arg o))) in Ho. rewrite E in Ho. apply (in_map sa_id) in Hn. revert Ho Hn.
    generalize (sa_id (oc_arg o)). intros i Hi Hn. cbn [map sa_id] in Hn.
    repeat destruct Hi as [<-|Hi]; try contradiction; repeat destruct Hn as [Hn|Hn]; try discriminate Hn; exact Hn.
  - split; [eexists; vm_compute; reflexivity|]. split; [vm_compute; reflexivity|]. split; [eexists; vm_compute; reflexivity|vm_compute; reflexivity].
Qed.

(** C69: two versions of a program that differ only in subcommands, at any
    depth, that a command line does not name treat it alike, but for the text of
    help pages. *)
Theorem C69_versions {V : Type} (keep : bytes -> bool) (d d' : args_decl V) argv :
  keeping keep d = keeping keep d' -> valid d -> valid d' -> Forall (fun tok => keep tok = true) (tl argv) ->
  same_but_help (try_parse_from d argv) (try_parse_from d' argv).
Proof. exact (versions_parse keep d d' argv). Qed.
Print Assumptions C69_versions.

(** So all the subcommands a command line does not name could be left out. *)
Theorem C69_named {V : Type} (d : args_decl V) argv : valid d ->
  valid (named_in argv d) /\ same_but_help (try_parse_from d argv) (try_parse_from (named_in argv d) argv).
Proof. exact (unnamed_parse d argv). Qed.
Print Assumptions C69_named.

Example C69_example :
  let remote more := (bs "Remote", VDStruct (struct [arg "name" m0 (TyOption TString);
    (bs "cmd", FSub false (MkSubDecl ((bs "Show", VDUnit no_attrs) :: more)))])) in
  let old := tail_ [remote []] in
  let new := tail_ [(bs "SyncAll", VDUnit no_attrs); remote [(bs "Prune", VDUnit no_attrs)]] in
  let keep n := negb (beqb n (bs "sync-all")) && negb (beqb n (bs "prune")) in
  let line := argv ["tail"; "sync_all"; "remote"; "-v"; "pruned"; "show"] in
  valid old /\ valid new /\ old <> new /\ keeping keep old = keeping keep new /\
  Forall (fun tok => keep tok = true) (tl line) /\ named_in line new = old /\
  succeeds new line (fun o => o = Out [fB "verbose" true; fO "input" (Some "sync_all")] []
    (Some (bs "cmd", Some (SubV (bs "Remote") (Some (Out [fO "name" (Some "pruned")] [] (Some (bs "cmd", Some (SubV (bs "Show") None))))))))).
Proof.
  split; [split; vm_compute; reflexivity|]. split; [split; vm_compute; reflexivity|]. split; [discriminate|].
  split; [vm_compute; reflexivity|]. split; [repeat constructor; vm_compute; reflexivity|]. split; vm_compute; reflexivity.
Qed.
