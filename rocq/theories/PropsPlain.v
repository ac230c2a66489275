(** C48: plain command lines say everything. *)
From Verif Require Import Bytes Utf8 Error Values Places Heck Decl Spec Derive Generated Observe Grammar Outcome Plain Kit Samples.
From Verif Require Import PlainFacts ShowFacts.
Local Open Scope string_scope.
Local Open Scope list_scope.

(** C48: what any command line gives, a plain one gives: one with one token for
    each option ([--name], [-n], [--name=value], [-n=value]), the options of each
    command before its words. *)
Theorem C48_replay {V : Type} (d : args_decl V) (argv0 : bytes) (toks : list bytes) (r : outval V) :
  valid d -> try_parse_from d (argv0 :: toks) = Ok r ->
  exists toks', plain [Scope d [] false] toks' /\ try_parse_from d (argv0 :: toks') = Ok r.
Proof. exact (replay d argv0 toks r). Qed.
Print Assumptions C48_replay.

(** Any sequence of such options followed by [--] and as many values as there are
    positionals for is read as these options and values. *)
Theorem C48_every_choice {V : Type} (d : args_decl V) (opts : list bytes) (oo : list (occ V)) (ws : list bytes) :
  valid d -> Forall2 (option_token [Scope d [] false]) opts oo ->
  (forall k, k < length ws -> next_verbatim [Scope d [] false] oo k <> None) ->
  exists os', reads d (opts ++ bs "--" :: ws) (oo ++ os') [Scope d [] false] /\
  shows d (opts ++ bs "--" :: ws) (oo ++ os') [Scope d [] false] /\ length os' = length ws /\
  forall k w, nth_error ws k = Some w ->
  exists p, next_verbatim [Scope d [] false] oo k = Some p /\ nth_error os' k = Some (word_occ [Scope d [] false] p w).
Proof.
  intros Hd Ho Hw. destruct (every_choice d opts oo ws Hd Ho Hw) as (os' & Hr & H). exists os'.
  split; [exact Hr|]. split; [exact (reads_shows _ _ _ _ Hd Hr)|exact H].
Qed.
Print Assumptions C48_every_choice.

Example C48_example :
  valid app_ /\ valid copy /\
  (* A line that is not plain, and a plain one for it. *)
  succeeds app_ (argv ["prog"; "a"; "-vdk"; "x"; "-fb,c"; "run"; "t"; "-j4"; "u"; "-v"]) (fun o =>
    try_parse_from app_ (argv ["prog"; "-v"; "-d"; "-k=x"; "-f=b,c"; "a"; "run"; "-j=4"; "t"; "u"; "-v"]) = Ok o) /\
  (* Choices. *)
  succeeds copy (argv ["cp"; "--force"; "--to=--x"; "s"; "--"; "--keep"; ""]) (fun o =>
    field_at (Addr 0 [bs "to"]) o = Some (FvOption (Some (TStr (bs "--x")))) /\
    field_at (Addr 0 [bs "tail"]) o = Some (FvVec [TStr (bs "--keep"); TStr []])).
Proof. split; [exact app_valid|]. split; [exact copy_valid|]. split; show. Qed.

Example C48_plain_example :
  plain [Scope app_ [] false] (argv ["-v"; "-d"; "-k=x"; "-f=b,c"; "a"; "run"; "-j=4"; "t"; "u"; "-v"]).
Proof.
  refine (plain_subcommand _ (argv ["-v"; "-d"; "-k=x"; "-f=b,c"]) [bs "a"] (bs "Run", VDStruct run_cmd) _ _ _ _
    (plain_end _ [bs "-j=4"] [bs "t"] (argv ["u"; "-v"]) _ _ _)).
  - repeat apply Forall_cons; [| | | |apply Forall_nil].
    + eexists. refine (token_bare _ (Short (b2n "v")) _ _ _ _); [vm_compute; reflexivity|reflexivity].
    + eexists. refine (token_bare _ (Short (b2n "d")) _ _ _ _); [vm_compute; reflexivity|reflexivity].
    + eexists. refine (token_value _ (Short (b2n "k")) _ _ (bs "x") _ _); [vm_compute; reflexivity|reflexivity].
    + eexists. refine (token_value _ (Short (b2n "f")) _ _ (bs "b,c") _ _); [vm_compute; reflexivity|reflexivity].
  - constructor; [right; discriminate|constructor].
  - left. reflexivity.
  - repeat apply Forall_cons; [|apply Forall_nil].
    eexists. refine (token_value _ (Short (b2n "j")) _ _ (bs "4") _ _); [vm_compute; reflexivity|reflexivity].
  - constructor; [right; discriminate|constructor].
  - refine (ending_trailing _ _ _ (Arg (bs "args") (trailing m0) (TyVec TString)) _ _ eq_refl _ _ _).
    + vm_compute. tauto.
    + reflexivity.
    + right. discriminate.
Qed.
