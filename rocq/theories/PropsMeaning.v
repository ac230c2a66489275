(** C75: what counts is which arguments are given and what their values mean. *)
From Verif Require Import Bytes Utf8 Error Values Places Heck Decl Spec Derive Generated Observe Meaning Kit Samples.
From Verif Require Import MeaningFacts.
Local Open Scope string_scope.
Local Open Scope list_scope.

(** C75: two command lines that enter the same subcommands and give the same
    arguments, with the same values, have the same result, errors included. *)
Theorem C75_meaning {V : Type} (d : args_decl V) (argv0 argv0' : bytes) (toks toks' : list bytes)
    (os os' : list (occ V)) (stk stk' : list (scope V)) :
  valid d -> reads d toks os stk -> reads d toks' os' stk' -> map sc_ident stk = map sc_ident stk' -> agree os os' stk ->
  try_parse_from d (argv0 :: toks) = try_parse_from d (argv0' :: toks').
Proof. exact (same_meaning d argv0 argv0' toks toks' os os' stk stk'). Qed.
Print Assumptions C75_meaning.

(** A command line that can be read is an error by itself only if an argument has
    no value. *)
Theorem C75_no_error {V : Type} (d : args_decl V) (toks : list bytes) (os : list (occ V)) (stk : list (scope V)) :
  valid d -> reads d toks os stk -> (no_error_in os <-> meaningful os stk).
Proof. exact (no_error_iff d toks os stk). Qed.
Print Assumptions C75_no_error.

Theorem C75_success {V : Type} (d : args_decl V) (argv0 : bytes) (toks : list bytes) :
  valid d -> defaults_readable d = true ->
  (exists o, try_parse_from d (argv0 :: toks) = Ok o) <->
  exists os stk, reads d toks os stk /\ meaningful os stk /\ satisfied os stk.
Proof. exact (success_meaning d argv0 toks). Qed.
Print Assumptions C75_success.

Example C75_example :
  let one := argv ["--layers=a"; "--width"; "9"; "--plain"; "--layers"; "b"; "wall"; "left"] in
  let two := argv ["--plain"; "--layers"; "a,b"; "wall"; "left"; "-w09"] in
  valid paint /\ defaults_readable paint = true /\
  reads_such paint one (fun os stk => reads_such paint two (fun os' stk' =>
    map sc_ident stk = map sc_ident stk' /\ map sc_ident stk = [bs "Wall"; []] /\ agree os os' stk)) /\
  succeeds paint (bs "paint" :: one) (fun o => field_at (Addr 0 [bs "width"]) o = Some (FvVal (TInt 9)) /\
    try_parse_from paint (bs "brush" :: two) = Ok o).
Proof.
  intros one two. split; [exact paint_valid|]. split; [vm_compute; reflexivity|]. split; [|vm_compute; auto].
  apply reads_such_iff. exists (fst (read first_named (start paint) one)), (state_stack (match snd (read first_named (start paint) one) with Go st => st | _ => start paint end)).
  split; [exists (match snd (read first_named (start paint) one) with Go st => st | _ => start paint end); repeat split; vm_compute; auto|].
  apply reads_such_iff. exists (fst (read first_named (start paint) two)), (state_stack (match snd (read first_named (start paint) two) with Go st => st | _ => start paint end)).
  split; [exists (match snd (read first_named (start paint) two) with Go st => st | _ => start paint end); repeat split; vm_compute; auto|].
  split; [vm_compute; reflexivity|]. split; [vm_compute; reflexivity|].
  intros ad a Hin.
  assert (Hin' : In (ad, a)
    [(Addr 1 [bs "side"], Arg (bs "side") m0 (TyOption TString));
     (Addr 0 [bs "color"], Arg (bs "color") (long (default_value "auto" (conflicts ["plain"] m0))) TString);
     (Addr 0 [bs "plain"], Arg (bs "plain") (long m0) TBool);
     (Addr 0 [bs "width"], Arg (bs "width") (global (short (long (default_value "80" m0)))) TI);
     (Addr 0 [bs "layers"], Arg (bs "layers") (long (delimiter "," (default_value "a,b" m0))) (TyVec TString))]).
  { match goal with H : In _ ?l |- In _ ?l' => replace l' with l by (vm_compute; reflexivity) end. exact Hin. }
  clear Hin. destruct Hin' as [E|[E|[E|[E|[E|[]]]]]]; injection E as <- <-.
  - right. split; [vm_compute; reflexivity|]. split; [vm_compute; reflexivity|].
    exists (FvOption (Some (TStr (bs "left")))). split; apply (denotes_opt _ (bs "left")); vm_compute; reflexivity.
  - left. split; vm_compute; reflexivity.
  - right. split; [vm_compute; reflexivity|]. split; [vm_compute; reflexivity|].
    exists (FvBool true). split; apply denotes_flag; vm_compute; reflexivity.
  - right. split; [vm_compute; reflexivity|]. split; [vm_compute; reflexivity|].
    exists (FvVal (TInt 9)). split; [apply (denotes_one _ (bs "9"))|apply (denotes_one _ (bs "09"))]; vm_compute; reflexivity.
  - right. split; [vm_compute; reflexivity|]. split; [vm_compute; reflexivity|].
    exists (FvVec [TStr (bs "a"); TStr (bs "b")]). split.
    + apply (denotes_many _ [bs "a"; bs "b"]); vm_compute; reflexivity.
    + apply (denotes_many _ [bs "a,b"]); vm_compute; reflexivity.
Qed.
