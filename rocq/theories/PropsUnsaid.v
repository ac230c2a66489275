(** C71: saying what goes without saying. *)
From Verif Require Import Bytes Utf8 Error Values Places Heck Decl Spec Derive Generated Observe Unsaid Kit Samples.
From Verif Require Import UnsaidFacts.
Local Open Scope string_scope.
Local Open Scope list_scope.

(** C71: an option that was left out is given the value its field has anyway.  The
    result is the same, or one of the rules on which arguments go together is
    broken. *)
Theorem C71_said {V : Type} (d : args_decl V) (argv0 : bytes) (pre : list bytes) (os : list (occ V))
    (stk : list (scope V)) (rem : list (sarg V)) (toks : list bytes) (ad : addr) (a : sarg V) (v : option bytes)
    (post : list bytes) (o : outval V) (fv : fval V) (os' : list (occ V)) (stk' : list (scope V)) :
  valid d -> at_option d pre os stk rem -> writes stk toks ad a v ->
  try_parse_from d (argv0 :: pre ++ post) = Ok o -> field_at ad o = Some fv -> denotes a [option_map (text_of a) v] fv ->
  reads d (pre ++ post) os' stk' -> given os' ad = false ->
  match try_parse_from d (argv0 :: pre ++ toks ++ post) with
  | Ok o' => o' = o
  | Err e => about_company e
  | Panic _ => False
  end.
Proof.
  intros Hd Hat Hw Hp Hf Hv Hr Hg. exact (said d argv0 pre os stk rem toks ad a v post o fv Hd Hat Hw Hp Hf Hv os' stk' Hr Hg).
Qed.
Print Assumptions C71_said.

(** If no such rule concerns it the result is the same. *)
Theorem C71_freely {V : Type} (d : args_decl V) (argv0 : bytes) (pre : list bytes) (os : list (occ V))
    (stk : list (scope V)) (rem : list (sarg V)) (toks : list bytes) (ad : addr) (a : sarg V) (v : option bytes)
    (post : list bytes) (o : outval V) (fv : fval V) (os' : list (occ V)) (stk' : list (scope V)) :
  valid d -> defaults_readable d = true -> at_option d pre os stk rem -> writes stk toks ad a v ->
  try_parse_from d (argv0 :: pre ++ post) = Ok o -> field_at ad o = Some fv -> denotes a [option_map (text_of a) v] fv ->
  reads d (pre ++ post) os' stk' -> given os' ad = false -> goes_with_all stk' ad a ->
  try_parse_from d (argv0 :: pre ++ toks ++ post) = Ok o.
Proof.
  intros Hd Hdr Hat Hw Hp Hf Hv Hr Hg Hc.
  exact (said_freely d argv0 pre os stk rem toks ad a v post o fv Hd Hat Hw Hp Hf Hv os' stk' Hdr Hr Hg Hc).
Qed.
Print Assumptions C71_freely.

(** In particular the text of [default_value] can be spelled out. *)
Theorem C71_default {V : Type} (d : args_decl V) (argv0 : bytes) (pre : list bytes) (os : list (occ V))
    (stk : list (scope V)) (rem : list (sarg V)) (toks : list bytes) (ad : addr) (a : sarg V) (s : bytes)
    (post : list bytes) (o : outval V) (os' : list (occ V)) (stk' : list (scope V)) :
  valid d -> at_option d pre os stk rem -> writes stk toks ad a (Some s) ->
  try_parse_from d (argv0 :: pre ++ post) = Ok o -> reads d (pre ++ post) os' stk' -> given os' ad = false ->
  am_default_value (sa_meta a) = Some s -> text_of a s = s ->
  match try_parse_from d (argv0 :: pre ++ toks ++ post) with
  | Ok o' => o' = o
  | Err e => about_company e
  | Panic _ => False
  end.
Proof. exact (default_said d argv0 pre os stk rem toks ad a s post o os' stk'). Qed.
Print Assumptions C71_default.

Example C71_example :
  valid paint /\ defaults_readable paint = true /\
  (* In front of the subcommand, within it, and with two values. *)
  succeeds paint (argv ["paint"; "--plain"; "wall"; "left"]) (fun o =>
    try_parse_from paint (argv ["paint"; "--width=80"; "--plain"; "wall"; "left"]) = Ok o /\
    try_parse_from paint (argv ["paint"; "--plain"; "wall"; "left"; "-w80"]) = Ok o /\
    try_parse_from paint (argv ["paint"; "--plain"; "--layers"; "a,b"; "wall"; "left"]) = Ok o) /\
  arrives paint (argv ["--plain"; "wall"; "left"]) (fun os stk rem =>
    denotes_arg stk (Short (b2n "w")) (fun ad a => takes_value a = true /\ needs_equals a = false /\
      am_default_value (sa_meta a) = Some (bs "80") /\ text_of a (bs "80") = bs "80" /\ given os ad = false)) /\
  (* A rule is broken. *)
  match try_parse_from paint (argv ["paint"; "--color=auto"; "--plain"; "wall"; "left"]) with
  | Err e => e_kind e = ConstraintConflict
  | _ => False
  end.
Proof. split; [exact paint_valid|]. split; [vm_compute; reflexivity|]. split; [show|]. split; show. Qed.

Example C71_freely_example :
  reads_such paint (argv ["--plain"; "wall"; "left"]) (fun os stk =>
    given os (Addr 0 [bs "layers"]) = false /\
    has_arg stk (Addr 0 [bs "layers"]) (fun a =>
      denotes a [Some (bs "a,b")] (FvVec [TStr (bs "a"); TStr (bs "b")]))) /\
  goes_with_all [Scope paint [] false] (Addr 0 [bs "width"]) (Arg (bs "width") (global (short (long (default_value "80" m0)))) TI).
Proof.
  split.
  - vm_compute. split; [reflexivity|]. refine (denotes_many _ [bs "a,b"] _ _ _); reflexivity.
  - split; [reflexivity|]. split; [reflexivity|]. split; [reflexivity|]. intros ad' b H _. vm_compute in H.
    repeat (destruct H as [H|H]; [injection H as <- <-; split; [reflexivity|vm_compute; intuition discriminate]|]). contradiction.
Qed.
