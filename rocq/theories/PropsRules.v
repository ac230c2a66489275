(** C19, C20, C21, C22 in terms of the declaration and of what was given. *)
From Verif Require Import Bytes Utf8 Error Values Places Heck Decl Spec Derive Generated Observe Kit Samples.
From Verif Require Import RulesFacts.
Local Open Scope string_scope.
Local Open Scope list_scope.

(** C19: what is declared [required], and what is neither a [bool], an [Option] nor
    a [Vec], is given, unless it has a default. *)
Theorem C19_declared {V : Type} (d : args_decl V) (argv0 : bytes) (toks : list bytes) (o : outval V)
    (os : list (occ V)) (stk : list (scope V)) (ad : addr) (a : sarg V) :
  valid d -> try_parse_from d (argv0 :: toks) = Ok o -> reads d toks os stk -> In (ad, a) (stack_args stk) ->
  am_required (sa_meta a) = true \/ (exists u, sa_ty a = TyOther u) ->
  am_default_value (sa_meta a) = None -> am_default_value_t (sa_meta a) = None ->
  exists v, In (Occ ad a v) os.
Proof. exact (required_declared d argv0 toks o os stk ad a). Qed.
Print Assumptions C19_declared.

(** C20: of two fields of a struct that are in conflict, one is not given. *)
Theorem C20_declared {V : Type} (d : args_decl V) (argv0 : bytes) (toks : list bytes) (o : outval V)
    (os : list (occ V)) (stk : list (scope V)) (x y : occ V) (l : nat) (p : list ident) (i id : ident) :
  valid d -> try_parse_from d (argv0 :: toks) = Ok o -> reads d toks os stk -> In x os -> In y os ->
  oc_addr x = Addr l (p ++ [i]) -> In id (am_conflicts_with (sa_meta (oc_arg x))) -> oc_addr y <> Addr l (p ++ [id]).
Proof. exact (conflicts_declared d argv0 toks o os stk x y l p i id). Qed.
Print Assumptions C20_declared.

(** C21: the fields that a given one requires are given. *)
Theorem C21_declared {V : Type} (d : args_decl V) (argv0 : bytes) (toks : list bytes) (o : outval V)
    (os : list (occ V)) (stk : list (scope V)) (x : occ V) (l : nat) (p : list ident) (i id : ident) :
  valid d -> try_parse_from d (argv0 :: toks) = Ok o -> reads d toks os stk -> In x os ->
  oc_addr x = Addr l (p ++ [i]) -> In id (am_requires (sa_meta (oc_arg x))) ->
  exists y, In y os /\ oc_addr y = Addr l (p ++ [id]).
Proof. exact (requires_declared d argv0 toks o os stk x l p i id). Qed.
Print Assumptions C21_declared.

(** C22: with an exclusive field no other field of its struct is given, and, if it is
    not in a flattened struct, no subcommand. *)
Theorem C22_declared {V : Type} (d : args_decl V) (argv0 : bytes) (toks : list bytes) (o : outval V)
    (os : list (occ V)) (stk : list (scope V)) (x : occ V) (l : nat) (p : list ident) (i : ident) :
  valid d -> try_parse_from d (argv0 :: toks) = Ok o -> reads d toks os stk -> In x os ->
  oc_addr x = Addr l (p ++ [i]) -> am_exclusive (sa_meta (oc_arg x)) = true ->
  (forall y j, In y os -> oc_addr y = Addr l (p ++ [j]) -> j = i) /\ (p = [] -> length stk = S l).
Proof. exact (exclusive_declared d argv0 toks o os stk x l p i). Qed.
Print Assumptions C22_declared.

Example C22_declared_example :
  valid copy /\ valid app_ /\
  succeeds app_ (argv ["prog"; "run"; "-v"; "t"]) (fun _ => True) /\
  reads_such app_ (argv ["run"; "-v"; "t"]) (fun os stk =>
    has_arg stk (Addr 1 [bs "target"]) (fun a => match sa_ty a with TyOther _ => True | _ => False end /\
      am_default_value (sa_meta a) = None /\ am_default_value_t (sa_meta a) = None)) /\
  succeeds copy (argv ["cp"; "src"; "--to"; "x"; "-f"]) (fun _ => True) /\
  reads_such copy (argv ["src"; "--to"; "x"; "-f"]) (fun os stk =>
    map oc_addr os = [Addr 0 [bs "source"]; Addr 0 [bs "to"]; Addr 0 [bs "force"]] /\
    map (fun x => am_requires (sa_meta (oc_arg x))) os = [[]; [bs "force"]; []] /\
    map (fun x => am_conflicts_with (sa_meta (oc_arg x))) os = [[]; []; [bs "keep"]]) /\
  let shelf := struct [arg "list" (long (exclusive m0)) TBool; arg "keep" (long m0) TBool] in
  valid shelf /\
  succeeds shelf (argv ["cp"; "--list"]) (fun _ => True) /\
  reads_such shelf (argv ["--list"]) (fun os stk =>
    map (fun x => am_exclusive (sa_meta (oc_arg x))) os = [true] /\ map oc_addr os = [Addr 0 [bs "list"]]).
Proof.
  split; [exact copy_valid|]. split; [exact app_valid|]. split; [show|]. split; [show|]. split; [show|]. split; [show|].
  split; [split; vm_compute; reflexivity|]. show.
Qed.
