(** C81: other values on a command line. *)
From Verif Require Import Bytes Utf8 Error Values Places Heck Decl Spec Derive Generated Observe Grammar Blame Kit Samples.
From Verif Require Import DropFacts.
Local Open Scope string_scope.
Local Open Scope list_scope.

(** C81: an option on a command line that is accepted gets another value (in any
    spelling).  Either the parts of the value can all be read and only this value of
    this field changes, or one of them cannot be read and the error says so. *)
Theorem C81_option {V : Type} (d : args_decl V) (argv0 : bytes) (pre : list bytes) (os : list (occ V))
    (stk : list (scope V)) (rem : list (sarg V)) (toks toks' : list bytes) (ad : addr) (a : sarg V) (v v' : bytes)
    (post : list bytes) (o : outval V) :
  valid d -> defaults_readable d = true ->
  at_option d pre os stk rem -> writes stk toks ad a (Some v) -> writes stk toks' ad a (Some v') ->
  try_parse_from d (argv0 :: pre ++ toks ++ post) = Ok o ->
  match try_parse_from d (argv0 :: pre ++ toks' ++ post) with
  | Ok o' => entered o' = entered o /\
      (exists os' stk', reads d (pre ++ toks' ++ post) os' stk' /\
       forall ad' b, In (ad', b) (stack_args stk') -> ad' <> ad -> field_at ad' o' = field_at ad' o) /\
      (exists before after fv fv', field_at ad o = Some fv /\ denotes a (before ++ Some (text_of a v) :: after) fv /\
       field_at ad o' = Some fv' /\ denotes a (before ++ Some (text_of a v') :: after) fv' /\
       (many a = false -> before = [] /\ after = [])) /\
      (forall p, In p (pieces a (text_of a v')) -> exists x, read_value (value_of_ty (sa_ty a)) p = inl x)
  | Err e => exists p x, In p (pieces a (text_of a v')) /\ read_value (value_of_ty (sa_ty a)) p = inr x /\
      e = mkError InvalidValue (Some (describe a)) (Some p) (e_source x) (e_context x) None
  | Panic _ => False
  end.
Proof. exact (option_changed d argv0 pre os stk rem toks toks' ad a v v' post o). Qed.
Print Assumptions C81_option.

(** The same for a word, the value of a positional. *)
Theorem C81_word {V : Type} (d : args_decl V) (argv0 : bytes) (pre : list bytes) (os : list (occ V))
    (stk : list (scope V)) (rem : list (sarg V)) (w w' : bytes) (p : sarg V) (post : list bytes) (o : outval V) :
  valid d -> defaults_readable d = true ->
  at_option d pre os stk rem -> word w -> no_subcommand stk w -> word w' -> no_subcommand stk w' ->
  next_word stk os = Some p -> greedy p = false ->
  try_parse_from d (argv0 :: pre ++ w :: post) = Ok o ->
  match try_parse_from d (argv0 :: pre ++ w' :: post) with
  | Ok o' => entered o' = entered o /\
      (exists os' stk', reads d (pre ++ w' :: post) os' stk' /\
       forall ad' b, In (ad', b) (stack_args stk') -> ad' <> Addr (length stk - 1) [sa_id p] -> field_at ad' o' = field_at ad' o) /\
      (exists before after fv fv', field_at (Addr (length stk - 1) [sa_id p]) o = Some fv /\
       denotes p (before ++ Some (text_of p w) :: after) fv /\
       field_at (Addr (length stk - 1) [sa_id p]) o' = Some fv' /\
       denotes p (before ++ Some (text_of p w') :: after) fv' /\
       (many p = false -> before = [] /\ after = [])) /\
      (forall q, In q (pieces p (text_of p w')) -> exists x, read_value (value_of_ty (sa_ty p)) q = inl x)
  | Err e => exists q x, In q (pieces p (text_of p w')) /\ read_value (value_of_ty (sa_ty p)) q = inr x /\
      e = mkError InvalidValue None (Some q) (e_source x) (e_context x) None
  | Panic _ => False
  end.
Proof. exact (word_changed d argv0 pre os stk rem w w' p post o). Qed.
Print Assumptions C81_word.

(** [-n 2] becomes [--num=3,4]: the second value of three occurrences changes; with
    [-n 3,x] the part [x] cannot be read.  The word [7] becomes [8], or [y]. *)
Example C81_example :
  let sum := struct [arg "num" (short (delimiter "," (long m0))) (TyVec TI); arg "all" (long m0) TBool; arg "count" m0 TI] in
  valid sum /\ defaults_readable sum = true /\
  arrives sum (argv ["-n"; "1"]) (fun os stk rem =>
    denotes_arg stk (Short 110) (fun ad a => ad = Addr 0 [bs "num"] /\ takes_value a = true /\ needs_equals a = false) /\
    denotes_arg stk (Long (bs "num")) (fun ad a => ad = Addr 0 [bs "num"])) /\
  arrives sum (argv ["--all"]) (fun os stk rem =>
    no_subcommand stk (bs "7") /\ no_subcommand stk (bs "8") /\ no_subcommand stk (bs "y") /\
    match next_word stk os with Some p => sa_id p = bs "count" /\ greedy p = false /\ many p = false | None => False end) /\
  word (bs "7") /\ word (bs "8") /\ word (bs "y") /\
  succeeds sum (argv ["sum"; "-n"; "1"; "-n"; "2"; "-n5"; "--all"; "7"]) (fun o =>
    field_at (Addr 0 [bs "num"]) o = Some (FvVec [TInt 1; TInt 2; TInt 5]) /\
    succeeds sum (argv ["sum"; "-n"; "1"; "--num=3,4"; "-n5"; "--all"; "7"]) (fun o' =>
      field_at (Addr 0 [bs "num"]) o' = Some (FvVec [TInt 1; TInt 3; TInt 4; TInt 5]) /\
      field_at (Addr 0 [bs "all"]) o' = field_at (Addr 0 [bs "all"]) o /\
      field_at (Addr 0 [bs "count"]) o' = field_at (Addr 0 [bs "count"]) o)) /\
  match try_parse_from sum (argv ["sum"; "-n"; "1"; "-n"; "3,x"; "-n5"; "--all"; "7"]) with
  | Err e => e_kind e = InvalidValue /\ e_input e = Some (bs "x") /\ e_arg_desc e <> None
  | _ => False
  end /\
  succeeds sum (argv ["sum"; "--all"; "7"]) (fun o => field_at (Addr 0 [bs "count"]) o = Some (FvVal (TInt 7))) /\
  succeeds sum (argv ["sum"; "--all"; "8"]) (fun o => field_at (Addr 0 [bs "count"]) o = Some (FvVal (TInt 8))) /\
  match try_parse_from sum (argv ["sum"; "--all"; "y"]) with
  | Err e => e_kind e = InvalidValue /\ e_input e = Some (bs "y") /\ e_arg_desc e = None
  | _ => False
  end.
Proof.
  intros sum. split; [split; vm_compute; reflexivity|]. split; [vm_compute; reflexivity|].
  split; [vm_compute; repeat split|]. split; [vm_compute; repeat split; intros []|].
  do 3 (split; [right; intros b; discriminate|]). split; [vm_compute; repeat split|].
  split; [vm_compute; repeat split; discriminate|]. vm_compute; repeat split.
Qed.
