(** C82: several values at once, or one by one. *)
From Verif Require Import Bytes Utf8 Error Values Places Heck Decl Spec Derive Generated Observe Grammar Kit Samples.
From Verif Require Import GatherFacts.
Local Open Scope string_scope.
Local Open Scope list_scope.

(** C82: an option with a delimiter can be given twice, or once with both values
    and the delimiter between them, each in any spelling; the outcome is the same,
    errors included.  (Unless the delimiter is a capital letter and case is
    ignored.) *)
Theorem C82_option {V : Type} (d : args_decl V) (argv0 : bytes) (pre : list bytes) (os : list (occ V))
    (stk : list (scope V)) (rem : list (sarg V)) (t1 t2 t : list bytes) (ad : addr) (a : sarg V) (c : N) (v1 v2 : bytes)
    (post : list bytes) :
  valid d -> at_option d pre os stk rem -> am_value_delimiter (sa_meta a) = Some c ->
  (am_ignore_case (sa_meta a) = true -> (c < 65 \/ 90 < c)%N) ->
  writes stk t1 ad a (Some v1) -> writes stk t2 ad a (Some v2) -> writes stk t ad a (Some (v1 ++ utf8_encode c ++ v2)) ->
  try_parse_from d (argv0 :: pre ++ t1 ++ t2 ++ post) = try_parse_from d (argv0 :: pre ++ t ++ post).
Proof. exact (gather_option d argv0 pre os stk rem t1 t2 t ad a c v1 v2 post). Qed.
Print Assumptions C82_option.

(** The same for words. *)
Theorem C82_word {V : Type} (d : args_decl V) (argv0 : bytes) (pre : list bytes) (os : list (occ V))
    (stk : list (scope V)) (rem : list (sarg V)) (p : sarg V) (c : N) (w1 w2 : bytes) (post : list bytes) :
  valid d -> at_option d pre os stk rem -> next_word stk os = Some p -> am_value_delimiter (sa_meta p) = Some c ->
  word w1 -> no_subcommand stk w1 -> word w2 -> no_subcommand stk w2 ->
  word (w1 ++ utf8_encode c ++ w2) -> no_subcommand stk (w1 ++ utf8_encode c ++ w2) ->
  try_parse_from d (argv0 :: pre ++ w1 :: w2 :: post) = try_parse_from d (argv0 :: pre ++ (w1 ++ utf8_encode c ++ w2) :: post).
Proof. exact (gather_word d argv0 pre os stk rem p c w1 w2 post). Qed.
Print Assumptions C82_word.

(** With [ignore_case], a value is made lower case before it is cut: a delimiter that
    is a capital letter is never found. *)
Theorem C82_capital_delimiter_refuted : exists (d : args_decl tv) (a : sarg tv) (c : N) (v1 v2 : bytes) (t1 t2 t : list bytes),
  valid d /\ at_option d [] [] [Scope d [] false] (positionals d) /\ am_value_delimiter (sa_meta a) = Some c /\
  writes [Scope d [] false] t1 (Addr 0 [sa_id a]) a (Some v1) /\
  writes [Scope d [] false] t2 (Addr 0 [sa_id a]) a (Some v2) /\
  writes [Scope d [] false] t (Addr 0 [sa_id a]) a (Some (v1 ++ utf8_encode c ++ v2)) /\
  try_parse_from d (bs "prog" :: t1 ++ t2) <> try_parse_from d (bs "prog" :: t).
Proof.
  pose (m := ignore_case (delimiter "X" (long m0))).
  exists (struct [arg "shade" m (TyVec (TyOther shade_ty))]), (Arg (bs "shade") m (TyVec (TyOther shade_ty))), 88%N, (bs "dark"), (bs "light"),
    [bs "--shade=dark"], [bs "--shade=light"], [bs "--shade=darkXlight"].
  split; [split; vm_compute; reflexivity|]. split; [vm_compute; reflexivity|]. split; [reflexivity|].
  split; [apply (writes_value _ (Long (bs "shade"))); [vm_compute; reflexivity|reflexivity|apply (gives_eq _ (Long (bs "shade")))]|].
  split; [apply (writes_value _ (Long (bs "shade"))); [vm_compute; reflexivity|reflexivity|apply (gives_eq _ (Long (bs "shade")))]|].
  split; [apply (writes_value _ (Long (bs "shade"))); [vm_compute; reflexivity|reflexivity|apply (gives_eq _ (Long (bs "shade")))]|].
  vm_compute. discriminate.
Qed.
Print Assumptions C82_capital_delimiter_refuted.

(** [-n 1 --num=2] and [-n=1,2]; the words [3 4] and [3,4]; the same error. *)
Example C82_example :
  let sum := struct [arg "num" (short (delimiter "," (long m0))) (TyVec TI); arg "more" (delimiter "," m0) (TyVec TI)] in
  valid sum /\
  arrives sum (argv ["-n"; "0"]) (fun os stk rem =>
    denotes_arg stk (Short (b2n "n")) (fun ad a => ad = Addr 0 [bs "num"] /\ takes_value a = true /\
      am_value_delimiter (sa_meta a) = Some (b2n ",") /\ am_ignore_case (sa_meta a) = false) /\
    match next_word stk os with Some p => am_value_delimiter (sa_meta p) = Some (b2n ",") | None => False end /\
    sub_variants stk = []) /\
  word (bs "3") /\ word (bs "3,4") /\
  succeeds sum (argv ["sum"; "-n"; "0"; "-n"; "1"; "--num=2"; "3"; "4"]) (fun o =>
    try_parse_from sum (argv ["sum"; "-n"; "0"; "-n=1,2"; "3,4"]) = Ok o /\
    field_at (Addr 0 [bs "num"]) o = Some (FvVec (map TInt [0; 1; 2]%Z)) /\
    field_at (Addr 0 [bs "more"]) o = Some (FvVec (map TInt [3; 4]%Z))) /\
  match try_parse_from sum (argv ["sum"; "-n"; "1"; "-n"; "x"; "--help"]) with
  | Err e => e_input e = Some (bs "x") /\ try_parse_from sum (argv ["sum"; "-n1,x"; "--help"]) = Err e
  | _ => False
  end.
Proof.
  intros sum. split; [split; vm_compute; reflexivity|]. split; [show|].
  split; [right; intros b; discriminate|]. split; [right; intros b; discriminate|]. split; [show|]. show.
Qed.
