(** C18: which argument a name stands for. *)
From Verif Require Import Bytes Utf8 Error Values Places Heck Decl Spec Derive Generated Observe Outcome Select Kit Samples.
From Verif Require Import SelectFacts ShowFacts.
Local Open Scope string_scope.
Local Open Scope list_scope.

(** C18: a name stands for the argument that comes first among those in scope
    with that name: the one of the innermost command, there the field of the
    struct itself before those of flattened structs, there the earlier one. *)
Theorem C18_chosen {V : Type} (d : args_decl V) (pre : list bytes) (os : list (occ V)) (stk : list (scope V))
    (rem : list (sarg V)) (n : name) (ad : addr) (a : sarg V) :
  valid d -> at_option d pre os stk rem -> (resolve stk n = Some (ad, a) <-> chosen stk n ad a).
Proof. exact (resolve_chosen d pre os stk rem n ad a). Qed.
Print Assumptions C18_chosen.

(** It receives the value, and it alone does. *)
Theorem C18_receives {V : Type} (d : args_decl V) (pre : list bytes) (os : list (occ V)) (stk : list (scope V))
    (rem : list (sarg V)) (n : name) (ad : addr) (a : sarg V) (v : bytes) (toks : list bytes) :
  valid d -> at_option d pre os stk rem -> chosen stk n ad a -> takes_value a = true ->
  gives_value a n v toks ->
  at_option d (pre ++ toks) (os ++ [Occ ad a (Some v)]) stk rem /\ shows d (pre ++ toks) (os ++ [Occ ad a (Some v)]) stk.
Proof. intros Hd H Hc Ht Hg. exact (at_both _ _ _ _ _ Hd (chosen_receives d pre os stk rem n ad a v toks Hd H Hc Ht Hg)). Qed.
Print Assumptions C18_receives.

(** "Comes first" is never a matter of opinion. *)
Theorem C18_order {V : Type} (d : args_decl V) (pre : list bytes) (os : list (occ V)) (stk : list (scope V))
    (rem : list (sarg V)) (x y : addr) :
  valid d -> at_option d pre os stk rem -> comes_first stk x y -> ~ comes_first stk y x.
Proof. exact (comes_first_one_way d pre os stk rem x y). Qed.
Print Assumptions C18_order.

(** [layers] declares [--name] in five places: the command line finds them from
    the inside out. *)
Example C18_example :
  valid layers /\
  succeeds layers (argv ["prog"; "--name=1"; "go"; "--name=2"; "--other=3"; "--outer=4"]) (fun o =>
    field_at (Addr 0 [bs "name"]) o = Some (FvOption (Some (TStr (bs "1")))) /\
    field_at (Addr 0 [bs "first"; bs "name"]) o = Some (FvOption None) /\
    field_at (Addr 1 [bs "first"; bs "name"]) o = Some (FvOption (Some (TStr (bs "2")))) /\
    field_at (Addr 1 [bs "second"; bs "name"]) o = Some (FvOption None) /\
    field_at (Addr 1 [bs "first"; bs "deep"; bs "other"]) o = Some (FvOption (Some (TStr (bs "3")))) /\
    field_at (Addr 1 [bs "second"; bs "other"]) o = Some (FvOption None) /\
    field_at (Addr 0 [bs "outer"]) o = Some (FvOption (Some (TStr (bs "4"))))).
Proof. split; [exact layers_valid|]. show. Qed.

Example C18_order_example :
  arrives layers (argv ["go"]) (fun _ stk _ =>
    denotes_arg stk (Long (bs "name")) (fun ad _ => ad = Addr 1 [bs "first"; bs "name"]) /\
    denotes_arg stk (Long (bs "other")) (fun ad _ => ad = Addr 1 [bs "first"; bs "deep"; bs "other"])) /\
  prefers layers_go [bs "first"; bs "name"] [bs "first"; bs "deep"; bs "name"] /\
  prefers layers_go [bs "first"; bs "deep"; bs "other"] [bs "second"; bs "other"].
Proof.
  split; [show|]. split.
  - eapply prefers_inside; [left; reflexivity|apply prefers_own].
  - eapply (prefers_earlier _ [] [] []). reflexivity.
Qed.
