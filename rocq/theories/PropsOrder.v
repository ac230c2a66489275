(** C65: the order of a declaration. *)
From Coq Require Import Permutation.
From Verif Require Import Bytes Utf8 Error Values Places Heck Decl Spec Derive Generated Observe Order Kit Samples.
From Verif Require Import OrderFacts.
Local Open Scope string_scope.
Local Open Scope list_scope.

(** C65: options, the subcommand and its variants can be declared in any order,
    everywhere in the declaration. *)
Theorem C65_order {V : Type} (d d' : args_decl V) :
  valid d -> defaults_readable d = true -> reordered d d' ->
  valid d' /\ forall argv, same_but_order (try_parse_from d argv) (try_parse_from d' argv).
Proof. exact (reorder_result d d'). Qed.
Print Assumptions C65_order.

Example C65_example :
  valid (mail false) /\ defaults_readable (mail false) = true /\ reordered (mail false) (mail true) /\
  match try_parse_from (mail false) (argv ["mail"; "--to"; "x"; "hi"; "--from=y"; "--quiet"; "send"; "--loud"]),
        try_parse_from (mail true) (argv ["mail"; "--to"; "x"; "hi"; "--from=y"; "--quiet"; "send"; "--loud"]) with
  | Ok o, Ok o' => o <> o'
  | _, _ => False
  end /\
  match try_parse_from (mail false) (argv ["mail"]), try_parse_from (mail true) (argv ["mail"]) with
  | Err e, Err e' => e_arg_desc e = Some (bs "--from <FROM>") /\ e_arg_desc e' = Some (bs "--to <TO>")
  | _, _ => False
  end.
Proof.
  assert (F : reordered (mail_flags false) (mail_flags true)).
  { eapply reordered_struct; [repeat econstructor|apply perm_swap|vm_compute; reflexivity|vm_compute; reflexivity]. }
  split; [split; vm_compute; reflexivity|]. split; [vm_compute; reflexivity|]. split.
  { unfold mail. cbn zeta iota. eapply reordered_struct.
    - constructor; [constructor|]. constructor; [constructor|]. constructor; [constructor; exact F|]. constructor; [constructor|].
      constructor; [|constructor]. eapply field_sub; [|apply perm_swap]. constructor; [constructor; exact F|]. constructor; constructor.
    - match goal with |- Permutation [?a; ?b; ?c; ?e; ?f] _ => transitivity ([f; a; b; c; e]) end.
      + symmetry. match goal with |- Permutation (?f :: ?l) _ => apply (Permutation_cons_append l f) end.
      + apply perm_skip. match goal with |- Permutation [?a; ?b; ?c; ?e] _ => transitivity [b; c; e; a] end.
        * match goal with |- Permutation (?f :: ?l) _ => apply (Permutation_cons_append l f) end.
        * apply perm_skip. apply perm_swap.
    - reflexivity.
    - reflexivity. }
  split; [vm_compute; intros C; discriminate C|vm_compute; split; reflexivity].
Qed.

(** The order of positionals matters, and that of flattened structs if they
    declare the same name. *)
Example C65_positionals :
  valid (ends false) /\ valid (ends true) /\
  match try_parse_from (ends false) (argv ["ends"; "x"; "y"]), try_parse_from (ends true) (argv ["ends"; "x"; "y"]) with
  | Ok (Out l _ _), Ok (Out l' _ _) => In (fS "from" "x") l /\ In (fS "from" "y") l'
  | _, _ => False
  end.
Proof. split; [split; vm_compute; reflexivity|]. split; [split; vm_compute; reflexivity|]. vm_compute. tauto. Qed.
Example C65_flattened :
  valid (both false) /\ valid (both true) /\
  match try_parse_from (both false) (argv ["both"; "--name"; "x"]), try_parse_from (both true) (argv ["both"; "--name"; "x"]) with
  | Ok (Out _ l _), Ok (Out _ l' _) =>
      l = [(bs "a", Out [fO "name" (Some "x")] [] None); (bs "b", Out [fO "name" None] [] None)] /\
      l' = [(bs "b", Out [fO "name" (Some "x")] [] None); (bs "a", Out [fO "name" None] [] None)]
  | _, _ => False
  end.
Proof. split; [split; vm_compute; reflexivity|]. split; [split; vm_compute; reflexivity|]. vm_compute. split; reflexivity. Qed.
