(** Two variants of the same name: one of them cannot be reached. *)
From Verif Require Import Bytes Utf8 Error Values Places Heck Decl Spec Derive Generated Observe EnumDerive Kit Samples.
From Verif Require Import TableFacts Refine PackFacts SimFacts.

(** An enum, for the examples. *)
Definition sample_enum : enum_decl := mkEnumDecl None
  [mkEnumVariant (bs "VeryFast") true None; mkEnumVariant (bs "Slow") true (Some (bs "s")); mkEnumVariant (bs "Auto") true None].

Definition top_scope : scope tv := Scope twins [] false.
Definition chosen_scope : scope tv := Scope (MkArgsDecl no_attrs []) (bs "Foo_Bar") true.

Lemma twins_choice tok v : code_choice (sub_variants [top_scope]) tok = Some v -> v = (bs "Foo_Bar", VDUnit no_attrs).
Proof.
  intros H. pose proof (code_choice_sound _ _ _ H) as [Hv Hn].
  assert (E : tok = bs "foo-bar").
  { rewrite <- Hn. destruct Hv as [<-|[<-|[]]]; vm_compute; reflexivity. }
  rewrite E in H. vm_compute in H. injection H as <-. reflexivity.
Qed.

Lemma twins_stack toks os st : read code_choice (start twins) toks = (os, Go st) ->
  state_stack st = [top_scope] \/ state_stack st = [chosen_scope; top_scope].
Proof.
  apply (read_stack_inv code_choice (fun stk => stk = [top_scope] \/ stk = [chosen_scope; top_scope])).
  - intros stk tok v [->| ->] H.
    + apply twins_choice in H. subst v. right. reflexivity.
    + apply code_choice_in in H. vm_compute in H. contradiction.
  - left. reflexivity.
Qed.

Theorem twins_unreachable argv o : try_parse_from twins argv = Ok o -> entered o = [bs "Foo_Bar"].
Proof.
  assert (Ha : accepted twins) by (vm_compute; reflexivity).
  rewrite (refines_code_choice twins argv Ha). unfold spec_parse_with. destruct argv as [|argv0 toks]; [discriminate|].
  destruct (read code_choice (start twins) toks) as [os out] eqn:E. destruct (first_bad [] os); [discriminate|].
  destruct out as [st|[]]; [|discriminate|discriminate]. apply twins_stack in E.
  assert (G : finish_stack os (state_stack st) None = Ok o -> entered o = [bs "Foo_Bar"]).
  { destruct E as [-> | ->]; cbn; intros H; [discriminate|injection H as <-; reflexivity]. }
  destruct st; [exact G|discriminate|exact G|exact G].
Qed.
