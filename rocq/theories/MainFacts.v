(** Facts about [Parser::parse]. *)
From Verif Require Import Bytes Utf8 Attrs Refl Error Values Places Help Runtime Heck Decl Spec Derive
  Generated Observe Grammar Blame Page Main.
From Verif Require Import SafeFacts ResultFacts OptionFacts BlameFacts PageFacts DisplayFacts.

Section Main.
Context (esc : escapes) {V : Type}.
Local Notation parse := (parse esc).

Theorem parse_continues (d : args_decl V) (argv0 : bytes) (toks : list bytes) : valid d -> defaults_readable d = true ->
  (exists o, parse d (argv0 :: toks) = Continues o) <->
  exists os stk, reads d toks os stk /\ no_error_in os /\ satisfied os stk.
Proof.
  intros Hd Hr. rewrite <- (success_iff d argv0 toks Hd Hr). unfold Main.parse.
  destruct (try_parse_from d (argv0 :: toks)) as [o|e|p].
  - split; intros _; eauto.
  - split; intros [o H]; discriminate.
  - split; intros [o H]; discriminate.
Qed.
Theorem parse_exits (d : args_decl V) (argv0 : bytes) (toks : list bytes) : valid d -> defaults_readable d = true ->
  ~ (exists os stk, reads d toks os stk /\ no_error_in os /\ satisfied os stk) ->
  exists e, blame argv0 d toks e /\ parse d (argv0 :: toks) = Exits 1 (error_display esc e ++ [c_nl]).
Proof.
  intros Hd Hr Hn. rewrite <- (success_iff d argv0 toks Hd Hr) in Hn. unfold Main.parse.
  assert (Hp := no_panic d (argv0 :: toks)).
  destruct (try_parse_from d (argv0 :: toks)) as [o|e|p] eqn:E.
  - exfalso. apply Hn. eauto.
  - exists e. split; [|reflexivity]. now apply error_blame.
  - exfalso. apply (Hp p (proj1 Hd) Hr eq_refl).
Qed.
Theorem parse_help (d : args_decl V) (argv0 : bytes) pre os stk rem tok post :
  valid d -> at_option d pre os stk rem -> no_error_in os ->
  (tok = bs "--help" \/ exists v, tok = bs "--help=" ++ v) -> unknown stk (Long (bs "help")) ->
  exists t, page argv0 stk t /\ parse d (argv0 :: pre ++ tok :: post) = Exits 1 (t ++ [c_nl]).
Proof.
  intros Hd Ha Hn Ht Hu. exists (help_text argv0 stk). split.
  - destruct (at_option_cons _ _ _ _ _ Hd Ha) as (s & outer & ->). apply page_iff. reflexivity.
  - unfold Main.parse. rewrite (help_long d argv0 pre os stk rem tok post Hd Ha Hn Ht Hu). reflexivity.
Qed.
Theorem parse_help_short (d : args_decl V) (argv0 : bytes) pre os stk rem cs t post :
  valid d -> at_option d pre os stk rem -> Forall (plain_flag stk) cs -> unknown stk (Short (b2n "h")) ->
  exists os', read first_named (start d) (pre ++ map (fun c => spell (Short c)) cs) = (os ++ os', Go (Normal stk rem)) /\
  (no_error_in (os ++ os') ->
   exists u, page argv0 stk u /\
     parse d (argv0 :: pre ++ (bs "-" ++ encode_all cs ++ bs "h" ++ t) :: post) = Exits 1 (u ++ [c_nl])).
Proof.
  intros Hd Ha Hc Hu. destruct (help_in_bundle d argv0 pre os stk rem cs t post Hd Ha Hc Hu) as (os' & Hr & Hh).
  exists os'. split; [exact Hr|]. intros Hn. exists (help_text argv0 stk). split.
  - destruct (at_option_cons _ _ _ _ _ Hd Ha) as (s & outer & ->). apply page_iff. reflexivity.
  - unfold Main.parse. rewrite (Hh Hn). reflexivity.
Qed.
End Main.
