(** Panics: the only one is that of an unreadable default. *)
From Verif Require Import Bytes BytesFacts Utf8 Utf8Facts Attrs AttrFacts Refl Error Values SortFacts
  Places Help Runtime Heck Decl Spec Derive Generated Observe CompileFacts InfoFacts TableFacts PlaceFacts
  ScopeFacts NamedFacts WordFacts FinishFacts ReadFacts SimFacts HelpFacts Refine ContextFacts.

Section Safe.
Context {V : Type}.
Local Notation args_decl := (args_decl V).
Local Notation sarg := (sarg V).
Local Notation scope := (scope V).
Local Notation occ := (occ V).
Implicit Types (d : args_decl) (a p : sarg) (s : scope) (stk : list scope) (os : list occ).

Section Every.
Variable P : sarg -> bool.

Lemma every_own d a : every_arg P d = true -> In a (own_args d) -> P a = true.
Proof.
  intros H Ha. apply in_own_args in Ha. destruct d as [at_ fs]. cbn [every_arg fields_of] in *.
  rewrite forallb_forall in H. specialize (H _ Ha). cbn in H. destruct a; exact H.
Qed.
Lemma every_flat d id x : every_arg P d = true -> In (id, x) (flattened d) -> every_arg P x = true.
Proof.
  intros H Ha. apply in_flattened in Ha. destruct d as [at_ fs]. cbn [every_arg fields_of] in *.
  rewrite forallb_forall in H. exact (H _ Ha).
Qed.
Lemma every_variant d id o vs v : every_arg P d = true -> subcommand d = Some (id, o, vs) -> In v vs ->
  every_arg P (sc_decl (variant_scope v)) = true.
Proof.
  intros H Hs Hv. apply subcommand_in in Hs. destruct d as [at_ fs]. cbn [every_arg fields_of] in *.
  rewrite forallb_forall in H. specialize (H _ Hs). cbn in H. rewrite forallb_forall in H. specialize (H v Hv).
  destruct v as [w [at'|at' x|x]]; [reflexivity|exact H|exact H].
Qed.

Definition stack_every stk : Prop := Forall (fun s => every_arg P (sc_decl s) = true) stk.

Lemma read_every choose (choose_in : forall vs tok v, choose vs tok = Some v -> In v vs) toks : forall st os st',
  stack_every (state_stack st) -> read choose st toks = (os, Go st') -> stack_every (state_stack st').
Proof.
  induction toks as [|t toks IH]; intros st os st' Hok H; cbn [read] in H.
  - injection H as _ <-. exact Hok.
  - destruct (step choose st t) as [o1 out] eqn:E1. destruct out as [st1|]; [|discriminate].
    destruct (read choose st1 toks) as [o2 out2] eqn:E2. injection H as _ ->. eapply IH; [|exact E2].
    destruct (step_stack _ _ _ _ _ E1) as [->|(v & Hv & ->)]; [exact Hok|]. constructor; [|exact Hok].
    apply choose_in in Hv. destruct (state_stack st) as [|s stk]; [contradiction|]. cbn [sub_variants] in Hv.
    inversion Hok as [|? ? Hs _]; subst. destruct (subcommand (sc_decl s)) as [[[id o] vs]|] eqn:E; [|contradiction].
    eapply every_variant; eauto.
Qed.
End Every.

Lemma check_absent_panic os level path l q : check_absent os level path l = Panic q ->
  q = PDefault /\ exists a, In a l /\ default_readable a = false.
Proof.
  induction l as [|a l IH]; cbn [check_absent]; [discriminate|].
  destruct (is_given os level path (sa_id a)).
  - intros H. destruct (IH H) as (-> & b & Hb & E). split; [reflexivity|]. exists b. split; [right; exact Hb|exact E].
  - destruct (is_required a); [discriminate|]. destruct (default_readable a) eqn:E.
    + intros H. destruct (IH H) as (-> & b & Hb & E'). split; [reflexivity|]. exists b. split; [right; exact Hb|exact E'].
    + intros H. injection H as <-. split; [reflexivity|]. exists a. split; [left; reflexivity|exact E].
Qed.

Lemma finish_struct_panic os level path d flats sub q :
  finish_struct os level path d flats sub = Panic q -> q = PDefault /\ every_arg default_readable d = false.
Proof.
  unfold finish_struct. destruct (first_violation _ _ _ _ _ _); [discriminate|].
  destruct (check_absent os level path (checked d)) as [[]|e|q'] eqn:E; cbn [bind]; [|discriminate|].
  - destruct (subcommand d) as [[[id [|]] vs]|], sub; discriminate.
  - intros H. injection H as <-. destruct (check_absent_panic _ _ _ _ _ E) as (-> & a & Ha & Er). split; [reflexivity|].
    destruct (every_arg default_readable d) eqn:Ed; [|reflexivity].
    apply in_checked in Ha. rewrite (every_own default_readable _ _ Ed Ha) in Er. discriminate.
Qed.

Lemma finish_args_panic os level d : forall path sub q,
  finish_args os level path d sub = Panic q -> q = PDefault /\ every_arg default_readable d = false.
Proof.
  induction d as [d IHf _] using decl_induction. intros path sub q. rewrite finish_args_eq.
  assert (Hfl : forall l acc, (forall x, In x l -> In x (flattened d)) ->
            (forall q, acc = Panic q -> q = PDefault /\ every_arg default_readable d = false) ->
            forall q, finish_flats os level path l acc = Panic q -> q = PDefault /\ every_arg default_readable d = false).
  { induction l as [|[id x] l IHl]; intros acc Hl Hacc q' H; [apply Hacc; exact H|]. cbn in H. revert H. apply IHl.
    - intros y Hy. apply Hl. right. exact Hy.
    - intros r. destruct acc as [outs|e|r']; cbn [bind]; [|discriminate|apply Hacc].
      destruct (finish_args os level (path ++ [id]) x None) as [o|e|r'] eqn:E; cbn [bind]; [discriminate|discriminate|].
      intros H. injection H as <-. assert (Hx : In (id, x) (flattened d)) by (apply Hl; left; reflexivity).
      destruct (IHf id x (proj1 (in_flattened d id x) Hx) _ _ _ E) as [-> Ex]. split; [reflexivity|].
      destruct (every_arg default_readable d) eqn:Ed; [|reflexivity].
      rewrite (every_flat default_readable _ _ _ Ed Hx) in Ex. discriminate. }
  destruct (finish_flats os level path (flattened d) (Ok [])) as [outs|e|r] eqn:E; cbn [bind]; [|discriminate|].
  - apply finish_struct_panic.
  - intros H. injection H as <-. refine (Hfl (flattened d) (Ok []) _ _ _ E); [auto|]. intros ? C. discriminate C.
Qed.

Lemma finish_stack_panic os stk : forall sub q, stk <> [] -> finish_stack os stk sub = Panic q ->
  q = PDefault /\ ~ stack_every default_readable stk.
Proof.
  induction stk as [|s stk IH]; intros sub q Hne H; [congruence|]. cbn [finish_stack] in H.
  destruct (finish_args os (length stk) [] (sc_decl s) sub) as [o|e|r] eqn:E; cbn [bind] in H; [|discriminate|].
  - destruct stk as [|s' stk]; [discriminate|]. destruct (IH _ _ ltac:(discriminate) H) as [-> Hn].
    split; [reflexivity|]. intros C. apply Hn. inversion C; assumption.
  - injection H as <-. destruct (finish_args_panic _ _ _ _ _ _ E) as [-> Ex]. split; [reflexivity|].
    intros C. inversion C as [|? ? C1 _]; subst. rewrite C1 in Ex. discriminate.
Qed.

Theorem only_default_panics d argv q : accepted d -> try_parse_from d argv = Panic q ->
  q = PDefault /\ defaults_readable d = false.
Proof.
  intros Hd. rewrite (refines_code_choice d argv Hd). unfold spec_parse_with.
  destruct argv as [|argv0 toks]; [discriminate|].
  pose proof (read_every default_readable code_choice code_choice_in toks (start d)) as He.
  pose proof (read_ok code_choice code_choice_in toks (start d)) as Ho.
  destruct (read code_choice (start d) toks) as [os out]. destruct (first_bad [] os); [discriminate|].
  destruct out as [st|[e|stk]]; [|discriminate|discriminate].
  assert (H : finish_stack os (state_stack st) None = Panic q -> q = PDefault /\ defaults_readable d = false).
  { intros H. destruct (Ho _ _ (start_ok d Hd) eq_refl) as (_ & _ & inner & Ei).
    apply finish_stack_panic in H; [|rewrite Ei; destruct inner; discriminate]. destruct H as [-> Hn].
    split; [reflexivity|]. unfold defaults_readable. destruct (every_arg default_readable d) eqn:Ed; [|reflexivity].
    elim Hn. eapply He; [|reflexivity]. constructor; [exact Ed|constructor]. }
  destruct st; [exact H|discriminate|exact H|exact H].
Qed.

Theorem no_panic d argv q : accepted d -> defaults_readable d = true -> try_parse_from d argv <> Panic q.
Proof. intros Hd Hr H. destruct (only_default_panics d argv q Hd H) as [_ E]. congruence. Qed.

Theorem refines_some_choice :
  exists choose : list (ident * variant_decl V) -> bytes -> option (ident * variant_decl V),
    (forall vs tok v, choose vs tok = Some v -> In v vs /\ sub_name v = tok) /\
    (forall vs tok, choose vs tok = None -> forall v, In v vs -> sub_name v <> tok) /\
    forall d argv, accepted d -> try_parse_from d argv = spec_parse_with choose d argv.
Proof.
  exists code_choice. split; [exact code_choice_sound|]. split; [|exact refines_code_choice].
  intros vs tok H. apply code_choice_None. exact H.
Qed.

(** *** The program name *)

Definition help_parts (h t argv0 : bytes) : bytes := h ++ to_string_lossy (shown_name argv0) ++ t.

Lemma help_text_parts stk : exists h t, forall argv0, stk <> [] -> help_text argv0 stk = help_parts h t argv0.
Proof.
  destruct stk as [|s stk]; [exists [], []; congruence|]. unfold help_parts.
  set (rest := skipn (length ((match about (attrs_of (sc_decl s)) with [] => [] | t => t ++ [c_nl; c_nl] end)
      ++ bs "Usage:" ++ bs " " ++ to_string_lossy (shown_name []))) (help_text [] (s :: stk))).
  exists ((match about (attrs_of (sc_decl s)) with [] => [] | t => t ++ [c_nl; c_nl] end) ++ bs "Usage:" ++ bs " "), rest.
  intros argv0 _. unfold rest. clear rest. unfold help_text. cbv zeta. cbn [flat_map].
  generalize (command_names (s :: stk)). intros names.
  match goal with |- context [flat_map usage_of (filter is_option (filter shown (map snd (reach (sc_decl s))))) ++ ?z] =>
    generalize (flat_map usage_of (filter is_option (filter shown (map snd (reach (sc_decl s))))) ++ z) end.
  intros z. generalize (match about (attrs_of (sc_decl s)) with [] => [] | t => t ++ [c_nl; c_nl] end). intros x.
  generalize (to_string_lossy (shown_name argv0)), (to_string_lossy (shown_name [])). intros n0 n1.
  replace (x ++ bs "Usage:" ++ ((bs " " ++ n1) ++ flat_map (fun n => bs " " ++ n) names) ++ z)
    with ((x ++ bs "Usage:" ++ bs " " ++ n1) ++ (flat_map (fun n => bs " " ++ n) names ++ z))
    by (rewrite <- !app_assoc; reflexivity).
  rewrite skipn_app_length, <- !app_assoc. reflexivity.
Qed.

Theorem argv0_irrelevant d toks : accepted d ->
  (exists r, forall argv0, try_parse_from d (argv0 :: toks) = r) \/
  (exists h t, forall argv0, try_parse_from d (argv0 :: toks)
     = Err (mkError Help None None None [] (Some (h ++ to_string_lossy (shown_name argv0) ++ t)))).
Proof.
  intros Hd.
  assert (H : forall r, (forall argv0, spec_parse_with code_choice d (argv0 :: toks) = r) ->
            exists r, forall argv0, try_parse_from d (argv0 :: toks) = r).
  { intros r H. exists r. intros argv0. rewrite refines_code_choice by exact Hd. apply H. }
  assert (H' : forall stk, (forall argv0, spec_parse_with code_choice d (argv0 :: toks)
                        = Err (mkError Help None None None [] (Some (help_text argv0 stk)))) -> stk <> [] ->
     exists h t, forall argv0, try_parse_from d (argv0 :: toks)
     = Err (mkError Help None None None [] (Some (h ++ to_string_lossy (shown_name argv0) ++ t)))).
  { intros stk H1 Hne. destruct (help_text_parts stk) as (h & t & Hp). exists h, t. intros argv0.
    rewrite refines_code_choice by exact Hd. rewrite H1, Hp by exact Hne. reflexivity. }
  pose proof (read_help code_choice code_choice_in toks (start d)) as Hh.
  unfold spec_parse_with in *. destruct (read code_choice (start d) toks) as [os out].
  destruct (first_bad [] os); [left; eapply H; reflexivity|].
  destruct out as [[stk rem|stk rem ad a|stk rem|stk q]|[e|stk]]; try (left; eapply H; reflexivity).
  right. apply (H' stk); [reflexivity|]. destruct (Hh _ _ (start_ok d Hd) eq_refl) as [_ [inner E]]. rewrite E.
  destruct inner; discriminate.
Qed.
End Safe.
