(** The generated parser computes what the specification says. *)
From Verif Require Import Bytes BytesFacts Utf8 Utf8Facts Attrs AttrFacts Refl Error Values SortFacts
  Places Help Runtime Heck Decl Spec Derive Generated Observe CompileFacts InfoFacts TableFacts PlaceFacts UnwindFacts
  ScopeFacts NamedFacts WordFacts FinishFacts ReadFacts SimFacts HelpFacts.

Section Refine.
Context {V : Type}.
Local Notation args_decl := (args_decl V).
Local Notation sarg := (sarg V).
Local Notation scope := (scope V).
Local Notation occ := (occ V).
Implicit Types (d : args_decl) (a p : sarg) (s : scope) (stk : list scope) (os : list occ).

(** *** Where help is asked for *)

Section Stops.
Variable choose : list (ident * variant_decl V) -> bytes -> option (ident * variant_decl V).
Hypothesis choose_in : forall vs tok v, choose vs tok = Some v -> In v vs.

Definition help_at stk (out : outcome V) : Prop := forall stk', out = Stop (SHelp stk') -> stk' = stk.
Lemma help_at_go stk st : help_at stk (Go st).
Proof. intros stk' E. discriminate. Qed.
Lemma help_at_err stk e : help_at stk (Stop (SErr e)).
Proof. intros stk' E. discriminate. Qed.
Hint Resolve help_at_go help_at_err : core.

Lemma bare_help stk rem ad a : help_at stk (snd (bare stk rem ad a)).
Proof. unfold bare. destruct (takes_value a), (needs_equals a); cbn; auto. Qed.
Lemma unknown_long_help stk (n : bytes) : help_at stk (Stop (unknown_long stk n)).
Proof. unfold unknown_long. destruct (beqb n (bs "help")); auto. intros stk' E. congruence. Qed.
Lemma unknown_short_help stk c : help_at stk (Stop (unknown_short stk c)).
Proof. unfold unknown_short. destruct (c =? b2n "h")%N; auto. intros stk' E. congruence. Qed.
Hint Resolve bare_help unknown_long_help unknown_short_help : core.

Lemma read_long_help stk rem n v : help_at stk (snd (read_long stk rem n v)).
Proof. unfold read_long. destruct (resolve stk (Long n)) as [[ad a]|]; [|cbn; auto]. destruct v; cbn; auto. Qed.
Lemma read_bundle_help stk rem cs junk : help_at stk (snd (read_bundle stk rem cs junk)).
Proof.
  induction cs as [|c cs IH]; [cbn; destruct junk; cbn; auto|]. rewrite read_bundle_cons.
  destruct (resolve stk (Short c)) as [[ad a]|]; [|cbn; auto].
  destruct (read_bundle stk rem cs junk) as [os out]. cbn [snd] in IH.
  destruct (strip_prefix [c_eq] (encode_all cs ++ junk)); [destruct (takes_value a); cbn; auto|].
  destruct (encode_all cs ++ junk) as [|b t]; [auto|]. destruct (takes_value a), (needs_equals a); cbn; auto.
Qed.
Lemma take_word_help sep stk rem tok : help_at stk (snd (take_word sep stk rem tok)).
Proof. unfold take_word. destruct rem as [|p rem]; [cbn; auto|]. destruct (sep || negb (is_last p)); cbn; auto. Qed.

Lemma step_help st tok : help_at (state_stack st) (snd (step choose st tok)).
Proof.
  destruct st as [stk rem|stk rem ad a|stk rem|stk p]; cbn [step state_stack].
  - destruct (form_of tok) as [|n v|b|]; [cbn; auto|apply read_long_help| |].
    + destruct (utf8_prefix b). apply read_bundle_help.
    + destruct (choose (sub_variants stk) tok); [cbn; auto|apply take_word_help].
  - destruct (may_follow a tok); cbn; auto.
  - apply take_word_help.
  - cbn. auto.
Qed.

Lemma read_help toks : forall st os stk, state_ok st -> read choose st toks = (os, Stop (SHelp stk)) ->
  stack_ok stk /\ exists inner, stk = inner ++ state_stack st.
Proof.
  induction toks as [|tok toks IH]; intros st os stk Hok H; [discriminate|]. cbn [read] in H.
  pose proof (step_ok choose choose_in st tok Hok) as [_ Hs]. pose proof (step_help st tok) as Hh.
  destruct (step choose st tok) as [o1 out]. cbn [snd] in *. destruct out as [st1|sp].
  - destruct (read choose st1 toks) as [o2 out2] eqn:E2. injection H as <- ->.
    destruct Hs as [Hok1 [inner1 E1]]. destruct (IH _ _ _ Hok1 E2) as [H1 [inner H2]].
    split; [exact H1|]. exists (inner ++ inner1). rewrite H2, E1, app_assoc. reflexivity.
  - injection H as <- ->. rewrite (Hh stk eq_refl). split; [apply Hok|]. exists []. reflexivity.
Qed.
End Stops.

(** *** The top level *)

Lemma finish_stack_above os inner t sub :
  finish_stack os (inner ++ [t]) sub =
  let* sub' := finish_above 1 os (inner ++ [t]) sub in finish_args os 0 [] (sc_decl t) sub'.
Proof.
  revert sub. induction inner as [|s inner IH]; intros sub.
  - cbn. destruct (finish_args os 0 [] (sc_decl t) sub); reflexivity.
  - cbn [app]. cbn [finish_stack finish_above].
    assert (E1 : (length (s :: inner ++ [t]) <=? 1) = false)
      by (apply Nat.leb_gt; simpl; rewrite app_length; simpl; lia).
    rewrite E1. destruct (finish_args os (length (inner ++ [t])) [] (sc_decl s) sub); cbn [bind]; [|reflexivity|reflexivity].
    rewrite <- IH. destruct (inner ++ [t]) eqn:E; [|reflexivity]. destruct inner; discriminate.
Qed.

Lemma top_chain d prog : accepted d ->
  frames (impl d) ++ [CF prog] = chain_of ([] : list occ) prog [Scope d [] false] [0%N].
Proof.
  intros Hd. unfold chain_of. cbn [stack_items]. rewrite map_app. f_equal.
  rewrite (frames_fresh [] 0 d [] Hd) by contradiction.
  unfold scope_items. rewrite units_eq, unit_items_cons. reflexivity.
Qed.

Lemma leave_top os prog d np sub : accepted d ->
  (forall ad a, In (ad, a) (stack_args [Scope d [] false]) -> vals_ok a (folded_values os ad a)) ->
  unwind (impl d) (chain_of os prog [Scope d [] false] [np]) sub =
  let* o := finish_args os 0 [] d sub in Ok (o, [CF prog]).
Proof.
  intros Hd Hv. unfold chain_of. cbn [stack_items]. unfold scope_items. cbn [app map item_frame]. rewrite map_app.
  pose proof (unwind_spec os 0 d [] (frame_of os (head_unit 0 (Scope d [] false) np)) [CF prog] sub Hd) as H.
  apply H; [|reflexivity].
  intros u a Hua Ha. apply Hv. cbn [stack_args]. apply in_app_iff. left.
  rewrite scope_args_units. apply in_flat_map. exists u. split; [exact Hua|]. unfold unit_args.
  apply in_map_iff. exists a. auto.
Qed.

Theorem refines_code_choice d argv : accepted d -> try_parse_from d argv = spec_parse_with code_choice d argv.
Proof.
  intros Hd. destruct argv as [|argv0 toks]; [reflexivity|].
  unfold try_parse_from, try_parse_impl, run_struct_parser. fold (impl d).
  set (prog := to_string_lossy (program_name argv0)).
  rewrite args_parse_spec. unfold raw_run, run_parser. rewrite (top_chain d prog Hd).
  change (subp (impl d)) with (sub_of (Scope d [] false)).
  destruct (run_sim prog (length toks) toks (le_n _) (length toks) (Scope d [] false) [] 0%N [] [] (le_n _)
              (Inv_nil [Scope d [] false] (proj1 (start_ok d Hd))) eq_refl) as (np' & Hrun).
  rewrite Hrun. clear Hrun. cbn [skipn N.to_nat sc_decl length].
  change (Normal [Scope d [] false] (positionals d)) with (start d). unfold spec_parse_with.
  pose proof (start_ok d Hd) as Hok.
  pose proof (read_help code_choice code_choice_in toks (start d)) as Hhelp.
  pose proof (read_inv code_choice code_choice_in toks (start d) []) as Hinv.
  destruct (read code_choice (start d) toks) as [os out]. unfold sim. cbn [app].
  destruct (first_bad [] os) as [e|] eqn:Eb; [reflexivity|].
  destruct out as [st|[e|stk]].
  - destruct (Hinv os st Hok (Inv_nil [Scope d [] false] (proj1 (start_ok d Hd))) eq_refl Eb) as (_ & HI & inner & Ei).
    cbn [app state_stack start] in HI, Ei.
    assert (Hv : forall ad a, In (ad, a) (stack_args [Scope d [] false]) -> vals_ok a (folded_values os ad a)).
    { intros ad a Ha. apply (inv_vals _ _ HI). rewrite Ei. apply stack_args_app. exact Ha. }
    destruct st as [stk rem|stk rem ad a|stk rem|stk p]; [| reflexivity| |]; cbn [state_stack] in *; rewrite Ei, finish_stack_above;
      (destruct (finish_above 1 os (inner ++ [Scope d [] false]) None) as [sub|e|q]; cbn [bind]; [|reflexivity|reflexivity];
       rewrite (leave_top os prog d np' sub Hd Hv); cbn [sc_decl]; destruct (finish_args os 0 [] d sub); reflexivity).
  - reflexivity.
  - cbn [bind stop_error]. destruct (Hhelp os stk Hok eq_refl) as [Hs [inner Ei]].
    destruct stk as [|s outer]; [destruct inner; discriminate|].
    inversion Hs as [|? ? [Hds Hus] _]; subst. unfold prog. rewrite (help_text_spec argv0 s outer Hds Hus). reflexivity.
Qed.

(** *** Distinct subcommand names *)

Lemma all_distinct_NoDup l : all_distinct l = true <-> NoDup l.
Proof.
  induction l as [|x l IH]; cbn [all_distinct]; [split; [constructor|reflexivity]|].
  rewrite andb_true_iff, IH, negb_true_iff, existsb_beqb_nIn. split.
  - intros [H1 H2]. constructor; assumption.
  - intros H. inversion H; auto.
Qed.

Definition stack_distinct stk : Prop := Forall (fun s => distinct_subcommands (sc_decl s) = true) stk.

Lemma distinct_sub d id o vs : distinct_subcommands d = true -> subcommand d = Some (id, o, vs) ->
  NoDup (map sub_name vs) /\ forall v, In v vs -> distinct_subcommands (sc_decl (variant_scope v)) = true.
Proof.
  intros H Hs. apply subcommand_in in Hs. destruct d as [at_ fs]. cbn [distinct_subcommands fields_of] in *.
  rewrite forallb_forall in H. specialize (H _ Hs). cbn in H. apply andb_true_iff in H. destruct H as [H1 H2].
  split; [apply all_distinct_NoDup; exact H1|]. intros v Hv. rewrite forallb_forall in H2. specialize (H2 v Hv).
  destruct v as [w [a|a x|x]]; [reflexivity|exact H2|exact H2].
Qed.

Lemma choice_same stk tok : stack_distinct stk -> code_choice (sub_variants stk) tok = first_named (sub_variants stk) tok.
Proof.
  intros H. apply code_choice_first. destruct stk as [|s stk]; [constructor|]. cbn [sub_variants].
  inversion H as [|? ? Hd _]; subst. destruct (subcommand (sc_decl s)) as [[[id o] vs]|] eqn:E; [|constructor].
  apply (distinct_sub _ _ _ _ Hd E).
Qed.
Lemma choice_distinct stk tok v : stack_distinct stk -> first_named (sub_variants stk) tok = Some v ->
  stack_distinct (variant_scope v :: stk).
Proof.
  intros H Hc. constructor; [|exact H]. apply find_some in Hc. destruct Hc as [Hv _].
  destruct stk as [|s stk]; [contradiction|]. cbn [sub_variants] in Hv. inversion H as [|? ? Hd _]; subst.
  destruct (subcommand (sc_decl s)) as [[[id o] vs]|] eqn:E; [|contradiction]. apply (distinct_sub _ _ _ _ Hd E). exact Hv.
Qed.

Lemma step_same st tok : stack_distinct (state_stack st) -> step code_choice st tok = step first_named st tok.
Proof.
  intros H. destruct st as [stk rem|stk rem ad a|stk rem|stk p]; try reflexivity.
  cbn [step]. destruct (form_of tok); try reflexivity. rewrite (choice_same stk tok H). reflexivity.
Qed.
Lemma first_named_in (vs : list (ident * variant_decl V)) tok v : first_named vs tok = Some v -> In v vs.
Proof. intros H. apply find_some in H. apply H. Qed.

Lemma bare_stack stk rem ad a os st : bare stk rem ad a = (os, Go st) -> state_stack st = stk.
Proof. unfold bare. destruct (takes_value a), (needs_equals a); intros E; try discriminate; injection E as _ <-; reflexivity. Qed.
Lemma read_bundle_stack stk rem cs junk : forall os st, read_bundle stk rem cs junk = (os, Go st) -> state_stack st = stk.
Proof.
  induction cs as [|c cs IH]; intros os st.
  - cbn. destruct junk; intros E; [injection E as _ <-; reflexivity|discriminate].
  - rewrite read_bundle_cons. destruct (resolve stk (Short c)) as [[ad a]|]; [|discriminate].
    destruct (read_bundle stk rem cs junk) as [os1 out] eqn:E1.
    destruct (strip_prefix [c_eq] (encode_all cs ++ junk)) as [v|].
    + destruct (takes_value a); intros E; injection E as _ E; [rewrite <- E; reflexivity|]. subst out. eapply IH. reflexivity.
    + destruct (encode_all cs ++ junk) as [|b t]; [apply bare_stack|].
      destruct (needs_equals a); [discriminate|].
      destruct (takes_value a); intros E; injection E as _ E; [rewrite <- E; reflexivity|]. subst out. eapply IH. reflexivity.
Qed.
Lemma step_stack choose st tok os st' : step choose st tok = (os, Go st') ->
  state_stack st' = state_stack st \/
  exists v, choose (sub_variants (state_stack st)) tok = Some v /\ state_stack st' = variant_scope v :: state_stack st.
Proof.
  destruct st as [stk rem|stk rem ad a|stk rem|stk p]; cbn [step state_stack].
  - destruct (form_of tok) as [|n v|b|].
    + intros E. injection E as _ <-. auto.
    + unfold read_long. destruct (resolve stk (Long n)) as [[ad a]|]; [|discriminate]. destruct v.
      * intros E. injection E as _ <-. auto.
      * intros E. apply bare_stack in E. auto.
    + destruct (utf8_prefix b). intros E. apply read_bundle_stack in E. auto.
    + destruct (choose (sub_variants stk) tok) as [v|].
      * intros E. injection E as _ <-. eauto.
      * unfold take_word. destruct rem as [|p rem]; [discriminate|]. cbn [orb].
        destruct (negb (is_last p)); [|discriminate]. intros E. injection E as _ <-. left. destruct (greedy p); reflexivity.
  - destruct (may_follow a tok); intros E; [injection E as _ <-; auto|discriminate].
  - unfold take_word. destruct rem as [|p rem]; [discriminate|]. cbn [orb]. intros E. injection E as _ <-. left.
    destruct (greedy p); reflexivity.
  - intros E. injection E as _ <-. auto.
Qed.

Lemma read_same toks : forall st, stack_distinct (state_stack st) -> read code_choice st toks = read first_named st toks.
Proof.
  induction toks as [|tok toks IH]; intros st H; [reflexivity|]. cbn [read]. rewrite (step_same st tok H).
  destruct (step first_named st tok) as [os out] eqn:E. destruct out as [st'|]; [|reflexivity].
  rewrite IH; [reflexivity|]. destruct (step_stack _ _ _ _ _ E) as [->|(v & Hv & ->)]; [exact H|].
  eapply choice_distinct; eauto.
Qed.

Theorem refines d argv : valid d -> try_parse_from d argv = spec_parse d argv.
Proof.
  intros [Hd Hs]. rewrite (refines_code_choice d argv Hd). unfold spec_parse, spec_parse_with.
  destruct argv as [|argv0 toks]; [reflexivity|]. rewrite read_same; [reflexivity|].
  constructor; [exact Hs|constructor].
Qed.
End Refine.
