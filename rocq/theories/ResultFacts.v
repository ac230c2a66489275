(** What a successful parse is, and when a parse succeeds. *)
From Verif Require Import Bytes BytesFacts Utf8 Utf8Facts Attrs AttrFacts Refl Error Values SortFacts
  Places Help Runtime Heck Decl Spec Derive Generated Observe CompileFacts InfoFacts TableFacts PlaceFacts
  ScopeFacts NamedFacts WordFacts FinishFacts ReadFacts SimFacts HelpFacts Refine ContextFacts SafeFacts FieldFacts.

Section Results.
Context {V : Type}.
Local Notation args_decl := (args_decl V).
Local Notation sarg := (sarg V).
Local Notation scope := (scope V).
Local Notation occ := (occ V).
Implicit Types (d : args_decl) (a p : sarg) (s : scope) (stk : list scope) (os : list occ) (o : outval V).

Lemma start_linked d : linked (state_stack (start d)).
Proof. constructor. Qed.

Lemma reads_ok d toks os stk : valid d -> reads d toks os stk ->
  linked stk /\ stack_ok stk /\ Forall (known stk) os.
Proof.
  intros [Hd _] (st & H & _ & <-).
  destruct (read_ok first_named first_named_in _ _ _ _ (start_ok d Hd) H) as (Hst & Hk & _).
  split; [|split; [|exact Hk]].
  - exact (linked_step first_named first_named_in _ _ _ _ (start_linked d) H).
  - destruct st; apply Hst.
Qed.

Lemma reads_inv d toks os stk : valid d -> reads d toks os stk -> no_error_in os -> Inv stk os.
Proof.
  intros [Hd _] (st & H & _ & <-) Hb.
  pose proof (start_ok d Hd) as Hs. assert (HI : Inv (state_stack (start d)) (@nil occ)) by (apply Inv_nil; apply Hs).
  exact (proj1 (proj2 (read_inv first_named first_named_in _ _ [] _ _ Hs HI H Hb))).
Qed.

Lemma default_some a : arg_facts a -> is_required a = false -> default_readable a = true -> field_value a [] <> None.
Proof.
  intros Ha Hr Hd. unfold field_value, default_readable in *. pose proof (dflt_of_spec a Ha) as Hds.
  destruct (default_of a) as [|t|v] eqn:Edf.
  - destruct Hds as (_ & E2 & _). unfold is_required in Hr. rewrite E2 in Hr. cbn [negb andb] in Hr.
    apply orb_false_iff in Hr. destruct Hr as [_ Hr]. apply content_some; [exact Ha|apply vals_ok_nil|].
    intros E. rewrite E in Hr. discriminate.
  - destruct (value_error a false (Some t)) eqn:Ee; [discriminate|].
    apply content_some; [exact Ha| |discriminate]. apply (vals_ok_snoc a []); [apply vals_ok_nil|exact Ee].
  - destruct Hds as (t & _ & _ & _ & Hfit). unfold default_content. destruct (shape_a a), v; discriminate.
Qed.

Lemma conclude_Ok argv0 os out o : conclude argv0 (os, out) = Ok o ->
  no_error_in os /\ exists st, out = Go st /\ complete st /\ finish_stack os (state_stack st) None = Ok o.
Proof.
  unfold conclude, no_error_in. destruct (first_bad [] os); [discriminate|].
  destruct out as [st|[e|stk]]; [|discriminate|discriminate]. intros H. split; [reflexivity|]. exists st. split; [reflexivity|].
  destruct st; try discriminate; split; try exact I; exact H.
Qed.

Lemma conclude_complete argv0 os st : no_error_in os -> complete st ->
  conclude argv0 (os, Go st) = finish_stack os (state_stack st) None.
Proof. unfold conclude, no_error_in. intros -> Hc. destruct st; try reflexivity. contradiction. Qed.

(** The parse is the values of its occurrences. *)
Theorem success d argv0 toks o : valid d -> try_parse_from d (argv0 :: toks) = Ok o ->
  exists os stk, reads d toks os stk /\ no_error_in os /\ satisfied os stk /\
    (forall ad a, In (ad, a) (stack_args stk) ->
       field_at ad o = field_value a (values_of os ad) /\ field_at ad o <> None) /\
    entered o = tl (rev (map sc_ident stk)).
Proof.
  intros Hd H. rewrite parse_conclude in H by exact Hd.
  destruct (read first_named (start d) toks) as [os out] eqn:Er. apply conclude_Ok in H.
  destruct H as (Hb & st & -> & Hc & Hf). exists os, (state_stack st).
  assert (Hr : reads d toks os (state_stack st)) by (exists st; auto). split; [exact Hr|]. split; [exact Hb|].
  destruct (reads_ok _ _ _ _ Hd Hr) as (Hl & Hok & _). pose proof (reads_inv _ _ _ _ Hd Hr Hb) as HI.
  split; [exact (finish_satisfied _ _ _ Hl Hok Hf)|]. split.
  - intros ad a Hin. destruct (finish_fields _ _ _ _ _ Hl Hok Hf Hin) as [E G]. split; [exact E|]. rewrite E.
    pose proof (arg_in_stack _ _ _ Hok Hin) as Ha.
    destruct (values_of os ad) as [|v vals] eqn:Ev.
    + apply default_some; [exact Ha| |]; apply G; rewrite given_values, Ev; reflexivity.
    + unfold field_value. apply content_some; [exact Ha| |discriminate].
      pose proof (inv_vals _ _ HI ad a Hin) as Hv. unfold folded_values in Hv. rewrite Ev in Hv. exact Hv.
  - pose proof (finish_stack_entered _ _ _ _ Hl Hok Hf) as E. rewrite E; [apply app_nil_r|]. intros C; congruence.
Qed.

Theorem success_iff d argv0 toks : valid d -> defaults_readable d = true ->
  ((exists o, try_parse_from d (argv0 :: toks) = Ok o) <->
   (exists os stk, reads d toks os stk /\ no_error_in os /\ satisfied os stk)).
Proof.
  intros Hd Hdr. split.
  - intros [o H]. destruct (success _ _ _ _ Hd H) as (os & stk & H1 & H2 & H3 & _). eauto.
  - intros (os & stk & Hr & Hb & Hs). rewrite parse_conclude by exact Hd. destruct (reads_ok _ _ _ _ Hd Hr) as (Hl & Hok & _).
    destruct Hr as (st & Hr & Hc & <-). rewrite Hr, conclude_complete by assumption.
    apply satisfied_finish; [exact Hl|exact Hok| |exact Hs].
    assert (He : stack_every default_readable (state_stack st))
      by (eapply (read_every default_readable first_named first_named_in); [|exact Hr]; constructor; [exact Hdr|constructor]).
    intros s Hi. unfold stack_every in He. rewrite Forall_forall in He. apply He. exact Hi.
Qed.

(** The occurrences of a command line are unique. *)
Lemma reads_unique d toks os stk os' stk' : reads d toks os stk -> reads d toks os' stk' -> os = os' /\ stk = stk'.
Proof. intros (st & H & _ & <-) (st' & H' & _ & <-). rewrite H in H'. injection H' as <- <-. auto. Qed.

Theorem success_reads d argv0 toks o os stk : valid d -> try_parse_from d (argv0 :: toks) = Ok o -> reads d toks os stk ->
  no_error_in os /\ satisfied os stk /\
  (forall ad a, In (ad, a) (stack_args stk) -> field_at ad o = field_value a (values_of os ad) /\ field_at ad o <> None) /\
  entered o = tl (rev (map sc_ident stk)).
Proof.
  intros Hd H Hr. destruct (success _ _ _ _ Hd H) as (os' & stk' & Hr' & Hx).
  destruct (reads_unique _ _ _ _ _ _ Hr Hr') as [-> ->]. exact Hx.
Qed.
Theorem success_default d argv0 toks o os stk ad a : valid d -> try_parse_from d (argv0 :: toks) = Ok o -> reads d toks os stk ->
  In (ad, a) (stack_args stk) -> given os ad = false -> is_required a = false /\ default_readable a = true.
Proof.
  intros Hd H Hr Hin Hg. pose proof Hr as (st & Hr' & Hc & <-). rewrite parse_conclude, Hr' in H by exact Hd. apply conclude_Ok in H.
  destruct H as (Hb & st' & E & _ & Hf). injection E as <-. destruct (reads_ok _ _ _ _ Hd Hr) as (Hl & Hok & _).
  exact (proj2 (finish_fields _ _ _ _ _ Hl Hok Hf Hin) Hg).
Qed.
End Results.
