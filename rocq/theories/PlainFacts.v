(** Every successful parse is that of a plain command line. *)
From Verif Require Import Bytes Utf8 Error Values Heck Places Decl Spec Derive Generated Observe Grammar Parts Plain.
From Verif Require Import BytesFacts TableFacts CompileFacts ScopeFacts InfoFacts NamedFacts ReadFacts ContextFacts FieldFacts OptionFacts WriteFacts ResultFacts SameFacts GrammarFacts PositionalFacts.
Local Open Scope list_scope.

Section Plain.
Context {V : Type}.
Local Notation args_decl := (args_decl V).
Local Notation sarg := (sarg V).
Local Notation scope := (scope V).
Local Notation occ := (occ V).
Implicit Types (d : args_decl) (a : sarg) (stk : list scope) (s : scope) (o : occ).

(** *** Exchanging occurrences of different arguments *)

Inductive shuffled : list occ -> list occ -> Prop :=
| shuffled_refl os : shuffled os os
| shuffled_swap os1 o1 o2 os2 os' : oc_addr o1 <> oc_addr o2 ->
    shuffled (os1 ++ o2 :: o1 :: os2) os' -> shuffled (os1 ++ o1 :: o2 :: os2) os'.
Lemma shuffled_cons o os os' : shuffled os os' -> shuffled (o :: os) (o :: os').
Proof.
  induction 1 as [os|os1 o1 o2 os2 os' H _ IH]; [constructor|]. exact (shuffled_swap (o :: os1) o1 o2 os2 _ H IH).
Qed.
Lemma shuffled_trans os os' os'' : shuffled os os' -> shuffled os' os'' -> shuffled os os''.
Proof.
  induction 1 as [os|os1 o1 o2 os2 os' H _ IH]; intros H2; [exact H2|]. apply shuffled_swap; [exact H|]. apply IH. exact H2.
Qed.
Lemma shuffled_move o xs ys : Forall (fun x => oc_addr x <> oc_addr o) xs -> shuffled (o :: xs ++ ys) (xs ++ o :: ys).
Proof.
  induction 1 as [|x xs H _ IH]; [constructor|]. cbn [app].
  apply (shuffled_swap [] o x (xs ++ ys)); [congruence|]. cbn [app]. apply shuffled_cons. exact IH.
Qed.
Lemma shuffled_values os os' : shuffled os os' -> forall ad, values_of os ad = values_of os' ad.
Proof.
  induction 1 as [os|os1 o1 o2 os2 os' H _ IH]; intros ad; [reflexivity|]. rewrite <- IH. apply values_swap. exact H.
Qed.
Lemma shuffled_bad os os' : shuffled os os' -> no_error_in os -> no_error_in os'.
Proof.
  induction 1 as [os|os1 o1 o2 os2 os' H _ IH]; intros Hb; [exact Hb|]. apply IH. apply first_bad_swap; assumption.
Qed.

(** *** Plain lines *)

Lemma token_writes stk tok o : option_token stk tok o -> writes stk [tok] (oc_addr o) (oc_arg o) (oc_val o).
Proof.
  intros [n ad a Hr Ht|n ad a v Hr Ht]; cbn [oc_addr oc_arg oc_val].
  - apply writes_bare; assumption.
  - destruct (takes_value a) eqn:E; [eapply writes_value; [exact Hr|exact E|constructor]|].
    destruct n as [s|c]; [|discriminate]. apply writes_long; assumption.
Qed.
Lemma writes_token stk toks ad a v : writes stk toks ad a v -> exists tok, option_token stk tok (Occ ad a v).
Proof.
  intros [n ad' a' w ts Hr Ht Hg|n ad' a' Hr Ht|s ad' a' w Hr Ht].
  - exists (spell_eq n w). apply token_value; [exact Hr|]. destruct n; auto.
  - exists (spell n). apply token_bare; assumption.
  - exists (spell_eq (Long s) w). apply token_value; [exact Hr|exact I].
Qed.
Lemma tokens_account stk ps opts oo post os stk' : Forall2 (option_token stk) opts oo -> accounts stk ps post os stk' ->
  accounts stk ps (opts ++ post) (oo ++ os) stk'.
Proof.
  induction 1 as [|tok o opts oo H1 H2 IH]; intros H; [exact H|]. specialize (IH H). apply token_writes in H1. destruct o as [ad a v].
  exact (acc_option stk ps [tok] ad a v _ _ stk' H1 IH).
Qed.
Lemma tokens_options stk opts oo : Forall2 (option_token stk) opts oo -> Forall (an_option stk) opts.
Proof. induction 1 as [|tok o opts oo H1 H2 IH]; constructor; [exists o; exact H1|exact IH]. Qed.
Lemma option_addr stk tok o p s outer : stack_ok stk -> stk = s :: outer -> option_token stk tok o -> In p (positionals (sc_decl s)) ->
  oc_addr o <> oc_addr (word_occ stk p (bs "")).
Proof.
  intros Hok E H Hp C. assert (Hr : exists n, resolve stk n = Some (oc_addr o, oc_arg o)).
  { destruct H as [n ad a Hr _|n ad a v Hr _]; exists n; exact Hr. }
  destruct Hr as [n Hr]. apply resolve_sound in Hr; [|exact Hok]. destruct Hr as (Hi & (Ho & _) & _).
  rewrite C in Hi. unfold word_occ in Hi. cbn [oc_addr] in Hi.
  assert (Hp' : In (Addr (length stk - 1) [sa_id p], p) (stack_args stk)).
  { subst stk. cbn [length]. replace (S (length outer) - 1) with (length outer) by lia.
    apply (in_stack_args [] s outer [sa_id p] p). rewrite reach_eq. apply in_app_iff. left. apply in_map_iff. exists p. split; [reflexivity|].
    unfold positionals in Hp. apply in_app_iff in Hp. destruct Hp as [Hp|Hp]; apply filter_In in Hp; destruct Hp as [Hp _]; apply filter_In in Hp; tauto. }
  pose proof (stack_args_unique _ _ _ _ Hok Hi Hp') as Ea. rewrite Ea in Ho.
  unfold positionals in Hp. apply in_app_iff in Hp. destruct Hp as [Hp|Hp]; apply filter_In in Hp; destruct Hp as [Hp _]; apply filter_In in Hp;
    destruct Hp as [_ Hp]; rewrite Ho in Hp; discriminate.
Qed.

(** What may follow the options of a command. *)
Inductive body : list scope -> list bytes -> Prop :=
| body_end stk ws e : Forall word ws -> ending stk e -> body stk (ws ++ e)
| body_subcommand stk ws v rest : Forall word ws -> In v (sub_variants stk) -> plain (variant_scope v :: stk) rest ->
    body stk (ws ++ sub_name v :: rest).
Lemma body_word stk w rest : word w -> body stk rest -> body stk (w :: rest).
Proof.
  intros Hw [stk' ws e H1 H2|stk' ws v r H1 H2 H3].
  - apply (body_end stk' (w :: ws) e); [constructor; assumption|exact H2].
  - apply (body_subcommand stk' (w :: ws) v r); [constructor; assumption|exact H2|exact H3].
Qed.
Lemma body_plain stk opts rest : Forall (an_option stk) opts -> body stk rest -> plain stk (opts ++ rest).
Proof.
  intros Ho H. revert Ho. destruct H as [stk' ws e H1 H2|stk' ws v r H1 H2 H3]; intros Ho; [apply plain_end|apply plain_subcommand]; assumption.
Qed.

Lemma variant_ok stk v : stack_ok stk -> In v (sub_variants stk) -> stack_ok (variant_scope v :: stk).
Proof.
  intros Hs Hc. constructor; [|exact Hs]. split; [|apply variant_unit]. destruct stk as [|s outer]; [contradiction|]. cbn [sub_variants] in Hc.
  destruct (subcommand (sc_decl s)) as [[[id o] vs]|] eqn:E; [|contradiction].
  inversion Hs as [|s' l [Hd _] _]; subst. eapply accepted_variant; eauto.
Qed.

Lemma accounts_plain stk ps toks os stk' : accounts stk ps toks os stk' ->
  forall s outer, stk = s :: outer -> stack_ok stk -> incl ps (positionals (sc_decl s)) ->
  exists opts oo rest os', Forall2 (option_token stk) opts oo /\ body stk rest /\ accounts stk ps rest os' stk' /\ shuffled os (oo ++ os').
Proof.
  induction 1 as [stk ps|stk ps toks ad a v post os stk' Hw _ IH|stk ps c ad a t post os stk' Hr Ht Hq H1 H2 H3 _ IH
    |stk ps v post os stk' Hv Ha IH|stk ps p w post os stk' Hw Hn Hl Hg _ IH|stk ps p w ws Hw Hn Hl Hg
    |stk ps ws os Hl Hf|stk ps ws os Hl Hf]; intros s outer Es Hok Hps.
  - exists [], [], [], []. split; [constructor|]. split; [apply (body_end stk [] []); constructor|]. split; constructor.
  - destruct (IH s outer Es Hok Hps) as (opts & oo & rest & os' & I1 & I2 & I3 & I4).
    destruct (writes_token _ _ _ _ _ Hw) as [tok Htok].
    exists (tok :: opts), (Occ ad a v :: oo), rest, os'. split; [constructor; assumption|]. split; [exact I2|]. split; [exact I3|].
    apply shuffled_cons. exact I4.
  - destruct (IH s outer Es Hok Hps) as (opts & oo & rest & os' & I1 & I2 & I3 & I4).
    exists (spell (Short c) :: opts), (Occ ad a None :: oo), rest, os'. split; [constructor; [apply token_bare; assumption|exact I1]|].
    split; [exact I2|]. split; [exact I3|]. apply shuffled_cons. exact I4.
  - assert (Hok' : stack_ok (variant_scope v :: stk)) by (eapply variant_ok; eassumption).
    destruct (IH _ stk eq_refl Hok' (fun p H => H)) as (opts & oo & rest & os' & I1 & I2 & I3 & I4).
    exists [], [], (sub_name v :: opts ++ rest), (oo ++ os'). split; [constructor|]. split.
    { apply (body_subcommand stk [] v (opts ++ rest)); [constructor|exact Hv|]. apply body_plain; [eapply tokens_options; exact I1|exact I2]. }
    split; [|exact I4]. apply acc_subcommand; [exact Hv|]. apply tokens_account; assumption.
  - assert (Hps' : incl (if many p then p :: ps else ps) (positionals (sc_decl s))).
    { destruct (many p); [exact Hps|]. intros x Hx. apply Hps. right. exact Hx. }
    destruct (IH s outer Es Hok Hps') as (opts & oo & rest & os' & I1 & I2 & I3 & I4).
    exists opts, oo, (w :: rest), (word_occ stk p w :: os'). split; [exact I1|]. split; [apply body_word; assumption|].
    split; [apply acc_word; assumption|]. eapply shuffled_trans; [apply shuffled_cons; exact I4|]. apply shuffled_move.
    apply Forall_forall. intros x Hx. clear - I1 Hx Hok Es Hps.
    induction I1 as [|tok y opts oo H1 H2 IH2]; [contradiction|]. destruct Hx as [->|Hx]; [|exact (IH2 Hx)].
    apply (option_addr stk tok x p s outer Hok Es H1). apply Hps. left. reflexivity.
  - exists [], [], (w :: ws), (map (word_occ stk p) (w :: ws)). split; [constructor|]. split.
    { apply (body_end stk [] (w :: ws)); [constructor|]. eapply ending_trailing; [exact Es|apply Hps; left; reflexivity|exact Hg|exact Hw]. }
    split; [apply acc_trailing; assumption|constructor].
  - exists [], [], (bs "--" :: ws), os. split; [constructor|]. split; [apply (body_end stk [] _); constructor|].
    split; [apply acc_separator; assumption|constructor].
  - exists [], [], (bs "--" :: ws), os. split; [constructor|]. split; [apply (body_end stk [] _); constructor|].
    split; [apply acc_separator_last; assumption|constructor].
Qed.

Theorem replay d (argv0 : bytes) toks r : valid d -> try_parse_from d (argv0 :: toks) = Ok r ->
  exists toks', plain [Scope d [] false] toks' /\ try_parse_from d (argv0 :: toks') = Ok r.
Proof.
  intros Hd H. rewrite parse_conclude in H by exact Hd. destruct (read first_named (start d) toks) as [os out] eqn:Er.
  apply conclude_Ok in H. destruct H as (Hb & st & -> & Hc & Hf).
  assert (Hr : reads d toks os (state_stack st)) by (exists st; auto). apply accounts_iff in Hr; [|exact Hd].
  pose proof (start_ok d (proj1 Hd)) as [Hok _]. cbn [state_stack start] in Hok.
  destruct (accounts_plain _ _ _ _ _ Hr _ [] eq_refl Hok (fun p H => H)) as (opts & oo & rest & os' & I1 & I2 & I3 & I4).
  exists (opts ++ rest). split; [apply body_plain; [eapply tokens_options; exact I1|exact I2]|].
  pose proof (tokens_account _ _ _ _ _ _ _ I1 I3) as Ha. apply accounts_iff in Ha; [|exact Hd]. destruct Ha as (st' & E & Hc' & Hs').
  rewrite parse_conclude, E by exact Hd. rewrite conclude_complete; [|eapply shuffled_bad; eassumption|exact Hc'].
  rewrite Hs', <- Hf. apply finish_stack_ext.
  - intros ad. apply given_ext. symmetry. apply shuffled_values. exact I4.
  - intros ad a _. f_equal. symmetry. apply shuffled_values. exact I4.
Qed.

(** *** All the choices *)

Theorem every_choice d (opts : list bytes) (oo : list occ) (ws : list bytes) : valid d ->
  Forall2 (option_token [Scope d [] false]) opts oo ->
  (forall k, k < length ws -> next_verbatim [Scope d [] false] oo k <> None) ->
  exists os', reads d (opts ++ bs "--" :: ws) (oo ++ os') [Scope d [] false] /\ length os' = length ws /\
  forall k w, nth_error ws k = Some w ->
  exists p, next_verbatim [Scope d [] false] oo k = Some p /\ nth_error os' k = Some (word_occ [Scope d [] false] p w).
Proof.
  intros Hd Ho Hk. pose proof (start_ok d (proj1 Hd)) as [Hok _]. cbn [state_stack start] in Hok.
  assert (Ha : at_option d opts oo [Scope d [] false] (positionals d)).
  { unfold at_option, start. clear Hk. induction Ho as [|tok o opts oo H1 H2 IH]; [reflexivity|].
    apply token_writes in H1. apply (writes_reads _ (positionals d) _ _ _ _ Hok) in H1. rewrite read_one in H1. rewrite read_cons.
    destruct o as [ad a v]. cbn [oc_addr oc_arg oc_val] in H1. rewrite H1. unfold then_read. cbn [fst snd]. rewrite IH. reflexivity. }
  destruct (sep_reads d opts oo _ _ ws Hd Ha Hk) as (os' & Hr). exists os'. split; [exact Hr|].
  destruct (sep_words d opts oo _ _ ws _ _ Hd Ha Hr) as (_ & os2 & E & Hl & Hw). apply app_inv_head in E. subst os2. auto.
Qed.
End Plain.
