(** The values of positionals, and what a successful parse accounts for. *)
From Verif Require Import Bytes BytesFacts Utf8 Utf8Facts Attrs AttrFacts Refl Error Values SortFacts
  Places Help Runtime Heck HeckFacts Decl Spec Derive Generated Observe CompileFacts InfoFacts TableFacts PlaceFacts
  ScopeFacts NamedFacts WordFacts FinishFacts ReadFacts SimFacts HelpFacts Refine ContextFacts SafeFacts
  FieldFacts ResultFacts ValueFacts OptionFacts SameFacts WriteFacts Grammar GrammarFacts PositionalFacts.

Section WordValues.
Context {V : Type}.
Local Notation args_decl := (args_decl V).
Local Notation sarg := (sarg V).
Local Notation scope := (scope V).
Local Notation occ := (occ V).
Implicit Types (d : args_decl) (a p : sarg) (stk outer : list scope) (os : list occ) (o : outval V) (rem ps : list sarg) (s : scope).

Theorem accounted d (argv0 : bytes) toks o : valid d -> try_parse_from d (argv0 :: toks) = Ok o ->
  exists os stk, accounts [Scope d [] false] (positionals d) toks os stk /\
    (forall ad a, In (ad, a) (stack_args stk) -> field_at ad o = field_value a (values_of os ad)) /\
    entered o = tl (rev (map sc_ident stk)).
Proof.
  intros Hd H. destruct (success d argv0 toks o Hd H) as (os & stk & Hr & _ & _ & Hf & He). exists os, stk.
  split; [apply accounts_iff; assumption|]. split; [|exact He]. intros ad a Hi. apply (Hf ad a Hi).
Qed.
Theorem accounted_iff d (argv0 : bytes) toks : valid d -> defaults_readable d = true ->
  ((exists o, try_parse_from d (argv0 :: toks) = Ok o) <->
   (exists os stk, accounts [Scope d [] false] (positionals d) toks os stk /\ no_error_in os /\ satisfied os stk)).
Proof.
  intros Hd Hr. rewrite (success_iff d argv0 toks Hd Hr). split; intros (os & stk & H & Hb & Hs); exists os, stk; (split; [|auto]); apply accounts_iff; assumption.
Qed.
Theorem accounts_unique d toks os os' stk stk' : valid d -> accounts [Scope d [] false] (positionals d) toks os stk ->
  accounts [Scope d [] false] (positionals d) toks os' stk' -> os = os' /\ stk = stk'.
Proof. intros Hd H H'. apply (accounts_iff d) in H, H'; try exact Hd. exact (reads_unique _ _ _ _ _ _ H H'). Qed.

(** *** Greedy arguments are given last *)

Lemma option_not_greedy stk ad a : stack_ok stk -> In (ad, a) (stack_args stk) -> is_option a = true -> greedy a = false.
Proof.
  intros Hok Hi Ho. pose proof (arg_in_stack _ _ _ Hok Hi) as Ha. destruct (ar_named a Ha Ho) as (H1 & H2 & _).
  unfold greedy, is_last in *. rewrite H1, H2. reflexivity.
Qed.
Definition calm (st : state V) : Prop :=
  match st with Normal _ _ => True | Await _ _ _ a => is_option a = true | _ => False end.
Lemma calm_step st (tok : bytes) os1 st' : state_ok st -> calm st ->
  (match st' with Verbatim _ _ | Drain _ _ => False | _ => True end) -> step first_named st tok = (os1, Go st') ->
  Forall (fun x : occ => greedy (oc_arg x) = false) os1 /\ calm st'.
Proof.
  intros [Hok Hst] Hc Hn E. destruct st as [stk rem|stk rem ad a|stk rem|stk p]; try contradiction; cbn [step state_stack] in *.
  - assert (Hopt : forall x, x = (os1, Go st') -> options_out stk rem x -> good_out stk rem x ->
      Forall (fun x : occ => greedy (oc_arg x) = false) os1 /\ calm st').
    { intros x -> [O1 O2] [G1 _]. cbn [fst snd] in *. split.
      - rewrite Forall_forall in *. intros x Hi. exact (option_not_greedy _ _ _ Hok (G1 x Hi) (O1 x Hi)).
      - destruct O2 as [->|(ad & a & -> & Ho)]; [exact I|exact Ho]. }
    destruct (form_of tok) as [|n v|b|] eqn:Ef.
    + injection E as <- <-. contradiction.
    + apply (Hopt _ E); [apply read_long_options|apply read_long_good].
    + destruct (utf8_prefix b) as [cs junk]. apply (Hopt _ E); [apply read_bundle_options|apply read_bundle_good].
    + destruct (first_named (sub_variants stk) tok) as [v|].
      * injection E as <- <-. split; [constructor|exact I].
      * unfold take_word in E. destruct rem as [|p rem]; [discriminate|]. cbn [orb] in E. destruct (is_last p) eqn:El; [discriminate|].
        injection E as <- <-. destruct (greedy p) eqn:Eg; [contradiction|]. split; [constructor; [exact Eg|constructor]|exact I].
  - destruct (may_follow a tok); [|discriminate]. injection E as <- <-. split; [|exact I].
    constructor; [|constructor]. exact (option_not_greedy _ _ _ Hok (proj2 Hst) Hc).
Qed.
Lemma calm_read toks : forall st os stk rem, state_ok st -> calm st ->
  read first_named st toks = (os, Go (Normal stk rem)) -> Forall (fun x : occ => greedy (oc_arg x) = false) os.
Proof.
  induction toks as [|tok toks IH]; intros st os stk rem Hok Hc H.
  - injection H as <- _. constructor.
  - rewrite read_cons in H. destruct (step first_named st tok) as [oa [sa|sp]] eqn:Es; unfold then_read in H; cbn [fst snd] in H; [|discriminate].
    destruct (read first_named sa toks) as [ob out] eqn:Er. injection H as <- ->.
    assert (Hsa : match sa with Verbatim _ _ | Drain _ _ => False | _ => True end).
    { destruct sa as [| |stk1 rem1|stk1 p1]; try exact I; refine (verbatim_stays toks _ _ _ _ Er); exact I. }
    destruct (calm_step st tok oa sa Hok Hc Hsa Es) as (H1 & H2).
    apply Forall_app. split; [exact H1|]. eapply IH; [|exact H2|exact Er].
    pose proof (read_ok first_named first_named_in [tok] st oa sa Hok) as Hr. rewrite read_one in Hr. apply Hr. exact Es.
Qed.
Lemma greedy_fresh d pre os stk rem ad p : valid d -> at_option d pre os stk rem -> In (ad, p) (stack_args stk) -> greedy p = true ->
  values_of os ad = [].
Proof.
  intros Hd H Hi Hg. assert (Hr : reads d pre os stk) by (exists (Normal stk rem); repeat split; exact H).
  pose proof (known_arg _ _ _ _ _ _ Hd Hr Hi) as Hk.
  assert (Hc : Forall (fun x : occ => greedy (oc_arg x) = false) os) by (eapply (calm_read pre (start d)); [apply start_ok; apply Hd|exact I|exact H]).
  unfold values_of. clear H Hr. induction os as [|x os IH]; [reflexivity|]. inversion Hk as [|? ? K1 K2]; subst. inversion Hc as [|? ? C1 C2]; subst.
  cbn [filter]. destruct (addr_eqb ad (oc_addr x)) eqn:E; [|apply IH; assumption].
  apply addr_eqb_eq in E. rewrite (K1 (eq_sym E)) in C1. congruence.
Qed.

Lemma next_known d pre os stk rem p : valid d -> at_option d pre os stk rem ->
  In p rem -> In (Addr (length stk - 1) [sa_id p], p) (stack_args stk) /\ is_option p = false.
Proof.
  intros Hd H Hp. destruct (at_option_ok _ _ _ _ _ Hd H) as (_ & Hr & _). destruct stk as [|s outer]; [contradiction|]. cbn [length]. rewrite Nat.sub_succ, Nat.sub_0_r.
  specialize (Hr p Hp). split; [apply pos_known; exact Hr|]. apply positional_not_option in Hr. apply Hr.
Qed.
Lemma words_values stk p ws : values_of (map (word_occ stk p) ws) (Addr (length stk - 1) [sa_id p]) = map Some ws.
Proof.
  unfold values_of. induction ws as [|w ws IH]; [reflexivity|]. cbn [map filter word_occ oc_addr].
  rewrite (proj2 (addr_eqb_eq _ _) eq_refl). cbn [map]. f_equal. exact IH.
Qed.
Lemma pos_texts a vs : arg_facts a -> is_option a = false -> map (option_map (text_of a)) vs = vs.
Proof.
  intros Ha Ho. destruct (ar_pos a Ha Ho) as (_ & _ & Hc & _). unfold text_of. rewrite Hc.
  induction vs as [|[v|] vs IH]; [reflexivity| |]; cbn [map option_map]; f_equal; exact IH.
Qed.

Lemma word_field d (argv0 : bytes) toks os stk o ad p ws : valid d -> try_parse_from d (argv0 :: toks) = Ok o ->
  reads d toks os stk -> In (ad, p) (stack_args stk) -> is_option p = false -> values_of os ad = ws -> ws <> [] ->
  exists fv, field_at ad o = Some fv /\ denotes p ws fv.
Proof.
  intros Hd H Hr Hi Ho Hv Hne. assert (Hg : given os ad = true) by (rewrite given_values, Hv; destruct ws; [contradiction|reflexivity]).
  destruct (given_value _ _ _ _ _ _ _ _ Hd H Hr Hi Hg) as (fv & Hf & Hdn). exists fv. split; [exact Hf|].
  destruct (reads_ok _ _ _ _ Hd Hr) as (_ & Hok & _). rewrite Hv, pos_texts in Hdn; [exact Hdn|exact (arg_in_stack _ _ _ Hok Hi)|exact Ho].
Qed.

Theorem trailing_field d (argv0 : bytes) pre os stk rem (w : bytes) p (ws : list bytes) o :
  valid d -> at_option d pre os stk rem -> word w -> no_subcommand stk w -> next_word stk os = Some p -> greedy p = true ->
  try_parse_from d (argv0 :: pre ++ w :: ws) = Ok o ->
  exists fv, field_at (Addr (length stk - 1) [sa_id p]) o = Some fv /\ denotes p (map Some (w :: ws)) fv.
Proof.
  intros Hd H Hw Hn Hp Hg Ho. pose proof (word_drains _ _ _ _ _ _ _ ws Hd H Hw Hn Hp Hg) as Hr.
  pose proof (next_rem _ _ _ _ _ Hd H) as Hx. rewrite Hp in Hx. destruct Hx as (rem' & -> & _).
  destruct (next_known _ _ _ _ _ p Hd H (or_introl eq_refl)) as [Hi Hpo].
  apply (word_field d argv0 _ _ _ _ _ _ _ Hd Ho Hr Hi Hpo); [|discriminate].
  rewrite values_of_app, words_values, (greedy_fresh _ _ _ _ _ _ _ Hd H Hi Hg). reflexivity.
Qed.

(** *** After [--] *)

Theorem verbatim_reads d pre os stk rem (w : bytes) p : valid d -> at_option d pre os stk rem -> next_verbatim stk os 0 = Some p ->
  reads d (pre ++ [bs "--"; w]) (os ++ [word_occ stk p w]) stk.
Proof.
  intros Hd H Hp. destruct (sep_reads d pre os stk rem [w] Hd H) as (os' & Hr).
  { intros k Hk. replace k with 0 by (cbn in Hk; lia). rewrite Hp. discriminate. }
  destruct (sep_words _ _ _ _ _ _ _ _ Hd H Hr) as (_ & os1 & E & Hl & Hk). apply app_inv_head in E. subst os1.
  destruct (Hk 0 w eq_refl) as (q & Hq & Hn). rewrite Hp in Hq. injection Hq as <-.
  destruct os' as [|x [|y os']]; [discriminate| |discriminate]. injection Hn as ->. exact Hr.
Qed.

Theorem verbatim_value d (argv0 : bytes) pre os stk rem (w : bytes) p o : valid d -> at_option d pre os stk rem ->
  next_verbatim stk os 0 = Some p -> many p = false -> try_parse_from d (argv0 :: pre ++ [bs "--"; w]) = Ok o ->
  exists fv, field_at (Addr (length stk - 1) [sa_id p]) o = Some fv /\ denotes p [Some w] fv.
Proof.
  intros Hd H Hp Hm Ho. pose proof (verbatim_reads _ _ _ _ _ w _ Hd H Hp) as Hr.
  assert (Hin : In p (after_sep stk rem)).
  { rewrite <- (verbatim_targets d pre os stk rem Hd H) in Hp. destruct (after_sep stk rem) as [|q l]; [discriminate|].
    rewrite target_first in Hp. injection Hp as ->. left. reflexivity. }
  assert (Hk : In (Addr (length stk - 1) [sa_id p], p) (stack_args stk) /\ is_option p = false).
  { destruct (at_option_ok _ _ _ _ _ Hd H) as (_ & Hro & _). apply after_sep_ok in Hro.
    destruct stk as [|s outer]; [contradiction|]. cbn [length]. rewrite Nat.sub_succ, Nat.sub_0_r.
    specialize (Hro p Hin). split; [apply pos_known; exact Hro|]. apply positional_not_option in Hro. apply Hro. }
  destruct Hk as [Hi Hpo].
  apply (word_field d argv0 _ _ _ _ _ _ _ Hd Ho Hr Hi Hpo); [|discriminate].
  pose proof (at_most_once _ _ _ _ _ _ _ _ Hd Ho Hr Hi Hm) as H1. rewrite values_of_app in *.
  change [word_occ stk p w] with (map (word_occ stk p) [w]) in *. rewrite words_values in *.
  rewrite app_length in H1. destruct (values_of os (Addr (length stk - 1) [sa_id p])); [reflexivity|]. cbn in H1. lia.
Qed.

(** *** [-] and the empty token *)

Lemma no_subcommand_dec stk (w : bytes) : no_subcommand stk w \/ exists v, In v (sub_variants stk) /\ sub_name v = w.
Proof.
  destruct (first_named (sub_variants stk) w) as [v|] eqn:E.
  - right. apply first_named_some in E. destruct E as [H1 H2]. exists v. auto.
  - left. apply first_named_none. exact E.
Qed.
Theorem word_cases d (argv0 : bytes) pre os stk rem (w : bytes) post : valid d -> at_option d pre os stk rem -> word w ->
  (exists v, In v (sub_variants stk) /\ sub_name v = w /\
     at_option d (pre ++ [w]) os (variant_scope v :: stk) (positionals (sc_decl (variant_scope v)))) \/
  (exists p, next_word stk os = Some p /\ reads d (pre ++ [w]) (os ++ [word_occ stk p w]) stk) \/
  (next_word stk os = None /\ (no_error_in os -> try_parse_from d (argv0 :: pre ++ w :: post) = Err (extra_word stk w))).
Proof.
  intros Hd H Hw. destruct (no_subcommand_dec stk w) as [Hn|(v & Hv & <-)].
  - right. destruct (next_word stk os) as [p|] eqn:Hp.
    + left. exists p. split; [reflexivity|]. destruct (greedy p) eqn:Eg.
      * exact (word_drains _ _ _ _ _ _ _ [] Hd H Hw Hn Hp Eg).
      * destruct (word_taken _ _ _ _ _ _ _ Hd H Hw Hn Hp Eg) as (rem' & Hr). exists (Normal stk rem'). repeat split; exact Hr.
    + right. split; [reflexivity|]. intros Hb. exact (word_extra _ _ _ _ _ _ _ _ Hd H Hb Hw Hn Hp).
  - left. exists v. split; [exact Hv|]. split; [reflexivity|]. exact (sub_enters _ _ _ _ _ _ Hd H Hv).
Qed.
Theorem dash_empty d (argv0 : bytes) pre os stk rem (w : bytes) post : valid d -> at_option d pre os stk rem -> w = bs "-" \/ w = [] ->
  (exists v, In v (sub_variants stk) /\ sub_name v = w /\
     at_option d (pre ++ [w]) os (variant_scope v :: stk) (positionals (sc_decl (variant_scope v)))) \/
  (exists p, next_word stk os = Some p /\ reads d (pre ++ [w]) (os ++ [word_occ stk p w]) stk) \/
  (next_word stk os = None /\ (no_error_in os -> try_parse_from d (argv0 :: pre ++ w :: post) = Err (extra_word stk w))).
Proof.
  intros Hd H Hw. apply (word_cases d argv0 pre os stk rem w post Hd H).
  destruct Hw as [->| ->]; [left; reflexivity|right; discriminate].
Qed.
Lemma dash_no_subcommand stk : no_subcommand stk (bs "-").
Proof. intros Hi. apply in_map_iff in Hi. destruct Hi as (v & E & _). exact (kebab_head _ _ _ E eq_refl). Qed.
End WordValues.
