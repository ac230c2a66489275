(** The reader reads what the grammar describes. *)
From Verif Require Import Bytes BytesFacts Utf8 Utf8Facts Attrs AttrFacts Refl Error Values SortFacts
  Places Help Runtime Heck HeckFacts Decl Spec Derive Generated Observe CompileFacts InfoFacts TableFacts PlaceFacts
  ScopeFacts NamedFacts WordFacts FinishFacts ReadFacts SimFacts HelpFacts Refine ContextFacts SafeFacts
  FieldFacts ResultFacts ValueFacts OptionFacts SameFacts WriteFacts Grammar.

Section Grammar.
Context {V : Type}.
Local Notation args_decl := (args_decl V).
Local Notation sarg := (sarg V).
Local Notation scope := (scope V).
Local Notation occ := (occ V).
Implicit Types (d : args_decl) (a p : sarg) (stk : list scope) (os : list occ) (o : outval V) (rem ps : list sarg).

(** *** Forms *)

Lemma form_word tok : form_of tok = FWord <-> word tok.
Proof.
  unfold word. destruct tok as [|x t]; [split; [right; discriminate|reflexivity]|].
  destruct (Byte.eqb x c_dash) eqn:Ex.
  - apply Byte.byte_dec_bl in Ex. subst x. destruct t as [|y t]; [split; [left; reflexivity|reflexivity]|]. split.
    + intros H. exfalso. unfold form_of, c_dash in H. destruct y; try discriminate. destruct t as [|z t]; [discriminate|].
      destruct (cut_eq (z :: t)); discriminate.
    + intros [H|H]; [discriminate|]. elim (H (y :: t)). reflexivity.
  - assert (Hx : x <> c_dash) by (intros ->; discriminate). split.
    + intros _. right. intros b E. injection E as E _. contradiction.
    + intros _. cbn. destruct x; try reflexivity. elim Hx. reflexivity.
Qed.
Lemma form_sep tok : form_of tok = FSep <-> tok = bs "--".
Proof.
  rewrite form_of_eq. split.
  - destruct (beqb tok [c_dash; c_dash]) eqn:E; [intros _; apply beqb_eq; exact E|].
    destruct (strip_prefix [c_dash; c_dash] tok) as [b|]; [destruct (cut_eq b); discriminate|].
    destruct (as_bundle tok); discriminate.
  - intros ->. reflexivity.
Qed.
Lemma cut_eq_join (b s : bytes) v : cut_eq b = (s, v) ->
  b = match v with Some w => s ++ bs "=" ++ w | None => s end.
Proof.
  revert s v. induction b as [|x b IH]; intros s v E; [injection E as <- <-; reflexivity|].
  cbn in E. destruct (Byte.eqb x c_eq) eqn:Ex.
  - apply Byte.byte_dec_bl in Ex. subst x. injection E as <- <-. reflexivity.
  - assert (E' : (let '(l, r) := cut_eq b in (x :: l, r)) = (s, v)) by (destruct x; try exact E; discriminate Ex).
    clear E. destruct (cut_eq b) as [l r]. injection E' as <- <-. rewrite (IH l r eq_refl). destruct r; reflexivity.
Qed.
Lemma form_long_inv tok (s : bytes) v : form_of tok = FLong s v ->
  tok = match v with Some w => spell_eq (Long s) w | None => spell (Long s) end.
Proof.
  rewrite form_of_eq. destruct (beqb tok [c_dash; c_dash]); [discriminate|].
  destruct (strip_prefix [c_dash; c_dash] tok) as [b|] eqn:E; [|destruct (as_bundle tok); discriminate].
  apply strip_prefix_Some in E. destruct (cut_eq b) as [s' v'] eqn:Ec. intros H. injection H as -> ->.
  apply cut_eq_join in Ec. subst tok b. destruct v; reflexivity.
Qed.
Lemma form_bundle_inv tok (b : bytes) : form_of tok = FBundle b ->
  tok = bs "-" ++ b /\ b <> [] /\ forall w, b <> c_dash :: w.
Proof.
  destruct tok as [|x t]; [discriminate|]. destruct (Byte.eqb x c_dash) eqn:Ex.
  - apply Byte.byte_dec_bl in Ex. subst x. destruct t as [|y t]; [discriminate|].
    destruct (Byte.eqb y c_dash) eqn:Ey.
    + apply Byte.byte_dec_bl in Ey. subst y. destruct t as [|z t]; [discriminate|].
      unfold form_of, c_dash. destruct (cut_eq (z :: t)); discriminate.
    + intros H. assert (b = y :: t) as -> by (cbn in H; destruct y; try (injection H as <-; reflexivity); discriminate Ey).
      split; [reflexivity|]. split; [discriminate|]. intros w C. injection C as -> _. discriminate Ey.
  - intros H. exfalso. cbn in H. destruct x; try discriminate H. discriminate Ex.
Qed.

(** *** From the reader to the grammar *)

Lemma no_dash_name stk : stack_ok stk -> resolve stk (Short (b2n "-")) = None.
Proof.
  intros Hok. destruct (resolve stk (Short (b2n "-"))) as [[ad a]|] eqn:E; [|reflexivity].
  destruct (name_facts _ _ _ _ Hok E) as (_ & _ & _ & H & _). elim H. reflexivity.
Qed.
Lemma no_eq_name stk : stack_ok stk -> resolve stk (Short (b2n "=")) = None.
Proof.
  intros Hok. destruct (resolve stk (Short (b2n "="))) as [[ad a]|] eqn:E; [|reflexivity].
  destruct (name_facts _ _ _ _ Hok E) as (_ & _ & _ & _ & H). elim H. reflexivity.
Qed.

Lemma drain_words choose stk p it : read choose (Drain stk p) it = (map (word_occ stk p) it, Go (Drain stk p)).
Proof. induction it as [|t it IH]; [reflexivity|]. cbn [Spec.read Spec.step]. rewrite IH. reflexivity. Qed.

Lemma read_fills toks : forall stk ps os st,
  read first_named (Verbatim stk ps) toks = (os, Go st) -> fills stk ps toks os /\ state_stack st = stk /\ complete st.
Proof.
  induction toks as [|w ws IH]; intros stk ps os st H.
  - injection H as <- <-. split; [constructor|]. split; reflexivity.
  - rewrite read_cons in H. cbn [step] in H. unfold take_word in H. destruct ps as [|p ps]; [discriminate|].
    cbn [orb] in H. unfold then_read in H. cbn [fst snd] in H. destruct (greedy p) eqn:Eg.
    + rewrite drain_words in H. injection H as <- <-. split; [|split; reflexivity].
      exact (fills_greedy stk p ps w ws Eg).
    + destruct (read first_named (Verbatim stk (if many p then p :: ps else ps)) ws) as [os2 out] eqn:E.
      cbn [fst snd app] in H. injection H as <- ->. destruct (IH _ _ _ _ E) as (H1 & H2 & H3).
      split; [|auto]. exact (fills_word stk p ps w ws os2 Eg H1).
Qed.

Lemma bare_accounts stk ps n ad a post os st :
  (forall post', length post' <= length post -> forall os st, read first_named (Normal stk ps) post' = (os, Go st) -> complete st ->
     accounts stk ps post' os (state_stack st)) ->
  stack_ok stk -> resolve stk n = Some (ad, a) ->
  then_read first_named (bare stk ps ad a) post = (os, Go st) -> complete st ->
  accounts stk ps (spell n :: post) os (state_stack st).
Proof.
  intros IH Hok Hr H Hc. unfold bare in H. destruct (takes_value a) eqn:Et.
  - destruct (needs_equals a) eqn:Eq; [discriminate|]. unfold then_read in H. cbn [fst snd] in H.
    destruct post as [|t post].
    + cbn in H. injection H as <- <-. contradiction.
    + rewrite read_cons in H. cbn [step] in H. destruct (may_follow a t) eqn:Em; [|discriminate].
      unfold then_read in H. cbn [fst snd] in H. destruct (read first_named (Normal stk ps) post) as [os2 out] eqn:E2.
      cbn [fst snd app] in H. injection H as <- ->.
      refine (acc_option stk ps [spell n; t] ad a (Some t) post os2 (state_stack st) _ (IH post _ _ _ E2 Hc)).
      * exact (writes_value stk n ad a t _ Hr Et (gives_next a n t Eq Em)).
      * cbn. lia.
  - unfold then_read in H. cbn [fst snd] in H. destruct (read first_named (Normal stk ps) post) as [os2 out] eqn:E2.
    cbn [fst snd app] in H. injection H as <- ->.
    refine (acc_option stk ps [spell n] ad a None post os2 (state_stack st) (writes_bare stk n ad a Hr Et) (IH post _ _ _ E2 Hc)). lia.
Qed.

Lemma bundle_accounts stk ps cs junk post : forall os st,
  (forall post', length post' <= length post -> forall os st, read first_named (Normal stk ps) post' = (os, Go st) -> complete st ->
     accounts stk ps post' os (state_stack st)) ->
  stack_ok stk -> utf8_prefix (encode_all cs ++ junk) = (cs, junk) -> encode_all cs ++ junk <> [] ->
  then_read first_named (read_bundle stk ps cs junk) post = (os, Go st) -> complete st ->
  accounts stk ps ((bs "-" ++ encode_all cs ++ junk) :: post) os (state_stack st).
Proof.
  induction cs as [|c cs IHc]; intros os st IH Hok Hp Hne H Hc.
  - cbn in H. destruct junk; [contradiction|discriminate].
  - rewrite read_bundle_cons in H. destruct (resolve stk (Short c)) as [[ad a]|] eqn:Hr; [|discriminate].
    change (encode_all (c :: cs)) with (utf8_encode c ++ encode_all cs) in Hp |- *.
    rewrite <- app_assoc in Hp |- *.
    destruct (name_facts _ _ _ _ Hok Hr) as (_ & _ & Hs & _). rewrite utf8_prefix_cons in Hp by exact Hs.
    destruct (utf8_prefix (encode_all cs ++ junk)) as [cs' junk'] eqn:Ep. injection Hp as -> ->.
    destruct (strip_prefix [c_eq] (encode_all cs ++ junk)) as [v|] eqn:Es.
    + apply strip_prefix_Some in Es. destruct (takes_value a) eqn:Et.
      * unfold then_read in H. cbn [fst snd] in H. destruct (read first_named (Normal stk ps) post) as [os2 out] eqn:E2.
        cbn [fst snd app] in H. injection H as <- ->. rewrite Es.
        refine (acc_option stk ps [spell_eq (Short c) v] ad a (Some v) post os2 (state_stack st) _ (IH post _ _ _ E2 Hc)); [|lia].
        exact (writes_value stk (Short c) ad a v _ Hr Et (gives_eq a (Short c) v)).
      * exfalso. rewrite Es in Ep. change ([c_eq] ++ v) with (utf8_encode 61%N ++ v) in Ep. rewrite utf8_prefix_cons in Ep by reflexivity.
        destruct (utf8_prefix v) as [cs'' junk'']. injection Ep as <- _. cbn [read_bundle] in H.
        change 61%N with (b2n "=") in H. rewrite (no_eq_name stk Hok) in H. discriminate.
    + assert (Hneq : forall w, encode_all cs ++ junk <> c_eq :: w).
      { intros w C. rewrite C in Es. discriminate. }
      destruct (encode_all cs ++ junk) as [|x t] eqn:Et.
      * rewrite app_nil_r. change (bs "-" ++ utf8_encode c) with (spell (Short c)).
        eapply bare_accounts; eauto.
      * destruct (needs_equals a) eqn:Eq; [discriminate|]. destruct (takes_value a) eqn:Etv.
        -- unfold then_read in H. cbn [fst snd] in H. destruct (read first_named (Normal stk ps) post) as [os2 out] eqn:E2.
           cbn [fst snd app] in H. injection H as <- ->.
           refine (acc_option stk ps [spell (Short c) ++ x :: t] ad a (Some (x :: t)) post os2 (state_stack st) _ (IH post _ _ _ E2 Hc)); [|lia].
           exact (writes_value stk (Short c) ad a (x :: t) _ Hr Etv (gives_attached a (Short c) (x :: t) c eq_refl Eq ltac:(discriminate) Hneq)).
        -- destruct (read_bundle stk ps cs junk) as [os1 out1] eqn:Eb. unfold then_read in H. cbn [fst snd] in H.
           assert (H' : exists os', os = Occ ad a None :: os' /\ then_read first_named (os1, out1) post = (os', Go st)).
           { unfold then_read. cbn [fst snd]. destruct out1 as [st1|sp]; [|discriminate].
             destruct (read first_named st1 post) as [os2 out2]. cbn [fst snd app] in *. injection H as <- ->. eauto. }
           destruct H' as (os' & -> & H').
           refine (acc_bundle stk ps c ad a (x :: t) post os' (state_stack st) Hr Etv Eq ltac:(discriminate) Hneq _ _).
           ++ intros w C. injection C as -> _.
              change ("-"%byte :: t) with (utf8_encode 45%N ++ t) in Ep. rewrite utf8_prefix_cons in Ep by reflexivity.
              destruct (utf8_prefix t) as [cs'' junk'']. injection Ep as <- _. cbn [read_bundle] in Eb.
              change 45%N with (b2n "-") in Eb. rewrite (no_dash_name stk Hok) in Eb. injection Eb as <- <-. discriminate H'.
           ++ apply IHc; try assumption; [reflexivity|discriminate].
Qed.

Lemma sub_name_word (v : ident * variant_decl V) : word (sub_name v).
Proof. right. intros b E. exact (kebab_head _ _ _ E eq_refl). Qed.

Lemma first_named_some stk (tok : bytes) v : first_named (sub_variants stk) tok = Some v ->
  In v (sub_variants stk) /\ tok = sub_name v.
Proof. intros H. apply find_some in H. destruct H as [H1 H2]. apply beqb_eq in H2. auto. Qed.
Lemma first_named_none stk (tok : bytes) : first_named (sub_variants stk) tok = None <-> no_subcommand stk tok.
Proof.
  unfold no_subcommand, first_named. split.
  - intros H Hi. apply in_map_iff in Hi. destruct Hi as (v & E & Hv). pose proof (find_none _ _ H v Hv) as C. cbn in C.
    rewrite E, beqb_refl in C. discriminate.
  - intros H. destruct (find _ _) as [v|] eqn:E; [|reflexivity]. apply find_some in E. destruct E as [E1 E2].
    elim H. apply in_map_iff. exists v. apply beqb_eq in E2. auto.
Qed.

Lemma read_accounts n : forall toks stk ps os st, length toks <= n -> stack_ok stk ->
  read first_named (Normal stk ps) toks = (os, Go st) -> complete st -> accounts stk ps toks os (state_stack st).
Proof.
  induction n as [|n IH]; intros toks stk ps os st Hl Hok H Hc.
  - destruct toks; [|cbn in Hl; lia]. injection H as <- <-. constructor.
  - destruct toks as [|tok post]; [injection H as <- <-; constructor|]. cbn [length] in Hl.
    assert (IH' : forall post', length post' <= length post -> forall os st, read first_named (Normal stk ps) post' = (os, Go st) -> complete st ->
       accounts stk ps post' os (state_stack st)).
    { intros post' Hl' os' st' H' Hc'. apply (IH post' stk ps os' st'); try assumption. lia. }
    rewrite read_cons in H. cbn [step] in H. destruct (form_of tok) as [|s v|b|] eqn:Ef.
    + apply form_sep in Ef. subst tok. unfold then_read in H. cbn [fst snd app] in H.
      destruct (read first_named (Verbatim stk (after_sep stk ps)) post) as [os2 out] eqn:E2. cbn [fst snd] in H. injection H as <- ->.
      destruct (read_fills _ _ _ _ _ E2) as (Hf & -> & _). destruct stk as [|sc outer]; [apply acc_separator; [reflexivity|exact Hf]|].
      cbn [after_sep] in Hf. destruct (filter is_last (positionals (sc_decl sc))) as [|l ls] eqn:El.
      * apply acc_separator; [exact El|exact Hf].
      * apply acc_separator_last; cbn [last_args]; rewrite El; [discriminate|exact Hf].
    + apply form_long_inv in Ef. unfold read_long in H. destruct (resolve stk (Long s)) as [[ad a]|] eqn:Hr; [|discriminate].
      destruct v as [v|]; subst tok.
      * unfold then_read in H. cbn [fst snd] in H. destruct (read first_named (Normal stk ps) post) as [os2 out] eqn:E2.
        cbn [fst snd app] in H. injection H as <- ->.
        refine (acc_option stk ps [spell_eq (Long s) v] ad a (Some v) post os2 (state_stack st) _ (IH' post _ _ _ E2 Hc)); [|lia].
        destruct (takes_value a) eqn:Et.
        -- exact (writes_value stk (Long s) ad a v _ Hr Et (gives_eq a (Long s) v)).
        -- exact (writes_long stk s ad a v Hr Et).
      * eapply bare_accounts; eauto.
    + apply form_bundle_inv in Ef. destruct Ef as (-> & Hne & _). destruct (utf8_prefix b) as [cs junk] eqn:Ep.
      pose proof (prefix_rest b) as Eb. rewrite Ep in Eb. cbn [fst snd] in Eb. subst b.
      apply bundle_accounts; assumption.
    + apply form_word in Ef. destruct (first_named (sub_variants stk) tok) as [v|] eqn:Ev.
      * pose proof (choose_ok first_named first_named_in _ _ _ Hok Ev) as Hok'.
        apply first_named_some in Ev. destruct Ev as [Hv ->]. unfold then_read in H. cbn [fst snd app] in H.
        destruct (read first_named (Normal (variant_scope v :: stk) (positionals (sc_decl (variant_scope v)))) post) as [os2 out] eqn:E2.
        cbn [fst snd] in H. injection H as <- ->. apply acc_subcommand; [exact Hv|]. apply IH; try assumption. lia.
      * apply first_named_none in Ev. unfold take_word in H. destruct ps as [|p ps]; [discriminate|]. cbn [orb] in H.
        destruct (is_last p) eqn:El; [discriminate|]. cbn [negb] in H. unfold then_read in H. cbn [fst snd] in H.
        destruct (greedy p) eqn:Eg.
        -- rewrite drain_words in H. injection H as <- <-. exact (acc_trailing stk ps p tok post Ef Ev El Eg).
        -- destruct (read first_named (Normal stk (if many p then p :: ps else ps)) post) as [os2 out] eqn:E2. cbn [fst snd app] in H.
           injection H as <- ->. apply (acc_word stk ps p tok post os2 (state_stack st) Ef Ev El Eg). apply IH; try assumption. lia.
Qed.

(** *** From the grammar to the reader *)

Lemma fills_read stk ps ws os : fills stk ps ws os ->
  exists st, read first_named (Verbatim stk ps) ws = (os, Go st) /\ complete st /\ state_stack st = stk.
Proof.
  induction 1 as [ps|p ps w ws os Hg _ (st & E & Hc & Hs)|p ps w ws Hg].
  - eexists. split; [reflexivity|]. split; reflexivity.
  - exists st. split; [|auto]. rewrite read_cons. cbn [step take_word orb]. unfold take_word. cbn [orb]. rewrite Hg. unfold then_read. cbn [fst snd].
    rewrite E. reflexivity.
  - exists (Drain stk p). split; [|split; reflexivity]. rewrite read_cons. cbn [step]. unfold take_word. cbn [orb]. rewrite Hg. unfold then_read. cbn [fst snd].
    rewrite drain_words. reflexivity.
Qed.

Lemma first_named_distinct stk v : stack_distinct stk -> In v (sub_variants stk) -> first_named (sub_variants stk) (sub_name v) = Some v.
Proof.
  intros Hd Hv. destruct stk as [|s outer]; [contradiction|]. cbn [sub_variants] in *. inversion Hd as [|? ? Hs _]; subst.
  destruct (subcommand (sc_decl s)) as [[[id o] vs]|] eqn:E; [|contradiction]. destruct (distinct_sub _ _ _ _ Hs E) as [Hn _].
  clear E. unfold first_named. induction vs as [|v' vs IH]; [contradiction|]. cbn [find]. cbn [map] in Hn.
  apply NoDup_cons_iff in Hn. destruct Hn as [Hn1 Hn2]. destruct Hv as [->|Hv].
  - rewrite beqb_refl. reflexivity.
  - destruct (beqb (sub_name v') (sub_name v)) eqn:Eb; [|apply IH; assumption]. apply beqb_eq in Eb. elim Hn1.
    rewrite Eb. apply in_map. exact Hv.
Qed.

Lemma accounts_read stk ps toks os stk' : accounts stk ps toks os stk' -> stack_ok stk -> stack_distinct stk ->
  exists st, read first_named (Normal stk ps) toks = (os, Go st) /\ complete st /\ state_stack st = stk'.
Proof.
  induction 1 as [stk ps|stk ps toks ad a v post os stk' Hw _ IH|stk ps c ad a t post os stk' Hr Ht Hq H1 H2 H3 _ IH
    |stk ps v post os stk' Hv _ IH|stk ps p w post os stk' Hw Hn Hl Hg _ IH|stk ps p w ws Hw Hn Hl Hg
    |stk ps ws os Hl Hf|stk ps ws os Hl Hf]; intros Hok Hd.
  - eexists. split; [reflexivity|]. split; reflexivity.
  - destruct (IH Hok Hd) as (st & E & Hc & Hs). exists st. split; [|auto].
    rewrite read_app, (writes_reads _ _ _ _ _ _ Hok Hw). unfold then_read. cbn [fst snd]. rewrite E. reflexivity.
  - destruct (IH Hok Hd) as (st & E & Hc & Hs). exists st. split; [|auto].
    rewrite read_cons, read_bundle_flag; try assumption; [|exists ad, a; auto].
    rewrite (step_bare _ _ _ _ _ Hok Hr). unfold bare. rewrite Ht. unfold then_read at 2. cbn [fst snd].
    rewrite read_one. rewrite read_cons in E. destruct (step first_named (Normal stk ps) (bs "-" ++ t)) as [os1 out1].
    unfold then_read in *. cbn [fst snd] in *. destruct out1 as [st1|sp]; [|discriminate].
    destruct (read first_named st1 post) as [os2 out2]. cbn [fst snd app] in *. injection E as <- ->. reflexivity.
  - pose proof (first_named_distinct _ _ Hd Hv) as Ev.
    destruct (IH (choose_ok first_named first_named_in _ _ _ Hok Ev) (choice_distinct _ _ _ Hd Ev)) as (st & E & Hc & Hs).
    exists st. split; [|auto]. rewrite read_cons. cbn [step]. rewrite (proj2 (form_word _) (sub_name_word v)), Ev. unfold then_read. cbn [fst snd].
    rewrite E. reflexivity.
  - destruct (IH Hok Hd) as (st & E & Hc & Hs). exists st. split; [|auto]. rewrite read_cons. cbn [step].
    rewrite (proj2 (form_word _) Hw), (proj2 (first_named_none _ _) Hn). unfold take_word. rewrite Hl, Hg. cbn [orb negb].
    unfold then_read. cbn [fst snd]. rewrite E. reflexivity.
  - exists (Drain stk p). split; [|split; reflexivity]. rewrite read_cons. cbn [step].
    rewrite (proj2 (form_word _) Hw), (proj2 (first_named_none _ _) Hn). unfold take_word. rewrite Hl, Hg. cbn [orb negb].
    unfold then_read. cbn [fst snd]. rewrite drain_words. reflexivity.
  - destruct (fills_read _ _ _ _ Hf) as (st & E & Hc & Hs). exists st. split; [|auto]. rewrite read_cons. cbn [step].
    change (form_of (bs "--")) with (@FSep). unfold then_read. cbn [fst snd].
    replace (after_sep stk ps) with ps by (destruct stk; [reflexivity|]; cbn [after_sep last_args] in *; rewrite Hl; reflexivity).
    rewrite E. reflexivity.
  - destruct (fills_read _ _ _ _ Hf) as (st & E & Hc & Hs). exists st. split; [|auto]. rewrite read_cons. cbn [step].
    change (form_of (bs "--")) with (@FSep). unfold then_read. cbn [fst snd].
    replace (after_sep stk ps) with (last_args stk)
      by (destruct stk; [contradiction|]; cbn [after_sep last_args] in *; destruct (filter _ _); [contradiction|reflexivity]).
    rewrite E. reflexivity.
Qed.

Theorem accounts_iff d toks os stk : valid d ->
  (reads d toks os stk <-> accounts [Scope d [] false] (positionals d) toks os stk).
Proof.
  intros [Hd Hs]. pose proof (start_ok d Hd) as [Hok _]. cbn [state_stack start] in Hok. split.
  - intros (st & H & Hc & <-). exact (read_accounts (length toks) _ _ _ _ _ (le_n _) Hok H Hc).
  - intros H. apply accounts_read in H; [|exact Hok|constructor; [exact Hs|constructor]]. exact H.
Qed.
Lemma at_option_distinct d pre os stk rem : valid d -> at_option d pre os stk rem -> stack_distinct stk.
Proof.
  intros Hd H.
  assert (HH : forall toks st os st', stack_distinct (state_stack st) -> read first_named st toks = (os, Go st') -> stack_distinct (state_stack st')).
  { clear. induction toks as [|t toks IH]; intros st os st' Hs E; [injection E as <- <-; exact Hs|].
    cbn [read] in E. destruct (step first_named st t) as [o1 out] eqn:E1. destruct out as [st1|]; [|discriminate].
    destruct (read first_named st1 toks) as [o2 out2] eqn:E2. injection E as <- ->. eapply IH; [|exact E2].
    destruct (step_stack _ _ _ _ _ E1) as [->|(v & Hv & ->)]; [exact Hs|]. eapply choice_distinct; eauto. }
  apply (HH pre (start d) os (Normal stk rem)); [|exact H]. constructor; [apply Hd|constructor].
Qed.
Theorem accounts_at d pre os stk rem toks os' stk' : valid d -> at_option d pre os stk rem ->
  (reads d (pre ++ toks) (os ++ os') stk' <-> accounts stk rem toks os' stk').
Proof.
  intros Hd H. pose proof (at_option_ok _ _ _ _ _ Hd H) as (Hok & _).
  pose proof (at_option_distinct _ _ _ _ _ Hd H) as Hdis.
  split.
  - intros (st & Hr & Hc & <-). rewrite (at_option_app _ _ _ _ _ _ H) in Hr.
    destruct (read first_named (Normal stk rem) toks) as [os2 out] eqn:E. cbn [fst snd] in Hr. injection Hr as Hr ->.
    apply app_inv_head in Hr. subst os2. exact (read_accounts (length toks) _ _ _ _ _ (le_n _) Hok E Hc).
  - intros Ha. apply accounts_read in Ha; [|exact Hok|exact Hdis]. destruct Ha as (st & E & Hc & Hs). exists st. split; [|auto].
    rewrite (at_option_app _ _ _ _ _ _ H), E. reflexivity.
Qed.
End Grammar.
