(** Command lines cut short, and options left out. *)
From Verif Require Import Bytes BytesFacts Utf8 Utf8Facts Attrs AttrFacts Refl Error Values SortFacts
  Places Help Runtime Heck Decl Spec Derive Generated Observe CompileFacts InfoFacts TableFacts PlaceFacts
  ScopeFacts NamedFacts WordFacts FinishFacts ReadFacts SimFacts HelpFacts Refine ContextFacts SafeFacts
  FieldFacts ResultFacts ValueFacts OptionFacts SameFacts WriteFacts UnsaidFacts Grammar PositionalFacts WordValueFacts Parts Blame BlameFacts.

Section Drop.
Context {V : Type}.
Local Notation args_decl := (args_decl V).
Local Notation sarg := (sarg V).
Local Notation scope := (scope V).
Local Notation occ := (occ V).
Implicit Types (d : args_decl) (a : sarg) (stk : list scope) (os : list occ).

(** ** Prefixes *)

Lemma reads_more d pre post os stk os' stk' : valid d -> reads d pre os stk -> reads d (pre ++ post) os' stk' ->
  exists os2 inner, os' = os ++ os2 /\ stk' = inner ++ stk.
Proof.
  intros [Hd _] (st & H & _ & <-) (st' & H' & _ & <-). rewrite read_app, H in H'. unfold then_read in H'. cbn [fst snd] in H'.
  destruct (read first_named st post) as [os2 out] eqn:E. injection H' as <- ->.
  destruct (read_ok first_named first_named_in _ _ _ _ (start_ok d Hd) H) as (Hst & _).
  destruct (read_ok first_named first_named_in _ _ _ _ Hst E) as (_ & _ & inner & ->). eauto.
Qed.
Lemma given_more os os2 ad : given os ad = true -> given (os ++ os2) ad = true.
Proof. rewrite !given_values, values_of_app. destruct (values_of os ad); [discriminate|reflexivity]. Qed.

Theorem cut_short d (argv0 : bytes) pre post o e : valid d ->
  try_parse_from d (argv0 :: pre ++ post) = Ok o -> try_parse_from d (argv0 :: pre) = Err e ->
  e_kind e = MissingValue \/ e_kind e = MissingRequiredArgument \/ e_kind e = ConstraintRequired \/
  e_kind e = MissingRequiredSubcommand.
Proof.
  intros Hd Ho He.
  assert (Hn : ~ about_token (e_kind e)).
  { intros C. rewrite (first_mistake d argv0 pre e Hd He C post) in Ho. discriminate. }
  destruct (success _ _ _ _ Hd Ho) as (os' & stk' & Hr' & Hb' & Hs & _).
  pose proof (error_blame _ _ _ _ Hd He) as HB.
  destruct HB; cbn [e_kind error_about error_on extra_word err_new] in *; auto; exfalso; try (apply Hn; exact I).
  - apply Hn. unfold extra_word. destruct (has_subcommand stk); exact I.
  - apply Hn. unfold extra_word. destruct (has_subcommand stk); exact I.
  - destruct (reads_more _ _ _ _ _ _ _ Hd H Hr') as (os2 & inner & -> & ->).
    pose proof (sat_conflicts _ _ Hs _ _ _ (stack_args_app inner _ _ H0) (given_more _ os2 _ H1) H2) as C.
    rewrite (given_more _ os2 _ H3) in C. discriminate.
  - destruct (reads_more _ _ _ _ _ _ _ Hd H Hr') as (os2 & inner & -> & ->).
    pose proof (sat_exclusive _ _ Hs _ _ _ _ (stack_args_app inner _ _ H0) (stack_args_app inner _ _ H3) H1 (given_more _ os2 _ H2) H4 H5) as C.
    rewrite (given_more _ os2 _ H6) in C. discriminate.
  - destruct (reads_more _ _ _ _ _ _ _ Hd H Hr') as (os2 & inner & -> & ->).
    pose proof (sat_exclusive_sub _ _ Hs _ _ (stack_args_app inner _ _ H0) H1 (given_more _ os2 _ H2) H3) as C.
    rewrite app_length in C. lia.
Qed.

(** ** An option left out *)

Lemma error_less a v : occ_error a true v = None -> occ_error a false v = None.
Proof.
  unfold occ_error. destruct (value_error a true (folded a v)) as [e|] eqn:E; [destruct (is_option a); discriminate|].
  intros _. assert (E' : value_error a false (folded a v) = None).
  { unfold value_error in *. destruct (shape_a a); try discriminate; try exact E. destruct (folded a v); discriminate. }
  rewrite E'. reflexivity.
Qed.
Lemma bad_less os : forall b b', (forall ad, given b' ad = true -> given b ad = true) ->
  first_bad b os = None -> first_bad b' os = None.
Proof.
  induction os as [|oc os IH]; intros b b' H Hb; [reflexivity|]. cbn [first_bad] in *.
  destruct (occ_error (oc_arg oc) (given b (oc_addr oc)) (oc_val oc)) eqn:E; [discriminate|].
  assert (E' : occ_error (oc_arg oc) (given b' (oc_addr oc)) (oc_val oc) = None).
  { destruct (given b' (oc_addr oc)) eqn:G; [rewrite (H _ G) in E; exact E|].
    destruct (given b (oc_addr oc)); [apply error_less; exact E|exact E]. }
  rewrite E'. apply (IH _ (b' ++ [oc])) in Hb; [exact Hb|]. intros ad G. rewrite given_values, values_of_app in *.
  specialize (H ad). rewrite !given_values in H. destruct (values_of b' ad); cbn [app nonempty] in *.
  - destruct (values_of b ad); [exact G|reflexivity].
  - specialize (H eq_refl). destruct (values_of b ad); [discriminate|reflexivity].
Qed.
Lemma no_error_without os1 os2 ad a v : no_error_in (os1 ++ Occ ad a v :: os2) -> no_error_in (os1 ++ os2).
Proof.
  unfold no_error_in. rewrite !first_bad_app. destruct (first_bad [] os1); [discriminate|]. cbn [app first_bad oc_addr oc_arg oc_val].
  destruct (occ_error a (given os1 ad) v); [discriminate|]. apply bad_less. intros ad' G. apply given_more. exact G.
Qed.
Lemma given_without os1 os2 ad a v ad' : ad' <> ad -> given (os1 ++ Occ ad a v :: os2) ad' = given (os1 ++ os2) ad'.
Proof.
  intros Hne. rewrite !given_values, values_insert, values_of_app. destruct (addr_eqb ad' ad) eqn:E; [|reflexivity].
  apply addr_eqb_eq in E. contradiction.
Qed.

Theorem left_out d (argv0 : bytes) pre os stk rem toks ad a v post o : valid d -> defaults_readable d = true ->
  at_option d pre os stk rem -> writes stk toks ad a v -> try_parse_from d (argv0 :: pre ++ toks ++ post) = Ok o ->
  match try_parse_from d (argv0 :: pre ++ post) with
  | Ok o' => entered o' = entered o /\
      exists os' stk', reads d (pre ++ post) os' stk' /\
        (forall ad' b, In (ad', b) (stack_args stk') -> ad' <> ad -> field_at ad' o' = field_at ad' o) /\
        (many a = false -> field_at ad o' = field_value a [])
  | Err e => e = error_about MissingRequiredArgument a \/ e = error_about ConstraintRequired a
  | Panic _ => False
  end.
Proof.
  intros Hd Hdr Hat Hw Ho. pose proof (at_option_stack _ _ _ _ _ Hd Hat) as Hok0.
  pose proof (writes_reads _ rem _ _ _ _ Hok0 Hw) as Hwr. pose proof (writes_arg _ _ _ _ _ Hok0 Hw) as [Hin0 _].
  destruct (success _ _ _ _ Hd Ho) as (osf & stk' & Hr & Hb & Hs & Hfv & Hen).
  destruct (reads_ok _ _ _ _ Hd Hr) as (Hl & Hok & _). pose proof Hr as (st & Er & Hc & Es).
  rewrite (at_option_app _ _ _ _ _ _ Hat), read_app, Hwr in Er. unfold then_read in Er. cbn [fst snd] in Er.
  destruct (read first_named (Normal stk rem) post) as [os2 out] eqn:Ep. cbn [fst snd app] in Er.
  assert (E1 : osf = os ++ Occ ad a v :: os2) by congruence. assert (E2 : out = Go st) by congruence. subst osf out. clear Er.
  assert (Hr' : reads d (pre ++ post) (os ++ os2) stk').
  { exists st. split; [|auto]. rewrite (at_option_app _ _ _ _ _ _ Hat), Ep. reflexivity. }
  assert (Hin : In (ad, a) (stack_args stk')).
  { rewrite <- Es. destruct (at_option_ok _ _ _ _ _ Hd Hat) as (_ & Hrem & _).
    destruct (read_ok first_named first_named_in _ (Normal stk rem) _ _ (conj Hok0 Hrem) Ep) as (_ & _ & inner & ->). apply stack_args_app. exact Hin0. }
  pose proof (no_error_without _ _ _ _ _ Hb) as Hb'.
  assert (Hself : forall b, In (ad, b) (stack_args stk') -> b = a) by (intros b Hb0; eapply stack_args_unique; eassumption).
  assert (Hmiss : forall ad' b, In (ad', b) (stack_args stk') -> given (os ++ Occ ad a v :: os2) ad' = true ->
    given (os ++ os2) ad' = false -> b = a).
  { intros ad' b Hb0 G1 G2. destruct (addr_eqb ad' ad) eqn:E; [apply addr_eqb_eq in E; subst ad'; apply Hself; exact Hb0|].
    rewrite given_without in G1; [congruence|]. intros C. rewrite C in E. rewrite (proj2 (addr_eqb_eq _ _) eq_refl) in E. discriminate. }
  destruct (try_parse_from d (argv0 :: pre ++ post)) as [o'|e|p] eqn:Ho'.
  - destruct (success_reads _ _ _ _ _ _ Hd Ho' Hr') as (_ & _ & Hfv' & Hen'). split; [congruence|].
    exists (os ++ os2), stk'. split; [exact Hr'|]. split.
    + intros ad' b Hb0 Hne. rewrite (proj1 (Hfv ad' b Hb0)), (proj1 (Hfv' ad' b Hb0)), values_insert, values_of_app.
      destruct (addr_eqb ad' ad) eqn:E; [apply addr_eqb_eq in E; contradiction|reflexivity].
    + intros Hm. rewrite (proj1 (Hfv' ad a Hin)). f_equal.
      pose proof (at_most_once _ _ _ _ _ _ _ _ Hd Ho Hr Hin Hm) as Hle. rewrite values_insert, !app_length in Hle.
      rewrite (proj2 (addr_eqb_eq ad ad) eq_refl) in Hle. cbn [length] in Hle. rewrite values_of_app.
      destruct (values_of os ad); [|cbn [length] in Hle; lia]. destruct (values_of os2 ad); [reflexivity|cbn [length] in Hle; lia].
  - assert (Hf : finish_stack (os ++ os2) stk' None = Err e).
    { rewrite parse_conclude in Ho' by exact Hd. destruct Hr' as (st' & E & Hc' & <-). rewrite E, conclude_complete in Ho' by assumption. exact Ho'. }
    destruct (finish_stack_Err _ _ _ _ Hok Hf) as (inner & s & outer & u & Ek & Hu & Has & HB).
    pose proof (error_blame _ _ _ _ Hd Ho') as HB2.
    assert (Hn : ~ about_token (e_kind e) /\ e_kind e <> MissingValue) by (split; [intros C|intros C]; destruct HB; try exact C; discriminate C).
    destruct Hn as [Hn1 Hn2]. clear HB inner s outer u Ek Hu Has Hf.
    destruct HB2 as [| | | | | | | | | |os0 stk0 ad' b H0 Hi Hq Hg|os0 stk0 ad' b id c H0 Hi Hg Hid Hib Hgb|os0 stk0 ad' b id H0 Hi Hg Hid Hgb
      |os0 stk0 ad' b ad2 c H0 Hi Hx Hg Hib Hsame Hne Hgb|os0 stk0 ad' b H0 Hi Hx Hg Hof Hl0|os0 s outer id vs H0 Hsub];
      try (exfalso; apply Hn1; exact I); try (exfalso; apply Hn2; reflexivity);
      try (exfalso; apply Hn1; unfold extra_word; destruct (has_subcommand stk0); exact I).
    + destruct (reads_unique _ _ _ _ _ _ H0 Hr') as [-> ->]. left.
      rewrite (Hmiss ad' b Hi (sat_required _ _ Hs _ _ Hi Hq) Hg). reflexivity.
    + destruct (reads_unique _ _ _ _ _ _ H0 Hr') as [-> ->]. right.
      rewrite (Hmiss _ c Hib (sat_requires _ _ Hs _ _ _ Hi (given_insert _ _ _ _ _ _ Hg) Hid) Hgb). reflexivity.
    + destruct (reads_unique _ _ _ _ _ _ H0 Hr') as [-> ->]. exfalso.
      pose proof (sat_conflicts _ _ Hs _ _ _ Hi (given_insert os os2 ad a v _ Hg) Hid) as C. rewrite (given_insert _ _ _ _ _ _ Hgb) in C. discriminate.
    + destruct (reads_unique _ _ _ _ _ _ H0 Hr') as [-> ->]. exfalso.
      pose proof (sat_exclusive _ _ Hs _ _ _ _ Hi Hib Hx (given_insert os os2 ad a v _ Hg) Hsame Hne) as C.
      rewrite (given_insert _ _ _ _ _ _ Hgb) in C. discriminate.
    + destruct (reads_unique _ _ _ _ _ _ H0 Hr') as [-> ->]. exfalso.
      pose proof (sat_exclusive_sub _ _ Hs _ _ Hi Hx (given_insert os os2 ad a v _ Hg) Hof). lia.
    + destruct (reads_unique _ _ _ _ _ _ H0 Hr') as [-> E]. exfalso. rewrite <- E in Hs. exact (sat_subcommand _ _ Hs s outer id vs eq_refl Hsub).
  - exact (no_panic d (argv0 :: pre ++ post) p (proj1 Hd) Hdr Ho').
Qed.
(** ** Another value *)

Lemma satisfied_same os os' stk : (forall ad, given os ad = given os' ad) -> satisfied os stk -> satisfied os' stk.
Proof.
  intros H [S1 S2 S3 S4 S5 S6]. constructor; try exact S6.
  - intros ad a Hi Hq. rewrite <- H. eauto.
  - intros ad a id Hi Hg Hc. rewrite <- H in *. eauto.
  - intros ad a id Hi Hg Hc. rewrite <- H in *. eauto.
  - intros ad a ad' b Hi Hi' Hx Hg Hs Hne. rewrite <- H in *. eauto.
  - intros ad a Hi Hx Hg Ho. rewrite <- H in *. eauto.
Qed.
Lemma given_change os1 os2 ad a v v' ad' : given (os1 ++ Occ ad a v :: os2) ad' = given (os1 ++ Occ ad a v' :: os2) ad'.
Proof.
  rewrite !given_values, !values_insert. destruct (values_of os1 ad'); [|reflexivity]. destruct (addr_eqb ad' ad); reflexivity.
Qed.

Theorem changed d (argv0 : bytes) toks toks' os1 os2 ad a v v' stk o : valid d -> defaults_readable d = true ->
  reads d toks (os1 ++ Occ ad a (Some v) :: os2) stk -> reads d toks' (os1 ++ Occ ad a (Some v') :: os2) stk ->
  try_parse_from d (argv0 :: toks) = Ok o ->
  match try_parse_from d (argv0 :: toks') with
  | Ok o' => entered o' = entered o /\
      (forall ad' b, In (ad', b) (stack_args stk) -> ad' <> ad -> field_at ad' o' = field_at ad' o) /\
      (exists before after fv fv', field_at ad o = Some fv /\ denotes a (before ++ Some (text_of a v) :: after) fv /\
       field_at ad o' = Some fv' /\ denotes a (before ++ Some (text_of a v') :: after) fv' /\
       (many a = false -> before = [] /\ after = [])) /\
      (forall p, In p (pieces a (text_of a v')) -> exists x, read_value (value_of_ty (sa_ty a)) p = inl x)
  | Err e => exists p x, In p (pieces a (text_of a v')) /\ read_value (value_of_ty (sa_ty a)) p = inr x /\
      e = mkError InvalidValue (named a) (Some p) (e_source x) (e_context x) None
  | Panic _ => False
  end.
Proof.
  intros Hd Hdr Hr Hr' Ho. destruct (success_reads _ _ _ _ _ _ Hd Ho Hr) as (Hb & Hs & Hfv & Hen).
  destruct (reads_ok _ _ _ _ Hd Hr) as (_ & Hok & Hk). rewrite Forall_app in Hk. destruct Hk as [_ Hk].
  inversion Hk as [|? ? Hin _]; subst. unfold known in Hin. cbn [oc_addr oc_arg] in Hin. clear Hk.
  pose proof (arg_in_stack _ _ _ Hok Hin) as Ha.
  pose proof Hb as Hb0. unfold no_error_in in Hb0. rewrite first_bad_app in Hb0.
  destruct (first_bad [] os1) eqn:E1; [discriminate|]. cbn [app first_bad oc_arg oc_addr oc_val] in Hb0.
  destruct (occ_error a (given os1 ad) (Some v)) eqn:E2; [discriminate|].
  assert (Hfl : shape_a a <> ShFlag) by (intros C; exact (occ_error_inline a _ v C E2)).
  destruct (occ_error a (given os1 ad) (Some v')) as [e|] eqn:E3.
  - assert (Hp : try_parse_from d (argv0 :: toks') = Err e).
    { rewrite parse_conclude by exact Hd. destruct Hr' as (st & -> & _). unfold conclude. rewrite first_bad_app, E1.
      cbn [app first_bad oc_arg oc_addr oc_val]. rewrite E3. reflexivity. }
    rewrite Hp. apply (occ_error_kinds _ _ _ _ Ha) in E3; [|discriminate].
    destruct E3 as [(H1 & H2 & _)|(w & Ew & [(H1 & _)|(_ & q & x & H2 & H3 & ->)])].
    + rewrite H2 in E2. destruct (occ_error_twice a (Some v) H1 E2).
    + contradiction.
    + injection Ew as <-. exists q, x. auto.
  - assert (Hb' : no_error_in (os1 ++ Occ ad a (Some v') :: os2)).
    { unfold no_error_in. rewrite first_bad_app, E1. cbn [app first_bad oc_arg oc_addr oc_val]. rewrite E3, <- Hb0.
      apply first_bad_ext. intros ad'. apply given_change. }
    destruct (proj2 (success_iff d argv0 toks' Hd Hdr)) as [o' Ho'].
    { exists (os1 ++ Occ ad a (Some v') :: os2), stk. split; [exact Hr'|]. split; [exact Hb'|].
      eapply satisfied_same; [|exact Hs]. intros ad'. apply given_change. }
    rewrite Ho'. destruct (success_reads _ _ _ _ _ _ Hd Ho' Hr') as (_ & _ & Hfv' & Hen'). split; [congruence|]. split; [|split].
    + intros ad' b Hi Hne. rewrite (proj1 (Hfv ad' b Hi)), (proj1 (Hfv' ad' b Hi)), !values_insert.
      destruct (addr_eqb ad' ad) eqn:E; [apply addr_eqb_eq in E; contradiction|reflexivity].
    + assert (Hg : forall w, given (os1 ++ Occ ad a w :: os2) ad = true).
      { intros w. rewrite given_values, values_insert, (proj2 (addr_eqb_eq ad ad) eq_refl). destruct (values_of os1 ad); reflexivity. }
      destruct (given_value _ _ _ _ _ _ _ _ Hd Ho Hr Hin (Hg _)) as (fv & Hf & Hdn).
      destruct (given_value _ _ _ _ _ _ _ _ Hd Ho' Hr' Hin (Hg _)) as (fv' & Hf' & Hdn').
      rewrite values_insert, (proj2 (addr_eqb_eq ad ad) eq_refl), !map_app in Hdn, Hdn'. cbn [map option_map app] in Hdn, Hdn'.
      exists (map (option_map (text_of a)) (values_of os1 ad)), (map (option_map (text_of a)) (values_of os2 ad)), fv, fv'.
      repeat (split; [assumption|]). intros Hm. pose proof (at_most_once _ _ _ _ _ _ _ _ Hd Ho' Hr' Hin Hm) as Hle.
      rewrite values_insert, (proj2 (addr_eqb_eq ad ad) eq_refl), !app_length in Hle. cbn [length] in Hle.
      destruct (values_of os1 ad); [|cbn [length] in Hle; lia]. destruct (values_of os2 ad); [|cbn [length] in Hle; lia]. split; reflexivity.
    + intros q Hq. destruct (read_value (value_of_ty (sa_ty a)) q) as [x|x] eqn:E; [eauto|].
      destruct (occ_error_value a (given os1 ad) v' q x Ha Hfl Hq E E3).
Qed.

Theorem option_changed d (argv0 : bytes) pre os stk rem toks toks' ad a v v' post o : valid d -> defaults_readable d = true ->
  at_option d pre os stk rem -> writes stk toks ad a (Some v) -> writes stk toks' ad a (Some v') ->
  try_parse_from d (argv0 :: pre ++ toks ++ post) = Ok o ->
  match try_parse_from d (argv0 :: pre ++ toks' ++ post) with
  | Ok o' => entered o' = entered o /\
      (exists os' stk', reads d (pre ++ toks' ++ post) os' stk' /\
       forall ad' b, In (ad', b) (stack_args stk') -> ad' <> ad -> field_at ad' o' = field_at ad' o) /\
      (exists before after fv fv', field_at ad o = Some fv /\ denotes a (before ++ Some (text_of a v) :: after) fv /\
       field_at ad o' = Some fv' /\ denotes a (before ++ Some (text_of a v') :: after) fv' /\
       (many a = false -> before = [] /\ after = [])) /\
      (forall p, In p (pieces a (text_of a v')) -> exists x, read_value (value_of_ty (sa_ty a)) p = inl x)
  | Err e => exists p x, In p (pieces a (text_of a v')) /\ read_value (value_of_ty (sa_ty a)) p = inr x /\
      e = mkError InvalidValue (Some (describe a)) (Some p) (e_source x) (e_context x) None
  | Panic _ => False
  end.
Proof.
  intros Hd Hdr Hat Hw Hw' Ho. pose proof (at_option_stack _ _ _ _ _ Hd Hat) as Hok0.
  pose proof (writes_reads _ rem _ _ _ _ Hok0 Hw) as H1. pose proof (writes_reads _ rem _ _ _ _ Hok0 Hw') as H1'.
  pose proof (writes_arg _ _ _ _ _ Hok0 Hw) as [_ Hopt].
  destruct (success _ _ _ _ Hd Ho) as (osf & stk' & Hr & _). pose proof Hr as (st & Er & Hc & Es).
  rewrite (at_option_app _ _ _ _ _ _ Hat), read_app, H1 in Er. unfold then_read in Er. cbn [fst snd] in Er.
  destruct (read first_named (Normal stk rem) post) as [os2 out] eqn:Ep. cbn [fst snd app] in Er.
  assert (E1 : osf = os ++ Occ ad a (Some v) :: os2) by congruence. assert (E2 : out = Go st) by congruence. subst osf out. clear Er.
  assert (Hr' : reads d (pre ++ toks' ++ post) (os ++ Occ ad a (Some v') :: os2) stk').
  { exists st. split; [|auto]. rewrite (at_option_app _ _ _ _ _ _ Hat), read_app, H1'. unfold then_read. cbn [fst snd]. rewrite Ep. reflexivity. }
  pose proof (changed d argv0 _ _ _ _ _ _ _ _ _ _ Hd Hdr Hr Hr' Ho) as H. unfold named in H. rewrite Hopt in H.
  destruct (try_parse_from d (argv0 :: pre ++ toks' ++ post)) as [o'|e|q]; [|exact H|exact H].
  destruct H as (A & B & C & D). split; [exact A|]. split; [eauto|]. auto.
Qed.

Lemma word_state d pre os stk rem p : valid d -> at_option d pre os stk rem -> next_word stk os = Some p -> greedy p = false ->
  exists rem', forall w, word w -> no_subcommand stk w -> at_option d (pre ++ [w]) (os ++ [word_occ stk p w]) stk rem'.
Proof.
  intros Hd H Hp Hg. pose proof (next_rem _ _ _ _ _ Hd H) as Hx. rewrite Hp in Hx. destruct Hx as (rem' & -> & Hl & _).
  eexists. intros w Hw Hn. unfold at_option. rewrite (at_option_app _ _ _ _ _ _ H), read_one, step_word by assumption.
  unfold take_word. rewrite Hl, Hg. cbn [orb negb fst snd]. reflexivity.
Qed.

Theorem word_changed d (argv0 : bytes) pre os stk rem (w w' : bytes) p post o : valid d -> defaults_readable d = true ->
  at_option d pre os stk rem -> word w -> no_subcommand stk w -> word w' -> no_subcommand stk w' ->
  next_word stk os = Some p -> greedy p = false ->
  try_parse_from d (argv0 :: pre ++ w :: post) = Ok o ->
  match try_parse_from d (argv0 :: pre ++ w' :: post) with
  | Ok o' => entered o' = entered o /\
      (exists os' stk', reads d (pre ++ w' :: post) os' stk' /\
       forall ad' b, In (ad', b) (stack_args stk') -> ad' <> Addr (length stk - 1) [sa_id p] -> field_at ad' o' = field_at ad' o) /\
      (exists before after fv fv', field_at (Addr (length stk - 1) [sa_id p]) o = Some fv /\ denotes p (before ++ Some (text_of p w) :: after) fv /\
       field_at (Addr (length stk - 1) [sa_id p]) o' = Some fv' /\ denotes p (before ++ Some (text_of p w') :: after) fv' /\
       (many p = false -> before = [] /\ after = [])) /\
      (forall q, In q (pieces p (text_of p w')) -> exists x, read_value (value_of_ty (sa_ty p)) q = inl x)
  | Err e => exists q x, In q (pieces p (text_of p w')) /\ read_value (value_of_ty (sa_ty p)) q = inr x /\
      e = mkError InvalidValue None (Some q) (e_source x) (e_context x) None
  | Panic _ => False
  end.
Proof.
  intros Hd Hdr Hat Hw Hn Hw' Hn' Hp Hg Ho. destruct (word_state _ _ _ _ _ _ Hd Hat Hp Hg) as (rem' & Hx).
  pose proof (Hx w Hw Hn) as H1. pose proof (Hx w' Hw' Hn') as H1'. clear Hx.
  assert (Hopt : is_option p = false).
  { pose proof (next_rem _ _ _ _ _ Hd Hat) as Hx. rewrite Hp in Hx. destruct Hx as (r & _ & _ & E). exact E. }
  assert (Ex : forall x, pre ++ x :: post = (pre ++ [x]) ++ post) by (intros x; rewrite <- app_assoc; reflexivity).
  rewrite Ex in Ho |- *. 
  destruct (success _ _ _ _ Hd Ho) as (osf & stk' & Hr & _). pose proof Hr as (st & Er & Hc & Es).
  rewrite (at_option_app _ _ _ _ _ _ H1) in Er.
  destruct (read first_named (Normal stk rem') post) as [os2 out] eqn:Ep. cbn [fst snd] in Er. rewrite <- app_assoc in Er. cbn [app] in Er.
  assert (E1 : osf = os ++ word_occ stk p w :: os2) by congruence. assert (E2 : out = Go st) by congruence. subst osf out. clear Er.
  assert (Hr' : reads d ((pre ++ [w']) ++ post) (os ++ word_occ stk p w' :: os2) stk').
  { exists st. split; [|auto]. rewrite (at_option_app _ _ _ _ _ _ H1'), Ep. cbn [fst snd]. rewrite <- app_assoc. reflexivity. }
  pose proof (changed d argv0 _ _ _ _ _ _ _ _ _ _ Hd Hdr Hr Hr' Ho) as H. unfold named in H. rewrite Hopt in H.
  destruct (try_parse_from d (argv0 :: (pre ++ [w']) ++ post)) as [o'|e|q]; [|exact H|exact H].
  destruct H as (A & B & C & D). split; [exact A|]. split; [eauto|]. auto.
Qed.
End Drop.
