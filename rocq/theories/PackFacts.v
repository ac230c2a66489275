(** The tables of a struct: names, packed attributes, delimiters; subcommand names. *)
From Verif Require Import Bytes Utf8 Attrs Refl Error Values Places Heck Decl Spec Derive Generated Observe Parts.
From Verif Require Import BytesFacts Utf8Facts AttrFacts SortFacts HeckFacts PlaceFacts InfoFacts CompileFacts TableFacts ScopeFacts PartsFacts.
From Verif Require Import Refine ResultFacts OptionFacts PositionalFacts WriteFacts SimFacts ContextFacts FieldFacts NamedFacts.
From Coq Require Import Sorted.

Section Pack.
Context {V : Type}.
Implicit Types (d : args_decl V) (a : sarg V).

Lemma key_enc n : table_key n = enc_of n. Proof. destruct n; reflexivity. Qed.

Theorem option_table d n : accepted d -> (forall c, n = Short c -> scalar c) ->
  (exists w, get_named (info_of (fst (compile_args d))) (table_key n) = Some w) <->
  exists a, In a (own_args d) /\ has_name a n.
Proof.
  intros Hd Hn. rewrite key_enc.
  assert (Hok : name_ok n) by (destruct n; [exact I|]; apply scalar_spec; auto).
  pose proof (get_named_spec d n Hd Hok) as H. fold (impl d). destruct (find _ (own_args d)) as [a|] eqn:E.
  - apply find_some in E. destruct E as [Ha E]. apply has_nameb_spec in E. destruct H as (_ & i & _ & H). split; [eauto|]. intros _. eauto.
  - split; [intros [w C]; congruence|]. intros (a & Ha & C). apply has_nameb_spec in C. apply (find_none _ _ E) in Ha. cbn in Ha. congruence.
Qed.

Lemma arg_packed d i a : accepted d -> nth_error (checked d) i = Some a ->
  (is_option a = true -> packs_option a i (arg_attrs i a)) /\ (is_option a = false -> packs_positional a i (arg_attrs i a)).
Proof.
  intros Hd Hi. pose proof (accepted_checked d i a Hd Hi) as Ha. pose proof (checked_lt d i a Hd Hi) as Hl.
  split; intros Ho.
  - constructor.
    + eapply arg_attrs_index; eauto.
    + eapply flag_REQUIRE_VALUE; eassumption.
    + eapply flag_REQUIRE_EQ; eassumption.
    + eapply flag_GLOBAL; eassumption.
    + eapply flag_LOWER; eassumption.
    + eapply flag_ANY; eassumption.
    + eapply flag_NUM; eassumption.
    + eapply flag_opt_VAR_ARG; eassumption.
    + eapply flag_opt_LAST; eassumption.
  - constructor.
    + eapply arg_attrs_index; eauto.
    + eapply flag_VAR_ARG; eassumption.
    + eapply flag_GREEDY; eassumption.
    + eapply flag_LAST; eassumption.
Qed.

Theorem option_packed d n w : accepted d -> (forall c, n = Short c -> scalar c) ->
  get_named (info_of (fst (compile_args d))) (table_key n) = Some w ->
  exists a i, In a (own_args d) /\ has_name a n /\ nth_error (checked d) i = Some a /\ i < 255 /\ packs_option a i w.
Proof.
  intros Hd Hn H. rewrite key_enc in H. fold (impl d) in H. apply get_named_entry in H; [|exact Hd].
  destruct H as (i & a & Hi & Ho & Hen & ->). exists a, i. pose proof (accepted_checked d i a Hd Hi) as Ha.
  split; [apply in_checked; eapply nth_error_In; eauto|]. split.
  - apply has_nameb_spec. apply has_name_enc; auto. destruct n; [exact I|]. apply scalar_spec. auto.
  - split; [exact Hi|]. split; [|apply (arg_packed d i a Hd Hi); exact Ho].
    assert (Hl : i < length (checked d)) by (apply nth_error_Some; congruence). pose proof (checked_length d Hd). lia.
Qed.
Theorem positional_packed d j w : accepted d ->
  nth_error (ri_positional_attrs (info_of (fst (compile_args d)))) j = Some w ->
  exists a i, nth_error (positionals d) j = Some a /\ nth_error (checked d) i = Some a /\ i < 255 /\ packs_positional a i w.
Proof.
  intros Hd H. fold (impl d) in H. rewrite positional_attrs_nth in H by exact Hd.
  destruct (nth_error (positionals d) j) as [a|] eqn:E; [|discriminate]. injection H as <-.
  exists a, (named_cnt_of d + j). assert (Hi : nth_error (checked d) (named_cnt_of d + j) = Some a) by (rewrite checked_pos; exact E).
  split; [reflexivity|]. split; [exact Hi|]. split.
  - assert (Hl : named_cnt_of d + j < length (checked d)) by (apply nth_error_Some; congruence). pose proof (checked_length d Hd). lia.
  - apply (arg_packed d _ a Hd Hi). apply nth_error_In in E. unfold positionals in E. apply in_app_iff in E. rewrite !filter_In in E.
    destruct (is_option a); [|reflexivity]. cbn in E. destruct E as [[[_ C] _]|[[_ C] _]]; discriminate.
Qed.

(** ** Subcommand names *)

Theorem sub_table vs tok i :
  sub_search (sub_info_of (fst (compile_sub (V:=V) (MkSubDecl vs)))) tok = Some (tok, i) ->
  exists v, nth_error vs i = Some v /\ sub_name v = tok.
Proof. intros H. pose proof (sub_search_spec (V:=V) vs tok) as G. rewrite H in G. apply G. Qed.
Theorem sub_found vs v : In v vs ->
  exists i w, sub_search (sub_info_of (fst (compile_sub (V:=V) (MkSubDecl vs)))) (sub_name v) = Some (sub_name v, i) /\
    nth_error vs i = Some w /\ sub_name w = sub_name v.
Proof.
  intros H. pose proof (sub_search_spec (V:=V) vs (sub_name v)) as G.
  destruct (sub_search _ (sub_name v)) as [[n i]|]; [|elim (G v H eq_refl)].
  destruct G as (-> & w & Hw & E). eauto.
Qed.

(** In any command line: a variant whose name another one has too may be out of
    reach. *)
Lemma read_stack_inv choose (P : list (scope V) -> Prop) :
  (forall stk tok v, P stk -> choose (sub_variants stk) tok = Some v -> P (variant_scope v :: stk)) ->
  forall toks st os st', P (state_stack st) -> read choose st toks = (os, Go st') -> P (state_stack st').
Proof.
  intros HP. induction toks as [|tok toks IH]; intros st os st' Hs E.
  - injection E as _ <-. exact Hs.
  - cbn [read] in E. destruct (step choose st tok) as [os1 [st1|]] eqn:E1; [|discriminate].
    destruct (read choose st1 toks) as [os2 out] eqn:E2. injection E as _ ->. eapply IH; [|exact E2].
    destruct (step_stack _ _ _ _ _ E1) as [->|(v & Ev & ->)]; [exact Hs|]. eauto.
Qed.

(** ** Delimiters *)

Lemma cut_pieces_of a c b ps : arg_facts a -> am_value_delimiter (sa_meta a) = Some c -> pieces a b = ps <-> cut_at c b ps.
Proof.
  intros Ha E. assert (Hm : many a = true) by (apply (ar_delim a Ha); congruence).
  pose proof (ar_delim_scalar a Ha c E) as Hc. apply scalar_spec in Hc. destruct (split_on_unique c b Hc) as [H1 H2].
  unfold pieces. rewrite E, Hm. split; [intros <-; exact H1|]. intros H. symmetry. apply H2. exact H.
Qed.
Theorem delimited_field d (argv0 : bytes) toks o os stk ad a c :
  valid d -> try_parse_from d (argv0 :: toks) = Ok o -> reads d toks os stk -> In (ad, a) (stack_args stk) ->
  am_value_delimiter (sa_meta a) = Some c -> given os ad = true ->
  exists texts pss xs, values_of os ad = map Some texts /\ Forall2 (cut_at c) (map (text_of a) texts) pss /\
    reads_as (value_of_ty (sa_ty a)) (concat pss) xs /\
    (field_at ad o = Some (FvVec xs) \/ field_at ad o = Some (FvOptionVec (Some xs))).
Proof.
  intros Hd H Hr Hin E Hg.
  destruct (reads_ok d toks os stk Hd Hr) as (_ & Hok & _). pose proof (arg_in_stack stk ad a Hok Hin) as Ha.
  assert (Hm : many a = true) by (apply (ar_delim a Ha); congruence).
  assert (Hps : forall texts, Forall2 (cut_at c) (map (text_of a) texts) (map (pieces a) (map (text_of a) texts))).
  { intros texts. induction texts as [|t texts IH]; [constructor|]. constructor; [|exact IH]. apply (cut_pieces_of a c); auto. }
  unfold many in Hm. destruct (shape_a a) eqn:Es; try discriminate.
  - destruct (vec_value d argv0 toks o os stk ad a Hd H Hr Hin Es (or_introl Hg)) as (texts & xs & E1 & E2 & E3).
    exists texts, (map (pieces a) (map (text_of a) texts)), xs. rewrite <- flat_map_concat_map. auto.
  - destruct (optvec_value d argv0 toks o os stk ad a Hd H Hr Hin Es Hg) as (texts & xs & E1 & E2 & E3).
    exists texts, (map (pieces a) (map (text_of a) texts)), xs. rewrite <- flat_map_concat_map. auto.
Qed.
Theorem cut_exists c s : scalar c -> exists ps, cut_at c s ps /\ forall ps', cut_at c s ps' -> ps' = ps.
Proof. intros Hc. destruct (split_on_unique c s Hc). eauto. Qed.

End Pack.
