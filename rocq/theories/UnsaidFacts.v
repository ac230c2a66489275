(** Giving an argument the value its field has anyway. *)
From Verif Require Import Bytes BytesFacts Utf8 Utf8Facts Attrs AttrFacts Refl Error Values SortFacts
  Places Help Runtime Heck Decl Spec Derive Generated Observe CompileFacts InfoFacts TableFacts PlaceFacts
  ScopeFacts NamedFacts WordFacts FinishFacts ReadFacts SimFacts HelpFacts Refine ContextFacts SafeFacts
  FieldFacts ResultFacts ValueFacts OptionFacts SameFacts WriteFacts Unsaid.

Section Unsaid.
Context {V : Type}.
Local Notation args_decl := (args_decl V).
Local Notation sarg := (sarg V).
Local Notation scope := (scope V).
Local Notation occ := (occ V).
Implicit Types (d : args_decl) (a p : sarg) (s : scope) (stk : list scope) (os : list occ) (o : outval V).

(** ** More is given, with the same values *)

Definition agrees {A} (r r' : res A) : Prop :=
  match r, r' with
  | Ok x, Ok y => x = y
  | Ok _, Err e => about_company e
  | Ok _, Panic _ => False
  | _, _ => True
  end.
Lemma agrees_bind {A B} (r r' : res A) (f f' : A -> res B) : agrees r r' -> (forall x, agrees (f x) (f' x)) ->
  agrees (bind r f) (bind r' f').
Proof.
  intros H Hf. destruct r as [x|e|q]; cbn [bind]; [|exact I|exact I]. destruct r' as [y|e|q]; cbn in H; cbn [bind].
  - subst y. apply Hf.
  - destruct (f x); cbn; auto.
  - contradiction.
Qed.

Section More.
Variables os os' : list occ.
Hypothesis Hmore : forall ad, given os ad = true -> given os' ad = true.

Lemma error_about_kind k a : e_kind (error_about k a) = k.
Proof. reflexivity. Qed.
Lemma error_about_id_kind k d id : e_kind (error_about_id k d id) = k.
Proof. unfold error_about_id. destruct (find _ _); reflexivity. Qed.
Lemma violation_kind level path d sub a e : violation os' level path d sub a = Some e -> about_company e.
Proof.
  unfold violation, about_company. destruct (is_given os' level path (sa_id a)); [|discriminate].
  destruct (_ && _); [intros E; injection E as <-; auto|].
  destruct (find _ _); [intros E; injection E as <-; rewrite error_about_id_kind; auto|].
  destruct (find _ _); [intros E; injection E as <-; auto|discriminate].
Qed.
Lemma first_violation_kind level path d sub l e : first_violation os' level path d sub l = Some e -> about_company e.
Proof.
  induction l as [|a l IH]; [discriminate|]. cbn [first_violation].
  destruct (violation os' level path d sub a) as [e'|] eqn:E; [|exact IH]. intros H. injection H as ->.
  exact (violation_kind _ _ _ _ _ _ E).
Qed.
Lemma check_absent_more level path (l : list sarg) : check_absent os level path l = Ok tt -> check_absent os' level path l = Ok tt.
Proof.
  induction l as [|a l IH]; [auto|]. cbn [check_absent]. unfold is_given. destruct (given os (at_field level path (sa_id a))) eqn:E.
  - rewrite (Hmore _ E). exact IH.
  - destruct (is_required a); [discriminate|]. destruct (default_readable a); [|discriminate].
    intros H. destruct (given os' _); apply IH; exact H.
Qed.
Lemma finish_struct_more level path d flats sub :
  (forall a, In a (own_args d) -> field_value a (values_of os (at_field level path (sa_id a)))
                                 = field_value a (values_of os' (at_field level path (sa_id a)))) ->
  agrees (finish_struct os level path d flats sub) (finish_struct os' level path d flats sub).
Proof.
  intros Hf. unfold finish_struct.
  destruct (first_violation os level path d (is_some sub) (checked d)); [exact I|].
  destruct (check_absent os level path (checked d)) as [[]|e|q] eqn:Ea; cbn [bind]; [|exact I|exact I].
  destruct (first_violation os' level path d (is_some sub) (checked d)) as [e|] eqn:Ev.
  { apply first_violation_kind in Ev. destruct (subcommand d) as [[[id []] vs]|], sub; cbn; auto. }
  rewrite (check_absent_more _ _ _ Ea). cbn [bind].
  assert (E3 : direct_values os level path d = direct_values os' level path d).
  { unfold direct_values. apply flat_map_ext_in. intros a Ha. apply in_checked in Ha. rewrite (Hf a Ha). reflexivity. }
  rewrite E3. destruct (subcommand d) as [[[id []] vs]|], sub; cbn; auto.
Qed.
Lemma finish_args_more level d : forall path sub,
  (forall q a, In (q, a) (reach d) -> field_value a (values_of os (Addr level (path ++ q)))
                                   = field_value a (values_of os' (Addr level (path ++ q)))) ->
  agrees (finish_args os level path d sub) (finish_args os' level path d sub).
Proof.
  induction d as [d IH _] using decl_induction. intros path sub Hf. rewrite !finish_args_eq.
  assert (E : forall l acc acc', agrees acc acc' -> (forall fa, In fa l -> In fa (flattened d)) ->
    agrees (finish_flats os level path l acc) (finish_flats os' level path l acc')).
  { induction l as [|[id x] l IHl]; intros acc acc' Hacc Hl; [exact Hacc|]. unfold finish_flats in *. cbn [fold_left fst snd].
    assert (Hx : In (id, x) (flattened d)) by (apply Hl; left; reflexivity).
    apply IHl; [|intros fa Hfa; apply Hl; right; exact Hfa].
    apply agrees_bind; [exact Hacc|]. intros outs. apply agrees_bind; [|intros y; reflexivity].
    apply (IH id x (proj1 (in_flattened d id x) Hx)).
    intros q a Hq. rewrite <- app_assoc. apply Hf. rewrite reach_eq. apply in_app_iff. right. apply in_flat_map.
    exists (id, x). split; [exact Hx|]. apply in_map_iff. exists (q, a). auto. }
  apply agrees_bind; [apply E; [reflexivity|auto]|]. intros outs.
  apply finish_struct_more. intros a Ha. apply (Hf [sa_id a]). rewrite reach_eq. apply in_app_iff. left.
  apply in_map_iff. exists a. auto.
Qed.
Lemma finish_stack_more stk : forall sub,
  (forall ad a, In (ad, a) (stack_args stk) -> field_value a (values_of os ad) = field_value a (values_of os' ad)) ->
  agrees (finish_stack os stk sub) (finish_stack os' stk sub).
Proof.
  induction stk as [|s stk IH]; intros sub Hf; [exact I|]. cbn [finish_stack]. apply agrees_bind.
  - apply finish_args_more. intros q a Hq. apply Hf. exact (in_stack_args [] s stk q a Hq).
  - intros x. destruct stk; [reflexivity|]. apply IH. intros ad b Hb. apply Hf. cbn [stack_args]. apply in_app_iff. right. exact Hb.
Qed.
End More.

(** ** One more occurrence *)

Lemma denotes_value a v fv : arg_facts a -> denotes a [option_map (text_of a) v] fv ->
  value_error a false (folded a v) = None /\ content a [folded a v] = Some fv.
Proof.
  intros Ha H. rewrite folded_text. remember [option_map (text_of a) v] as l eqn:El.
  assert (Hone : forall b x, many a = false -> reads_as (value_of_ty (sa_ty a)) [b] [x] ->
    first_error (value_of_ty (sa_ty a)) [b] = None /\ parsed a b = [x]).
  { intros b x Hm Hx. rewrite parsed_good, (pieces_single a b Ha Hm). unfold reads_as in Hx. cbn [map] in Hx. injection Hx as Hx.
    cbn [first_error flat_map]. unfold good. rewrite Hx. auto. }
  assert (Hall : forall ps xs, reads_as (value_of_ty (sa_ty a)) ps xs ->
    first_error (value_of_ty (sa_ty a)) ps = None /\ flat_map (good (value_of_ty (sa_ty a))) ps = xs).
  { induction ps as [|p ps IH]; intros [|x xs] Hx; try discriminate; [split; reflexivity|]. unfold reads_as in Hx. cbn [map] in Hx.
    injection Hx as Hp Hx. destruct (IH xs Hx) as [H1 H2]. cbn [first_error flat_map]. unfold good at 1. rewrite Hp, H1, H2. auto. }
  unfold value_error. rewrite content_eq.
  destruct H as [Hs|b x Hs Hx|b x Hs Hx|Hs|b x Hs Hx|texts xs Hs Hx|texts xs Hs Hx]; rewrite Hs.
  - injection El as Ev. rewrite <- Ev. auto.
  - injection El as Ev. rewrite <- Ev. destruct (Hone b x ltac:(unfold many; rewrite Hs; reflexivity) Hx) as [H1 H2].
    rewrite H1. unfold all_parsed. cbn [flat_map PlaceFacts.text]. rewrite H2. auto.
  - injection El as Ev. rewrite <- Ev. destruct (Hone b x ltac:(unfold many; rewrite Hs; reflexivity) Hx) as [H1 H2].
    rewrite H1. unfold all_parsed. cbn [flat_map PlaceFacts.text]. rewrite H2. auto.
  - injection El as Ev. rewrite <- Ev. auto.
  - injection El as Ev. rewrite <- Ev. destruct (Hone b x ltac:(unfold many; rewrite Hs; reflexivity) Hx) as [H1 H2].
    rewrite H1, H2. auto.
  - destruct texts as [|b [|c texts]]; try discriminate. injection El as Ev. rewrite <- Ev. cbn [flat_map] in Hx. rewrite app_nil_r in Hx.
    destruct (Hall _ _ Hx) as [H1 H2]. rewrite H1. unfold all_parsed. cbn [map flat_map PlaceFacts.text].
    rewrite ?app_nil_r, parsed_good, H2. auto.
  - destruct texts as [|b [|c texts]]; try discriminate. injection El as Ev. rewrite <- Ev. cbn [flat_map] in Hx. rewrite app_nil_r in Hx.
    destruct (Hall _ _ Hx) as [H1 H2]. rewrite H1. unfold all_parsed. cbn [map flat_map PlaceFacts.text].
    rewrite ?app_nil_r, parsed_good, H2. auto.
Qed.

Lemma values_insert os1 os2 ad a v ad' :
  values_of (os1 ++ Occ ad a v :: os2) ad' =
  values_of os1 ad' ++ (if addr_eqb ad' ad then [v] else []) ++ values_of os2 ad'.
Proof. rewrite values_of_app. unfold values_of. cbn [filter oc_addr]. destruct (addr_eqb ad' ad); reflexivity. Qed.
Lemma given_insert os1 os2 ad a v ad' : given (os1 ++ os2) ad' = true -> given (os1 ++ Occ ad a v :: os2) ad' = true.
Proof.
  rewrite !given_values, values_insert, values_of_app. destruct (values_of os1 ad'); [|auto]. cbn [app].
  destruct (addr_eqb ad' ad); auto.
Qed.
Lemma first_bad_other ad os : given os ad = false -> forall b b', (forall ad', ad' <> ad -> given b ad' = given b' ad') ->
  first_bad b os = first_bad b' os.
Proof.
  induction os as [|oc os IH]; intros Hg b b' H; [reflexivity|]. cbn [first_bad].
  assert (Hne : oc_addr oc <> ad /\ given os ad = false).
  { rewrite given_values in *. unfold values_of in *. cbn [filter] in Hg. destruct (addr_eqb ad (oc_addr oc)) eqn:E; [discriminate|].
    split; [|exact Hg]. intros C. rewrite <- C in E. rewrite (proj2 (addr_eqb_eq _ _) eq_refl) in E. discriminate. }
  destruct Hne as [Hne Hg']. rewrite (H _ Hne). destruct (occ_error _ _ _); [reflexivity|]. apply IH; [exact Hg'|].
  intros ad' Ha. specialize (H ad' Ha). rewrite !given_values, !values_of_app in *.
  destruct (values_of b ad'), (values_of b' ad'); try discriminate; reflexivity.
Qed.
Lemma first_bad_insert os1 os2 ad a v : given (os1 ++ os2) ad = false -> value_error a false (folded a v) = None ->
  no_error_in (os1 ++ os2) -> no_error_in (os1 ++ Occ ad a v :: os2).
Proof.
  unfold no_error_in. intros Hg Hv. rewrite !first_bad_app. destruct (first_bad [] os1); [discriminate|]. cbn [app first_bad oc_addr oc_arg oc_val].
  assert (H1 : given os1 ad = false /\ given os2 ad = false).
  { rewrite !given_values in *. rewrite values_of_app in Hg. destruct (values_of os1 ad), (values_of os2 ad); try discriminate; auto. }
  destruct H1 as [H1 H2]. rewrite H1. unfold occ_error. rewrite Hv. intros <-. apply (first_bad_other ad); [exact H2|].
  intros ad' Hne. apply given_other. cbn. congruence.
Qed.

Lemma same_values stk os1 os2 ad a v fv : stack_ok stk -> In (ad, a) (stack_args stk) ->
  given (os1 ++ os2) ad = false -> field_value a [] = Some fv -> content a [folded a v] = Some fv ->
  forall ad' b, In (ad', b) (stack_args stk) ->
  field_value b (values_of (os1 ++ os2) ad') = field_value b (values_of (os1 ++ Occ ad a v :: os2) ad').
Proof.
  intros Hok Hin Hg Hf Hc ad' b Hb. rewrite values_insert, values_of_app. destruct (addr_eqb ad' ad) eqn:E; [|reflexivity].
  apply addr_eqb_eq in E. subst ad'. assert (b = a) by (eapply stack_args_unique; eassumption). subst b.
  rewrite given_values, values_of_app in Hg. destruct (values_of os1 ad); [|discriminate]. destruct (values_of os2 ad); [|discriminate].
  cbn [app]. rewrite Hf. unfold field_value. cbn [map]. rewrite Hc. reflexivity.
Qed.

Lemma in_stack_path stk ad a : In (ad, a) (stack_args stk) -> exists q, ad_path ad = q ++ [sa_id a].
Proof.
  intros H. apply stack_split in H. destruct H as (pre & s & outer & q & _ & -> & Hq). apply reach_unit in Hq.
  destruct Hq as (u & _ & _ & ->). cbn [ad_path]. eauto.
Qed.
Lemma sibling_struct ad id : same_struct ad (sibling ad id).
Proof. split; [reflexivity|]. cbn [sibling ad_path]. rewrite removelast_last. reflexivity. Qed.

Lemma satisfied_insert stk os1 os2 ad a v : satisfied (os1 ++ os2) stk -> stack_ok stk -> In (ad, a) (stack_args stk) ->
  goes_with_all stk ad a -> satisfied (os1 ++ Occ ad a v :: os2) stk.
Proof.
  intros Hs Hok Hin (H1 & H2 & H3 & H4).
  assert (Hback : forall ad', given (os1 ++ Occ ad a v :: os2) ad' = true -> ad' = ad \/ given (os1 ++ os2) ad' = true).
  { intros ad'. rewrite !given_values, values_insert, values_of_app. destruct (addr_eqb ad' ad) eqn:E; [|auto].
    apply addr_eqb_eq in E. auto. }
  assert (Hother : forall ad', ad' <> ad -> given (os1 ++ os2) ad' = false -> given (os1 ++ Occ ad a v :: os2) ad' = false).
  { intros ad' Hne Hg. destruct (given _ ad') eqn:E in |- *; [|reflexivity]. apply Hback in E. destruct E; congruence. }
  assert (Hself : forall b, In (ad, b) (stack_args stk) -> b = a)
    by (intros b Hb; eapply stack_args_unique; eassumption).
  destruct Hs as [S1 S2 S3 S4 S5 S6]. constructor.
  - intros ad' b Hb Hr. apply given_insert. exact (S1 ad' b Hb Hr).
  - intros ad' b id Hb Hg Hc. apply Hback in Hg. destruct Hg as [->|Hg].
    + rewrite (Hself b Hb), H2 in Hc. destruct Hc.
    + apply Hother; [|exact (S2 ad' b id Hb Hg Hc)]. intros E. destruct (in_stack_path _ _ _ Hin) as [q Hq].
      pose proof (sibling_struct ad' id) as Hss. rewrite E in Hss. destruct (H4 ad' b Hb Hss) as [_ Hn]. apply Hn.
      rewrite <- E in Hq. cbn [sibling ad_path] in Hq. apply app_inj_tail in Hq. destruct Hq as [_ <-]. exact Hc.
  - intros ad' b id Hb Hg Hc. apply Hback in Hg. destruct Hg as [->|Hg].
    + rewrite (Hself b Hb), H1 in Hc. destruct Hc.
    + apply given_insert. exact (S3 ad' b id Hb Hg Hc).
  - intros ad' b ad2 c Hb Hc He Hg Hss Hne. apply Hback in Hg. destruct Hg as [->|Hg].
    + rewrite (Hself b Hb), H3 in He. discriminate.
    + apply Hother; [|exact (S4 ad' b ad2 c Hb Hc He Hg Hss Hne)]. intros ->. destruct (H4 ad' b Hb Hss). congruence.
  - intros ad' b Hb He Hg Ho. apply Hback in Hg. destruct Hg as [->|Hg].
    + rewrite (Hself b Hb), H3 in He. discriminate.
    + exact (S5 ad' b Hb He Hg Ho).
  - exact S6.
Qed.

(** ** Whole command lines *)

Section Insert.
Variables (d : args_decl) (argv0 : bytes) (pre : list bytes) (os : list occ) (stk : list scope) (rem : list sarg).
Variables (toks : list bytes) (ad : addr) (a : sarg) (v : option bytes) (post : list bytes) (o : outval V) (fv : fval V).
Hypothesis Hd : valid d.
Hypothesis Hat : at_option d pre os stk rem.
Hypothesis Hw : writes stk toks ad a v.
Hypothesis Hp : try_parse_from d (argv0 :: pre ++ post) = Ok o.
Hypothesis Hf : field_at ad o = Some fv.
Hypothesis Hv : denotes a [option_map (text_of a) v] fv.

Lemma inserted os' stk' : reads d (pre ++ post) os' stk' -> given os' ad = false ->
  exists os2, os' = os ++ os2 /\ reads d (pre ++ toks ++ post) (os ++ Occ ad a v :: os2) stk' /\
    no_error_in (os ++ Occ ad a v :: os2) /\ stack_ok stk' /\ In (ad, a) (stack_args stk') /\
    agrees (Ok o) (try_parse_from d (argv0 :: pre ++ toks ++ post)).
Proof.
  intros Hr Hg. pose proof (at_option_stack _ _ _ _ _ Hd Hat) as Hok0.
  pose proof (writes_reads _ rem _ _ _ _ Hok0 Hw) as Hwr. pose proof (writes_arg _ _ _ _ _ Hok0 Hw) as [Hin0 _].
  destruct (success_reads _ _ _ _ _ _ Hd Hp Hr) as (Hb & Hs & Hfv & _).
  destruct (reads_ok _ _ _ _ Hd Hr) as (Hl & Hok & _).
  destruct Hr as (st & Hr & Hc & Es). pose proof Hr as Hr0. rewrite (at_option_app _ _ _ _ _ _ Hat) in Hr.
  destruct (read first_named (Normal stk rem) post) as [os2 out] eqn:Ep. cbn [fst snd] in Hr.
  assert (E1 : os' = os ++ os2) by congruence. assert (E2 : out = Go st) by congruence. subst os' out.
  assert (Er : read first_named (start d) (pre ++ toks ++ post) = (os ++ Occ ad a v :: os2, Go st)).
  { rewrite (at_option_app _ _ _ _ _ _ Hat), read_app, Hwr. unfold then_read. cbn [fst snd]. rewrite Ep. reflexivity. }
  assert (Hin : In (ad, a) (stack_args stk')).
  { rewrite <- Es. destruct (at_option_ok _ _ _ _ _ Hd Hat) as (_ & Hrem & _).
    destruct (read_ok first_named first_named_in _ (Normal stk rem) _ _ (conj Hok0 Hrem) Ep) as (_ & _ & inner & ->). apply stack_args_app. exact Hin0. }
  pose proof (arg_in_stack _ _ _ Hok Hin) as Ha. destruct (denotes_value a v fv Ha Hv) as [Hve Hvc].
  assert (Hfn : field_value a [] = Some fv).
  { destruct (Hfv ad a Hin) as [E _]. rewrite Hf in E. rewrite given_values in Hg.
    destruct (values_of (os ++ os2) ad); [symmetry; exact E|discriminate]. }
  pose proof (first_bad_insert os os2 ad a v Hg Hve Hb) as Hb'.
  exists os2. split; [reflexivity|]. split; [exists st; auto|]. split; [exact Hb'|]. split; [exact Hok|]. split; [exact Hin|].
  rewrite parse_conclude in Hp by exact Hd. rewrite parse_conclude by exact Hd. rewrite Er. rewrite Hr0 in Hp.
  rewrite conclude_complete in Hp by assumption. rewrite conclude_complete by assumption. rewrite <- Hp, Es.
  apply finish_stack_more; [intros ad' H'; apply given_insert; exact H'|].
  apply (same_values stk' os os2 ad a v fv Hok Hin Hg Hfn Hvc).
Qed.

Theorem said os' stk' : reads d (pre ++ post) os' stk' -> given os' ad = false ->
  match try_parse_from d (argv0 :: pre ++ toks ++ post) with
  | Ok o' => o' = o
  | Err e => about_company e
  | Panic _ => False
  end.
Proof.
  intros Hr Hg. destruct (inserted _ _ Hr Hg) as (os2 & _ & _ & _ & _ & _ & H).
  unfold agrees in H. destruct (try_parse_from d (argv0 :: pre ++ toks ++ post)); auto.
Qed.
Theorem said_freely os' stk' : defaults_readable d = true -> reads d (pre ++ post) os' stk' -> given os' ad = false ->
  goes_with_all stk' ad a ->
  try_parse_from d (argv0 :: pre ++ toks ++ post) = Ok o.
Proof.
  intros Hdr Hr Hg1 Hg2. destruct (success_reads _ _ _ _ _ _ Hd Hp Hr) as (_ & Hs & _).
  destruct (inserted _ _ Hr Hg1) as (os2 & -> & Hr' & Hb & Hok & Hin & H).
  destruct (proj2 (success_iff d argv0 (pre ++ toks ++ post) Hd Hdr)) as [o' Ho'].
  { exists (os ++ Occ ad a v :: os2), stk'. split; [exact Hr'|]. split; [exact Hb|]. apply satisfied_insert; assumption. }
  rewrite Ho' in *. cbn in H. congruence.
Qed.
End Insert.

Lemma one_default a (s : bytes) : arg_facts a -> am_default_value (sa_meta a) = Some s -> am_default_value_t (sa_meta a) = None.
Proof.
  intros Ha Hs. pose proof (ar_default _ Ha) as H. unfold compute_default in H. rewrite Hs in H.
  destruct (am_default_value_t (sa_meta a)) as [[|e]|]; [discriminate|discriminate|reflexivity].
Qed.
Theorem default_said d (argv0 : bytes) pre os stk rem toks ad a (s : bytes) post o os' stk' :
  valid d -> at_option d pre os stk rem -> writes stk toks ad a (Some s) ->
  try_parse_from d (argv0 :: pre ++ post) = Ok o -> reads d (pre ++ post) os' stk' -> given os' ad = false ->
  am_default_value (sa_meta a) = Some s -> text_of a s = s ->
  match try_parse_from d (argv0 :: pre ++ toks ++ post) with
  | Ok o' => o' = o
  | Err e => about_company e
  | Panic _ => False
  end.
Proof.
  intros Hd Hat Hw Hp Hr Hg Hs Ht. pose proof (at_option_stack _ _ _ _ _ Hd Hat) as Hok0.
  pose proof (writes_arg _ _ _ _ _ Hok0 Hw) as [Hin0 _]. pose proof (arg_in_stack _ _ _ Hok0 Hin0) as Ha.
  assert (Hin : In (ad, a) (stack_args stk')).
  { destruct Hr as (st & Hr1 & _ & <-). rewrite (at_option_app _ _ _ _ _ _ Hat) in Hr1.
    destruct (read first_named (Normal stk rem) post) as [os2 out] eqn:Ep. cbn [fst snd] in Hr1.
    assert (E2 : out = Go st) by congruence. subst out. destruct (at_option_ok _ _ _ _ _ Hd Hat) as (_ & Hrem & _).
    destruct (read_ok first_named first_named_in _ (Normal stk rem) _ _ (conj Hok0 Hrem) Ep) as (_ & _ & inner & ->).
    apply stack_args_app. exact Hin0. }
  destruct (text_default d argv0 _ o os' stk' ad a s Hd Hp Hr Hin Hg Hs (one_default _ _ Ha Hs)) as (fv & Hf & Hv).
  apply (said d argv0 pre os stk rem toks ad a (Some s) post o fv) with (os' := os') (stk' := stk'); try assumption. cbn [option_map]. rewrite Ht. exact Hv.
Qed.
End Unsaid.
