(** Command lines in which every argument means the same have the same result. *)
From Verif Require Import Bytes BytesFacts Utf8 Utf8Facts Attrs AttrFacts Refl Error Values SortFacts
  Places Help Runtime Heck Decl Spec Derive Generated Observe Grammar Meaning CompileFacts InfoFacts TableFacts PlaceFacts
  ScopeFacts NamedFacts WordFacts FinishFacts ReadFacts SimFacts HelpFacts Refine ContextFacts SafeFacts
  FieldFacts ResultFacts ValueFacts OptionFacts SameFacts GrammarFacts WriteFacts UnsaidFacts.

Section Meaning.
Context {V : Type}.
Local Notation args_decl := (args_decl V).
Local Notation sarg := (sarg V).
Local Notation scope := (scope V).
Local Notation occ := (occ V).
Implicit Types (d : args_decl) (a : sarg) (s : scope) (stk : list scope) (os : list occ) (o : outval V).

(** *** The subcommands determine what was entered *)

Lemma linked_unique stk : linked stk -> forall stk' d, linked stk' -> stack_distinct stk ->
  last stk (Scope d [] false) = Scope d [] false -> last stk' (Scope d [] false) = Scope d [] false ->
  map sc_ident stk = map sc_ident stk' -> stk = stk'.
Proof.
  induction 1 as [d1|v s outer Hl IH Hv]; intros stk' d Hl' Hd Hb Hb' E.
  - destruct Hl' as [d2|w t outer' _ _]; [|destruct outer'; discriminate E]. cbn in Hb, Hb'. congruence.
  - destruct Hl' as [d2|w t outer' Hl' Hw]; [discriminate E|].
    cbn [map] in E. injection E as Ev Es Eo. inversion Hd as [|? ? _ Hd']; subst.
    assert (Et : s :: outer = t :: outer').
    { apply (IH (t :: outer') d Hl' Hd').
      - exact Hb.
      - exact Hb'.
      - cbn [map]. congruence. }
    rewrite <- Et in *. f_equal.
    pose proof (first_named_distinct _ v Hd' Hv) as F1. pose proof (first_named_distinct _ w Hd' Hw) as F2.
    assert (En : sub_name v = sub_name w).
    { unfold sub_name. unfold variant_scope in Ev. destruct (snd v), (snd w); cbn [sc_ident] in Ev; rewrite Ev; reflexivity. }
    rewrite En in F1. congruence.
Qed.

Lemma reads_bottom d toks os stk : valid d -> reads d toks os stk ->
  last stk (Scope d [] false) = Scope d [] false /\ stack_distinct stk.
Proof.
  intros Hd (st & H & _ & <-). split.
  - destruct (read_ok first_named first_named_in _ _ _ _ (start_ok d (proj1 Hd)) H) as (_ & _ & inner & ->).
    cbn [start state_stack]. apply last_last.
  - assert (HH : forall toks st os st', stack_distinct (state_stack st) -> read first_named st toks = (os, Go st') -> stack_distinct (state_stack st')).
    { clear. induction toks as [|t toks IH]; intros st os st' Hs H; cbn [read] in H; [congruence|].
      destruct (step first_named st t) as [o1 [st1|]] eqn:E1; [|discriminate].
      destruct (read first_named st1 toks) as [o2 out2] eqn:E2. injection H as _ ->. eapply IH; [|exact E2].
      destruct (step_stack _ _ _ _ _ E1) as [->|(v & Hv & ->)]; [exact Hs|]. eapply choice_distinct; eauto. }
    eapply HH; [|exact H]. repeat constructor. apply Hd.
Qed.
Theorem stack_by_names d toks toks' os os' stk stk' : valid d -> reads d toks os stk -> reads d toks' os' stk' ->
  map sc_ident stk = map sc_ident stk' -> stk = stk'.
Proof.
  intros Hd H H' E. destruct (reads_bottom _ _ _ _ Hd H) as [Hb Hs]. destruct (reads_bottom _ _ _ _ Hd H') as [Hb' _].
  destruct (reads_ok _ _ _ _ Hd H) as (Hl & _). destruct (reads_ok _ _ _ _ Hd H') as (Hl' & _).
  eapply linked_unique; eauto.
Qed.

(** *** Texts that denote a value are no errors *)

Lemma all_good (u : value_ty V) ps : forall xs, reads_as u ps xs -> first_error u ps = None /\ flat_map (good u) ps = xs.
Proof.
  induction ps as [|p ps IH]; intros [|x xs] Hx; try discriminate; [split; reflexivity|]. unfold reads_as in Hx. cbn [map] in Hx.
  injection Hx as Hp Hx. destruct (IH xs Hx) as [H1 H2]. cbn [first_error flat_map]. unfold good at 1. rewrite Hp, H1, H2. auto.
Qed.
Lemma first_error_app (u : value_ty V) ps qs : first_error u (ps ++ qs) = None -> first_error u ps = None /\ first_error u qs = None.
Proof.
  induction ps as [|p ps IH]; [auto|]. cbn [app first_error]. destruct (read_value u p); [exact IH|discriminate].
Qed.
Lemma many_ok a texts : many a = true -> first_error (value_of_ty (sa_ty a)) (flat_map (pieces a) texts) = None ->
  vals_ok a (map Some texts).
Proof.
  intros Hm Hf pre v post E. 
  assert (Ht : exists t1 b t2, texts = t1 ++ b :: t2 /\ v = Some b).
  { clear -E. revert pre E. induction texts as [|b texts IH]; intros pre E; [destruct pre; discriminate|].
    destruct pre as [|w pre]; injection E as E1 E2.
    - exists [], b, texts. auto.
    - destruct (IH pre E2) as (t1 & c & t2 & -> & ->). exists (b :: t1), c, t2. auto. }
  destruct Ht as (t1 & b & t2 & -> & ->). rewrite flat_map_app in Hf. apply first_error_app in Hf. destruct Hf as [_ Hf].
  cbn [flat_map] in Hf. apply first_error_app in Hf. destruct Hf as [Hf _]. unfold value_error. unfold many in Hm.
  destruct (shape_a a); try discriminate; exact Hf.
Qed.
Lemma all_parsed_some a texts : all_parsed a (map Some texts) = flat_map (good (value_of_ty (sa_ty a))) (flat_map (pieces a) texts).
Proof.
  unfold all_parsed. induction texts as [|b texts IH]; [reflexivity|]. cbn [map flat_map]. rewrite IH, flat_map_app. f_equal.
Qed.
Lemma one_ok a v : value_error a false v = None -> vals_ok a [v].
Proof. intros H pre w [|x post] E; destruct pre as [|y [|z pre]]; try discriminate; injection E as <-; exact H. Qed.

Lemma denotes_ok a vals fv : arg_facts a -> denotes a vals fv -> vals_ok a vals /\ (vals <> [] -> content a vals = Some fv).
Proof.
  intros Ha H.
  assert (Hone : forall b x, many a = false -> reads_as (value_of_ty (sa_ty a)) [b] [x] ->
    first_error (value_of_ty (sa_ty a)) [b] = None /\ parsed a b = [x]).
  { intros b x Hm Hx. rewrite parsed_good, (pieces_single a b Ha Hm). apply all_good. exact Hx. }
  assert (Hm : forall sh, shape_a a = sh -> many a = match sh with ShMany | ShOptMany => true | _ => false end)
    by (intros sh <-; reflexivity).
  destruct H as [Hs|b x Hs Hx|b x Hs Hx|Hs|b x Hs Hx|texts xs Hs Hx|texts xs Hs Hx]; specialize (Hm _ Hs); cbn in Hm.
  - split; [apply one_ok; unfold value_error; rewrite Hs; reflexivity|]. intros _. rewrite content_eq, Hs. reflexivity.
  - destruct (Hone b x Hm Hx) as [H1 H2]. split; [apply one_ok; unfold value_error; rewrite Hs; exact H1|]. intros _.
    rewrite content_eq, Hs. unfold all_parsed. cbn [flat_map PlaceFacts.text]. rewrite H2. reflexivity.
  - destruct (Hone b x Hm Hx) as [H1 H2]. split; [apply one_ok; unfold value_error; rewrite Hs; exact H1|]. intros _.
    rewrite content_eq, Hs. unfold all_parsed. cbn [flat_map PlaceFacts.text]. rewrite H2. reflexivity.
  - split; [apply one_ok; unfold value_error; rewrite Hs; reflexivity|]. intros _. rewrite content_eq, Hs. reflexivity.
  - destruct (Hone b x Hm Hx) as [H1 H2]. split; [apply one_ok; unfold value_error; rewrite Hs; exact H1|]. intros _.
    rewrite content_eq, Hs, H2. reflexivity.
  - destruct (all_good _ _ _ Hx) as [H1 H2]. split; [apply many_ok; assumption|]. intros _.
    rewrite content_eq, Hs, all_parsed_some, H2. reflexivity.
  - destruct (all_good _ _ _ Hx) as [H1 H2]. split; [apply many_ok; assumption|]. intros Hne.
    rewrite content_eq, Hs, all_parsed_some, H2. destruct texts; [contradiction|reflexivity].
Qed.

(** What was given for the argument at [ad]. *)
Lemma texts_folded a os ad : texts_given os ad a = folded_values os ad a.
Proof. unfold texts_given, folded_values. apply map_ext. intros v. symmetry. apply folded_text. Qed.

Lemma good_all os : forall b,
  (forall pre x post, os = pre ++ x :: post -> occ_error (oc_arg x) (given (b ++ pre) (oc_addr x)) (oc_val x) = None) ->
  first_bad b os = None.
Proof.
  induction os as [|x os IH]; intros b H; [reflexivity|]. cbn [first_bad].
  pose proof (H [] x os eq_refl) as H0. rewrite app_nil_r in H0. rewrite H0. apply IH. intros pre y post E.
  rewrite <- app_assoc. apply (H (x :: pre) y post). rewrite E. reflexivity.
Qed.
Theorem meaning_no_error stk os : stack_ok stk -> Forall (known stk) os ->
  (forall ad a, In (ad, a) (stack_args stk) -> vals_ok a (folded_values os ad a)) -> no_error_in os.
Proof.
  intros Hs Hk Hv. apply good_all. intros pre x post E. cbn [app].
  assert (Hx : In (oc_addr x, oc_arg x) (stack_args stk)).
  { rewrite Forall_forall in Hk. apply (Hk x). rewrite E. apply in_app_iff. right. left. reflexivity. }
  specialize (Hv _ _ Hx (folded_values pre (oc_addr x) (oc_arg x)) (folded (oc_arg x) (oc_val x)) (folded_values post (oc_addr x) (oc_arg x))).
  unfold occ_error. rewrite given_values. unfold folded_values in Hv. rewrite nonempty_map in Hv. rewrite Hv; [reflexivity|].
  rewrite E. rewrite values_of_app, map_app. f_equal. unfold values_of at 1. cbn [filter].
  replace (addr_eqb (oc_addr x) (oc_addr x)) with true by (symmetry; apply addr_eqb_eq; reflexivity). reflexivity.
Qed.

(** *** The theorem *)

Theorem same_meaning d (argv0 argv0' : bytes) toks toks' os os' stk stk' :
  valid d -> reads d toks os stk -> reads d toks' os' stk' -> map sc_ident stk = map sc_ident stk' ->
  agree os os' stk ->
  try_parse_from d (argv0 :: toks) = try_parse_from d (argv0' :: toks').
Proof.
  intros Hd Hr Hr' En Hm. pose proof (stack_by_names _ _ _ _ _ _ _ Hd Hr Hr' En) as E. subst stk'.
  destruct (reads_ok _ _ _ _ Hd Hr) as (_ & Hok & Hk). destruct (reads_ok _ _ _ _ Hd Hr') as (_ & _ & Hk').
  assert (Hfacts : forall ad a, In (ad, a) (stack_args stk) -> arg_facts a) by (intros; eapply arg_in_stack; eauto).
  assert (Hno : no_error_in os).
  { apply (meaning_no_error stk); [exact Hok|exact Hk|]. intros ad a Hin. destruct (Hm ad a Hin) as [[H1 H2]|(H1 & H2 & fv & H3 & H4)].
    - unfold folded_values. unfold given in H1. destruct (values_of os ad); [apply vals_ok_nil|discriminate].
    - rewrite texts_folded in H3. apply (denotes_ok a _ fv (Hfacts _ _ Hin) H3). }
  assert (Hno' : no_error_in os').
  { apply (meaning_no_error stk); [exact Hok|exact Hk'|]. intros ad a Hin. destruct (Hm ad a Hin) as [[H1 H2]|(H1 & H2 & fv & H3 & H4)].
    - unfold folded_values. unfold given in H2. destruct (values_of os' ad); [apply vals_ok_nil|discriminate].
    - rewrite texts_folded in H4. apply (denotes_ok a _ fv (Hfacts _ _ Hin) H4). }
  rewrite !parse_conclude by exact Hd. destruct Hr as (st & -> & Hc & Es). destruct Hr' as (st' & -> & Hc' & Es').
  rewrite !conclude_complete by assumption. rewrite Es, Es'.
  assert (Hun : forall osx ad, Forall (known stk) osx -> given osx ad = true -> exists a, In (ad, a) (stack_args stk)).
  { intros osx ad Hkx Hg. unfold given, values_of in Hg. destruct (filter (fun x => addr_eqb ad (oc_addr x)) osx) as [|x l] eqn:Ef; [discriminate|].
    assert (Hx : In x (filter (fun x => addr_eqb ad (oc_addr x)) osx)) by (rewrite Ef; left; reflexivity).
    apply filter_In in Hx. destruct Hx as [Hx Ea]. apply addr_eqb_eq in Ea. subst ad. rewrite Forall_forall in Hkx.
    exists (oc_arg x). apply (Hkx x Hx). }
  apply finish_stack_ext.
  - intros ad. destruct (given os ad) eqn:G.
    + destruct (Hun os ad Hk G) as [a Hin]. destruct (Hm ad a Hin) as [[H1 H2]|(H1 & H2 & _)]; congruence.
    + destruct (given os' ad) eqn:G'; [|reflexivity]. destruct (Hun os' ad Hk' G') as [a Hin].
      destruct (Hm ad a Hin) as [[H1 H2]|(H1 & H2 & _)]; congruence.
  - intros ad a Hin. unfold field_value. destruct (Hm ad a Hin) as [[H1 H2]|(H1 & H2 & fv & H3 & H4)].
    + unfold given in H1, H2. destruct (values_of os ad), (values_of os' ad); try discriminate. reflexivity.
    + rewrite texts_folded in H3, H4. destruct (denotes_ok a _ fv (Hfacts _ _ Hin) H3) as [_ E1].
      destruct (denotes_ok a _ fv (Hfacts _ _ Hin) H4) as [_ E2]. unfold folded_values in E1, E2. unfold given in H1, H2.
      destruct (values_of os ad) as [|v vs]; [discriminate|]. destruct (values_of os' ad) as [|w ws]; [discriminate|].
      cbn [map] in E1, E2 |- *. rewrite E1, E2 by discriminate. reflexivity.
Qed.
Theorem no_error_iff d toks os stk : valid d -> reads d toks os stk -> (no_error_in os <-> meaningful os stk).
Proof.
  intros Hd Hr. destruct (reads_ok _ _ _ _ Hd Hr) as (_ & Hok & Hk). split.
  - intros Hb ad a Hin Hg. pose proof (reads_inv _ _ _ _ Hd Hr Hb) as HI. pose proof (inv_vals _ _ HI ad a Hin) as Hv.
    pose proof (arg_in_stack _ _ _ Hok Hin) as Ha. unfold given in Hg. rewrite texts_folded.
    assert (Hne : folded_values os ad a <> []) by (unfold folded_values; destruct (values_of os ad); discriminate).
    destruct (content a (folded_values os ad a)) as [fv|] eqn:Ec; [|exfalso; apply (content_some a _ Ha Hv (fun _ => Hne) Ec)].
    exists fv. apply denotes_content; [exact Ha|exact Hne|exact Hv| |exact Ec].
    intros w Hw ->. unfold folded_values in Hw. apply in_map_iff in Hw. destruct Hw as (w & Ew & Hw). destruct w; [discriminate|].
    unfold values_of in Hw. apply in_map_iff in Hw. destruct Hw as (oc & Eo & Hoc). apply filter_In in Hoc. destruct Hoc as [Hoc Ea].
    apply addr_eqb_eq in Ea. rewrite Forall_forall in Hk. specialize (Hk _ Hoc). unfold known in Hk. rewrite <- Ea in Hk.
    assert (oc_arg oc = a) by (eapply stack_args_unique; [exact Hok|exact Hk|exact Hin]). subst a.
    destruct Hr as (st & Hr & _). pose proof (read_valued first_named toks (start d)) as Hvl. rewrite Hr in Hvl. cbn [fst] in Hvl.
    rewrite Forall_forall in Hvl. exact (Hvl _ Hoc Eo).
  - intros Hm. apply (meaning_no_error stk); [exact Hok|exact Hk|]. intros ad a Hin. destruct (given os ad) eqn:G.
    + destruct (Hm ad a Hin G) as [fv H]. rewrite texts_folded in H. apply (denotes_ok a _ fv (arg_in_stack _ _ _ Hok Hin) H).
    + unfold folded_values. unfold given in G. destruct (values_of os ad); [apply vals_ok_nil|discriminate].
Qed.
Theorem success_meaning d (argv0 : bytes) toks : valid d -> defaults_readable d = true ->
  (exists o, try_parse_from d (argv0 :: toks) = Ok o) <->
  exists os stk, reads d toks os stk /\ meaningful os stk /\ satisfied os stk.
Proof.
  intros Hd Hdr. rewrite (success_iff d argv0 toks Hd Hdr). split; intros (os & stk & Hr & Hm & Hs); exists os, stk; split; try exact Hr; (split; [|exact Hs]);
    apply (no_error_iff d toks os stk Hd Hr); exact Hm.
Qed.

(** *** Own occurrences *)

Lemma own_values_iff os ad vs : own_values os ad vs <-> values_of os ad = vs.
Proof.
  split.
  - intros H. induction H as [ad|ad a v os vs H IH|ad ad' a v os vs Hne H IH]; [reflexivity| |]; unfold values_of in *; cbn [filter oc_addr].
    + rewrite (proj2 (addr_eqb_eq ad ad) eq_refl). cbn [map oc_val]. rewrite IH. reflexivity.
    + destruct (addr_eqb ad ad') eqn:E; [apply addr_eqb_eq in E; congruence|exact IH].
  - intros <-. induction os as [|[ad' a v] os IH]; [constructor|]. unfold values_of in *. cbn [filter oc_addr].
    destruct (addr_eqb ad ad') eqn:E.
    + apply addr_eqb_eq in E. subst ad'. constructor. exact IH.
    + constructor; [|exact IH]. intros ->. rewrite (proj2 (addr_eqb_eq ad ad) eq_refl) in E. discriminate.
Qed.
Theorem field_own d d' (argv0 argv0' : bytes) toks toks' o o' os os' stk stk' ad ad' a vs :
  valid d -> valid d' -> try_parse_from d (argv0 :: toks) = Ok o -> try_parse_from d' (argv0' :: toks') = Ok o' ->
  reads d toks os stk -> reads d' toks' os' stk' -> In (ad, a) (stack_args stk) -> In (ad', a) (stack_args stk') ->
  own_values os ad vs -> own_values os' ad' vs -> field_at ad o = field_at ad' o'.
Proof.
  intros Hd Hd' H H' Hr Hr' Hi Hi' E E'. rewrite own_values_iff in E, E'.
  apply (field_alone d d' argv0 argv0' toks toks' o o' os os' stk stk' ad ad' a); try assumption. congruence.
Qed.
End Meaning.
