(** The values of fields, by the texts that were given. *)
From Verif Require Import Bytes BytesFacts Utf8 Utf8Facts Attrs AttrFacts Refl Error Values SortFacts
  Places Help Runtime Heck Decl Spec Derive Generated Observe CompileFacts InfoFacts TableFacts PlaceFacts
  ScopeFacts NamedFacts WordFacts FinishFacts ReadFacts SimFacts HelpFacts Refine ContextFacts SafeFacts
  FieldFacts ResultFacts.

Section Values.
Context {V : Type}.
Local Notation args_decl := (args_decl V).
Local Notation sarg := (sarg V).
Local Notation scope := (scope V).
Local Notation occ := (occ V).
Implicit Types (d : args_decl) (a p : sarg) (s : scope) (stk : list scope) (os : list occ) (o : outval V).

(** *** Only flags and [Option<Option<_>>] occur without a value *)

Definition valued (o : occ) : Prop := oc_val o = None -> takes_value (oc_arg o) = false.

Lemma bare_valued stk rem ad a : Forall valued (fst (bare stk rem ad a)).
Proof.
  unfold bare. destruct (takes_value a) eqn:E; [destruct (needs_equals a)|]; cbn; repeat constructor. intros _. exact E.
Qed.
Lemma read_bundle_valued stk rem cs junk : Forall valued (fst (read_bundle stk rem cs junk)).
Proof.
  induction cs as [|c cs IH]; [cbn; destruct junk; constructor|]. rewrite read_bundle_cons.
  destruct (resolve stk (Short c)) as [[ad a]|]; [|constructor].
  assert (Hc : forall v, valued (Occ ad a v) ->
     Forall valued (fst (let '(os, out) := read_bundle stk rem cs junk in (Occ ad a v :: os, out)))).
  { intros v Hv. destruct (read_bundle stk rem cs junk) as [os out]. constructor; assumption. }
  destruct (strip_prefix [c_eq] (encode_all cs ++ junk)) as [v|].
  - destruct (takes_value a); [repeat constructor; discriminate|]. apply Hc. intros C; discriminate C.
  - destruct (encode_all cs ++ junk); [apply bare_valued|]. destruct (needs_equals a); [constructor|].
    destruct (takes_value a) eqn:E; [repeat constructor; discriminate|]. apply Hc. intros _. exact E.
Qed.
Lemma step_valued choose (st : state V) tok : Forall valued (fst (step choose st tok)).
Proof.
  assert (Hw : forall sep stk rem, Forall valued (fst (take_word sep stk rem tok))).
  { intros sep stk [|p rem]; cbn [take_word]; [constructor|].
    destruct (sep || negb (is_last p)); [repeat constructor; intros C; discriminate C|constructor]. }
  destruct st as [stk rem|stk rem ad a|stk rem|stk p]; cbn [step].
  - destruct (form_of tok) as [|s v|b|].
    + constructor.
    + unfold read_long. destruct (resolve stk (Long s)) as [[ad a]|]; [|constructor].
      destruct v; [repeat constructor; intros C; discriminate C|apply bare_valued].
    + destruct (utf8_prefix b). apply read_bundle_valued.
    + destruct (choose (sub_variants stk) tok); [constructor|apply Hw].
  - destruct (may_follow a tok); repeat constructor. intros C; discriminate C.
  - apply Hw.
  - repeat constructor. intros C; discriminate C.
Qed.
Lemma read_valued choose toks : forall st : state V, Forall valued (fst (read choose st toks)).
Proof.
  induction toks as [|t toks IH]; intros st; [constructor|]. cbn [read]. pose proof (step_valued choose st t) as Hs.
  destruct (step choose st t) as [os [st'|sp]]; [|exact Hs]. specialize (IH st'). destruct (read choose st' toks) as [os' out'].
  apply Forall_app. auto.
Qed.

(** *** Values *)

Lemma reads_as_good (u : value_ty V) ps : length (flat_map (good u) ps) = length ps -> reads_as u ps (flat_map (good u) ps).
Proof.
  unfold reads_as. induction ps as [|p ps IH]; [reflexivity|]. cbn [flat_map map]. rewrite app_length. cbn [length].
  assert (Hle : length (flat_map (good u) ps) <= length ps).
  { clear. induction ps as [|p ps IH]; [reflexivity|]. cbn [flat_map]. rewrite app_length. unfold good at 1.
    destruct (read_value u p); cbn; lia. }
  assert (Eg : good u p = match read_value u p with inl v => [v] | inr _ => [] end) by reflexivity. rewrite Eg. clear Eg.
  destruct (read_value u p) as [v|e]; cbn [length]; intros H; [|lia]. cbn [app map]. f_equal. apply IH. lia.
Qed.
Lemma first_error_reads (u : value_ty V) ps : first_error u ps = None -> reads_as u ps (flat_map (good u) ps).
Proof. intros H. apply reads_as_good. apply first_error_None. exact H. Qed.
Lemma first_error_one (u : value_ty V) b : first_error u [b] = None -> exists x, reads_as u [b] [x] /\ flat_map (good u) [b] = [x].
Proof.
  intros H. apply first_error_reads in H. unfold reads_as in *. cbn [flat_map map] in *. rewrite app_nil_r in *.
  unfold good in *. destruct (read_value u b) as [x|e]; [|discriminate]. exists x. auto.
Qed.

Lemma denotes_content a (vals : list (option bytes)) fv : arg_facts a -> vals <> [] -> vals_ok a vals ->
  (forall v, In v vals -> v = None -> takes_value a = false) -> content a vals = Some fv -> denotes a vals fv.
Proof.
  intros Ha Hne Hv Hval. rewrite content_eq.
  assert (Hmany : many a = true -> exists texts, vals = map Some texts).
  { intros Hm. assert (Ht : takes_value a = true) by (unfold many, takes_value in *; destruct (shape_a a); congruence).
    clear -Hval Ht. induction vals as [|[v|] vals IH]; [exists []; reflexivity| |].
    - destruct IH as [texts ->]; [intros w Hw; apply Hval; right; exact Hw|]. exists (v :: texts). reflexivity.
    - rewrite (Hval None (or_introl eq_refl) eq_refl) in Ht. discriminate. }
  assert (Hall : forall texts, vals = map Some texts -> many a = true ->
    reads_as (value_of_ty (sa_ty a)) (flat_map (pieces a) texts) (all_parsed a vals)).
  { intros texts -> Hm. unfold reads_as. clear Hne Hval Hmany. revert Hv. 
    induction texts as [|b texts IH] using rev_ind; intros Hv; [reflexivity|].
    rewrite map_app in *. cbn [map] in *. rewrite all_parsed_app. rewrite flat_map_app, !map_app. f_equal.
    - apply IH. intros pre v post E. apply (Hv pre v (post ++ [Some b])). rewrite E, <- app_assoc. reflexivity.
    - specialize (Hv (map Some texts) (Some b) [] eq_refl). unfold value_error in Hv.
      cbn [flat_map]. rewrite app_nil_r. cbn [text]. rewrite parsed_good.
      unfold many in Hm. destruct (shape_a a); try discriminate; apply first_error_reads; exact Hv. }
  destruct vals as [|v vals]; [contradiction|]. pose proof (vals_ok_hd _ _ _ Hv) as Hh.
  assert (Hsingle : many a = false -> vals = []).
  { intros Hm. destruct vals as [|w vals]; [reflexivity|]. specialize (Hv [v] w vals eq_refl). unfold value_error in Hv.
    unfold many in Hm. destruct (shape_a a); try discriminate. destruct w; discriminate. }
  assert (Hp : forall b, many a = false -> first_error (value_of_ty (sa_ty a)) [b] = None ->
             exists x, reads_as (value_of_ty (sa_ty a)) [b] [x] /\ parsed a b = [x]).
  { intros b Hm He. rewrite parsed_good, (pieces_single a b Ha Hm). apply first_error_one. exact He. }
  unfold value_error in Hh. unfold many in Hsingle, Hp.
  destruct (shape_a a) eqn:Es.
  - rewrite (Hsingle eq_refl). destruct v as [v|]; [discriminate|]. intros E. injection E as <-. constructor. exact Es.
  - rewrite (Hsingle eq_refl). destruct v as [v|].
    + destruct (Hp v eq_refl Hh) as (x & Hx & Ex). unfold all_parsed. cbn [flat_map text]. rewrite Ex. cbn. intros E. injection E as <-.
      constructor; assumption.
    + specialize (Hval None (or_introl eq_refl) eq_refl). unfold takes_value in Hval. rewrite Es in Hval. discriminate.
  - rewrite (Hsingle eq_refl). destruct v as [v|].
    + destruct (Hp v eq_refl Hh) as (x & Hx & Ex). unfold all_parsed. cbn [flat_map text]. rewrite Ex. cbn. intros E. injection E as <-.
      constructor; assumption.
    + specialize (Hval None (or_introl eq_refl) eq_refl). unfold takes_value in Hval. rewrite Es in Hval. discriminate.
  - rewrite (Hsingle eq_refl). destruct v as [v|].
    + destruct (Hp v eq_refl Hh) as (x & Hx & Ex). rewrite Ex. cbn. intros E. injection E as <-. constructor; assumption.
    + intros E. injection E as <-. constructor. exact Es.
  - destruct Hmany as [texts Et]; [unfold many; rewrite Es; reflexivity|]. intros E.
    pose proof (Hall texts Et ltac:(unfold many; rewrite Es; reflexivity)) as Hx. rewrite Et in E, Hx |- *.
    assert (Ef : fv = FvVec (all_parsed a (map Some texts))) by congruence. rewrite Ef. exact (denotes_many a texts _ Es Hx).
  - destruct Hmany as [texts Et]; [unfold many; rewrite Es; reflexivity|]. intros E.
    pose proof (Hall texts Et ltac:(unfold many; rewrite Es; reflexivity)) as Hx. rewrite Et in E, Hx |- *.
    assert (Ef : fv = FvOptionVec (Some (all_parsed a (map Some texts)))) by (destruct texts; [discriminate Et|congruence]).
    rewrite Ef. exact (denotes_optmany a texts _ Es Hx).
Qed.

Lemma folded_text a v : folded a v = option_map (text_of a) v.
Proof. destruct v; reflexivity. Qed.

Theorem given_value d argv0 toks o os stk ad a :
  valid d -> try_parse_from d (argv0 :: toks) = Ok o -> reads d toks os stk -> In (ad, a) (stack_args stk) ->
  given os ad = true ->
  exists fv, field_at ad o = Some fv /\ denotes a (map (option_map (text_of a)) (values_of os ad)) fv.
Proof.
  intros Hd H Hr Hin Hg. destruct (success_reads _ _ _ _ _ _ Hd H Hr) as (Hb & _ & Hf & _).
  destruct (Hf ad a Hin) as [E Hne]. pose proof (reads_inv _ _ _ _ Hd Hr Hb) as HI.
  pose proof (inv_vals _ _ HI ad a Hin) as Hv. unfold folded_values in Hv.
  pose proof (arg_in_stack _ _ _ (inv_stack _ _ HI) Hin) as Ha.
  rewrite given_values in Hg. unfold field_value in E.
  destruct (values_of os ad) as [|v vals] eqn:Ev; [discriminate|]. rewrite E in Hne.
  destruct (content a (map (folded a) (v :: vals))) as [fv|] eqn:Ec; [|contradiction]. exists fv. split; [exact E|].
  rewrite (map_ext _ _ (fun v => eq_sym (folded_text a v))). apply denotes_content; [exact Ha|discriminate|exact Hv| |exact Ec].
  intros w Hw ->. apply in_map_iff in Hw. destruct Hw as (w & Ew & Hw). destruct w; [discriminate|]. rewrite <- Ev in Hw.
  unfold values_of in Hw. apply in_map_iff in Hw. destruct Hw as (oc & Eo & Hoc). apply filter_In in Hoc. destruct Hoc as [Hoc Ea].
  apply addr_eqb_eq in Ea. destruct (reads_ok _ _ _ _ Hd Hr) as (_ & _ & Hk). rewrite Forall_forall in Hk.
  specialize (Hk _ Hoc). unfold known in Hk. rewrite <- Ea in Hk.
  assert (oc_arg oc = a) by (eapply stack_args_unique; [exact (inv_stack _ _ HI)|exact Hk|exact Hin]). subst a.
  destruct Hr as (st & Hr & _). pose proof (read_valued first_named toks (start d)) as Hvl. rewrite Hr in Hvl. cbn [fst] in Hvl.
  rewrite Forall_forall in Hvl. exact (Hvl _ Hoc Eo).
Qed.

Theorem absent_value d argv0 toks o os stk ad a :
  valid d -> try_parse_from d (argv0 :: toks) = Ok o -> reads d toks os stk -> In (ad, a) (stack_args stk) ->
  given os ad = false ->
  exists fv, field_at ad o = Some fv /\ denotes_absent a fv.
Proof.
  intros Hd H Hr Hin Hg. destruct (success_reads _ _ _ _ _ _ Hd H Hr) as (Hb & _ & Hf & _).
  destruct (Hf ad a Hin) as [E Hne]. pose proof (reads_inv _ _ _ _ Hd Hr Hb) as HI.
  pose proof (arg_in_stack _ _ _ (inv_stack _ _ HI) Hin) as Ha. rewrite given_values in Hg. unfold field_value in E.
  destruct (values_of os ad) as [|v vals] eqn:Ev; [|discriminate]. rewrite E in Hne |- *. clear E.
  destruct (success_default _ _ _ _ _ _ _ _ Hd H Hr Hin ltac:(rewrite given_values, Ev; reflexivity)) as [Hrq Hdr].
  destruct (match default_of a with SdNone => content a [] | SdText s => content a [Some s] | SdValue v => default_content a v end)
    as [fv|] eqn:E; [|contradiction]. exists fv. split; [reflexivity|].
  pose proof (dflt_of_spec a Ha) as Hds. unfold default_readable, default_of in *.
  assert (Hnone : has_default a = false -> content a [] = Some fv -> denotes_absent a fv).
  { intros Hh Ec. rewrite content_eq in Ec. unfold is_required in Hrq. rewrite Hh in Hrq. cbn [negb andb] in Hrq.
    apply orb_false_iff in Hrq. destruct Hrq as [_ Hrq].
    destruct (shape_a a) eqn:Es; try discriminate; injection Ec as <-; constructor; assumption. }
  destruct (am_default_value_t (sa_meta a)) as [[|e]|] eqn:Et.
  - destruct (shape_a a) eqn:Es.
    + unfold default_content in E. rewrite Es in E. injection E as <-. apply absent_type_flag; assumption.
    + destruct (vt_default (value_of_ty (sa_ty a))) as [v|] eqn:Ed; [|apply Hnone; [apply Hds|exact E]].
      eapply absent_type; [exact Et|congruence|exact Ed|exact E].
    + destruct (vt_default (value_of_ty (sa_ty a))) as [v|] eqn:Ed; [|apply Hnone; [apply Hds|exact E]].
      eapply absent_type; [exact Et|congruence|exact Ed|exact E].
    + destruct (vt_default (value_of_ty (sa_ty a))) as [v|] eqn:Ed; [|apply Hnone; [apply Hds|exact E]].
      eapply absent_type; [exact Et|congruence|exact Ed|exact E].
    + destruct (vt_default (value_of_ty (sa_ty a))) as [v|] eqn:Ed; [|apply Hnone; [apply Hds|exact E]].
      eapply absent_type; [exact Et|congruence|exact Ed|exact E].
    + destruct (vt_default (value_of_ty (sa_ty a))) as [v|] eqn:Ed; [|apply Hnone; [apply Hds|exact E]].
      eapply absent_type; [exact Et|congruence|exact Ed|exact E].
  - eapply absent_expr; [exact Et|exact E].
  - destruct (am_default_value (sa_meta a)) as [s|] eqn:Es; [|apply Hnone; [apply Hds|exact E]].
    eapply absent_text; [exact Es|]. apply denotes_content; [exact Ha|discriminate| | |exact E].
    + apply (vals_ok_snoc a []); [apply vals_ok_nil|]. cbn [nonempty]. destruct (value_error a false (Some s)); [discriminate|reflexivity].
    + intros v [<-|[]] C. discriminate C.
Qed.
End Values.
