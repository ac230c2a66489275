(** Error messages have no control characters. *)
From Verif Require Import Bytes BytesFacts Utf8 Utf8Facts Attrs AttrFacts Refl Error Values SortFacts
  Places Help Runtime Heck HeckFacts Decl Spec Derive Generated Observe CompileFacts InfoFacts TableFacts PlaceFacts
  ScopeFacts NamedFacts WordFacts FinishFacts ReadFacts SimFacts HelpFacts Refine ContextFacts SafeFacts
  FieldFacts ResultFacts ValueFacts OptionFacts SameFacts WriteFacts Grammar GrammarFacts PositionalFacts
  EnumDerive Parts PartsFacts TextFacts WellFormed WellFormedFacts Blame BlameFacts.

Local Notation clean := (Forall (fun b => ~ control b)).

Lemma clean_b s : forallb (fun b => negb (is_ascii_control b)) s = true -> clean s.
Proof.
  intros H. rewrite forallb_forall in H. apply Forall_forall. intros b Hb C. apply control_spec in C. specialize (H b Hb).
  rewrite C in H. discriminate.
Qed.
Lemma clean_app s t : clean s -> clean t -> clean (s ++ t).
Proof. intros Hs Ht. apply Forall_app. auto. Qed.
Lemma clean_join sep l : clean sep -> Forall (fun s => clean s) l -> clean (join sep l).
Proof.
  intros Hs F. induction F as [|x l Hx F IH]; [constructor|]. destruct l as [|y l]; [exact Hx|].
  cbn [join] in *. repeat apply clean_app; assumption.
Qed.
Lemma clean_char c : legal_name (Short c) -> clean (utf8_encode c).
Proof.
  intros (Hc & _ & _ & H1 & H2). apply Forall_forall. intros b Hb. unfold control.
  destruct (N.lt_ge_cases c 128) as [Hl|Hg].
  - rewrite utf8_encode_ascii in Hb by exact Hl. destruct Hb as [<-|[]]. rewrite b2n_n2b by lia. lia.
  - apply (utf8_encode_not_ascii c) in Hb; [lia|apply scalar_spec; exact Hc|exact Hg].
Qed.
Lemma clean_digits fuel : forall n acc, clean acc -> clean (nat_digits_aux fuel n acc).
Proof.
  induction fuel as [|fuel IH]; intros n acc Ha; cbn [nat_digits_aux]; [exact Ha|].
  assert (Hb : clean (n2b (48 + N.of_nat (n mod 10)) :: acc)).
  { constructor; [|exact Ha]. pose proof (Nat.mod_upper_bound n 10). unfold control. rewrite b2n_n2b by lia. lia. }
  destruct (Nat.ltb n 10); [exact Hb|apply IH; exact Hb].
Qed.
Lemma clean_utf8_error v : clean (utf8_error_text v).
Proof.
  unfold utf8_error_text. destruct (utf8_prefix v) as [cs r]. destruct (_ && _); repeat apply clean_app;
    try (apply clean_b; reflexivity); apply clean_digits; constructor.
Qed.

Section Facts.
Context {V : Type}.
Local Notation args_decl := (args_decl V).
Local Notation sarg := (sarg V).
Local Notation scope := (scope V).
Local Notation occ := (occ V).
Implicit Types (d : args_decl) (a : sarg) (s : scope) (stk outer : list scope) (os : list occ) (rem : list sarg).

Lemma legal_in_stack stk ad a : stack_ok stk -> In (ad, a) (stack_args stk) -> legal_arg a.
Proof.
  intros Hs Ha. destruct (stack_args_item [] stk (repeat 0%N (length stk)) ad a) as (u & Hu & Hua & _);
    [apply repeat_length|exact Ha|].
  pose proof (stack_items_good [] stk (repeat 0%N (length stk)) Hs) as Hg. rewrite Forall_forall in Hg.
  assert (Hacc : accepted (u_decl u)) by apply (Hg _ Hu). apply accepted_well_formed in Hacc.
  destruct Hacc as [x Hl _ _]. exact (ls_args _ Hl _ Hua).
Qed.

Lemma clean_describe a : legal_arg a -> clean (describe a).
Proof.
  intros L. pose proof (proj2 (la_value_name _ L)) as Hv. unfold describe. destruct (is_option a) eqn:Eo.
  - apply clean_app.
    + destruct (short_name a) as [c|] eqn:Es, (long_name a) as [l|] eqn:El; try (apply Forall_nil); repeat apply clean_app;
        try (apply clean_b; reflexivity);
        try (apply clean_char, (la_names _ L); split; [exact Eo|right; exact Es]);
        (assert (Hl : legal_name (Long l)) by (apply (la_names _ L); split; [exact Eo|right; exact El]);
         destruct Hl as (_ & _ & Hl & _); eapply Forall_impl; [|exact Hl]; intros b Hb; apply Hb).
    + unfold value_part. destruct (shape_a a); try (apply Forall_nil); try destruct (needs_equals a); repeat apply clean_app;
        try exact Hv; apply clean_b; reflexivity.
  - apply clean_app; [destruct (is_required a)|destruct (many a)]; repeat apply clean_app; try exact Hv; apply clean_b; reflexivity.
Qed.

Definition from_type (d : args_decl) (toks : list bytes) (e : error) (t : bytes) : Prop :=
  exists ad a v p f, In (Occ ad a (Some v)) (seen d toks) /\ In p (pieces a (text_of a v)) /\ e_input e = Some p /\
    (vt_try_from_os (value_of_ty (sa_ty a)) = Some f \/ vt_from_str (value_of_ty (sa_ty a)) = Some f) /\ f p = inr t.

Lemma read_value_parts a p e : legal_arg a -> shape_a a <> ShFlag -> read_value (value_of_ty (sa_ty a)) p = inr e ->
  (e_context e = [] \/ exists vs, clean vs /\ e_context e = bs "[possible values: " ++ vs ++ bs "]") /\
  forall t, e_source e = Some t -> clean t \/
    exists f, (vt_try_from_os (value_of_ty (sa_ty a)) = Some f \/ vt_from_str (value_of_ty (sa_ty a)) = Some f) /\ f p = inr t.
Proof.
  intros L Hs. pose proof (la_type _ L Hs) as Hr. unfold readable in Hr. unfold read_value.
  destruct (vt_value_enum (value_of_ty (sa_ty a))) as [[vs inj]|].
  - destruct Hr as [_ Hr].
    assert (Hc : clean (join (bs ", ") (sort_by (fun n => n) vs))).
    { apply clean_join; [apply clean_b; reflexivity|]. apply Forall_forall. intros x Hx. apply sort_by_In in Hx.
      rewrite Forall_forall in Hr. exact (Hr x Hx). }
    destruct (utf8_valid p).
    + destruct (position p vs); [discriminate|]. intros H. injection H as <-. cbn [e_context e_source]. split; [|discriminate]. right. eauto.
    + intros H. injection H as <-. cbn [e_context e_source]. split; [right; eauto|]. intros t E. injection E as <-. left. apply clean_utf8_error.
  - destruct (vt_try_from_os (value_of_ty (sa_ty a))) as [f|].
    + destruct (f p) as [v|m] eqn:Ef; [discriminate|]. intros H. injection H as <-. cbn [e_context e_source]. split; [left; reflexivity|].
      intros t E. injection E as <-. right. exists f. auto.
    + destruct (vt_from_str (value_of_ty (sa_ty a))) as [f|].
      * destruct (utf8_valid p).
        -- destruct (f p) as [v|m] eqn:Ef; [discriminate|]. intros H. injection H as <-. cbn [e_context e_source]. split; [left; reflexivity|].
           intros t E. injection E as <-. right. exists f. auto.
        -- intros H. injection H as <-. cbn [e_context e_source]. split; [left; reflexivity|]. intros t E. injection E as <-. left. apply clean_utf8_error.
      * intros H. injection H as <-. cbn [e_context e_source]. split; [left; reflexivity|discriminate].
Qed.

Lemma seen_legal d toks os1 o os2 : valid d -> seen d toks = os1 ++ o :: os2 -> legal_arg (oc_arg o).
Proof.
  intros Hd E. destruct (read_known d toks Hd) as (stk & Hok & Hk). unfold seen in E. rewrite E, Forall_app in Hk.
  destruct Hk as [_ Hk]. inversion Hk as [|? ? Ho _]; subst. exact (legal_in_stack _ _ _ Hok Ho).
Qed.

Definition parts_ok d toks (e : error) : Prop :=
  (forall x, e_arg_desc e = Some x -> clean x) /\
  (e_context e = [] \/ exists vs, clean vs /\ e_context e = bs "[possible values: " ++ vs ++ bs "]") /\
  forall t, e_source e = Some t -> clean t \/ from_type d toks e t.

Lemma parts_about d toks k a : legal_arg a -> parts_ok d toks (error_about k a).
Proof.
  intros L. split; [|split]; [|left; reflexivity|discriminate]. intros x E. injection E as <-. apply clean_describe, L.
Qed.
Lemma parts_named d toks k a i : legal_arg a -> parts_ok d toks (mkError k (named a) i None [] None).
Proof.
  intros L. split; [|split]; [|left; reflexivity|discriminate]. cbn [e_arg_desc]. unfold named. intros x E.
  destruct (is_option a); [|discriminate]. injection E as <-. apply clean_describe, L.
Qed.

Lemma blame_parts d (argv0 : bytes) toks e : valid d -> blame argv0 d toks e -> parts_ok d toks e.
Proof.
  intros Hd B.
  assert (Hread : forall os stk ad a, reads d toks os stk -> In (ad, a) (stack_args stk) -> legal_arg a).
  { intros os stk ad a Hr Hi. destruct (reads_ok _ _ _ _ Hd Hr) as (_ & Hok & _). exact (legal_in_stack _ _ _ Hok Hi). }
  assert (Hres : forall pre os stk rem n ad a, at_option d pre os stk rem -> resolve stk n = Some (ad, a) -> legal_arg a).
  { intros pre os stk rem n ad a Ho Hr. apply resolve_in in Hr. exact (legal_in_stack _ _ _ (at_option_stack _ _ _ _ _ Hd Ho) (proj1 Hr)). }
  destruct B as [os1 os2 ad a v H H1 H2|os1 os2 ad a v H H1|os1 os2 ad a v p e H H1 H2 H3
    |pre tok post os stk rem n rest H1 H2 H3 H4 H5|pre tok post os stk rem n rest H1 H2 H3 H4 H5
    |pre cs junk post os stk rem H1 H2 H3 H4 H5|pre tok post os stk rem n rest ad a H1 H2 H3 H4 H5 H6 H7
    |pre tok post os stk rem n ad a H1 H2 H3 H4 H5 H6 H7|pre w post os stk rem H1 H2 H3 H4 H5
    |pre ws w post os stk rem H1 H2 H3 H4|os stk ad a H1 H2 H3 H4|os stk ad a id b H1 H2 H3 H4 H5 H6
    |os stk ad a id H1 H2 H3 H4 H5|os stk ad a ad' b H1 H2 H3 H4 H5 H6 H7 H8|os stk ad a H1 H2 H3 H4 H5 H6|os s outer id vs H1 H2];
    try (apply parts_about; eauto; fail); try (split; [|split]; [discriminate|left; reflexivity|discriminate]).
  - apply parts_named. exact (seen_legal _ _ _ _ _ Hd H).
  - apply parts_named. exact (seen_legal _ _ _ _ _ Hd H).
  - assert (L : legal_arg a) by exact (seen_legal _ _ _ _ _ Hd H). destruct (read_value_parts a p e L H1 H3) as [Hc Hs].
    split; [|split]; [|exact Hc|].
    + cbn [e_arg_desc]. unfold named. intros x E. destruct (is_option a); [|discriminate]. injection E as <-. apply clean_describe, L.
    + cbn [e_source]. intros t E. apply Hs in E. destruct E as [E|(f & Hf & E)]; [left; exact E|]. right. exists ad, a, v, p, f.
      split; [rewrite H; apply in_or_app; right; left; reflexivity|]. auto.
Qed.

Theorem source_origin d (argv0 : bytes) toks e t : valid d -> try_parse_from d (argv0 :: toks) = Err e -> e_source e = Some t ->
  clean t \/ from_type d toks e t.
Proof. intros Hd H. apply (blame_parts d argv0 toks e Hd (error_blame d argv0 toks e Hd H)). Qed.

Theorem message_clean (esc : escapes) d (argv : list bytes) e : valid d -> try_parse_from d argv = Err e -> e_kind e <> Help ->
  (forall t, error_source e = Some t -> clean t) ->
  exists line, clean line /\
    (error_display esc e = line \/
     exists vs, clean vs /\ error_display esc e = line ++ [c_nl] ++ bs "  [possible values: " ++ vs ++ bs "]").
Proof.
  intros Hd H Hk Hs.
  assert (P : parts_ok d (tl argv) e).
  { destruct argv as [|argv0 toks]; [|exact (blame_parts d argv0 toks e Hd (error_blame d argv0 toks e Hd H))].
    rewrite refines in H by exact Hd. injection H as <-. split; [|split]; [discriminate|left; reflexivity|discriminate]. }
  pose proof (never_custom d argv e Hd H) as Hcu. destruct P as (Pd & Pc & _). unfold error_source in Hs.
  set (src := match e_source e with Some s => bs ": " ++ s | None => [] end).
  assert (Cs : clean src).
  { unfold src. destruct (e_source e) as [s|]; [|constructor]. apply clean_app; [apply clean_b; reflexivity|]. apply Hs. reflexivity. }
  assert (Cm : clean (error_message esc e)).
  { unfold error_message.
    set (i := os_debug esc _). assert (Hi : clean i) by apply os_debug_clean. clearbody i.
    set (ds := match e_arg_desc e with Some x => x | None => bs "<unknown argument>" end).
    assert (Hds : clean ds). { unfold ds. destruct (e_arg_desc e) as [x|]; [apply Pd; reflexivity|apply clean_b; reflexivity]. } clearbody ds.
    destruct (e_kind e); repeat apply clean_app; try exact Hi; try exact Hds; apply clean_b; reflexivity. }
  assert (E : error_display esc e = error_message esc e ++ src ++
    match e_context e with [] => [] | c => [c_nl] ++ bs "  " ++ c end).
  { unfold error_display. fold src. destruct (e_kind e); try congruence; rewrite app_nil_r; reflexivity. }
  exists (error_message esc e ++ src). split; [apply clean_app; assumption|]. rewrite E.
  destruct Pc as [->|(vs & Hv & ->)].
  - left. rewrite app_nil_r. reflexivity.
  - right. exists vs. split; [exact Hv|]. rewrite <- app_assoc. reflexivity.
Qed.

Theorem debug_clean (esc : escapes) (e : error) : clean (error_debug esc e).
Proof. unfold error_debug, str_debug. apply clean_app; [apply clean_b; reflexivity|]. apply clean_app; [apply os_debug_clean|apply clean_b; reflexivity]. Qed.
End Facts.
