(** Every error tells something that is wrong with the command line. *)
From Verif Require Import Bytes BytesFacts Utf8 Utf8Facts Attrs AttrFacts Refl Error Values SortFacts
  Places Help Runtime Heck HeckFacts Decl Spec Derive Generated Observe CompileFacts InfoFacts TableFacts PlaceFacts
  ScopeFacts NamedFacts WordFacts FinishFacts ReadFacts SimFacts HelpFacts Refine ContextFacts SafeFacts
  FieldFacts ResultFacts ValueFacts OptionFacts SameFacts WriteFacts Grammar GrammarFacts PositionalFacts
  Parts PartsFacts Blame.

Section Facts.
Context {V : Type}.
Local Notation args_decl := (args_decl V).
Local Notation sarg := (sarg V).
Local Notation scope := (scope V).
Local Notation occ := (occ V).
Implicit Types (d : args_decl) (a : sarg) (s : scope) (stk outer : list scope) (os : list occ) (rem : list sarg).

(** *** Wrong occurrences *)

Lemma first_bad_Some os : forall before e, first_bad before os = Some e ->
  exists os1 o os2, os = os1 ++ o :: os2 /\
    occ_error (oc_arg o) (given (before ++ os1) (oc_addr o)) (oc_val o) = Some e.
Proof.
  induction os as [|o os IH]; intros before e H; [discriminate|]. cbn [first_bad] in H.
  destruct (occ_error (oc_arg o) (given before (oc_addr o)) (oc_val o)) as [e'|] eqn:E.
  - injection H as ->. exists [], o, os. rewrite app_nil_r. auto.
  - destruct (IH _ _ H) as (os1 & o' & os2 & -> & E'). exists (o :: os1), o', os2. rewrite <- app_assoc in E'. auto.
Qed.
Lemma first_bad_In os1 o os2 : occ_error (oc_arg o) (given os1 (oc_addr o)) (oc_val o) <> None ->
  first_bad [] (os1 ++ o :: os2) <> None.
Proof.
  intros H. rewrite first_bad_app. destruct (first_bad [] os1); [discriminate|]. cbn [app first_bad].
  destruct (occ_error (oc_arg o) (given os1 (oc_addr o)) (oc_val o)); [discriminate|contradiction].
Qed.

Lemma first_error_Some (u : value_ty V) ps e : first_error u ps = Some e -> exists p, In p ps /\ read_value u p = inr e.
Proof.
  induction ps as [|p ps IH]; [discriminate|]. cbn [first_error]. destruct (read_value u p) as [x|e'] eqn:E.
  - intros H. destruct (IH H) as (q & Hq & Eq). exists q. split; [right; exact Hq|exact Eq].
  - intros H. injection H as ->. exists p. split; [left; reflexivity|exact E].
Qed.
Lemma first_error_In (u : value_ty V) ps p e : In p ps -> read_value u p = inr e -> first_error u ps <> None.
Proof.
  intros Hp E. induction ps as [|q ps IH]; [contradiction|]. cbn [first_error]. destruct Hp as [->|Hp]; [rewrite E; discriminate|].
  destruct (read_value u q); [exact (IH Hp)|discriminate].
Qed.
Lemma read_value_error (u : value_ty V) p e : read_value u p = inr e ->
  e_kind e = InvalidValue /\ e_input e = Some p /\ e_help e = None.
Proof.
  unfold read_value. destruct (vt_value_enum u) as [[names inj]|]; [|destruct (vt_try_from_os u) as [f|]; [|destruct (vt_from_str u) as [f|]]].
  - destruct (utf8_valid p); [destruct (position p names)|]; try discriminate; intros H; injection H as <-; auto.
  - destruct (f p); try discriminate; intros H; injection H as <-; auto.
  - destruct (utf8_valid p); [destruct (f p)|]; try discriminate; intros H; injection H as <-; auto.
  - intros H; injection H as <-; auto.
Qed.

Lemma text_folded a v : folded a (Some v) = Some (text_of a v).
Proof. reflexivity. Qed.

Lemma occ_error_kinds a prior v e : arg_facts a -> (v = None -> takes_value a = false) ->
  occ_error a prior v = Some e ->
  (many a = false /\ prior = true /\ e = mkError DuplicatedNamedArgument (named a) None None [] None) \/
  exists w, v = Some w /\
   ((shape_a a = ShFlag /\ e = mkError UnexpectedInlineValue (named a) (Some (text_of a w)) None [] None) \/
    (shape_a a <> ShFlag /\ exists p e', In p (pieces a (text_of a w)) /\ read_value (value_of_ty (sa_ty a)) p = inr e' /\
      e = mkError InvalidValue (named a) (Some p) (e_source e') (e_context e') None)).
Proof.
  intros Ha Hv. unfold occ_error. destruct (value_error a prior (folded a v)) as [e0|] eqn:E; [|discriminate]. intros H.
  assert (He : e = mkError (e_kind e0) (if is_option a then Some (describe a) else e_arg_desc e0) (e_input e0) (e_source e0) (e_context e0) (e_help e0)).
  { injection H as <-. destruct (is_option a); [reflexivity|]. destruct e0; reflexivity. }
  clear H. assert (Hd : prior = true -> many a = false -> e0 = err_new DuplicatedNamedArgument ->
    (many a = false /\ prior = true /\ e = mkError DuplicatedNamedArgument (named a) None None [] None)).
  { intros H1 H2 ->. split; [exact H2|]. split; [exact H1|]. exact He. }
  assert (Hr : forall w ps, v = Some w -> shape_a a <> ShFlag -> ps = pieces a (text_of a w) ->
     first_error (value_of_ty (sa_ty a)) ps = Some e0 -> exists w, v = Some w /\
   ((shape_a a = ShFlag /\ e = mkError UnexpectedInlineValue (named a) (Some (text_of a w)) None [] None) \/
    (shape_a a <> ShFlag /\ exists p e', In p (pieces a (text_of a w)) /\ read_value (value_of_ty (sa_ty a)) p = inr e' /\
      e = mkError InvalidValue (named a) (Some p) (e_source e') (e_context e') None))).
  { intros w ps Ew Hs -> Hf. exists w. split; [exact Ew|]. right. split; [exact Hs|]. apply first_error_Some in Hf.
    destruct Hf as (p & Hp & Ep). exists p, e0. split; [exact Hp|]. split; [exact Ep|].
    assert (Hn : e_arg_desc e0 = None).
    { clear -Ep. unfold read_value in Ep. destruct (vt_value_enum _) as [[names inj]|]; [|destruct (vt_try_from_os _) as [f|]; [|destruct (vt_from_str _) as [f|]]].
      - destruct (utf8_valid p); [destruct (position p names)|]; try discriminate; injection Ep as <-; auto.
      - destruct (f p); try discriminate; injection Ep as <-; auto.
      - destruct (utf8_valid p); [destruct (f p)|]; try discriminate; injection Ep as <-; auto.
      - injection Ep as <-; auto. }
    apply read_value_error in Ep. destruct Ep as (-> & -> & ->) in He. rewrite Hn in He. exact He. }
  unfold value_error in E. destruct v as [w|].
  - rewrite text_folded in E. destruct (shape_a a) eqn:Es.
    + injection E as <-. right. exists w. split; [reflexivity|]. left. split; [reflexivity|]. exact He.
    + destruct prior; [left; apply Hd; [reflexivity|unfold many; rewrite Es; reflexivity|congruence]|]. right.
      eapply Hr; [reflexivity|discriminate| |exact E]. symmetry. apply pieces_single; [exact Ha|unfold many; rewrite Es; reflexivity].
    + destruct prior; [left; apply Hd; [reflexivity|unfold many; rewrite Es; reflexivity|congruence]|]. right.
      eapply Hr; [reflexivity|discriminate| |exact E]. symmetry. apply pieces_single; [exact Ha|unfold many; rewrite Es; reflexivity].
    + destruct prior; [left; apply Hd; [reflexivity|unfold many; rewrite Es; reflexivity|congruence]|]. right.
      eapply Hr; [reflexivity|discriminate| |exact E]. symmetry. apply pieces_single; [exact Ha|unfold many; rewrite Es; reflexivity].
    + right. eapply Hr; [reflexivity|discriminate|reflexivity|exact E].
    + right. eapply Hr; [reflexivity|discriminate|reflexivity|exact E].
  - specialize (Hv eq_refl). unfold takes_value in Hv. cbn [folded] in E. destruct (shape_a a) eqn:Es; try discriminate Hv.
    + destruct prior; [|discriminate]. left. apply Hd; [reflexivity|unfold many; rewrite Es; reflexivity|congruence].
    + destruct prior; [|discriminate]. left. apply Hd; [reflexivity|unfold many; rewrite Es; reflexivity|congruence].
Qed.

Lemma occ_error_twice a v : many a = false -> occ_error a true v <> None.
Proof.
  intros Hm. unfold occ_error. destruct (value_error a true (folded a v)) as [e|] eqn:E; [discriminate|]. exfalso.
  unfold value_error in E. unfold many in Hm. destruct (shape_a a); try discriminate. destruct (folded a v); discriminate.
Qed.
Lemma occ_error_inline a prior v : shape_a a = ShFlag -> occ_error a prior (Some v) <> None.
Proof. intros Hs. unfold occ_error, value_error. rewrite text_folded, Hs. discriminate. Qed.
Lemma occ_error_value a prior v p e : arg_facts a -> shape_a a <> ShFlag -> In p (pieces a (text_of a v)) ->
  read_value (value_of_ty (sa_ty a)) p = inr e -> occ_error a prior (Some v) <> None.
Proof.
  intros Ha Hs Hp He. pose proof (first_error_In _ _ _ _ Hp He) as Hf. unfold occ_error, value_error. rewrite text_folded.
  assert (H1 : many a = false -> first_error (value_of_ty (sa_ty a)) [text_of a v] <> None).
  { intros Hm. rewrite (pieces_single a _ Ha Hm) in Hf. exact Hf. }
  unfold many in H1. destruct (shape_a a) eqn:Es; [contradiction| | | | |].
  - destruct prior; [discriminate|]. specialize (H1 eq_refl). destruct (first_error _ [_]); [discriminate|contradiction].
  - destruct prior; [discriminate|]. specialize (H1 eq_refl). destruct (first_error _ [_]); [discriminate|contradiction].
  - destruct prior; [discriminate|]. specialize (H1 eq_refl). destruct (first_error _ [_]); [discriminate|contradiction].
  - destruct (first_error _ (pieces a _)); [discriminate|contradiction].
  - destruct (first_error _ (pieces a _)); [discriminate|contradiction].
Qed.

Lemma read_known_from toks : forall st : state V, state_ok st -> exists inner, stack_ok (inner ++ state_stack st) /\
  Forall (known (inner ++ state_stack st)) (fst (read first_named st toks)).
Proof.
  induction toks as [|t toks IH]; intros st Hok; [exists []; split; [apply Hok|constructor]|]. rewrite read_cons.
  pose proof (step_ok first_named first_named_in st t Hok) as [Hk Hs].
  destruct (step first_named st t) as [os1 [st1|sp]]; unfold then_read; cbn [fst snd] in *.
  - destruct Hs as [Hok1 [i1 E1]]. destruct (IH st1 Hok1) as (i2 & Hs2 & Hk2). rewrite E1, app_assoc in Hs2, Hk2.
    exists (i2 ++ i1). split; [exact Hs2|]. destruct (read first_named st1 toks) as [os2 out2]. cbn [fst] in *. apply Forall_app.
    split; [|exact Hk2]. eapply Forall_impl; [|exact Hk]. intros o Ho. unfold known in *. apply stack_args_app. exact Ho.
  - exists []. split; [apply Hok|exact Hk].
Qed.
Lemma read_known d toks : valid d -> exists stk, stack_ok stk /\ Forall (known stk) (fst (read first_named (start d) toks)).
Proof. intros [Hd _]. destruct (read_known_from toks (start d) (start_ok d Hd)) as (inner & H). eauto. Qed.

(** *** Where reading stops *)

Lemma read_stop toks : forall (st : state V) os sp, read first_named st toks = (os, Stop sp) ->
  exists pre tok post os1 st1 os2, toks = pre ++ tok :: post /\ read first_named st pre = (os1, Go st1) /\
    step first_named st1 tok = (os2, Stop sp).
Proof.
  induction toks as [|t toks IH]; intros st os sp H; [discriminate|]. rewrite read_cons in H.
  destruct (step first_named st t) as [o1 [st1|sp1]] eqn:Es; unfold then_read in H; cbn [fst snd] in H.
  - destruct (read first_named st1 toks) as [o2 out] eqn:Er. injection H as <- ->.
    destruct (IH _ _ _ Er) as (pre & tok & post & os1 & st2 & os2 & -> & E1 & E2).
    exists (t :: pre), tok, post, (o1 ++ os1), st2, os2. split; [reflexivity|]. split; [|exact E2].
    rewrite read_cons, Es. unfold then_read. cbn [fst snd]. rewrite E1. reflexivity.
  - injection H as <- ->. exists [], t, toks, [], st, o1. auto.
Qed.
Lemma stop_read pre tok post : forall (st : state V) os1 st1 os2 sp, read first_named st pre = (os1, Go st1) ->
  step first_named st1 tok = (os2, Stop sp) -> read first_named st (pre ++ tok :: post) = (os1 ++ os2, Stop sp).
Proof.
  intros st os1 st1 os2 sp E1 E2. rewrite read_app, E1. unfold then_read at 1. cbn [fst snd]. rewrite read_cons, E2. reflexivity.
Qed.

Lemma read_snoc toks t (st : state V) : read first_named st (toks ++ [t]) =
  match read first_named st toks with
  | (os, Go st') => let '(os', out) := step first_named st' t in (os ++ os', out)
  | (os, Stop sp) => (os, Stop sp)
  end.
Proof.
  rewrite read_app. destruct (read first_named st toks) as [os [st'|sp]]; unfold then_read; cbn [fst snd]; [|reflexivity].
  rewrite read_one. reflexivity.
Qed.

(** *** Mentions *)

Definition flag_like stk (b : N) : Prop := exists ad a, resolve stk (Short b) = Some (ad, a) /\ takes_value a = false.

(** What a bundle can end in. *)
Inductive bundle_end stk rem : list N -> bytes -> outcome V -> Prop :=
| end_normal cs junk : bundle_end stk rem cs junk (Go (Normal stk rem))
| end_await c ad a : resolve stk (Short c) = Some (ad, a) -> takes_value a = true -> needs_equals a = false ->
    bundle_end stk rem [c] [] (Go (Await stk rem ad a))
| end_junk junk : junk <> [] -> bundle_end stk rem [] junk (Stop (SErr (error_on UnknownNamedArgument (bs "-" ++ junk))))
| end_unknown c cs junk : resolve stk (Short c) = None -> bundle_end stk rem (c :: cs) junk (Stop (unknown_short stk c))
| end_equals c cs junk ad a : resolve stk (Short c) = Some (ad, a) -> needs_equals a = true ->
    (forall v, encode_all cs ++ junk <> c_eq :: v) -> (encode_all cs ++ junk = [] -> takes_value a = true) ->
    bundle_end stk rem (c :: cs) junk (Stop (SErr (error_about MissingEq a))).

Lemma read_bundle_end stk rem cs junk : exists cs1 cs2, cs = cs1 ++ cs2 /\ Forall (flag_like stk) cs1 /\
  bundle_end stk rem cs2 junk (snd (read_bundle stk rem cs junk)).
Proof.
  induction cs as [|c cs IH].
  - exists [], []. split; [reflexivity|]. split; [constructor|]. cbn [read_bundle]. destruct junk as [|x junk]; [constructor|].
    cbn [snd]. apply (end_junk stk rem (x :: junk)). discriminate.
  - rewrite read_bundle_cons. destruct (resolve stk (Short c)) as [[ad a]|] eqn:Er.
    + assert (Hc : takes_value a = false -> forall v, exists cs1 cs2, c :: cs = cs1 ++ cs2 /\ Forall (flag_like stk) cs1 /\
          bundle_end stk rem cs2 junk (snd (let '(os, out) := read_bundle stk rem cs junk in (Occ ad a v :: os, out)))).
      { intros Ht v. destruct IH as (cs1 & cs2 & -> & Hf & He). exists (c :: cs1), cs2. split; [reflexivity|]. split.
        - constructor; [exists ad, a; auto|exact Hf].
        - destruct (read_bundle stk rem (cs1 ++ cs2) junk) as [os out]. exact He. }
      destruct (strip_prefix [c_eq] (encode_all cs ++ junk)) as [v|] eqn:Ep.
      * destruct (takes_value a) eqn:Et; [|apply Hc; reflexivity]. exists [], (c :: cs). split; [reflexivity|]. split; [constructor|]. constructor.
      * assert (Hne : forall v, encode_all cs ++ junk <> c_eq :: v).
        { intros v E. rewrite E in Ep. cbn in Ep. discriminate. }
        destruct (encode_all cs ++ junk) as [|x tail] eqn:Et.
        -- exists [], (c :: cs). split; [reflexivity|]. split; [constructor|]. apply app_eq_nil in Et. destruct Et as [Et ->].
           assert (cs = []) as ->.
           { destruct cs as [|b cs]; [reflexivity|]. exfalso. change (encode_all (b :: cs)) with (utf8_encode b ++ encode_all cs) in Et.
             destruct (utf8_encode_nonempty b) as (x & r & Ex). rewrite Ex in Et. discriminate. }
           unfold bare. destruct (takes_value a) eqn:Etv; [destruct (needs_equals a) eqn:Eq|]; cbn [snd].
           ++ apply end_equals with (ad := ad); [exact Er|exact Eq|cbn; discriminate|auto].
           ++ apply end_await; assumption.
           ++ constructor.
        -- destruct (needs_equals a) eqn:Eq.
           ++ exists [], (c :: cs). split; [reflexivity|]. split; [constructor|]. cbn [snd].
              apply end_equals with (ad := ad); [exact Er|exact Eq|rewrite Et; exact Hne|rewrite Et; discriminate].
           ++ destruct (takes_value a) eqn:Etv; [|apply Hc; reflexivity].
              exists [], (c :: cs). split; [reflexivity|]. split; [constructor|]. constructor.
    + exists [], (c :: cs). split; [reflexivity|]. split; [constructor|]. apply end_unknown. exact Er.
Qed.

Lemma bundle_mentions stk (b : bytes) cs1 c cs2 junk : utf8_prefix b = (cs1 ++ c :: cs2, junk) ->
  (forall w, b <> c_dash :: w) -> Forall (flag_like stk) cs1 ->
  mentions stk (bs "-" ++ b) (Short c) (encode_all cs2 ++ junk).
Proof.
  intros E Hd Hf. apply utf8_prefix_iff in E. destruct E as (Hs & _ & ->). apply Forall_app in Hs. destruct Hs as [_ Hs].
  inversion Hs as [|? ? Hc _]; subst.
  assert (Eb : text (cs1 ++ c :: cs2) ++ junk = text cs1 ++ utf8_encode c ++ encode_all cs2 ++ junk).
  { rewrite !text_all. unfold encode_all. rewrite map_app, concat_app. cbn [map concat]. rewrite <- !app_assoc. reflexivity. }
  rewrite Eb in *. apply mentions_short; [exact Hc| |exact Hf].
  intros -> ->. cbn in Hd. elim (Hd (encode_all cs2 ++ junk)). reflexivity.
Qed.

Lemma long_mentions stk tok (s : bytes) v : form_of tok = FLong s v ->
  mentions stk tok (Long s) (match v with Some w => c_eq :: w | None => [] end).
Proof.
  intros H. rewrite form_of_eq in H. destruct (beqb tok [c_dash; c_dash]) eqn:Ed; [discriminate|].
  destruct (strip_prefix [c_dash; c_dash] tok) as [b|] eqn:Ep; [|destruct (as_bundle tok); discriminate].
  apply strip_prefix_Some in Ep. subst tok. destruct (cut_eq b) as [s' v'] eqn:Ec. injection H as -> ->.
  rewrite cut_eq_split in Ec. destruct (split_once c_eq b) as [[l r]|] eqn:Es.
  - injection Ec as -> <-. apply split_once_Some in Es. destruct Es as [-> Hn].
    change ([c_dash; c_dash] ++ s ++ c_eq :: r) with (bs "--" ++ s ++ c_eq :: r). rewrite app_assoc.
    apply (mentions_long stk s (c_eq :: r)); [right; discriminate|exact Hn|right; exists r; reflexivity].
  - injection Ec as -> <-. apply split_once_None in Es. rewrite <- (app_nil_r ([c_dash; c_dash] ++ s)).
    apply (mentions_long stk s []); [left|exact Es|left; reflexivity]. intros ->. cbn in Ed. discriminate.
Qed.

(** *** The origin of a state *)

Lemma await_origin d toks : forall os stk rem ad a, read first_named (start d) toks = (os, Go (Await stk rem ad a)) ->
  exists pre tok os1 n, toks = pre ++ [tok] /\ at_option d pre os1 stk rem /\ mentions stk tok n [] /\
    resolve stk n = Some (ad, a) /\ takes_value a = true /\ needs_equals a = false.
Proof.
  intros os stk rem ad a. destruct toks as [|t toks _] using rev_ind; [discriminate|]. rewrite read_snoc.
  destruct (read first_named (start d) toks) as [os1 [st|sp]] eqn:Er; [|discriminate].
  destruct (step first_named st t) as [os2 out] eqn:Es. intros H. injection H as _ ->.
  exists toks, t, os1. destruct st as [stk0 rem0|stk0 rem0 ad0 a0|stk0 rem0|stk0 p]; cbn [step] in Es.
  - destruct (form_of t) as [|s v|b|] eqn:Ef.
    + discriminate.
    + unfold read_long in Es. destruct (resolve stk0 (Long s)) as [[ad1 a1]|] eqn:En; [|discriminate].
      destruct v as [v|]; [discriminate|]. unfold bare in Es. destruct (takes_value a1) eqn:Et; [|discriminate].
      destruct (needs_equals a1) eqn:Eq; [discriminate|]. injection Es as _ -> -> -> ->.
      exists (Long s). split; [reflexivity|]. split; [exact Er|]. split; [exact (long_mentions stk t s None Ef)|]. auto.
    + destruct (utf8_prefix b) as [cs junk] eqn:Eb. apply form_bundle_inv in Ef. destruct Ef as (-> & _ & Hd).
      destruct (read_bundle_end stk0 rem0 cs junk) as (cs1 & cs2 & -> & Hf & He). rewrite Es in He. cbn [snd] in He.
      inversion He as [|c ad1 a1 H1 H2 H3| | |]; subst.
      exists (Short c). split; [reflexivity|]. split; [exact Er|]. split; [|auto].
      apply (bundle_mentions stk b cs1 c [] [] Eb Hd Hf).
    + destruct (first_named (sub_variants stk0) t); [discriminate|]. unfold take_word in Es.
      destruct rem0 as [|p rem0]; [discriminate|]. destruct (false || negb (is_last p)); [|discriminate].
      destruct (greedy p); discriminate.
  - destruct (may_follow a0 t); discriminate.
  - unfold take_word in Es. destruct rem0 as [|p rem0]; [discriminate|]. cbn [orb] in Es. destruct (greedy p); discriminate.
  - discriminate.
Qed.

Lemma verbatim_origin d toks : forall os stk rem, read first_named (start d) toks = (os, Go (Verbatim stk rem)) ->
  exists pre ws os1 rem1 os2, toks = pre ++ bs "--" :: ws /\ at_option d pre os1 stk rem1 /\
    read first_named (Verbatim stk (after_sep stk rem1)) ws = (os2, Go (Verbatim stk rem)).
Proof.
  induction toks as [|t toks IH] using rev_ind; intros os stk rem; [discriminate|]. rewrite read_snoc.
  destruct (read first_named (start d) toks) as [os1 [st|sp]] eqn:Er; [|discriminate].
  destruct (step first_named st t) as [os2 out] eqn:Es. intros H. injection H as _ ->.
  destruct st as [stk0 rem0|stk0 rem0 ad0 a0|stk0 rem0|stk0 p]; cbn [step] in Es.
  - destruct (form_of t) as [|s v|b|] eqn:Ef.
    + injection Es as <- -> <-. apply form_sep in Ef. subst t. exists toks, [], os1, rem0, []. split; [reflexivity|]. split; [exact Er|]. reflexivity.
    + exfalso. pose proof (read_long_options stk0 rem0 s v) as Ho. rewrite Es in Ho. destruct Ho as [_ [Ho|(? & ? & Ho & _)]]; discriminate.
    + exfalso. destruct (utf8_prefix b) as [cs junk]. pose proof (read_bundle_options stk0 rem0 cs junk) as Ho. rewrite Es in Ho.
      destruct Ho as [_ [Ho|(? & ? & Ho & _)]]; discriminate.
    + destruct (first_named (sub_variants stk0) t); [discriminate|]. unfold take_word in Es.
      destruct rem0 as [|p rem0]; [discriminate|]. destruct (false || negb (is_last p)); [|discriminate].
      destruct (greedy p); discriminate.
  - destruct (may_follow a0 t); discriminate.
  - assert (stk0 = stk) as ->.
    { unfold take_word in Es. destruct rem0 as [|p rem0]; [discriminate|]. cbn [orb] in Es. destruct (greedy p); [discriminate|]. congruence. }
    destruct (IH _ _ _ eq_refl) as (pre & ws & o1 & rem1 & o2 & -> & Ha & E).
    exists pre, (ws ++ [t]), o1, rem1, (o2 ++ os2). split; [rewrite <- app_assoc; reflexivity|]. split; [exact Ha|].
    rewrite read_snoc, E. cbn [step]. rewrite Es. reflexivity.
  - discriminate.
Qed.

Lemma verbatim_target ws : forall stk ps os rem, read first_named (Verbatim stk ps) ws = (os, Go (Verbatim stk rem)) ->
  (forall k, target rem k = target ps (length ws + k)) /\ forall k, k < length ws -> target ps k <> None.
Proof.
  induction ws as [|w ws IH]; intros stk ps os rem H.
  - injection H as _ ->. split; [reflexivity|]. intros k Hk. inversion Hk.
  - rewrite read_cons in H. cbn [step] in H. unfold take_word in H. destruct ps as [|p ps]; [discriminate|]. cbn [orb] in H.
    unfold then_read in H. cbn [fst snd] in H. destruct (greedy p) eqn:Eg.
    + rewrite drain_words in H. discriminate.
    + destruct (read first_named (Verbatim stk (if many p then p :: ps else ps)) ws) as [os2 out] eqn:E. injection H as _ ->.
      destruct (IH _ _ _ _ E) as [H1 H2]. split.
      * intros k. rewrite H1. cbn [length]. apply target_after. exact Eg.
      * intros [|k] Hk; [rewrite target_first; discriminate|]. rewrite <- (target_after p ps k Eg). apply H2. cbn in Hk. lia.
Qed.

(** *** Violated constraints *)

Inductive struct_blame os (level : nat) path d (sub : bool) : error -> Prop :=
| sb_required a : In a (own_args d) -> is_required a = true -> is_given os level path (sa_id a) = false ->
    struct_blame os level path d sub (error_about MissingRequiredArgument a)
| sb_requires a id b : In a (own_args d) -> is_given os level path (sa_id a) = true -> In id (am_requires (sa_meta a)) ->
    In b (own_args d) -> sa_id b = id -> is_given os level path id = false ->
    struct_blame os level path d sub (error_about ConstraintRequired b)
| sb_conflict a id : In a (own_args d) -> is_given os level path (sa_id a) = true -> In id (am_conflicts_with (sa_meta a)) ->
    is_given os level path id = true -> struct_blame os level path d sub (error_about ConstraintConflict a)
| sb_exclusive a b : In a (own_args d) -> am_exclusive (sa_meta a) = true -> is_given os level path (sa_id a) = true ->
    In b (own_args d) -> sa_id b <> sa_id a -> is_given os level path (sa_id b) = true ->
    struct_blame os level path d sub (error_about ConstraintExclusive a)
| sb_exclusive_sub a : In a (own_args d) -> am_exclusive (sa_meta a) = true -> is_given os level path (sa_id a) = true ->
    sub = true -> struct_blame os level path d sub (error_about ConstraintExclusive a)
| sb_sub id vs : sub = false -> subcommand d = Some (id, false, vs) ->
    struct_blame os level path d sub (err_new MissingRequiredSubcommand).

Lemma requires_own d a id : accepted d -> In a (own_args d) -> In id (am_requires (sa_meta a)) ->
  exists b, In b (own_args d) /\ sa_id b = id.
Proof.
  intros Hd Ha Hi. apply in_checked in Ha. apply In_nth_error in Ha. destruct Ha as [i Hai].
  destruct (final_refs d i a Hd Hai) as [H1 _].
  clear -H1 Hi. revert Hi. induction H1 as [|x y l m (j & b & _ & Hj & Hb) _ IH]; [contradiction|].
  intros [<-|Hi]; [|exact (IH Hi)]. exists b. split; [|exact Hb]. apply in_checked. eapply nth_error_In; eauto.
Qed.

Lemma violation_blame os level path d sub a e : accepted d -> In a (own_args d) ->
  violation os level path d sub a = Some e -> struct_blame os level path d sub e.
Proof.
  intros Hd Ha. unfold violation. destruct (is_given os level path (sa_id a)) eqn:Eg; [|discriminate].
  set (others := existsb _ _). destruct (am_exclusive (sa_meta a) && (others || sub)) eqn:Ex.
  - intros H. injection H as <-. apply andb_true_iff in Ex. destruct Ex as [Ex Eo]. destruct others eqn:E2; subst others.
    + apply existsb_exists in E2. destruct E2 as (b & Hb & E2). apply andb_true_iff in E2. destruct E2 as [E2 E3].
      apply negb_true_iff, beqb_neq in E2. apply sb_exclusive with (b := b); assumption.
    + apply sb_exclusive_sub; assumption.
  - clear others Ex. destruct (find (fun id => negb (is_given os level path id)) (am_requires (sa_meta a))) as [id|] eqn:Er.
    + intros H. injection H as <-. apply find_some in Er. destruct Er as [Hi Er]. apply negb_true_iff in Er.
      destruct (requires_own d a id Hd Ha Hi) as (b & Hb & Eb). unfold error_about_id. rewrite (find_own d Hd id b Hb Eb).
      apply sb_requires with (a := a) (id := id); assumption.
    + destruct (find (is_given os level path) (am_conflicts_with (sa_meta a))) as [id|] eqn:Ec; [|discriminate].
      intros H. injection H as <-. apply find_some in Ec. destruct Ec as [Hi Ec]. apply sb_conflict with (id := id); assumption.
Qed.
Lemma first_violation_Some os level path d sub l e : first_violation os level path d sub l = Some e ->
  exists a, In a l /\ violation os level path d sub a = Some e.
Proof.
  induction l as [|a l IH]; [discriminate|]. cbn [first_violation]. destruct (violation os level path d sub a) eqn:E.
  - intros H. injection H as ->. exists a. split; [left; reflexivity|exact E].
  - intros H. destruct (IH H) as (b & Hb & Eb). exists b. split; [right; exact Hb|exact Eb].
Qed.
Lemma check_absent_Err os level path l e : check_absent os level path l = Err e ->
  exists a, In a l /\ is_given os level path (sa_id a) = false /\ is_required a = true /\ e = error_about MissingRequiredArgument a.
Proof.
  induction l as [|a l IH]; [discriminate|]. cbn [check_absent]. destruct (is_given os level path (sa_id a)) eqn:Eg.
  - intros H. destruct (IH H) as (b & Hb & Eb). exists b. split; [right; exact Hb|exact Eb].
  - destruct (is_required a) eqn:Er.
    + intros H. injection H as <-. exists a. split; [left; reflexivity|auto].
    + destruct (default_readable a); [|discriminate]. intros H. destruct (IH H) as (b & Hb & Eb). exists b. split; [right; exact Hb|exact Eb].
Qed.
Lemma finish_struct_Err os level path d flats sub e : accepted d -> finish_struct os level path d flats sub = Err e ->
  struct_blame os level path d (is_some sub) e.
Proof.
  intros Hd. unfold finish_struct. destruct (first_violation os level path d (is_some sub) (checked d)) as [e'|] eqn:Ev.
  - intros H. injection H as <-. apply first_violation_Some in Ev. destruct Ev as (a & Ha & E). apply in_checked in Ha.
    exact (violation_blame _ _ _ _ _ _ _ Hd Ha E).
  - destruct (check_absent os level path (checked d)) as [[]|e'|q] eqn:Ea; cbn [bind].
    + intros H. destruct (subcommand d) as [[[id [|]] vs]|] eqn:Es, sub as [x|]; try discriminate.
      injection H as <-. exact (sb_sub os level path d (is_some None) id vs eq_refl Es).
    + intros H. injection H as <-. apply check_absent_Err in Ea. destruct Ea as (a & Ha & H1 & H2 & ->). apply in_checked in Ha.
      apply sb_required; assumption.
    + discriminate.
Qed.
Lemma finish_flats_Error os level path l : forall acc e, finish_flats os level path l (Ok acc) = Err e ->
  exists id x, In (id, x) l /\ finish_args os level (path ++ [id]) x None = Err e.
Proof.
  induction l as [|[id x] l IH]; intros acc e H; [discriminate|].
  unfold finish_flats in H. cbn [fold_left bind fst snd] in H.
  destruct (finish_args os level (path ++ [id]) x None) as [o|e'|q] eqn:E; cbn [bind] in H.
  - destruct (IH _ _ H) as (id' & x' & Hi & E'). exists id', x'. split; [right; exact Hi|exact E'].
  - fold (finish_flats os level path l (Err (A:=list (ident * outval V)) e')) in H. rewrite finish_flats_Err in H. injection H as ->.
    exists id, x. split; [left; reflexivity|exact E].
  - fold (finish_flats os level path l (Panic (A:=list (ident * outval V)) q)) in H. rewrite finish_flats_Panic in H. discriminate.
Qed.
Lemma finish_args_Err os level d : forall path sub e, accepted d -> finish_args os level path d sub = Err e ->
  exists u, In u (units path d) /\ accepted (snd u) /\
    struct_blame os level (fst u) (snd u) (match length (fst u) - length path with 0 => is_some sub | _ => false end) e.
Proof.
  induction d as [d IH _] using decl_induction. intros path sub e Hd H. rewrite finish_args_eq in H.
  destruct (finish_flats os level path (flattened d) (Ok [])) as [outs|e'|q] eqn:Ef; cbn [bind] in H; [| |discriminate].
  - apply finish_struct_Err in H; [|exact Hd]. exists (path, d). split; [rewrite units_eq; left; reflexivity|]. split; [exact Hd|].
    cbn [fst snd]. rewrite Nat.sub_diag. exact H.
  - injection H as <-. apply finish_flats_Error in Ef. destruct Ef as (id & x & Hx & E).
    destruct (accepted_flat d id x Hd Hx) as (Hax & _).
    destruct (IH id x (proj1 (in_flattened d id x) Hx) _ _ _ Hax E) as (u & Hu & Hau & Hb).
    exists u. split; [rewrite units_eq; right; apply in_flat_map; exists (id, x); auto|]. split; [exact Hau|].
    apply units_prefix in Hu. destruct Hu as [q Hq]. rewrite Hq in *. rewrite !app_length in *. cbn [length] in *.
    replace (length path + 1 + length q - length path) with (S (length q)) by lia.
    destruct (length path + 1 + length q - (length path + 1)); exact Hb.
Qed.
Lemma finish_stack_Err os stk : forall sub e, stack_ok stk -> finish_stack os stk sub = Err e ->
  exists inner s outer u, stk = inner ++ s :: outer /\ In u (units [] (sc_decl s)) /\ accepted (sc_decl s) /\
    struct_blame os (length outer) (fst u) (snd u)
      (match fst u with [] => match inner with [] => is_some sub | _ => true end | _ => false end) e.
Proof.
  induction stk as [|s stk IH]; intros sub e Hok H; [discriminate|]. cbn [finish_stack] in H. inversion Hok as [|? ? [Hs _] Hok']; subst.
  destruct (finish_args os (length stk) [] (sc_decl s) sub) as [o|e'|q] eqn:E; cbn [bind] in H; [| |discriminate].
  - destruct stk as [|s1 stk]; [discriminate|]. destruct (IH _ _ Hok' H) as (inner & s' & outer & u & E' & Hu & Ha & Hb).
    exists (s :: inner), s', outer, u. split; [rewrite E'; reflexivity|]. split; [exact Hu|]. split; [exact Ha|].
    destruct (fst u); [|exact Hb]. destruct inner; exact Hb.
  - injection H as <-. destruct (finish_args_Err _ _ _ _ _ _ Hs E) as (u & Hu & Ha & Hb).
    exists [], s, stk, u. split; [reflexivity|]. split; [exact Hu|]. split; [exact Hs|]. cbn [length] in Hb. rewrite Nat.sub_0_r in Hb.
    destruct (fst u); exact Hb.
Qed.

(** *** The theorem *)

Theorem error_blame d (argv0 : bytes) toks e : valid d -> try_parse_from d (argv0 :: toks) = Err e -> blame argv0 d toks e.
Proof.
  intros Hd H. rewrite parse_conclude in H by exact Hd.
  destruct (read first_named (start d) toks) as [os out] eqn:Er. unfold conclude in H.
  destruct (first_bad [] os) as [e'|] eqn:Eb.
  - injection H as <-. apply first_bad_Some in Eb. destruct Eb as (os1 & [ad a v] & os2 & -> & Eo). cbn [app oc_arg oc_addr oc_val] in Eo.
    assert (Hseen : seen d toks = os1 ++ Occ ad a v :: os2) by (unfold seen; rewrite Er; reflexivity).
    pose proof (read_valued first_named toks (start d)) as Hv. rewrite Er in Hv. cbn [fst] in Hv. rewrite Forall_app in Hv.
    destruct Hv as [_ Hv]. inversion Hv as [|? ? Hv1 _]; subst. unfold valued in Hv1. cbn [oc_val oc_arg] in Hv1.
    assert (Ha : arg_facts a).
    { destruct (read_known d toks Hd) as (stk & Hok & Hk). rewrite Er in Hk. cbn [fst] in Hk. rewrite Forall_app in Hk. destruct Hk as [_ Hk].
      inversion Hk as [|? ? Hk1 _]; subst. exact (arg_in_stack _ _ _ Hok Hk1). }
    apply (occ_error_kinds _ _ _ _ Ha Hv1) in Eo. destruct Eo as [(H1 & H2 & ->)|(w & -> & [(H1 & ->)|(H1 & p & e2 & H2 & H3 & ->)])].
    + eapply blame_twice; eauto.
    + eapply blame_inline; eauto.
    + eapply blame_value; eauto.
  - assert (Hgo : forall st, out = Go st -> complete st -> finish_stack os (state_stack st) None = Err e -> blame argv0 d toks e).
    { intros st -> Hc Hf. assert (Hr : reads d toks os (state_stack st)) by (exists st; auto).
      destruct (reads_ok _ _ _ _ Hd Hr) as (_ & Hok & _).
      destruct (finish_stack_Err _ _ _ _ Hok Hf) as (inner & s & outer & u & E & Hu & Has & Hb). rewrite E in Hr, Hok.
      clear Hf Er Eb Hc H. set (stk := inner ++ s :: outer) in *.
      assert (In_stk : forall a, In a (own_args (snd u)) -> In (Addr (length outer) (fst u ++ [sa_id a]), a) (stack_args stk)).
      { intros a Ha. apply in_stack_args. apply reach_unit. eauto. }
      assert (Hsib : forall (a : sarg) id, sibling (Addr (length outer) (fst u ++ [sa_id a])) id = Addr (length outer) (fst u ++ [id])).
      { intros a id. unfold sibling. cbn [ad_level ad_path]. rewrite removelast_snoc. reflexivity. }
      inversion Hb as [a H1 H2 H3 E1|a id b H1 H2 H3 H4 H5 H6 E1|a id H1 H2 H3 H4 E1|a b H1 H2 H3 H4 H5 H6 E1|a H1 H2 H3 H4 E1|id vs H1 H2 E1].
      - eapply blame_required; [exact Hr|exact (In_stk a H1)|exact H2|exact H3].
      - subst id. eapply blame_requires; [exact Hr|exact (In_stk a H1)|exact H2|exact H3| |]; rewrite Hsib; [apply In_stk; exact H4|exact H6].
      - eapply blame_conflict; [exact Hr|exact (In_stk a H1)|exact H2|exact H3|]. rewrite Hsib. exact H4.
      - eapply blame_exclusive; [exact Hr|exact (In_stk a H1)|exact H2|exact H3|exact (In_stk b H4)| | |exact H6].
        + split; [reflexivity|]. cbn [ad_path]. rewrite !removelast_snoc. reflexivity.
        + intros C. apply (at_field_inj (length outer) (fst u)) in C. destruct C as (_ & _ & C). contradiction.
      - destruct (fst u) as [|i q] eqn:Eu; [|discriminate]. destruct inner as [|x inner]; [discriminate|].
        eapply blame_exclusive_sub; [exact Hr|exact (In_stk a H1)|exact H2|exact H3| |].
        + unfold own_field. cbn. reflexivity.
        + cbn [ad_level]. unfold stk. rewrite app_length. cbn [length]. lia.
      - destruct u as [q x]. cbn [fst snd] in *. destruct q as [|i q].
        + destruct inner as [|y inner]; [|discriminate].
          assert (x = sc_decl s) by (eapply (unit_unique (sc_decl s) []); [exact Has|exact Hu|rewrite units_eq; left; reflexivity]).
          subst x. eapply blame_subcommand; [exact Hr|exact H2].
        + rewrite (units_no_sub _ _ _ Has Hu) in H2; [discriminate H2|discriminate]. }
    destruct out as [st|sp].
    + destruct st as [stk rem|stk rem ad a|stk rem|stk p]; try (apply (Hgo _ eq_refl I H)).
      injection H as <-. destruct (await_origin _ _ _ _ _ _ _ Er) as (pre & tok & os1 & n & -> & Ha & Hm & Hn & Ht & Hq).
      eapply (blame_no_value argv0 d _ pre tok []); eauto.
    + clear Hgo. apply read_stop in Er. destruct Er as (pre & tok & post & os1 & st & os2 & -> & Er & Es).
      destruct st as [stk rem|stk rem ad a|stk rem|stk p]; cbn [step] in Es.
      * pose proof (at_option_stack d pre os1 stk rem Hd Er) as Hok.
        destruct (form_of tok) as [|s v|b|] eqn:Ef.
        -- discriminate.
        -- unfold read_long in Es. pose proof (long_mentions stk tok s v Ef) as Hm.
           destruct (resolve stk (Long s)) as [[ad a]|] eqn:En.
           ++ destruct v as [v|]; [discriminate|]. unfold bare in Es. destruct (takes_value a) eqn:Et; [|discriminate].
              destruct (needs_equals a) eqn:Eq; [|discriminate]. injection Es as _ <-. injection H as <-.
              eapply blame_equals; [reflexivity|exact Er|exact Hm|exact En|exact Eq|discriminate|auto].
           ++ injection Es as _ <-. apply (unknown_iff stk (Long s) Hok) in En. unfold unknown_long in H.
              destruct (beqb s (bs "help")) eqn:Eh; injection H as <-.
              ** apply beqb_eq in Eh. subst s. eapply blame_help; [reflexivity|exact Er|exact Hm|exact En|left; reflexivity].
              ** eapply (blame_unknown argv0 d _ pre tok post os1 stk rem (Long s)); [reflexivity|exact Er|exact Hm|exact En|].
                 intros [C|C]; [|discriminate]. injection C as ->. rewrite beqb_refl in Eh. discriminate.
        -- destruct (utf8_prefix b) as [cs junk] eqn:Eu. apply form_bundle_inv in Ef. destruct Ef as (-> & _ & Hdd).
           destruct (read_bundle_end stk rem cs junk) as (cs1 & cs2 & -> & Hf & He). rewrite Es in He. cbn [snd] in He.
           inversion He as [| |j Hj E1|c cs j En E1|c cs j ad a En Eq Hne Ht E1]; subst.
           ++ injection H as <-. apply utf8_prefix_iff in Eu. destruct Eu as (_ & Hnc & ->). rewrite app_nil_r in *.
              eapply (blame_junk argv0 d _ pre cs1 junk post); [reflexivity|exact Er|exact Hj|exact Hnc|exact Hf].
           ++ pose proof (bundle_mentions stk b cs1 c cs junk Eu Hdd Hf) as Hm. apply (unknown_iff stk (Short c) Hok) in En.
              unfold unknown_short in H. destruct (c =? b2n "h")%N eqn:Eh; injection H as <-.
              ** apply N.eqb_eq in Eh. eapply blame_help; [reflexivity|exact Er|exact Hm|exact En|right; rewrite Eh; reflexivity].
              ** eapply (blame_unknown argv0 d _ pre _ post os1 stk rem (Short c)); [reflexivity|exact Er|exact Hm|exact En|].
                 intros [C|C]; [discriminate|]. injection C as ->. discriminate.
           ++ pose proof (bundle_mentions stk b cs1 c cs junk Eu Hdd Hf) as Hm. injection H as <-.
              eapply blame_equals; [reflexivity|exact Er|exact Hm|exact En|exact Eq|exact Hne|exact Ht].
        -- destruct (first_named (sub_variants stk) tok) as [v|] eqn:Ev; [discriminate|].
           apply form_word in Ef. apply first_named_none in Ev.
           assert (Hnw : next_word stk os1 = None /\ sp = SErr (extra_word stk tok)).
           { pose proof (next_rem _ _ _ _ _ Hd Er) as Hx. unfold take_word in Es. destruct (next_word stk os1) as [p|].
             - destruct Hx as (rem' & -> & Hl & _). rewrite Hl in Es. discriminate.
             - split; [reflexivity|]. destruct rem as [|p rem]; [injection Es as _ <-; reflexivity|]. rewrite Hx in Es. cbn [orb negb] in Es. injection Es as _ <-. reflexivity. }
           destruct Hnw as [Hnw ->]. injection H as <-. eapply blame_word; [reflexivity|exact Er|exact Ef|exact Ev|exact Hnw].
      * destruct (may_follow a tok) eqn:Em; [discriminate|]. injection Es as _ <-. injection H as <-.
        destruct (await_origin _ _ _ _ _ _ _ Er) as (pre' & tok' & os1' & n & -> & Ha & Hm & Hn & Ht & Hq).
        eapply (blame_no_value argv0 d _ pre' tok' (tok :: post)); [rewrite <- app_assoc; reflexivity| | | | | |]; eauto.
      * destruct (verbatim_origin _ _ _ _ _ Er) as (pre' & ws & os1' & rem1 & os2' & -> & Ha & Ev).
        unfold take_word in Es. destruct rem as [|p rem]; [|cbn [orb] in Es; discriminate]. injection Es as _ <-. injection H as <-.
        destruct (verbatim_target _ _ _ _ _ Ev) as [H1 H2].
        eapply (blame_verbatim argv0 d _ pre' ws tok post os1' stk rem1); [rewrite <- app_assoc; reflexivity|exact Ha| |].
        -- rewrite <- (verbatim_targets d pre' os1' stk rem1 Hd Ha). rewrite <- (Nat.add_0_r (length ws)), <- H1. reflexivity.
        -- intros k Hk. rewrite <- (verbatim_targets d pre' os1' stk rem1 Hd Ha). apply H2. exact Hk.
      * discriminate.
Qed.

(** *** What is blamed is wrong *)

Definition halts (out : outcome V) : Prop := match out with Stop _ => True | Go _ => False end.

Lemma bundle_through stk rem cs1 cs2 junk : Forall (flag_like stk) cs1 ->
  halts (snd (read_bundle stk rem (cs1 ++ cs2) junk)) \/
  snd (read_bundle stk rem (cs1 ++ cs2) junk) = snd (read_bundle stk rem cs2 junk).
Proof.
  induction 1 as [|c cs (ad & a & Hr & Ht) _ IH]; [right; reflexivity|]. cbn [app]. rewrite read_bundle_cons, Hr, Ht.
  assert (Hc : forall v, halts (snd (let '(os, out) := read_bundle stk rem (cs ++ cs2) junk in (Occ ad a v :: os, out))) \/
    snd (let '(os, out) := read_bundle stk rem (cs ++ cs2) junk in (Occ ad a v :: os, out)) = snd (read_bundle stk rem cs2 junk)).
  { intros v. destruct (read_bundle stk rem (cs ++ cs2) junk) as [os out]. exact IH. }
  destruct (strip_prefix [c_eq] (encode_all (cs ++ cs2) ++ junk)) as [v|]; [apply Hc|].
  destruct (encode_all (cs ++ cs2) ++ junk) as [|x tail] eqn:E.
  - right. apply app_eq_nil in E. destruct E as [E ->].
    assert (cs2 = []) as ->.
    { destruct cs2 as [|b cs2]; [reflexivity|]. exfalso. unfold encode_all in E. rewrite map_app, concat_app in E. cbn [map concat] in E.
      apply app_eq_nil in E. destruct E as [_ E]. destruct (utf8_encode_nonempty b) as (x & r & Ex). rewrite Ex in E. discriminate. }
    unfold bare. rewrite Ht. reflexivity.
  - destruct (needs_equals a); [left; exact I|]. apply Hc.
Qed.

Lemma bundle_form stk (b : bytes) cs (t : bytes) : stack_ok stk -> Forall (flag_like stk) cs -> b = text cs ++ t ->
  (cs = [] -> exists x r, t = x :: r /\ x <> c_dash) -> form_of (bs "-" ++ b) = FBundle b.
Proof.
  intros Hok Hf -> Ht. assert (E : exists x r, text cs ++ t = x :: r /\ x <> c_dash).
  { destruct Hf as [|c cs (ad & a & Hr & _) _]; [apply Ht; reflexivity|].
    change (text (c :: cs)) with (utf8_encode c ++ text cs). rewrite <- app_assoc.
    destruct (name_facts _ _ _ _ Hok Hr) as (_ & _ & Hs & Hd & _). exact (ContextFacts.encode_head c Hs Hd _). }
  destruct E as (x & r & -> & Hx). apply form_bundle. exact Hx.
Qed.
Lemma flags_scalar stk cs : stack_ok stk -> Forall (flag_like stk) cs -> forallb is_scalar cs = true.
Proof.
  intros Hok. induction 1 as [|c cs (ad & a & Hr & _) _ IH]; [reflexivity|]. cbn [forallb].
  destruct (name_facts _ _ _ _ Hok Hr) as (_ & _ & Hs & _). rewrite Hs. exact IH.
Qed.

Lemma mention_step stk rem tok n rest : stack_ok stk -> mentions stk tok n rest ->
  halts (snd (step first_named (Normal stk rem) tok)) \/
  match n with
  | Long s => step first_named (Normal stk rem) tok = read_long stk rem s (match rest with [] => None | _ :: v => Some v end) /\
              (rest = [] \/ exists v, rest = c_eq :: v)
  | Short c => snd (step first_named (Normal stk rem) tok)
               = snd (read_bundle stk rem (c :: fst (utf8_prefix rest)) (snd (utf8_prefix rest)))
  end.
Proof.
  intros Hok [s rest' Hne Hn Hr|cs c rest' Hc Hd Hf].
  - right. split; [|exact Hr]. cbn [step]. destruct Hr as [->|(v & ->)].
    + rewrite app_nil_r. cbn [spell]. rewrite form_long; [reflexivity| |exact Hn]. destruct Hne as [Hne|Hne]; [exact Hne|contradiction].
    + cbn [spell]. rewrite <- app_assoc. change ("="%byte :: v) with (bs "=" ++ v). rewrite form_long_eq by exact Hn. reflexivity.
  - apply scalar_spec in Hc. cbn [step].
    rewrite (bundle_form stk (text cs ++ utf8_encode c ++ rest') cs (utf8_encode c ++ rest') Hok Hf eq_refl).
    + assert (E : utf8_prefix (text cs ++ utf8_encode c ++ rest') = (cs ++ c :: fst (utf8_prefix rest'), snd (utf8_prefix rest'))).
      { rewrite text_all, utf8_prefix_encode_all by (eapply flags_scalar; eauto). rewrite utf8_prefix_cons by exact Hc. reflexivity. }
      rewrite E. apply bundle_through. exact Hf.
    + intros E. apply ContextFacts.encode_head; [exact Hc|]. apply Hd. exact E.
Qed.

Lemma prefix_nil : utf8_prefix [] = ([], []).
Proof. reflexivity. Qed.

Lemma mention_unknown stk rem tok n rest : stack_ok stk -> mentions stk tok n rest -> unknown stk n ->
  halts (snd (step first_named (Normal stk rem) tok)).
Proof.
  intros Hok Hm Hu. apply (unknown_iff stk n Hok) in Hu. destruct (mention_step stk rem tok n rest Hok Hm) as [H|H]; [exact H|].
  destruct n as [s|c].
  - destruct H as [-> _]. unfold read_long. rewrite Hu. exact I.
  - rewrite H, read_bundle_cons, Hu. exact I.
Qed.
Lemma mention_equals stk rem tok n rest ad a : stack_ok stk -> mentions stk tok n rest -> resolve stk n = Some (ad, a) ->
  needs_equals a = true -> (forall v, rest <> c_eq :: v) -> (rest = [] -> takes_value a = true) ->
  halts (snd (step first_named (Normal stk rem) tok)).
Proof.
  intros Hok Hm Hr Hq Hne Ht. destruct (mention_step stk rem tok n rest Hok Hm) as [H|H]; [exact H|]. destruct n as [s|c].
  - destruct H as [-> [->|(v & E)]]; [|elim (Hne v E)]. unfold read_long, bare. rewrite Hr, (Ht eq_refl), Hq. exact I.
  - rewrite H, read_bundle_cons, Hr, prefix_rest. destruct (strip_prefix [c_eq] rest) as [v|] eqn:Ep.
    + apply strip_prefix_Some in Ep. elim (Hne v Ep).
    + destruct rest as [|x rest]; [unfold bare; rewrite (Ht eq_refl)|]; rewrite Hq; exact I.
Qed.
Lemma mention_await stk rem tok n ad a : stack_ok stk -> mentions stk tok n [] -> resolve stk n = Some (ad, a) ->
  takes_value a = true -> needs_equals a = false ->
  halts (snd (step first_named (Normal stk rem) tok)) \/
  snd (step first_named (Normal stk rem) tok) = Go (Await stk rem ad a).
Proof.
  intros Hok Hm Hr Ht Hq. destruct (mention_step stk rem tok n [] Hok Hm) as [H|H]; [left; exact H|right]. destruct n as [s|c].
  - destruct H as [-> _]. unfold read_long, bare. rewrite Hr, Ht, Hq. reflexivity.
  - rewrite H, read_bundle_cons, Hr, prefix_nil. cbn [fst snd encode_all map concat app strip_prefix]. unfold bare. rewrite Ht, Hq. reflexivity.
Qed.

Lemma halts_read d pre os stk rem tok post : at_option d pre os stk rem ->
  halts (snd (step first_named (Normal stk rem) tok)) -> forall os' stk', ~ reads d (pre ++ tok :: post) os' stk'.
Proof.
  intros Ha Hh os' stk' (st & Hr & _). destruct (step first_named (Normal stk rem) tok) as [os2 [st2|sp]] eqn:Es; [contradiction|].
  rewrite (stop_read pre tok post _ _ _ _ _ Ha Es) in Hr. discriminate.
Qed.

Theorem blame_wrong d (argv0 : bytes) toks e : valid d -> blame argv0 d toks e ->
  forall o, try_parse_from d (argv0 :: toks) <> Ok o.
Proof.
  intros Hd H o Ho. destruct (success _ _ _ _ Hd Ho) as (os & stk & Hr & Hb & Hs & _). clear Ho o.
  assert (Hseen : seen d toks = os) by (destruct Hr as (st & Hr & _); unfold seen; rewrite Hr; reflexivity).
  assert (Huniq : forall os' stk', reads d toks os' stk' -> os' = os /\ stk' = stk).
  { intros os' stk' (st' & Hr' & _ & <-). destruct Hr as (st & Hr & _ & <-). rewrite Hr' in Hr. injection Hr as -> ->. auto. }
  assert (Hocc : forall os1 o os2, seen d toks = os1 ++ o :: os2 ->
    occ_error (oc_arg o) (given os1 (oc_addr o)) (oc_val o) <> None -> False).
  { intros os1 o os2 E Ho. unfold no_error_in in Hb. rewrite <- Hseen, E in Hb. exact (first_bad_In os1 o os2 Ho Hb). }
  destruct H as [os1 os2 ad a v E Hm Hg|os1 os2 ad a v E Hf|os1 os2 ad a v p e E Hf Hp He
    |pre tok post os0 stk0 rem n rest E Ha Hm Hu _|pre tok post os0 stk0 rem n rest E Ha Hm Hu _
    |pre cs junk post os0 stk0 rem E Ha Hj Hn Hf|pre tok post os0 stk0 rem n rest ad a E Ha Hm Hn Hq Hne Ht
    |pre tok post os0 stk0 rem n ad a E Ha Hm Hn Ht Hq Hp|pre w post os0 stk0 rem E Ha Hw Hn Hx|pre ws w post os0 stk0 rem E Ha Hx Hk
    |os0 stk0 ad a H0 Hi Hq Hg|os0 stk0 ad a id b H0 Hi Hg Hid Hib Hgb|os0 stk0 ad a id H0 Hi Hg Hid Hgb
    |os0 stk0 ad a ad' b H0 Hi Hx Hg Hib Hsame Hne Hgb|os0 stk0 ad a H0 Hi Hx Hg Ho Hl|os0 s outer id vs H0 Hsub].
  - apply (Hocc _ _ _ E). cbn [oc_arg oc_addr oc_val]. rewrite Hg. apply occ_error_twice. exact Hm.
  - apply (Hocc _ _ _ E). cbn [oc_arg oc_addr oc_val]. apply occ_error_inline. exact Hf.
  - apply (Hocc _ _ _ E). cbn [oc_arg oc_addr oc_val]. eapply occ_error_value; eauto.
    destruct (reads_ok _ _ _ _ Hd Hr) as (_ & Hok & Hk). rewrite <- Hseen, E in Hk. apply Forall_app in Hk. destruct Hk as [_ Hk].
    inversion Hk as [|? ? Hk1 _]; subst. exact (arg_in_stack _ _ _ Hok Hk1).
  - subst toks. pose proof (at_option_stack _ _ _ _ _ Hd Ha) as Hok.
    exact (halts_read _ _ _ _ _ _ _ Ha (mention_unknown _ _ _ _ _ Hok Hm Hu) _ _ Hr).
  - subst toks. pose proof (at_option_stack _ _ _ _ _ Hd Ha) as Hok.
    exact (halts_read _ _ _ _ _ _ _ Ha (mention_unknown _ _ _ _ _ Hok Hm Hu) _ _ Hr).
  - subst toks. pose proof (at_option_stack _ _ _ _ _ Hd Ha) as Hok. refine (halts_read _ _ _ _ _ _ _ Ha _ _ _ Hr). cbn [step].
    rewrite (bundle_form stk0 (text cs ++ junk) cs junk Hok Hf eq_refl).
    + assert (Eu : utf8_prefix (text cs ++ junk) = (cs ++ [], junk)).
      { rewrite app_nil_r. apply utf8_prefix_iff. split; [|auto]. apply scalars_spec. eapply flags_scalar; eauto. }
      rewrite Eu. destruct (bundle_through stk0 rem cs [] junk Hf) as [Hh|Hh]; [exact Hh|]. rewrite Hh. cbn [read_bundle].
      destruct junk; [contradiction|exact I].
    + intros _. destruct junk as [|x r]; [contradiction|]. exists x, r. split; [reflexivity|]. intros ->.
      apply (Hn 45%N r); [left; lia|reflexivity].
  - subst toks. pose proof (at_option_stack _ _ _ _ _ Hd Ha) as Hok.
    exact (halts_read _ _ _ _ _ _ _ Ha (mention_equals _ _ _ _ _ _ _ Hok Hm Hn Hq Hne Ht) _ _ Hr).
  - subst toks. pose proof (at_option_stack _ _ _ _ _ Hd Ha) as Hok.
    destruct (mention_await _ rem _ _ _ _ Hok Hm Hn Ht Hq) as [Hh|Hh].
    + exact (halts_read _ _ _ _ _ _ _ Ha Hh _ _ Hr).
    + destruct Hr as (st & Hr & Hc & _). rewrite (at_option_app _ _ _ _ _ _ Ha), read_cons in Hr.
      destruct (step first_named (Normal stk0 rem) tok) as [os1 out]. cbn [snd] in Hh. subst out. unfold then_read in Hr. cbn [fst snd] in Hr.
      destruct post as [|next post].
      * cbn [read fst snd] in Hr. injection Hr as _ <-. exact Hc.
      * rewrite read_cons in Hr. cbn [step] in Hr. rewrite Hp in Hr. cbn in Hr. discriminate.
  - subst toks. refine (halts_read _ _ _ _ _ _ _ Ha _ _ _ Hr). rewrite step_word by assumption.
    pose proof (next_rem _ _ _ _ _ Hd Ha) as Hy. rewrite Hx in Hy. unfold take_word. destruct rem as [|p rem]; [exact I|]. rewrite Hy. exact I.
  - subst toks. destruct Hr as (st & Hr & Hc & _). rewrite (at_option_app _ _ _ _ _ _ Ha), read_sep in Hr.
    destruct (read first_named (Verbatim stk0 (after_sep stk0 rem)) (ws ++ w :: post)) as [os1 out] eqn:Er. cbn [fst snd] in Hr. injection Hr as _ ->.
    destruct (read_fills _ _ _ _ _ Er) as (Hfi & _). apply fills_nth in Hfi. destruct Hfi as [_ Hfi].
    destruct (Hfi (length ws) w) as (p & Hp & _); [rewrite nth_error_app2 by lia; rewrite Nat.sub_diag; reflexivity|].
    rewrite (verbatim_targets d pre os0 stk0 rem Hd Ha), Hx in Hp. discriminate.
  - destruct (Huniq _ _ H0) as [-> ->]. pose proof (sat_required _ _ Hs _ _ Hi Hq). congruence.
  - destruct (Huniq _ _ H0) as [-> ->]. pose proof (sat_requires _ _ Hs _ _ _ Hi Hg Hid). congruence.
  - destruct (Huniq _ _ H0) as [-> ->]. pose proof (sat_conflicts _ _ Hs _ _ _ Hi Hg Hid). congruence.
  - destruct (Huniq _ _ H0) as [-> ->]. pose proof (sat_exclusive _ _ Hs _ _ _ _ Hi Hib Hx Hg Hsame Hne). congruence.
  - destruct (Huniq _ _ H0) as [-> ->]. pose proof (sat_exclusive_sub _ _ Hs _ _ Hi Hx Hg Ho). lia.
  - destruct (Huniq _ _ H0) as [-> <-]. exact (sat_subcommand _ _ Hs s outer id vs eq_refl Hsub).
Qed.

(** *** Consequences *)

Theorem help_iff d argv e : valid d -> try_parse_from d argv = Err e -> (e_help e <> None <-> e_kind e = Help).
Proof.
  intros Hd. destruct argv as [|argv0 toks].
  - rewrite (refines d [] Hd). cbn. intros H. injection H as <-. cbn. split; [congruence|discriminate].
  - intros H. apply (error_blame d argv0 toks e Hd) in H. destruct H; cbn; unfold extra_word.
    all: try destruct (has_subcommand stk); split; intros C; try discriminate C; try reflexivity; try discriminate; elim C; reflexivity.
Qed.
Theorem never_custom d argv e : valid d -> try_parse_from d argv = Err e -> e_kind e <> Custom.
Proof.
  intros Hd. destruct argv as [|argv0 toks].
  - rewrite (refines d [] Hd). cbn. intros H. injection H as <-. discriminate.
  - intros H. apply (error_blame d argv0 toks e Hd) in H. destruct H; cbn; try discriminate.
    all: unfold extra_word; destruct (has_subcommand stk); discriminate.
Qed.

Theorem first_mistake d (argv0 : bytes) pre e : valid d -> try_parse_from d (argv0 :: pre) = Err e -> about_token (e_kind e) ->
  forall post, try_parse_from d (argv0 :: pre ++ post) = Err e.
Proof.
  intros Hd H Hk post. rewrite parse_conclude in * by exact Hd. rewrite read_app.
  destruct (read first_named (start d) pre) as [os out] eqn:Er. unfold conclude in H |- *.
  destruct (first_bad [] os) as [e'|] eqn:Eb.
  - injection H as <-. unfold then_read. cbn [fst snd]. destruct out as [st|sp]; [|rewrite Eb; reflexivity].
    destruct (read first_named st post) as [os2 out2]. rewrite first_bad_app, Eb. reflexivity.
  - destruct out as [st|sp].
    + exfalso. assert (Hf : complete st -> finish_stack os (state_stack st) None = Err e -> False).
      { intros Hc Hf. assert (Hr : reads d pre os (state_stack st)) by (exists st; auto).
        destruct (reads_ok _ _ _ _ Hd Hr) as (_ & Hok & _).
        destruct (finish_stack_Err _ _ _ _ Hok Hf) as (inner & s & outer & u & _ & _ & _ & Hb). destruct Hb; exact Hk. }
      destruct st as [stk rem|stk rem ad a|stk rem|stk p]; try exact (Hf I H). injection H as <-. exact Hk.
    + unfold then_read. cbn [fst snd]. rewrite Eb. exact H.
Qed.
End Facts.
