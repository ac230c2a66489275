(** Reading in context: what follows a prefix, the forms of the spellings of an
    option, and the names that can be resolved. *)
From Verif Require Import Bytes BytesFacts Utf8 Utf8Facts Attrs AttrFacts Refl Error Values SortFacts
  Places Help Runtime Heck Decl Spec Derive Generated Observe CompileFacts InfoFacts TableFacts PlaceFacts
  ScopeFacts NamedFacts WordFacts FinishFacts ReadFacts SimFacts HelpFacts Refine.

Section Context.
Context {V : Type}.
Local Notation args_decl := (args_decl V).
Local Notation sarg := (sarg V).
Local Notation scope := (scope V).
Local Notation occ := (occ V).
Implicit Types (d : args_decl) (a p : sarg) (s : scope) (stk : list scope) (os : list occ).

(** *** Reading a concatenation *)

Definition then_read choose (x : list occ * outcome V) (toks : list bytes) : list occ * outcome V :=
  match snd x with
  | Go st => let '(os, out) := read choose st toks in (fst x ++ os, out)
  | Stop sp => (fst x, Stop sp)
  end.

Lemma read_app choose l1 l2 : forall st : state V, read choose st (l1 ++ l2) = then_read choose (read choose st l1) l2.
Proof.
  induction l1 as [|t l1 IH]; intros st; cbn [app read].
  - unfold then_read. cbn. destruct (read choose st l2). reflexivity.
  - destruct (step choose st t) as [o1 out]. destruct out as [st'|sp]; [|reflexivity].
    rewrite IH. destruct (read choose st' l1) as [o2 out2]. unfold then_read. cbn [fst snd].
    destruct out2 as [st2|sp]; [|reflexivity]. destruct (read choose st2 l2). rewrite app_assoc. reflexivity.
Qed.

Lemma spec_conclude d argv0 toks : spec_parse d (argv0 :: toks) = conclude argv0 (read first_named (start d) toks).
Proof.
  unfold spec_parse, spec_parse_with, conclude. destruct (read first_named (start d) toks) as [os out]. reflexivity.
Qed.
Lemma parse_conclude d argv0 toks : valid d ->
  try_parse_from d (argv0 :: toks) = conclude argv0 (read first_named (start d) toks).
Proof. intros Hd. rewrite (refines d _ Hd). apply spec_conclude. Qed.

Lemma at_option_app d pre os stk rem toks : at_option d pre os stk rem ->
  read first_named (start d) (pre ++ toks) =
  (os ++ fst (read first_named (Normal stk rem) toks), snd (read first_named (Normal stk rem) toks)).
Proof.
  intros H. rewrite read_app, H. unfold then_read. cbn [fst snd].
  destruct (read first_named (Normal stk rem) toks). reflexivity.
Qed.

Lemma after_prefix d argv0 pre os stk rem toks : valid d -> at_option d pre os stk rem ->
  try_parse_from d (argv0 :: pre ++ toks) =
  conclude argv0 (os ++ fst (read first_named (Normal stk rem) toks), snd (read first_named (Normal stk rem) toks)).
Proof. intros Hd H. rewrite parse_conclude by exact Hd. f_equal. apply at_option_app. exact H. Qed.

Lemma same_after d argv0 pre os stk rem t1 t2 : valid d -> at_option d pre os stk rem ->
  read first_named (Normal stk rem) t1 = read first_named (Normal stk rem) t2 ->
  try_parse_from d (argv0 :: pre ++ t1) = try_parse_from d (argv0 :: pre ++ t2).
Proof. intros Hd H E. rewrite !(after_prefix d argv0 pre os stk rem) by assumption. rewrite E. reflexivity. Qed.


Lemma same_prefix choose (st : state V) t1 t2 post : read choose st t1 = read choose st t2 ->
  read choose st (t1 ++ post) = read choose st (t2 ++ post).
Proof. intros E. rewrite !read_app, E. reflexivity. Qed.

Lemma same_tokens d argv0 pre os stk rem t1 t2 post : valid d -> at_option d pre os stk rem ->
  read first_named (Normal stk rem) t1 = read first_named (Normal stk rem) t2 ->
  try_parse_from d (argv0 :: pre ++ t1 ++ post) = try_parse_from d (argv0 :: pre ++ t2 ++ post).
Proof. intros Hd H E. eapply same_after; eauto. apply same_prefix. exact E. Qed.

Lemma read_one choose (st : state V) t : read choose st [t] = step choose st t.
Proof. cbn [read]. destruct (step choose st t) as [os [st'|sp]]; [rewrite app_nil_r|]; reflexivity. Qed.
Lemma read_cons choose (st : state V) t toks : read choose st (t :: toks) = then_read choose (step choose st t) toks.
Proof.
  cbn [read]. unfold then_read. destruct (step choose st t) as [os [st'|sp]]; cbn [fst snd]; [|reflexivity].
  destruct (read choose st' toks). reflexivity.
Qed.

(** *** The states that are reached *)

Lemma read_ok choose (choose_in : forall vs tok v, choose vs tok = Some v -> In v vs) toks : forall st os st',
  state_ok st -> read choose st toks = (os, Go st') ->
  state_ok st' /\ Forall (known (state_stack st')) os /\ exists inner, state_stack st' = inner ++ state_stack st.
Proof.
  induction toks as [|t toks IH]; intros st os st' Hok H; cbn [read] in H.
  - injection H as <- <-. split; [exact Hok|]. split; [constructor|]. exists []. reflexivity.
  - pose proof (step_ok choose choose_in st t Hok) as [Hk Hs]. destruct (step choose st t) as [o1 out]. cbn [fst snd] in *.
    destruct out as [st1|]; [|discriminate]. destruct Hs as [Hok1 [i1 E1]].
    destruct (read choose st1 toks) as [o2 out2] eqn:E2. injection H as <- ->.
    destruct (IH _ _ _ Hok1 E2) as (Hok2 & Hk2 & i2 & E3). split; [exact Hok2|]. split.
    + apply Forall_app. split; [|exact Hk2]. eapply Forall_impl; [|exact Hk]. intros o Ho. unfold known in *.
      rewrite E3, E1, app_assoc. apply stack_args_app. exact Ho.
    + exists (i2 ++ i1). rewrite E3, E1, app_assoc. reflexivity.
Qed.

Lemma at_option_ok d pre os stk rem : valid d -> at_option d pre os stk rem ->
  stack_ok stk /\ rem_ok stk rem /\ Forall (known stk) os /\ exists inner, stk = inner ++ [Scope d [] false].
Proof.
  intros [Hd _] H. destruct (read_ok first_named first_named_in _ _ _ _ (start_ok d Hd) H) as ([H1 H2] & H3 & H4).
  auto.
Qed.

(** *** Names *)

Lemma name_facts stk n ad a : stack_ok stk -> resolve stk n = Some (ad, a) ->
  arg_facts a /\ is_option a = true /\
  match n with
  | Long s => s <> [] /\ ~ In c_eq s
  | Short c => is_scalar c = true /\ c <> 45%N /\ c <> 61%N
  end.
Proof.
  intros Hs H. destruct (resolve_in _ _ _ _ H) as [Hin Hn]. pose proof (arg_in_stack _ _ _ Hs Hin) as Ha.
  apply has_nameb_spec in Hn. destruct Hn as [Ho Hn]. split; [exact Ha|]. split; [exact Ho|].
  destruct (ar_named _ Ha Ho) as (_ & _ & He). pose proof (names_facts_of _ He) as Hf. destruct n as [s|c].
  - apply in_long_names in Hn. destruct (nm_long _ Hf _ Hn) as (H1 & _ & _ & H2). split; [exact H1|].
    intros Hc. apply H2 in Hc. apply (proj1 Hc). reflexivity.
  - apply in_short_names in Hn. destruct (nm_short _ Hf _ Hn) as (H1 & H2 & _ & _ & H3). auto.
Qed.

(** *** Forms of the spellings *)

Lemma cut_eq_none (b : bytes) : ~ In c_eq b -> cut_eq b = (b, None).
Proof. intros H. rewrite cut_eq_split. apply split_once_None in H. rewrite H. reflexivity. Qed.
Lemma cut_eq_some (b v : bytes) : ~ In c_eq b -> cut_eq (b ++ c_eq :: v) = (b, Some v).
Proof. intros H. rewrite cut_eq_split, split_once_app by exact H. reflexivity. Qed.

Lemma form_long (b : bytes) : b <> [] -> ~ In c_eq b -> form_of (bs "--" ++ b) = FLong b None.
Proof.
  intros H1 H2. destruct b as [|x b]; [congruence|].
  change (form_of (bs "--" ++ x :: b)) with (let '(s, v) := cut_eq (x :: b) in FLong s v).
  rewrite cut_eq_none by exact H2. reflexivity.
Qed.
Lemma form_long_eq (b v : bytes) : ~ In c_eq b -> form_of (bs "--" ++ b ++ bs "=" ++ v) = FLong b (Some v).
Proof.
  intros H2. assert (E : exists x r, b ++ bs "=" ++ v = x :: r) by (destruct b; cbn; eauto).
  destruct E as (x & r & E). rewrite E.
  change (form_of (bs "--" ++ x :: r)) with (let '(s, v) := cut_eq (x :: r) in FLong s v). rewrite <- E.
  change (bs "=" ++ v) with (c_eq :: v). rewrite cut_eq_some by exact H2. reflexivity.
Qed.

Lemma form_bundle x (b : bytes) : x <> c_dash -> form_of (bs "-" ++ x :: b) = FBundle (x :: b).
Proof.
  intros H. change (bs "-" ++ x :: b) with ([c_dash] ++ x :: b). cbn [app]. unfold form_of.
  destruct x; try reflexivity. elim H. reflexivity.
Qed.

Lemma encode_head c : is_scalar c = true -> c <> 45%N -> forall t : bytes, exists x r, utf8_encode c ++ t = x :: r /\ x <> c_dash.
Proof.
  intros Hs H t. destruct (c <? 128)%N eqn:E.
  - apply N.ltb_lt in E. rewrite utf8_encode_ascii by exact E. exists (n2b c), t. split; [reflexivity|].
    intros C. apply H. rewrite <- (b2n_n2b c) by lia. rewrite C. reflexivity.
  - apply N.ltb_ge in E. destruct (utf8_encode_nonempty c) as (x & r & Er). rewrite Er. exists x, (r ++ t).
    split; [reflexivity|]. assert (Hx : (128 <= b2n x)%N) by (eapply utf8_encode_not_ascii; eauto; rewrite Er; left; reflexivity).
    intros C. rewrite C in Hx. vm_compute in Hx. congruence.
Qed.

Lemma step_short stk rem c (t : bytes) : is_scalar c = true -> c <> 45%N ->
  step first_named (Normal stk rem) (bs "-" ++ utf8_encode c ++ t)
  = read_bundle stk rem (c :: fst (utf8_prefix t)) (snd (utf8_prefix t)).
Proof.
  intros Hs Hc. destruct (encode_head c Hs Hc t) as (x & r & E & Hx). cbn [step]. rewrite E, form_bundle by exact Hx.
  rewrite <- E, utf8_prefix_cons by exact Hs. reflexivity.
Qed.

Lemma prefix_rest (t : bytes) : encode_all (fst (utf8_prefix t)) ++ snd (utf8_prefix t) = t.
Proof. destruct (utf8_prefix t) as [cs r] eqn:E. apply utf8_prefix_spec in E. symmetry. apply E. Qed.

(** What a short option followed by [t] in its bundle is. *)
Lemma step_short_resolved stk rem c ad a (t : bytes) : stack_ok stk -> resolve stk (Short c) = Some (ad, a) ->
  step first_named (Normal stk rem) (bs "-" ++ utf8_encode c ++ t) =
  match strip_prefix [c_eq] t with
  | Some v =>
      if takes_value a then ([Occ ad a (Some v)], Go (Normal stk rem))
      else let '(os, out) := read_bundle stk rem (fst (utf8_prefix t)) (snd (utf8_prefix t)) in
           (Occ ad a (Some v) :: os, out)
  | None =>
      match t with
      | [] => bare stk rem ad a
      | _ =>
          if needs_equals a then ([], Stop (SErr (error_about MissingEq a)))
          else if takes_value a then ([Occ ad a (Some t)], Go (Normal stk rem))
          else let '(os, out) := read_bundle stk rem (fst (utf8_prefix t)) (snd (utf8_prefix t)) in
               (Occ ad a None :: os, out)
      end
  end.
Proof.
  intros Hok H. destruct (name_facts _ _ _ _ Hok H) as (_ & _ & Hs & Hc & _). rewrite step_short by assumption.
  rewrite read_bundle_cons, H, prefix_rest. destruct (strip_prefix [c_eq] t); [reflexivity|]. destruct t; reflexivity.
Qed.

Lemma step_bare stk rem n ad a : stack_ok stk -> resolve stk n = Some (ad, a) ->
  step first_named (Normal stk rem) (spell n) = bare stk rem ad a.
Proof.
  intros Hok H. destruct (name_facts _ _ _ _ Hok H) as (_ & _ & Hn). destruct n as [s|c].
  - cbn [step spell]. rewrite form_long by apply Hn. unfold read_long. rewrite H. reflexivity.
  - cbn [spell]. rewrite <- (app_nil_r (utf8_encode c)), (step_short_resolved _ _ _ _ _ _ Hok H). reflexivity.
Qed.

Lemma step_eq_value stk rem n ad a v : stack_ok stk -> resolve stk n = Some (ad, a) ->
  match n with Long _ => True | Short _ => takes_value a = true end ->
  step first_named (Normal stk rem) (spell_eq n v) = ([Occ ad a (Some v)], Go (Normal stk rem)).
Proof.
  intros Hok H Ht. destruct (name_facts _ _ _ _ Hok H) as (_ & _ & Hn). unfold spell_eq. destruct n as [s|c].
  - cbn [step spell]. rewrite <- app_assoc, form_long_eq by apply Hn. unfold read_long. rewrite H. reflexivity.
  - cbn [spell]. rewrite <- app_assoc, (step_short_resolved _ _ _ _ _ _ Hok H).
    change (bs "=" ++ v) with ([c_eq] ++ v). rewrite strip_prefix_app, Ht. reflexivity.
Qed.
End Context.
