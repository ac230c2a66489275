(** Options: equivalent spellings, and what each form does. *)
From Verif Require Import Bytes BytesFacts Utf8 Utf8Facts Attrs AttrFacts Refl Error Values SortFacts
  Places Help Runtime Heck Decl Spec Derive Generated Observe CompileFacts InfoFacts TableFacts PlaceFacts
  ScopeFacts NamedFacts WordFacts FinishFacts ReadFacts SimFacts HelpFacts Refine ContextFacts SafeFacts
  FieldFacts ResultFacts.

Section Options.
Context {V : Type}.
Local Notation args_decl := (args_decl V).
Local Notation sarg := (sarg V).
Local Notation scope := (scope V).
Local Notation occ := (occ V).
Implicit Types (d : args_decl) (a p : sarg) (s : scope) (stk : list scope) (os : list occ) (o : outval V).

Lemma at_option_stack d pre os stk rem : valid d -> at_option d pre os stk rem -> stack_ok stk.
Proof. intros Hd H. apply (at_option_ok d pre os stk rem Hd H). Qed.

(** After a prefix, the occurrences and state reached by more tokens. *)
Lemma at_option_more d pre os stk rem toks os' stk' rem' :
  at_option d pre os stk rem -> read first_named (Normal stk rem) toks = (os', Go (Normal stk' rem')) ->
  at_option d (pre ++ toks) (os ++ os') stk' rem'.
Proof. intros H E. unfold at_option. rewrite (at_option_app _ _ _ _ _ _ H), E. reflexivity. Qed.

(** After a prefix without errors, the error of the tokens that follow. *)
Lemma stops_with d (argv0 : bytes) pre os stk rem t e post : valid d -> at_option d pre os stk rem -> no_error_in os ->
  step first_named (Normal stk rem) t = ([], Stop (SErr e)) ->
  try_parse_from d (argv0 :: pre ++ t :: post) = Err e.
Proof.
  intros Hd H Hn E. rewrite (after_prefix _ _ _ _ _ _ _ Hd H). rewrite read_cons, E. cbn. rewrite app_nil_r.
  rewrite Hn. reflexivity.
Qed.

(** *** The value inline or next *)

Theorem inline_or_next d (argv0 : bytes) pre os stk rem n ad a v post :
  valid d -> at_option d pre os stk rem -> resolve stk n = Some (ad, a) ->
  takes_value a = true -> needs_equals a = false -> may_follow a v = true ->
  try_parse_from d (argv0 :: pre ++ [spell n; v] ++ post) = try_parse_from d (argv0 :: pre ++ [spell_eq n v] ++ post).
Proof.
  intros Hd H Hr Ht Hq Hf. pose proof (at_option_stack _ _ _ _ _ Hd H) as Hok. eapply same_tokens; [exact Hd|exact H|].
  rewrite read_one, (step_eq_value _ _ _ _ _ _ Hok Hr) by (destruct n; auto).
  rewrite read_cons, (step_bare _ _ _ _ _ Hok Hr). unfold bare. rewrite Ht, Hq. unfold then_read. cbn [fst snd].
  rewrite read_one. cbn [step]. rewrite Hf. reflexivity.
Qed.

Theorem attached_value d (argv0 : bytes) pre os stk rem c ad a v post :
  valid d -> at_option d pre os stk rem -> resolve stk (Short c) = Some (ad, a) ->
  takes_value a = true -> needs_equals a = false -> v <> [] -> (forall w, v <> c_eq :: w) ->
  try_parse_from d (argv0 :: pre ++ [spell (Short c) ++ v] ++ post)
  = try_parse_from d (argv0 :: pre ++ [spell_eq (Short c) v] ++ post).
Proof.
  intros Hd H Hr Ht Hq Hne He. pose proof (at_option_stack _ _ _ _ _ Hd H) as Hok. eapply same_tokens; [exact Hd|exact H|].
  rewrite !read_one, (step_eq_value _ _ _ _ _ _ Hok Hr Ht).
  cbn [spell]. rewrite <- app_assoc, (step_short_resolved _ _ _ _ _ _ Hok Hr).
  assert (E : strip_prefix [c_eq] v = None).
  { destruct (strip_prefix [c_eq] v) as [w|] eqn:E; [|reflexivity]. apply strip_prefix_Some in E. elim (He w). exact E. }
  rewrite E. destruct v as [|x v]; [contradiction|]. rewrite Hq, Ht. reflexivity.
Qed.

(** *** Bundles *)

Lemma read_bundle_flag stk rem c (t : bytes) : stack_ok stk -> plain_flag stk c ->
  t <> [] -> (forall w, t <> c_eq :: w) -> (forall w, t <> c_dash :: w) ->
  step first_named (Normal stk rem) (spell (Short c) ++ t)
  = then_read first_named (step first_named (Normal stk rem) (spell (Short c))) [bs "-" ++ t].
Proof.
  intros Hok (ad & a & Hr & Ht & Hq) Hne He Hdd.
  rewrite (step_bare _ _ _ _ _ Hok Hr). unfold bare. rewrite Ht. unfold then_read. cbn [fst snd]. rewrite read_one.
  cbn [spell]. rewrite <- app_assoc, (step_short_resolved _ _ _ _ _ _ Hok Hr).
  assert (E : strip_prefix [c_eq] t = None).
  { destruct (strip_prefix [c_eq] t) as [w|] eqn:E; [|reflexivity]. apply strip_prefix_Some in E. elim (He w). exact E. }
  rewrite E. destruct t as [|x t]; [contradiction|]. rewrite Hq, Ht. cbn [step].
  assert (Hx : x <> c_dash) by (intros ->; exact (Hdd t eq_refl)).
  rewrite form_bundle by exact Hx. destruct (utf8_prefix (x :: t)). reflexivity.
Qed.

Lemma name_head stk c ad a (t : bytes) : stack_ok stk -> resolve stk (Short c) = Some (ad, a) ->
  utf8_encode c ++ t <> [] /\ (forall w, utf8_encode c ++ t <> c_eq :: w) /\ (forall w, utf8_encode c ++ t <> c_dash :: w).
Proof.
  intros Hok Hr. destruct (name_facts _ _ _ _ Hok Hr) as (_ & _ & Hs & Hd & He).
  destruct (encode_head c Hs Hd t) as (x & r & E & Hx). rewrite E. split; [discriminate|]. split.
  - intros w C. injection C as -> _. destruct (c <? 128)%N eqn:Ec.
    + apply N.ltb_lt in Ec. rewrite utf8_encode_ascii in E by exact Ec. injection E as E _.
      apply He. rewrite <- (b2n_n2b c) by lia. rewrite E. reflexivity.
    + apply N.ltb_ge in Ec. destruct (utf8_encode_nonempty c) as (y & r' & Er). rewrite Er in E. injection E as -> _.
      assert (Hy : (128 <= b2n c_eq)%N) by (eapply utf8_encode_not_ascii; eauto; rewrite Er; left; reflexivity).
      vm_compute in Hy. congruence.
  - intros w C. injection C as -> _. apply Hx. reflexivity.
Qed.

Lemma read_flags stk rem (cs : list N) (t : bytes) : stack_ok stk -> Forall (plain_flag stk) cs -> 
  t <> [] -> (forall w, t <> c_eq :: w) -> (forall w, t <> c_dash :: w) ->
  read first_named (Normal stk rem) [bs "-" ++ encode_all cs ++ t]
  = read first_named (Normal stk rem) (map (fun c => spell (Short c)) cs ++ [bs "-" ++ t]).
Proof.
  intros Hok Hf Hne He Hdd. induction Hf as [|c cs Hc Hcs IH]; [reflexivity|].
  cbn [map app]. change (encode_all (c :: cs)) with (utf8_encode c ++ encode_all cs).
  assert (Hh : encode_all cs ++ t <> [] /\ (forall w, encode_all cs ++ t <> c_eq :: w) /\ (forall w, encode_all cs ++ t <> c_dash :: w)).
  { destruct Hcs as [|c' cs (ad' & a' & Hr' & _) _]; [cbn; auto|].
    change (encode_all (c' :: cs)) with (utf8_encode c' ++ encode_all cs). rewrite <- app_assoc. eapply name_head; eauto. }
  destruct Hh as (H1 & H2 & H3). rewrite (read_cons _ _ (spell (Short c))).
  pose proof (read_bundle_flag stk rem c _ Hok Hc H1 H2 H3) as E. cbn [spell] in E. rewrite <- app_assoc in E.
  rewrite read_one, <- app_assoc, E. clear E. destruct Hc as (ad & a & Hr & Ht & _).
  change (bs "-" ++ utf8_encode c) with (spell (Short c)). rewrite (step_bare _ _ _ _ _ Hok Hr). unfold bare. rewrite Ht.
  unfold then_read. cbn [fst snd]. rewrite IH. reflexivity.
Qed.

Theorem bundle_separate d (argv0 : bytes) pre os stk rem cs t post :
  valid d -> at_option d pre os stk rem -> Forall (plain_flag stk) cs ->
  t <> [] -> (forall w, t <> c_eq :: w) -> (forall w, t <> c_dash :: w) ->
  try_parse_from d (argv0 :: pre ++ [bs "-" ++ encode_all cs ++ t] ++ post)
  = try_parse_from d (argv0 :: pre ++ (map (fun c => spell (Short c)) cs ++ [bs "-" ++ t]) ++ post).
Proof.
  intros Hd H Hf Hne He Hdd. eapply same_tokens; [exact Hd|exact H|].
  apply read_flags; try assumption. eapply at_option_stack; eauto.
Qed.

(** *** Names *)

Theorem names_same d (argv0 : bytes) pre os stk rem n m ad a post :
  valid d -> at_option d pre os stk rem -> resolve stk n = Some (ad, a) -> resolve stk m = Some (ad, a) ->
  try_parse_from d (argv0 :: pre ++ [spell n] ++ post) = try_parse_from d (argv0 :: pre ++ [spell m] ++ post).
Proof.
  intros Hd H Hn Hm. pose proof (at_option_stack _ _ _ _ _ Hd H) as Hok. eapply same_tokens; [exact Hd|exact H|].
  rewrite !read_one, (step_bare _ _ _ _ _ Hok Hn), (step_bare _ _ _ _ _ Hok Hm). reflexivity.
Qed.
Theorem names_same_eq d (argv0 : bytes) pre os stk rem n m ad a v post :
  valid d -> at_option d pre os stk rem -> resolve stk n = Some (ad, a) -> resolve stk m = Some (ad, a) ->
  takes_value a = true ->
  try_parse_from d (argv0 :: pre ++ [spell_eq n v] ++ post) = try_parse_from d (argv0 :: pre ++ [spell_eq m v] ++ post).
Proof.
  intros Hd H Hn Hm Ht. pose proof (at_option_stack _ _ _ _ _ Hd H) as Hok. eapply same_tokens; [exact Hd|exact H|].
  rewrite !read_one, (step_eq_value _ _ _ _ _ _ Hok Hn), (step_eq_value _ _ _ _ _ _ Hok Hm) by (destruct n, m; auto). reflexivity.
Qed.
Theorem names_same_long d (argv0 : bytes) pre os stk rem (n m : bytes) ad a v post :
  valid d -> at_option d pre os stk rem -> resolve stk (Long n) = Some (ad, a) -> resolve stk (Long m) = Some (ad, a) ->
  try_parse_from d (argv0 :: pre ++ [spell_eq (Long n) v] ++ post) = try_parse_from d (argv0 :: pre ++ [spell_eq (Long m) v] ++ post).
Proof.
  intros Hd H Hn Hm. pose proof (at_option_stack _ _ _ _ _ Hd H) as Hok. eapply same_tokens; [exact Hd|exact H|].
  rewrite !read_one, (step_eq_value _ _ _ _ _ _ Hok Hn I), (step_eq_value _ _ _ _ _ _ Hok Hm I). reflexivity.
Qed.
Theorem names_same_short d (argv0 : bytes) pre os stk rem n m ad a t post :
  valid d -> at_option d pre os stk rem -> resolve stk (Short n) = Some (ad, a) -> resolve stk (Short m) = Some (ad, a) ->
  try_parse_from d (argv0 :: pre ++ [spell (Short n) ++ t] ++ post) = try_parse_from d (argv0 :: pre ++ [spell (Short m) ++ t] ++ post).
Proof.
  intros Hd H Hn Hm. pose proof (at_option_stack _ _ _ _ _ Hd H) as Hok. eapply same_tokens; [exact Hd|exact H|].
  rewrite !read_one. cbn [spell]. rewrite <- !app_assoc, (step_short_resolved _ _ _ _ _ _ Hok Hn), (step_short_resolved _ _ _ _ _ _ Hok Hm).
  reflexivity.
Qed.

(** *** Which names are known *)

Lemma in_scope_iff stk ad a : stack_ok stk -> (In (ad, a) (in_scope stk) <->
  In (ad, a) (stack_args stk) /\ (S (ad_level ad) = length stk \/ is_global a = true)).
Proof.
  intros _. destruct stk as [|s outer]; [cbn; tauto|]. cbn [in_scope stack_args length]. rewrite !in_app_iff, filter_In. cbn [snd].
  assert (Hl : In (ad, a) (scope_args (length outer) s) -> ad_level ad = length outer).
  { unfold scope_args. intros H. apply in_map_iff in H. destruct H as (x & E & _). injection E as <- _. reflexivity. }
  split; [intros [H|[H1 H2]]|intros [[H|H] [E|E]]]; auto.
  exfalso. pose proof (stack_args_level _ _ _ H). lia.
Qed.

Theorem resolve_iff stk n : stack_ok stk -> (resolve stk n <> None <->
  exists ad a, In (ad, a) (stack_args stk) /\ has_name a n /\ (S (ad_level ad) = length stk \/ is_global a = true)).
Proof.
  intros Hok. unfold resolve. split.
  - intros H. destruct (find _ (in_scope stk)) as [[ad a]|] eqn:E; [|congruence]. apply find_some in E. destruct E as [Hi Hn].
    apply in_scope_iff in Hi; [|exact Hok]. exists ad, a. cbn [snd] in Hn. apply has_nameb_spec in Hn. tauto.
  - intros (ad & a & Hi & Hn & Hg) E. assert (Hs : In (ad, a) (in_scope stk)) by (apply in_scope_iff; auto).
    apply (find_none _ _ E) in Hs. cbn [snd] in Hs. apply has_nameb_spec in Hn. congruence.
Qed.
Theorem resolve_sound stk n ad a : stack_ok stk -> resolve stk n = Some (ad, a) ->
  In (ad, a) (stack_args stk) /\ has_name a n /\ (S (ad_level ad) = length stk \/ is_global a = true).
Proof.
  intros Hok E. unfold resolve in E. apply find_some in E. destruct E as [Hi Hn]. apply in_scope_iff in Hi; [|exact Hok].
  cbn [snd] in Hn. apply has_nameb_spec in Hn. tauto.
Qed.

Lemma unknown_iff stk n : stack_ok stk -> (unknown stk n <-> resolve stk n = None).
Proof.
  intros Hok. pose proof (resolve_iff stk n Hok) as H. split.
  - intros Hu. destruct (resolve stk n) eqn:E; [|reflexivity]. destruct (proj1 H ltac:(discriminate)) as (ad & a & H1 & H2 & H3).
    elim (Hu ad a H1 H3 H2).
  - intros E ad a H1 H3 H2. apply H; [|exact E]. exists ad, a. auto.
Qed.

Theorem unknown_long_error d (argv0 : bytes) pre os stk rem (s : bytes) tok post :
  valid d -> at_option d pre os stk rem -> no_error_in os ->
  ((tok = bs "--" ++ s /\ s <> []) \/ exists v, tok = bs "--" ++ s ++ bs "=" ++ v) -> ~ In c_eq s ->
  unknown stk (Long s) -> s <> bs "help" ->
  try_parse_from d (argv0 :: pre ++ tok :: post) = Err (error_on UnknownNamedArgument (bs "--" ++ s)).
Proof.
  intros Hd H Hn Ht He Hu Hh. pose proof (at_option_stack _ _ _ _ _ Hd H) as Hok. apply unknown_iff in Hu; [|exact Hok].
  eapply stops_with; [exact Hd|exact H|exact Hn|]. cbn [step].
  assert (E : exists v, form_of tok = FLong s v).
  { destruct Ht as [[-> Hne]|[v ->]]; [exists None; apply form_long; assumption|exists (Some v); apply form_long_eq; assumption]. }
  destruct E as [v ->]. unfold read_long. rewrite Hu. unfold unknown_long. apply beqb_neq in Hh. rewrite Hh. reflexivity.
Qed.

Theorem unknown_short_error d (argv0 : bytes) pre os stk rem c (t : bytes) post :
  valid d -> at_option d pre os stk rem -> no_error_in os ->
  is_scalar c = true -> c <> 45%N -> unknown stk (Short c) -> c <> b2n "h" ->
  try_parse_from d (argv0 :: pre ++ (bs "-" ++ utf8_encode c ++ t) :: post)
  = Err (error_on UnknownNamedArgument (bs "-" ++ utf8_encode c)).
Proof.
  intros Hd H Hn Hs Hc Hu Hh. pose proof (at_option_stack _ _ _ _ _ Hd H) as Hok. apply unknown_iff in Hu; [|exact Hok].
  eapply stops_with; [exact Hd|exact H|exact Hn|]. rewrite step_short by assumption. rewrite read_bundle_cons, Hu.
  unfold unknown_short. apply N.eqb_neq in Hh. rewrite Hh. reflexivity.
Qed.

Lemma helps_with d (argv0 : bytes) pre os stk rem t post : valid d -> at_option d pre os stk rem -> no_error_in os ->
  step first_named (Normal stk rem) t = ([], Stop (SHelp stk)) ->
  try_parse_from d (argv0 :: pre ++ t :: post) = Err (mkError Help None None None [] (Some (help_text argv0 stk))).
Proof.
  intros Hd H Hn E. rewrite (after_prefix _ _ _ _ _ _ _ Hd H). rewrite read_cons, E. cbn. rewrite app_nil_r.
  rewrite Hn. reflexivity.
Qed.

Theorem help_long d (argv0 : bytes) pre os stk rem tok post :
  valid d -> at_option d pre os stk rem -> no_error_in os ->
  (tok = bs "--help" \/ exists v, tok = bs "--help=" ++ v) -> unknown stk (Long (bs "help")) ->
  try_parse_from d (argv0 :: pre ++ tok :: post) = Err (mkError Help None None None [] (Some (help_text argv0 stk))).
Proof.
  intros Hd H Hn Ht Hu. pose proof (at_option_stack _ _ _ _ _ Hd H) as Hok. apply unknown_iff in Hu; [|exact Hok].
  eapply helps_with; [exact Hd|exact H|exact Hn|]. cbn [step].
  assert (He : ~ In c_eq (bs "help")) by (intros C; cbn in C; repeat (destruct C as [C|C]; [discriminate C|]); exact C).
  assert (E : exists v, form_of tok = FLong (bs "help") v).
  { destruct Ht as [->|[v ->]].
    - exists None. apply (form_long (bs "help")); [discriminate|exact He].
    - exists (Some v). exact (form_long_eq (bs "help") v He). }
  destruct E as [v ->]. unfold read_long. rewrite Hu. reflexivity.
Qed.
Theorem help_short d (argv0 : bytes) pre os stk rem (t : bytes) post :
  valid d -> at_option d pre os stk rem -> no_error_in os -> unknown stk (Short (b2n "h")) ->
  try_parse_from d (argv0 :: pre ++ (bs "-h" ++ t) :: post) = Err (mkError Help None None None [] (Some (help_text argv0 stk))).
Proof.
  intros Hd H Hn Hu. pose proof (at_option_stack _ _ _ _ _ Hd H) as Hok. apply unknown_iff in Hu; [|exact Hok].
  eapply helps_with; [exact Hd|exact H|exact Hn|].
  change (bs "-h" ++ t) with (bs "-" ++ utf8_encode (b2n "h") ++ t).
  rewrite step_short by (vm_compute; congruence). rewrite read_bundle_cons, Hu. reflexivity.
Qed.

(** *** [require_equals] *)

Theorem missing_eq d (argv0 : bytes) pre os stk rem n ad a post :
  valid d -> at_option d pre os stk rem -> no_error_in os -> resolve stk n = Some (ad, a) ->
  takes_value a = true -> needs_equals a = true ->
  try_parse_from d (argv0 :: pre ++ spell n :: post) = Err (error_about MissingEq a).
Proof.
  intros Hd H Hn Hr Ht Hq. pose proof (at_option_stack _ _ _ _ _ Hd H) as Hok.
  eapply stops_with; [exact Hd|exact H|exact Hn|]. rewrite (step_bare _ _ _ _ _ Hok Hr). unfold bare. rewrite Ht, Hq. reflexivity.
Qed.
Theorem missing_eq_attached d (argv0 : bytes) pre os stk rem c ad a t post :
  valid d -> at_option d pre os stk rem -> no_error_in os -> resolve stk (Short c) = Some (ad, a) ->
  needs_equals a = true -> t <> [] -> (forall w, t <> c_eq :: w) ->
  try_parse_from d (argv0 :: pre ++ (spell (Short c) ++ t) :: post) = Err (error_about MissingEq a).
Proof.
  intros Hd H Hn Hr Hq Hne He. pose proof (at_option_stack _ _ _ _ _ Hd H) as Hok.
  eapply stops_with; [exact Hd|exact H|exact Hn|]. cbn [spell]. rewrite <- app_assoc, (step_short_resolved _ _ _ _ _ _ Hok Hr).
  assert (E : strip_prefix [c_eq] t = None).
  { destruct (strip_prefix [c_eq] t) as [w|] eqn:E; [|reflexivity]. apply strip_prefix_Some in E. elim (He w). exact E. }
  rewrite E. destruct t; [contradiction|]. rewrite Hq. reflexivity.
Qed.
(** With [=] the value is taken, whatever its bytes. *)
Theorem eq_value d pre os stk rem n ad a v :
  valid d -> at_option d pre os stk rem -> resolve stk n = Some (ad, a) ->
  match n with Long _ => True | Short _ => takes_value a = true end ->
  at_option d (pre ++ [spell_eq n v]) (os ++ [Occ ad a (Some v)]) stk rem.
Proof.
  intros Hd H Hr Ht. pose proof (at_option_stack _ _ _ _ _ Hd H) as Hok. eapply at_option_more; [exact H|].
  rewrite read_one. apply step_eq_value; assumption.
Qed.
Theorem gives_value_reads stk rem n ad a v toks : stack_ok stk -> resolve stk n = Some (ad, a) -> takes_value a = true ->
  gives_value a n v toks -> read first_named (Normal stk rem) toks = ([Occ ad a (Some v)], Go (Normal stk rem)).
Proof.
  intros Hok Hr Ht Hg. destruct Hg as [|Hq Hf|c Hn Hq Hne He].
  - rewrite read_one. apply step_eq_value; [exact Hok|exact Hr|]. destruct n; auto.
  - rewrite read_cons, (step_bare _ _ _ _ _ Hok Hr). unfold bare. rewrite Ht, Hq. unfold then_read. cbn [fst snd].
    rewrite read_one. cbn [step]. rewrite Hf. reflexivity.
  - subst n. rewrite read_one. cbn [spell]. rewrite <- app_assoc, (step_short_resolved _ _ _ _ _ _ Hok Hr).
    assert (E : strip_prefix [c_eq] v = None).
    { destruct (strip_prefix [c_eq] v) as [w|] eqn:E; [|reflexivity]. apply strip_prefix_Some in E. elim (He w). exact E. }
    rewrite E. destruct v as [|x v]; [contradiction|]. rewrite Hq, Ht. reflexivity.
Qed.
Theorem gives_value_occ d pre os stk rem n ad a v toks :
  valid d -> at_option d pre os stk rem -> resolve stk n = Some (ad, a) -> takes_value a = true -> gives_value a n v toks ->
  at_option d (pre ++ toks) (os ++ [Occ ad a (Some v)]) stk rem.
Proof.
  intros Hd H Hr Ht Hg. eapply at_option_more; [exact H|]. apply (gives_value_reads stk rem n); try assumption.
  eapply at_option_stack; eauto.
Qed.
(** An option without a value takes nothing from the next token. *)
Theorem bare_occ d pre os stk rem n ad a :
  valid d -> at_option d pre os stk rem -> resolve stk n = Some (ad, a) -> takes_value a = false ->
  at_option d (pre ++ [spell n]) (os ++ [Occ ad a None]) stk rem.
Proof.
  intros Hd H Hr Ht. pose proof (at_option_stack _ _ _ _ _ Hd H) as Hok. eapply at_option_more; [exact H|].
  rewrite read_one, (step_bare _ _ _ _ _ Hok Hr). unfold bare. rewrite Ht. reflexivity.
Qed.

(** *** The next token *)

Theorem next_value d pre os stk rem n ad a tok :
  valid d -> at_option d pre os stk rem -> resolve stk n = Some (ad, a) -> takes_value a = true -> needs_equals a = false ->
  may_follow a tok = true ->
  at_option d (pre ++ [spell n; tok]) (os ++ [Occ ad a (Some tok)]) stk rem.
Proof.
  intros Hd H Hr Ht Hq Hf. pose proof (at_option_stack _ _ _ _ _ Hd H) as Hok. eapply at_option_more; [exact H|].
  rewrite read_cons, (step_bare _ _ _ _ _ Hok Hr). unfold bare. rewrite Ht, Hq. unfold then_read. cbn [fst snd].
  rewrite read_one. cbn [step]. rewrite Hf. reflexivity.
Qed.
Theorem no_next_value d (argv0 : bytes) pre os stk rem n ad a post :
  valid d -> at_option d pre os stk rem -> no_error_in os -> resolve stk n = Some (ad, a) ->
  takes_value a = true -> needs_equals a = false ->
  match post with [] => True | tok :: _ => may_follow a tok = false end ->
  try_parse_from d (argv0 :: pre ++ spell n :: post) = Err (error_about MissingValue a).
Proof.
  intros Hd H Hn Hr Ht Hq Hf. pose proof (at_option_stack _ _ _ _ _ Hd H) as Hok.
  rewrite (after_prefix _ _ _ _ _ _ _ Hd H), read_cons, (step_bare _ _ _ _ _ Hok Hr). unfold bare. rewrite Ht, Hq.
  unfold then_read. cbn [fst snd app]. destruct post as [|tok post].
  - cbn. rewrite app_nil_r, Hn. reflexivity.
  - rewrite read_cons. cbn [step]. rewrite Hf. cbn. rewrite app_nil_r, Hn. reflexivity.
Qed.
Lemma may_follow_iff a tok : may_follow a tok = true <->
  tok = bs "-" \/ (forall b, tok <> c_dash :: b) \/ am_allow_hyphen_values (sa_meta a) = true \/
  (am_allow_negative_numbers (sa_meta a) = true /\ exists b, tok = c_dash :: b /\ Forall (fun x => is_ascii_digit x = true) b).
Proof.
  destruct tok as [|x b]; [split; [intros _; right; left; discriminate|reflexivity]|].
  destruct (Byte.eqb x c_dash) eqn:Ex.
  - apply Byte.byte_dec_bl in Ex. subst x. destruct b as [|y b]; [split; [intros _; left; reflexivity|reflexivity]|].
    change (may_follow a (c_dash :: y :: b)) with
      (am_allow_hyphen_values (sa_meta a) || (am_allow_negative_numbers (sa_meta a) && forallb is_ascii_digit (y :: b))).
    rewrite orb_true_iff, andb_true_iff, forallb_forall. split.
    + intros [H|[H1 H2]]; [auto|]. right. right. right. split; [exact H1|]. exists (y :: b). split; [reflexivity|].
      apply Forall_forall. exact H2.
    + intros [H|[H|[H|[H1 (b' & E & H2)]]]]; [discriminate|elim (H (y :: b)); reflexivity|auto|].
      right. split; [exact H1|]. injection E as <-. apply Forall_forall. exact H2.
  - assert (Hx : x <> c_dash) by (intros ->; discriminate).
    assert (E : may_follow a (x :: b) = true) by (destruct x; try reflexivity; elim Hx; reflexivity).
    split; [|intros _; exact E]. intros _. right. left. intros b' C. injection C as C _. contradiction.
Qed.

(** *** [Option<Option<T>>] *)

Theorem short_optopt_value d (argv0 : bytes) pre os stk rem c ad a v post :
  valid d -> at_option d pre os stk rem -> no_error_in os -> resolve stk (Short c) = Some (ad, a) ->
  takes_value a = false ->
  exists e, try_parse_from d (argv0 :: pre ++ spell_eq (Short c) v :: post) = Err e /\
    (occ_error a (given os ad) (Some v) = None -> e = error_on UnknownNamedArgument (bs "-=")).
Proof.
  intros Hd H Hn Hr Ht. pose proof (at_option_stack _ _ _ _ _ Hd H) as Hok.
  rewrite (after_prefix _ _ _ _ _ _ _ Hd H), read_cons. unfold spell_eq. cbn [spell].
  rewrite <- app_assoc, (step_short_resolved _ _ _ _ _ _ Hok Hr). change (bs "=" ++ v) with (c_eq :: v).
  change (strip_prefix [c_eq] (c_eq :: v)) with (Some v). rewrite Ht.
  change (c_eq :: v) with (utf8_encode 61%N ++ v). rewrite utf8_prefix_cons by reflexivity.
  destruct (utf8_prefix v) as [cs junk]. cbn [fst snd]. rewrite read_bundle_cons.
  assert (Hu : resolve stk (Short 61%N) = None).
  { destruct (resolve stk (Short 61%N)) as [[ad' a']|] eqn:E; [|reflexivity].
    destruct (name_facts _ _ _ _ Hok E) as (_ & _ & _ & _ & C). congruence. }
  rewrite Hu. unfold then_read, conclude. cbn [fst snd app]. rewrite first_bad_app. unfold no_error_in in Hn. rewrite Hn. cbn [first_bad oc_arg oc_addr oc_val app].
  destruct (occ_error a (given os ad) (Some v)) as [e|]; eexists; split; try reflexivity. discriminate.
Qed.

(** *** As stated in the properties *)

Theorem inline_or_next_long d (argv0 : bytes) pre os stk rem (s : bytes) ad a v post :
  valid d -> at_option d pre os stk rem -> resolve stk (Long s) = Some (ad, a) ->
  takes_value a = true -> needs_equals a = false -> may_follow a v = true ->
  try_parse_from d (argv0 :: pre ++ [bs "--" ++ s; v] ++ post) =
  try_parse_from d (argv0 :: pre ++ [bs "--" ++ s ++ bs "=" ++ v] ++ post).
Proof.
  intros. rewrite (app_assoc (bs "--") s). apply (inline_or_next d argv0 pre os stk rem (Long s) ad a v post); assumption.
Qed.
Theorem inline_or_next_short d (argv0 : bytes) pre os stk rem c ad a v post :
  valid d -> at_option d pre os stk rem -> resolve stk (Short c) = Some (ad, a) ->
  takes_value a = true -> needs_equals a = false -> may_follow a v = true ->
  try_parse_from d (argv0 :: pre ++ [bs "-" ++ utf8_encode c; v] ++ post) =
  try_parse_from d (argv0 :: pre ++ [bs "-" ++ utf8_encode c ++ bs "=" ++ v] ++ post).
Proof.
  intros. rewrite (app_assoc (bs "-") (utf8_encode c)). apply (inline_or_next d argv0 pre os stk rem (Short c) ad a v post); assumption.
Qed.
Theorem attached_or_inline d (argv0 : bytes) pre os stk rem c ad a v post :
  valid d -> at_option d pre os stk rem -> resolve stk (Short c) = Some (ad, a) ->
  takes_value a = true -> needs_equals a = false -> v <> [] -> (forall w, v <> c_eq :: w) ->
  try_parse_from d (argv0 :: pre ++ [bs "-" ++ utf8_encode c ++ v] ++ post) =
  try_parse_from d (argv0 :: pre ++ [bs "-" ++ utf8_encode c ++ bs "=" ++ v] ++ post).
Proof.
  intros. rewrite !(app_assoc (bs "-") (utf8_encode c)). apply (attached_value d argv0 pre os stk rem c ad a v post); assumption.
Qed.
Theorem bundle_names d (argv0 : bytes) pre os stk rem cs c post :
  valid d -> at_option d pre os stk rem -> Forall (plain_flag stk) cs -> resolve stk (Short c) <> None ->
  try_parse_from d (argv0 :: pre ++ [bs "-" ++ encode_all (cs ++ [c])] ++ post) =
  try_parse_from d (argv0 :: pre ++ map (fun c => spell (Short c)) (cs ++ [c]) ++ post).
Proof.
  intros Hd H Hf Hr. pose proof (at_option_stack _ _ _ _ _ Hd H) as Hok.
  destruct (resolve stk (Short c)) as [[ad a]|] eqn:E; [|congruence].
  destruct (name_head stk c ad a [] Hok E) as (H1 & H2 & H3). rewrite app_nil_r in H1, H2, H3.
  rewrite map_app. cbn [map]. rewrite encode_all_app.
  replace (encode_all [c]) with (utf8_encode c) by (unfold encode_all; cbn; rewrite ?app_nil_r; reflexivity).
  exact (bundle_separate d argv0 pre os stk rem cs (utf8_encode c) post Hd H Hf H1 H2 H3).
Qed.
Theorem names_denote d pre os stk rem n ad a :
  valid d -> at_option d pre os stk rem -> In (ad, a) (stack_args stk) ->
  S (ad_level ad) = length stk \/ is_global a = true -> has_name a n ->
  (forall ad' b, In (ad', b) (stack_args stk) -> has_name b n -> ad' = ad) ->
  resolve stk n = Some (ad, a).
Proof.
  intros Hd H Hin Hg Hn Hu. pose proof (at_option_stack _ _ _ _ _ Hd H) as Hok.
  assert (Hr : resolve stk n <> None) by (apply resolve_iff; [exact Hok|]; exists ad, a; auto).
  destruct (resolve stk n) as [[ad' b]|] eqn:E; [|congruence]. destruct (resolve_sound _ _ _ _ Hok E) as (Hi & Hb & _).
  pose proof (Hu ad' b Hi Hb) as ->. f_equal. f_equal. eapply stack_args_unique; eauto.
Qed.
Theorem resolve_exact d pre os stk rem n : valid d -> at_option d pre os stk rem ->
  (resolve stk n <> None <->
   exists ad a, In (ad, a) (stack_args stk) /\ has_name a n /\ (S (ad_level ad) = length stk \/ is_global a = true)).
Proof. intros Hd H. apply resolve_iff. eapply at_option_stack; eauto. Qed.
Theorem eq_value_taken d pre os stk rem n ad a v :
  valid d -> at_option d pre os stk rem -> resolve stk n = Some (ad, a) -> takes_value a = true ->
  at_option d (pre ++ [spell_eq n v]) (os ++ [Occ ad a (Some v)]) stk rem.
Proof. intros Hd H Hr Ht. apply eq_value; try assumption. destruct n; auto. Qed.
Theorem long_eq_value_taken d pre os stk rem (s : bytes) ad a v :
  valid d -> at_option d pre os stk rem -> resolve stk (Long s) = Some (ad, a) ->
  at_option d (pre ++ [bs "--" ++ s ++ bs "=" ++ v]) (os ++ [Occ ad a (Some v)]) stk rem.
Proof. intros Hd H Hr. rewrite (app_assoc (bs "--") s). exact (eq_value d pre os stk rem (Long s) ad a v Hd H Hr I). Qed.

Lemma digit_iff x : is_ascii_digit x = true <-> (48 <= b2n x <= 57)%N.
Proof. unfold is_ascii_digit. rewrite andb_true_iff, !N.leb_le. reflexivity. Qed.
Theorem next_token_taken d (argv0 : bytes) pre os stk rem n ad a tok :
  valid d -> at_option d pre os stk rem -> resolve stk n = Some (ad, a) -> takes_value a = true -> needs_equals a = false ->
  (tok = bs "-" \/ (forall b, tok <> c_dash :: b) \/ am_allow_hyphen_values (sa_meta a) = true \/
   (am_allow_negative_numbers (sa_meta a) = true /\
    exists b, tok = c_dash :: b /\ Forall (fun x => (48 <= b2n x <= 57)%N) b)) ->
  at_option d (pre ++ [spell n; tok]) (os ++ [Occ ad a (Some tok)]) stk rem.
Proof.
  intros Hd H Hr Ht Hq Hf. apply next_value; try assumption. apply may_follow_iff.
  destruct Hf as [Hf|[Hf|[Hf|(H1 & b & E & Hf)]]]; auto. right. right. right. split; [exact H1|]. exists b. split; [exact E|].
  eapply Forall_impl; [|exact Hf]. intros x Hx. apply digit_iff. exact Hx.
Qed.
Theorem next_token_refused d (argv0 : bytes) pre os stk rem n ad a x b post :
  valid d -> at_option d pre os stk rem -> no_error_in os -> resolve stk n = Some (ad, a) ->
  takes_value a = true -> needs_equals a = false -> am_allow_hyphen_values (sa_meta a) = false ->
  (am_allow_negative_numbers (sa_meta a) = false \/ Exists (fun y => ~ (48 <= b2n y <= 57)%N) (x :: b)) ->
  try_parse_from d (argv0 :: pre ++ spell n :: (c_dash :: x :: b) :: post) = Err (error_about MissingValue a).
Proof.
  intros Hd H Hn Hr Ht Hq Hh Hf. eapply no_next_value; eauto.
  destruct (may_follow a (c_dash :: x :: b)) eqn:E; [|reflexivity]. apply may_follow_iff in E.
  destruct E as [E|[E|[E|(E1 & b' & E2 & E3)]]]; [discriminate|elim (E (x :: b)); reflexivity|congruence|].
  injection E2 as <-. destruct Hf as [Hf|Hf]; [congruence|]. apply Exists_exists in Hf. destruct Hf as (y & Hy & Hny).
  rewrite Forall_forall in E3. elim Hny. apply digit_iff. apply E3. exact Hy.
Qed.
Theorem next_token_missing d (argv0 : bytes) pre os stk rem n ad a :
  valid d -> at_option d pre os stk rem -> no_error_in os -> resolve stk n = Some (ad, a) ->
  takes_value a = true -> needs_equals a = false ->
  try_parse_from d (argv0 :: pre ++ [spell n]) = Err (error_about MissingValue a).
Proof. intros Hd H Hn Hr Ht Hq. exact (no_next_value d argv0 pre os stk rem n ad a [] Hd H Hn Hr Ht Hq I). Qed.

Theorem not_utf8_error d (argv0 : bytes) pre os stk rem (t : bytes) post :
  valid d -> at_option d pre os stk rem -> no_error_in os -> t <> [] -> fst (utf8_prefix t) = [] ->
  try_parse_from d (argv0 :: pre ++ (bs "-" ++ t) :: post) = Err (error_on UnknownNamedArgument (bs "-" ++ t)).
Proof.
  intros Hd H Hn Hne Hp. eapply stops_with; [exact Hd|exact H|exact Hn|]. destruct t as [|x t]; [contradiction|].
  pose proof (prefix_rest (x :: t)) as E. rewrite Hp in E. cbn [app] in E. rewrite app_nil_l in E.
  assert (Hx : x <> c_dash).
  { intros ->. change (c_dash :: t) with (utf8_encode 45%N ++ t) in Hp. rewrite utf8_prefix_cons in Hp by reflexivity.
    destruct (utf8_prefix t). discriminate. }
  cbn [step]. rewrite form_bundle by exact Hx. destruct (utf8_prefix (x :: t)) as [cs junk]. cbn [fst snd] in *. subst cs junk. reflexivity.
Qed.

Lemma flags_read stk rem cs : stack_ok stk -> Forall (plain_flag stk) cs ->
  exists os', read first_named (Normal stk rem) (map (fun c => spell (Short c)) cs) = (os', Go (Normal stk rem)).
Proof.
  intros Hok. induction 1 as [|c cs (ad & a & Hr & Ht & _) _ [os' IH]]; [exists []; reflexivity|].
  cbn [map]. rewrite read_cons, (step_bare _ _ _ _ _ Hok Hr). unfold bare. rewrite Ht. unfold then_read. cbn [fst snd].
  rewrite IH. eauto.
Qed.
Theorem help_in_bundle d (argv0 : bytes) pre os stk rem cs (t : bytes) post :
  valid d -> at_option d pre os stk rem -> Forall (plain_flag stk) cs -> unknown stk (Short (b2n "h")) ->
  exists os', read first_named (start d) (pre ++ map (fun c => spell (Short c)) cs) = (os ++ os', Go (Normal stk rem)) /\
  (no_error_in (os ++ os') ->
   try_parse_from d (argv0 :: pre ++ (bs "-" ++ encode_all cs ++ bs "h" ++ t) :: post)
   = Err (mkError Help None None None [] (Some (help_text argv0 stk)))).
Proof.
  intros Hd H Hf Hu. pose proof (at_option_stack _ _ _ _ _ Hd H) as Hok. destruct (flags_read stk rem cs Hok Hf) as [os' E].
  exists os'. pose proof (at_option_more _ _ _ _ _ _ _ _ _ H E) as H'. split; [exact H'|]. intros Hn.
  pose proof (bundle_separate d argv0 pre os stk rem cs (bs "h" ++ t) post Hd H Hf
    ltac:(discriminate) ltac:(intros w C; discriminate C) ltac:(intros w C; discriminate C)) as Eb.
  cbn [app] in Eb |- *. rewrite Eb. rewrite <- app_assoc, app_assoc. cbn [app].
  exact (help_short d argv0 _ _ stk rem t post Hd H' Hn Hu).
Qed.
Theorem short_value_error d (argv0 : bytes) pre os stk rem c ad a v post :
  valid d -> at_option d pre os stk rem -> no_error_in os -> resolve stk (Short c) = Some (ad, a) ->
  takes_value a = false ->
  exists e, try_parse_from d (argv0 :: pre ++ (bs "-" ++ utf8_encode c ++ bs "=" ++ v) :: post) = Err e /\
    (occ_error a (given os ad) (Some v) = None -> e = error_on UnknownNamedArgument (bs "-=")).
Proof. rewrite (app_assoc (bs "-") (utf8_encode c)). exact (short_optopt_value d argv0 pre os stk rem c ad a v post). Qed.
End Options.
