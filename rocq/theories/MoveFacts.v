(** Moving an option past a word or the name of a subcommand. *)
From Verif Require Import Bytes BytesFacts Utf8 Utf8Facts Attrs AttrFacts Refl Error Values SortFacts
  Places Help Runtime Heck Decl Spec Derive Generated Observe Grammar Plain Page CompileFacts InfoFacts TableFacts PlaceFacts
  ScopeFacts NamedFacts WordFacts FinishFacts ReadFacts SimFacts HelpFacts Refine ContextFacts SafeFacts
  FieldFacts ResultFacts ValueFacts OptionFacts SameFacts WriteFacts PositionalFacts PlainFacts.

Section Move.
Context {V : Type}.
Local Notation args_decl := (args_decl V).
Local Notation sarg := (sarg V).
Local Notation scope := (scope V).
Local Notation occ := (occ V).
Implicit Types (d : args_decl) (a p : sarg) (s : scope) (stk : list scope) (os : list occ) (o : outval V).

Lemma swapped os1 (o1 o2 : occ) os2 (argv0 : bytes) out o : oc_addr o1 <> oc_addr o2 ->
  conclude argv0 (os1 ++ o1 :: o2 :: os2, out) = Ok o -> conclude argv0 (os1 ++ o2 :: o1 :: os2, out) = Ok o.
Proof.
  intros Hne Hc. apply conclude_Ok in Hc. destruct Hc as (Hb & st & -> & Hcm & Hf).
  rewrite conclude_complete; [|apply first_bad_swap; [exact Hne|exact Hb]|exact Hcm].
  rewrite <- Hf. apply finish_stack_ext.
  - intros ad. apply given_ext. symmetry. apply values_swap. exact Hne.
  - intros ad a _. f_equal. symmetry. apply values_swap. exact Hne.
Qed.

Lemma target_in ps : forall k p, target ps k = Some p -> In p ps.
Proof.
  induction ps as [|q ps IH]; intros k p; [discriminate|]. cbn [target]. destruct (many q || greedy q).
  - intros E. injection E as ->. left. reflexivity.
  - destruct k as [|k]; [intros E; injection E as ->; left; reflexivity|]. intros E. right. exact (IH k p E).
Qed.

Theorem past_word d (argv0 : bytes) pre os stk rem toks ad a v (w : bytes) p post o :
  valid d -> at_option d pre os stk rem -> writes stk toks ad a v ->
  word w -> no_subcommand stk w -> next_word stk os = Some p -> greedy p = false ->
  (try_parse_from d (argv0 :: pre ++ toks ++ w :: post) = Ok o <-> try_parse_from d (argv0 :: pre ++ w :: toks ++ post) = Ok o).
Proof.
  intros Hd H Hw Hww Hn Hp Hg. pose proof (at_option_stack _ _ _ _ _ Hd H) as Hok.
  assert (Hr : forall rem', read first_named (Normal stk rem') toks = ([Occ ad a v], Go (Normal stk rem')))
    by (intros rem'; apply writes_reads; assumption).
  destruct (word_taken d pre os stk rem w p Hd H Hww Hn Hp Hg) as [rem' H'].
  assert (Hs : step first_named (Normal stk rem) w = ([word_occ stk p w], Go (Normal stk rem'))).
  { unfold at_option in H'. rewrite (at_option_app _ _ _ _ _ _ H), read_one in H'.
    destruct (step first_named (Normal stk rem) w) as [o1 out]. cbn [fst snd] in H'. injection H' as E ->.
    apply app_inv_head in E. congruence. }
  assert (Hne : ad <> oc_addr (word_occ stk p w)).
  { intros C. destruct (writes_arg _ _ _ _ _ Hok Hw) as [Hin Ho].
    assert (Hk : known stk (word_occ stk p w)).
    { destruct (at_option_ok _ _ _ _ _ Hd H') as (_ & _ & Hk & _). rewrite Forall_forall in Hk. apply Hk. apply in_app_iff. right. left. reflexivity. }
    unfold known in Hk. rewrite <- C in Hk. assert (p = a) by (eapply stack_args_unique; eassumption). subst p.
    unfold next_word in Hp. destruct stk as [|s outer]; [discriminate|]. apply target_in in Hp. unfold ordinary in Hp.
    apply filter_In in Hp. destruct Hp as [_ Hp]. rewrite Ho in Hp. discriminate. }
  rewrite !(after_prefix _ _ _ _ _ _ _ Hd H). destruct (read first_named (Normal stk rem') post) as [os2 out] eqn:Ep.
  assert (E1 : read first_named (Normal stk rem) (toks ++ w :: post) = (Occ ad a v :: word_occ stk p w :: os2, out)).
  { rewrite read_app, Hr. unfold then_read. cbn [fst snd]. rewrite read_cons, Hs. unfold then_read. cbn [fst snd]. rewrite Ep. reflexivity. }
  assert (E2 : read first_named (Normal stk rem) (w :: toks ++ post) = (word_occ stk p w :: Occ ad a v :: os2, out)).
  { rewrite read_cons, Hs. unfold then_read. cbn [fst snd]. rewrite read_app, Hr. unfold then_read. cbn [fst snd]. rewrite Ep. reflexivity. }
  rewrite E1, E2. cbn [fst snd]. split; apply swapped; [exact Hne|]. intros C. apply Hne. symmetry. exact C.
Qed.

Lemma find_filter {A} (f g : A -> bool) l x : find f l = Some x -> g x = true -> find f (filter g l) = Some x.
Proof.
  induction l as [|y l IH]; [discriminate|]. cbn [find filter]. destruct (f y) eqn:E.
  - intros H Hg. injection H as ->. rewrite Hg. cbn [find]. rewrite E. reflexivity.
  - intros H Hg. destruct (g y); [cbn [find]; rewrite E|]; apply IH; assumption.
Qed.
Lemma find_none_app {A} (f : A -> bool) l l' : (forall x, In x l -> f x = false) -> find f (l ++ l') = find f l'.
Proof.
  induction l as [|y l IH]; intros H; [reflexivity|]. cbn [app find]. rewrite (H y (or_introl eq_refl)). apply IH.
  intros x Hx. apply H. right. exact Hx.
Qed.
Lemma filter_twice {A} (f : A -> bool) l : filter f (filter f l) = filter f l.
Proof. induction l as [|x l IH]; [reflexivity|]. cbn [filter]. destruct (f x) eqn:E; [cbn [filter]; rewrite E, IH; reflexivity|exact IH]. Qed.

Lemma resolve_inside s stk n ad a : resolve stk n = Some (ad, a) -> is_global a = true -> ~ offers (sc_decl s) n ->
  resolve (s :: stk) n = Some (ad, a).
Proof.
  intros Hr Hg Ho. unfold resolve in *. cbn [in_scope]. rewrite find_none_app.
  - assert (E : filter (fun x : addr * sarg => is_global (snd x)) (stack_args stk) = filter (fun x => is_global (snd x)) (in_scope stk)).
    { destruct stk as [|s' outer]; [reflexivity|]. cbn [stack_args in_scope]. rewrite !filter_app, filter_twice. reflexivity. }
    rewrite E. apply find_filter; [exact Hr|exact Hg].
  - intros [ad' b] Hb. cbn [snd]. destruct (has_nameb b n) eqn:E; [|reflexivity]. exfalso. apply Ho. unfold scope_args in Hb.
    apply in_map_iff in Hb. destruct Hb as ([q c] & Ec & Hc). cbn [fst snd] in Ec. injection Ec as _ ->. exists q, b.
    split; [exact Hc|]. apply has_nameb_spec. exact E.
Qed.
Lemma writes_inside s stk toks ad a v : stack_ok stk -> writes stk toks ad a v -> is_global a = true ->
  (forall n, has_name a n -> ~ offers (sc_decl s) n) -> writes (s :: stk) toks ad a v.
Proof.
  intros Hok Hw Hg Hn.
  assert (Hin : forall n ad' b, resolve stk n = Some (ad', b) -> is_global b = true ->
    (forall m, has_name b m -> ~ offers (sc_decl s) m) -> resolve (s :: stk) n = Some (ad', b)).
  { intros n ad' b Hr Hgb Hnb. apply resolve_inside; [exact Hr|exact Hgb|]. apply Hnb.
    destruct (resolve_sound _ _ _ _ Hok Hr) as (_ & Hh & _). exact Hh. }
  destruct Hw as [n ad a v toks Hr Ht Hgv|n ad a Hr Ht|l ad a v Hr Ht].
  - eapply writes_value; [apply Hin; eassumption|exact Ht|exact Hgv].
  - apply writes_bare; [apply Hin; assumption|exact Ht].
  - apply writes_long; [apply Hin; assumption|exact Ht].
Qed.

Theorem past_subcommand d (argv0 : bytes) pre os stk rem toks ad a v sub post :
  valid d -> at_option d pre os stk rem -> writes stk toks ad a v -> is_global a = true ->
  In sub (sub_variants stk) -> (forall n, has_name a n -> ~ offers (sc_decl (variant_scope sub)) n) ->
  try_parse_from d (argv0 :: pre ++ toks ++ sub_name sub :: post) = try_parse_from d (argv0 :: pre ++ sub_name sub :: toks ++ post).
Proof.
  intros Hd H Hw Hg Hs Hn. pose proof (at_option_stack _ _ _ _ _ Hd H) as Hok.
  pose proof (writes_reads stk rem _ _ _ _ Hok Hw) as Hr.
  assert (Hok' : stack_ok (variant_scope sub :: stk)) by (apply variant_ok; assumption).
  pose proof (writes_reads _ (positionals (sc_decl (variant_scope sub))) _ _ _ _ Hok' (writes_inside (variant_scope sub) _ _ _ _ _ Hok Hw Hg Hn)) as Hr'.
  pose proof (sub_enters d pre os stk rem sub Hd H Hs) as H'.
  assert (Hst : step first_named (Normal stk rem) (sub_name sub) = ([], Go (Normal (variant_scope sub :: stk) (positionals (sc_decl (variant_scope sub)))))).
  { unfold at_option in H'. rewrite (at_option_app _ _ _ _ _ _ H), read_one in H'.
    destruct (step first_named (Normal stk rem) (sub_name sub)) as [o1 out]. cbn [fst snd] in H'. injection H' as E ->.
    rewrite <- (app_nil_r os) in E at 2. apply app_inv_head in E. congruence. }
  rewrite !(after_prefix _ _ _ _ _ _ _ Hd H). set (st' := Normal (variant_scope sub :: stk) (positionals (sc_decl (variant_scope sub)))) in *.
  destruct (read first_named st' post) as [os2 out] eqn:Ep.
  assert (E1 : read first_named (Normal stk rem) (toks ++ sub_name sub :: post) = (Occ ad a v :: os2, out)).
  { rewrite read_app, Hr. unfold then_read. cbn [fst snd]. rewrite read_cons, Hst. unfold then_read. cbn [fst snd]. rewrite Ep. reflexivity. }
  assert (E2 : read first_named (Normal stk rem) (sub_name sub :: toks ++ post) = (Occ ad a v :: os2, out)).
  { rewrite read_cons, Hst. unfold then_read. cbn [fst snd]. rewrite read_app, Hr'. unfold then_read. cbn [fst snd]. rewrite Ep. reflexivity. }
  rewrite E1, E2. reflexivity.
Qed.
End Move.
