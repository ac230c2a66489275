(** Several values at once, or one by one. *)
From Coq Require Import Lia.
From Verif Require Import Bytes BytesFacts Utf8 Utf8Facts Attrs AttrFacts Refl Error Values SortFacts
  Places Help Runtime Heck Decl Spec Derive Generated Observe CompileFacts InfoFacts TableFacts PlaceFacts
  ScopeFacts NamedFacts WordFacts FinishFacts ReadFacts SimFacts HelpFacts Refine ContextFacts SafeFacts
  FieldFacts ResultFacts ValueFacts OptionFacts SameFacts WriteFacts UnsaidFacts Grammar PositionalFacts WordValueFacts
  Parts PartsFacts PackFacts.

Section Gather.
Context {V : Type}.
Local Notation args_decl := (args_decl V).
Local Notation sarg := (sarg V).
Local Notation scope := (scope V).
Local Notation occ := (occ V).
Implicit Types (d : args_decl) (a : sarg) (stk : list scope) (os : list occ).

Lemma glue_app sep ps qs : ps <> [] -> qs <> [] -> glue sep (ps ++ qs) = glue sep ps ++ sep ++ glue sep qs.
Proof.
  intros Hp Hq. induction ps as [|p ps IH]; [contradiction|]. cbn [app glue]. destruct ps as [|p' ps].
  - cbn [app]. destruct qs; [contradiction|]. rewrite app_nil_r. reflexivity.
  - cbn [app] in IH |- *. rewrite IH by discriminate. rewrite <- !app_assoc. reflexivity.
Qed.
Lemma lower_ascii (b : byte) : (b2n b < 65 \/ 90 < b2n b)%N -> ascii_lower b = b.
Proof. unfold ascii_lower, is_ascii_upper. intros H. destruct b; try reflexivity; exfalso; cbv in H; destruct H; discriminate. Qed.
Lemma utf8_encode_high c b : scalar c -> (128 <= c)%N -> In b (utf8_encode c) -> (128 <= b2n b)%N.
Proof.
  intros Hs Hc. assert (Hb : (c < 1114112)%N) by (unfold scalar in Hs; lia).
  assert (Hm : forall n, (128 <= b2n (n2b (128 + n mod 64)))%N).
  { intros n. pose proof (N.mod_lt n 64 ltac:(discriminate)). rewrite b2n_n2b; lia. }
  unfold utf8_encode. destruct (c <? 128)%N eqn:E1; [apply N.ltb_lt in E1; lia|]. destruct (c <? 2048)%N eqn:E2.
  { apply N.ltb_lt in E2. pose proof (N.div_lt_upper_bound c 64 32 ltac:(discriminate) ltac:(lia)).
    intros [<-|[<-|[]]]; [rewrite b2n_n2b; lia|apply Hm]. }
  destruct (c <? 65536)%N eqn:E3.
  { apply N.ltb_lt in E3. pose proof (N.div_lt_upper_bound c 4096 16 ltac:(discriminate) ltac:(lia)).
    intros [<-|[<-|[<-|[]]]]; [rewrite b2n_n2b; lia|apply Hm|apply Hm]. }
  pose proof (N.div_lt_upper_bound c 262144 5 ltac:(discriminate) ltac:(lia)).
  intros [<-|[<-|[<-|[<-|[]]]]]; [rewrite b2n_n2b; lia|apply Hm|apply Hm|apply Hm].
Qed.
Lemma lower_encode c : scalar c -> (c < 65 \/ 90 < c)%N -> map ascii_lower (utf8_encode c) = utf8_encode c.
Proof.
  intros Hs Hc. rewrite <- (map_id (utf8_encode c)) at 2. apply map_ext_in. intros b Hb. apply lower_ascii.
  destruct (N.lt_ge_cases c 128) as [Hl|Hl].
  - rewrite utf8_encode_ascii in Hb by exact Hl. destruct Hb as [<-|[]]. rewrite b2n_n2b; lia.
  - right. pose proof (utf8_encode_high c b Hs Hl Hb). lia.
Qed.

(** The pieces of two values with the delimiter between them. *)
Lemma pieces_joined a c v1 v2 : arg_facts a -> am_value_delimiter (sa_meta a) = Some c ->
  (am_ignore_case (sa_meta a) = true -> (c < 65 \/ 90 < c)%N) ->
  pieces a (text_of a (v1 ++ utf8_encode c ++ v2)) = pieces a (text_of a v1) ++ pieces a (text_of a v2).
Proof.
  intros Ha Hc Hi. assert (Hs : scalar c) by (apply scalar_spec; exact (ar_delim_scalar a Ha c Hc)).
  assert (Et : text_of a (v1 ++ utf8_encode c ++ v2) = text_of a v1 ++ utf8_encode c ++ text_of a v2).
  { unfold text_of. destruct (am_ignore_case (sa_meta a)); [|reflexivity]. rewrite !map_app, (lower_encode c Hs (Hi eq_refl)). reflexivity. }
  rewrite Et. apply (cut_pieces_of a c _ _ Ha Hc).
  destruct (proj1 (cut_pieces_of a c (text_of a v1) _ Ha Hc) eq_refl) as [A1 A2 A3].
  destruct (proj1 (cut_pieces_of a c (text_of a v2) _ Ha Hc) eq_refl) as [B1 B2 B3]. constructor.
  - intros E. apply app_eq_nil in E. tauto.
  - apply Forall_app. auto.
  - rewrite glue_app, A3, B3 by assumption. reflexivity.
Qed.

Lemma first_error_app (u : value_ty V) ps qs :
  first_error u (ps ++ qs) = match first_error u ps with Some e => Some e | None => first_error u qs end.
Proof. induction ps as [|p ps IH]; [reflexivity|]. cbn [app first_error]. destruct (read_value u p); [exact IH|reflexivity]. Qed.
Lemma occ_error_many a prior v : many a = true -> occ_error a prior (Some v) =
  match first_error (value_of_ty (sa_ty a)) (pieces a (text_of a v)) with
  | Some e => Some (if is_option a then mkError (e_kind e) (Some (describe a)) (e_input e) (e_source e) (e_context e) (e_help e) else e)
  | None => None
  end.
Proof.
  intros Hm. unfold occ_error. change (folded a (Some v)) with (Some (text_of a v)). unfold value_error.
  unfold many in Hm. destruct (shape_a a); try discriminate; reflexivity.
Qed.
Lemma given_gather os1 os2 ad a v1 v2 v ad' :
  given (os1 ++ Occ ad a v1 :: Occ ad a v2 :: os2) ad' = given (os1 ++ Occ ad a v :: os2) ad'.
Proof.
  rewrite !given_values, !values_insert. change (Occ ad a v2 :: os2) with ([] ++ Occ ad a v2 :: os2). rewrite values_insert.
  destruct (values_of os1 ad'); [|reflexivity]. destruct (addr_eqb ad' ad); reflexivity.
Qed.

Theorem gather (argv0 : bytes) os1 os2 ad a v1 v2 v out : many a = true ->
  pieces a (text_of a v) = pieces a (text_of a v1) ++ pieces a (text_of a v2) ->
  (forall st b, out = Go st -> In (ad, b) (stack_args (state_stack st)) -> b = a) ->
  conclude argv0 (os1 ++ Occ ad a (Some v1) :: Occ ad a (Some v2) :: os2, out) =
  conclude argv0 (os1 ++ Occ ad a (Some v) :: os2, out).
Proof.
  intros Hm Hp Hun. unfold conclude.
  assert (Eb : first_bad [] (os1 ++ Occ ad a (Some v1) :: Occ ad a (Some v2) :: os2) = first_bad [] (os1 ++ Occ ad a (Some v) :: os2)).
  { rewrite !first_bad_app. destruct (first_bad [] os1); [reflexivity|]. cbn [app first_bad oc_arg oc_addr oc_val].
    rewrite !occ_error_many, Hp, first_error_app by exact Hm. destruct (first_error _ (pieces a (text_of a v1))); [reflexivity|].
    destruct (first_error _ (pieces a (text_of a v2))); [reflexivity|]. apply first_bad_ext. intros ad'.
    rewrite <- app_assoc. cbn [app]. apply given_gather. }
  rewrite Eb. destruct (first_bad [] (os1 ++ Occ ad a (Some v) :: os2)); [reflexivity|].
  destruct out as [st|sp]; [|reflexivity].
  assert (E : finish_stack (os1 ++ Occ ad a (Some v1) :: Occ ad a (Some v2) :: os2) (state_stack st) None =
              finish_stack (os1 ++ Occ ad a (Some v) :: os2) (state_stack st) None).
  { apply finish_stack_ext; [intros ad'; apply given_gather|]. intros ad' b Hin. rewrite !values_insert.
    change (Occ ad a (Some v2) :: os2) with ([] ++ Occ ad a (Some v2) :: os2). rewrite values_insert.
    destruct (addr_eqb ad' ad) eqn:Ea; [|reflexivity]. apply addr_eqb_eq in Ea. subst ad'. rewrite (Hun st b eq_refl Hin).
    cbn [app]. unfold field_value.
    assert (Ec : forall x y, content a (map (folded a) (x ++ Some v1 :: Some v2 :: y)) = content a (map (folded a) (x ++ Some v :: y))).
    { intros x y. rewrite !map_app. cbn [map]. change (folded a (Some v1)) with (Some (text_of a v1)).
      change (folded a (Some v2)) with (Some (text_of a v2)). change (folded a (Some v)) with (Some (text_of a v)).
      assert (Ef : parsed a (text_of a v) = parsed a (text_of a v1) ++ parsed a (text_of a v2)).
      { unfold parsed. rewrite Hp. apply flat_map_app. }
      unfold content. rewrite !flat_map_app. cbn [flat_map]. rewrite Ef, <- !app_assoc. unfold many in Hm.
      destruct (shape_a a); try discriminate; [reflexivity|]. destruct (map (folded a) x); reflexivity. }
    specialize (Ec (values_of os1 ad) (values_of os2 ad)).
    destruct (values_of os1 ad); cbn [app] in Ec |- *; exact Ec. }
  destruct st; [exact E|reflexivity|exact E|exact E].
Qed.

Theorem gather_option d (argv0 : bytes) pre os stk rem t1 t2 t ad a c v1 v2 post :
  valid d -> at_option d pre os stk rem -> am_value_delimiter (sa_meta a) = Some c ->
  (am_ignore_case (sa_meta a) = true -> (c < 65 \/ 90 < c)%N) ->
  writes stk t1 ad a (Some v1) -> writes stk t2 ad a (Some v2) -> writes stk t ad a (Some (v1 ++ utf8_encode c ++ v2)) ->
  try_parse_from d (argv0 :: pre ++ t1 ++ t2 ++ post) = try_parse_from d (argv0 :: pre ++ t ++ post).
Proof.
  intros Hd H Hc Hi W1 W2 W. pose proof (at_option_stack _ _ _ _ _ Hd H) as Hok0.
  pose proof (writes_arg _ _ _ _ _ Hok0 W) as [Hin _]. pose proof (arg_in_stack _ _ _ Hok0 Hin) as Ha.
  pose proof (writes_reads _ rem _ _ _ _ Hok0 W1) as R1. pose proof (writes_reads _ rem _ _ _ _ Hok0 W2) as R2.
  pose proof (writes_reads _ rem _ _ _ _ Hok0 W) as R. rewrite !parse_conclude by exact Hd.
  rewrite !(at_option_app _ _ _ _ _ _ H), !read_app, R1, R. unfold then_read. cbn [fst snd]. rewrite read_app, R2. unfold then_read. cbn [fst snd].
  destruct (read first_named (Normal stk rem) post) as [os2 out] eqn:Ep. cbn [fst snd app].
  apply gather; [apply (ar_delim a Ha); congruence|exact (pieces_joined a c v1 v2 Ha Hc Hi)|].
  intros st b -> Hb. destruct (at_option_ok _ _ _ _ _ Hd H) as (_ & Hrem & _).
  destruct (read_ok first_named first_named_in _ (Normal stk rem) _ _ (conj Hok0 Hrem) Ep) as (Hst & _ & inner & Ei).
  assert (Hok : stack_ok (state_stack st)) by (destruct st; apply Hst).
  eapply stack_args_unique; [exact Hok|exact Hb|]. rewrite Ei. apply stack_args_app. exact Hin.
Qed.

Theorem gather_word d (argv0 : bytes) pre os stk rem p c (w1 w2 : bytes) post :
  valid d -> at_option d pre os stk rem -> next_word stk os = Some p -> am_value_delimiter (sa_meta p) = Some c ->
  word w1 -> no_subcommand stk w1 -> word w2 -> no_subcommand stk w2 ->
  word (w1 ++ utf8_encode c ++ w2) -> no_subcommand stk (w1 ++ utf8_encode c ++ w2) ->
  try_parse_from d (argv0 :: pre ++ w1 :: w2 :: post) = try_parse_from d (argv0 :: pre ++ (w1 ++ utf8_encode c ++ w2) :: post).
Proof.
  intros Hd H Hp Hc W1 N1 W2 N2 W N. pose proof (at_option_stack _ _ _ _ _ Hd H) as Hok0.
  pose proof (next_rem _ _ _ _ _ Hd H) as Hx. rewrite Hp in Hx. destruct Hx as (rem' & -> & Hl & Ho).
  destruct (at_option_ok _ _ _ _ _ Hd H) as (_ & Hrem & _).
  assert (Hin : In (Addr (length stk - 1) [sa_id p], p) (stack_args stk)).
  { pose proof (step_ok first_named first_named_in (Normal stk (p :: rem')) w1 (conj Hok0 Hrem)) as [_ Hk].
    pose proof (read_ok first_named first_named_in [w1] (Normal stk (p :: rem'))) as Hk1.
    rewrite read_one, step_word in Hk1 by assumption. unfold take_word in Hk1. rewrite Hl in Hk1. cbn [orb negb] in Hk1.
    destruct (Hk1 _ _ (conj Hok0 Hrem) eq_refl) as (_ & K & _). inversion K as [|? ? K1 _]; subst. unfold known in K1. cbn [oc_addr oc_arg] in K1.
    destruct (greedy p); exact K1. }
  pose proof (arg_in_stack _ _ _ Hok0 Hin) as Ha. assert (Hm : many p = true) by (apply (ar_delim p Ha); congruence).
  assert (Hi : am_ignore_case (sa_meta p) = true -> (c < 65 \/ 90 < c)%N).
  { intros E. destruct (ar_pos p Ha Ho) as (_ & _ & K & _). congruence. }
  set (st0 := if greedy p then Drain stk p else Normal stk (p :: rem')).
  assert (Hw : forall w, word w -> no_subcommand stk w ->
    step first_named (Normal stk (p :: rem')) w = ([Occ (Addr (length stk - 1) [sa_id p]) p (Some w)], Go st0)).
  { intros w Hw Hn. rewrite step_word by assumption. unfold take_word. rewrite Hl, Hm. reflexivity. }
  assert (Hs : forall w, word w -> no_subcommand stk w ->
    step first_named st0 w = ([Occ (Addr (length stk - 1) [sa_id p]) p (Some w)], Go st0)).
  { intros w H1 H2. unfold st0. destruct (greedy p) eqn:Eg; [reflexivity|]. rewrite (Hw w H1 H2). reflexivity. }
  assert (Hst0 : state_ok st0).
  { pose proof (step_ok first_named first_named_in (Normal stk (p :: rem')) w1 (conj Hok0 Hrem)) as [_ K]. rewrite (Hw w1 W1 N1) in K. apply K. }
  rewrite !parse_conclude by exact Hd. rewrite !(at_option_app _ _ _ _ _ _ H). cbn [read]. rewrite (Hw _ W1 N1), (Hw _ W N), (Hs _ W2 N2).
  destruct (read first_named st0 post) as [os2 out] eqn:Ep. cbn [fst snd app].
  apply gather; [exact Hm|exact (pieces_joined p c w1 w2 Ha Hc Hi)|].
  intros st b -> Hb. destruct (read_ok first_named first_named_in _ st0 _ _ Hst0 Ep) as (Hst & _ & inner & Ei).
  assert (Hok : stack_ok (state_stack st)) by (destruct st; apply Hst).
  eapply stack_args_unique; [exact Hok|exact Hb|]. rewrite Ei. apply stack_args_app. unfold st0. destruct (greedy p); exact Hin.
Qed.
End Gather.
