(** Command lines whose occurrences give the same values have the same result. *)
From Verif Require Import Bytes BytesFacts Utf8 Utf8Facts Attrs AttrFacts Refl Error Values SortFacts
  Places Help Runtime Heck Decl Spec Derive Generated Observe CompileFacts InfoFacts TableFacts PlaceFacts
  ScopeFacts NamedFacts WordFacts FinishFacts ReadFacts SimFacts HelpFacts Refine ContextFacts SafeFacts
  FieldFacts ResultFacts ValueFacts OptionFacts.

Section Same.
Context {V : Type}.
Local Notation args_decl := (args_decl V).
Local Notation sarg := (sarg V).
Local Notation scope := (scope V).
Local Notation occ := (occ V).
Implicit Types (d : args_decl) (a p : sarg) (s : scope) (stk : list scope) (os : list occ) (o : outval V).

Section Ext.
Variables os os' : list occ.
Hypothesis Hgiven : forall ad, given os ad = given os' ad.

Lemma is_given_ext level path id : is_given os level path id = is_given os' level path id.
Proof. apply Hgiven. Qed.
Lemma find_given_ext level path (f : bool -> bool) l :
  find (fun id => f (is_given os level path id)) l = find (fun id => f (is_given os' level path id)) l.
Proof. apply find_ext. intros id _. rewrite is_given_ext. reflexivity. Qed.
Lemma violation_ext level path d sub a : violation os level path d sub a = violation os' level path d sub a.
Proof.
  unfold violation. rewrite is_given_ext. rewrite (find_given_ext level path negb).
  pose proof (find_given_ext level path (fun x => x)) as E. cbn beta in E.
  assert (Eo : existsb (fun b => negb (beqb (sa_id b) (sa_id a)) && is_given os level path (sa_id b)) (own_args d)
             = existsb (fun b => negb (beqb (sa_id b) (sa_id a)) && is_given os' level path (sa_id b)) (own_args d)).
  { induction (own_args d) as [|b l IH]; [reflexivity|]. cbn [existsb]. rewrite IH, is_given_ext. reflexivity. }
  rewrite Eo. change (find (is_given os level path)) with (find (fun id => is_given os level path id)).
  change (find (is_given os' level path)) with (find (fun id => is_given os' level path id)). rewrite E. reflexivity.
Qed.
Lemma finish_struct_ext level path d flats sub :
  (forall a, In a (own_args d) -> field_value a (values_of os (at_field level path (sa_id a)))
                                 = field_value a (values_of os' (at_field level path (sa_id a)))) ->
  finish_struct os level path d flats sub = finish_struct os' level path d flats sub.
Proof.
  intros Hf. unfold finish_struct.
  assert (E1 : forall l, first_violation os level path d (is_some sub) l = first_violation os' level path d (is_some sub) l).
  { induction l as [|a l IH]; [reflexivity|]. cbn [first_violation]. rewrite violation_ext, IH. reflexivity. }
  assert (E2 : forall l : list sarg, check_absent os level path l = check_absent os' level path l).
  { induction l as [|a l IH]; [reflexivity|]. cbn [check_absent]. rewrite is_given_ext, IH. reflexivity. }
  assert (E3 : direct_values os level path d = direct_values os' level path d).
  { unfold direct_values. apply flat_map_ext_in. intros a Ha. apply in_checked in Ha. rewrite (Hf a Ha). reflexivity. }
  rewrite E1, E2, E3. reflexivity.
Qed.
Lemma finish_args_ext level d : forall path sub,
  (forall q a, In (q, a) (reach d) -> field_value a (values_of os (Addr level (path ++ q)))
                                   = field_value a (values_of os' (Addr level (path ++ q)))) ->
  finish_args os level path d sub = finish_args os' level path d sub.
Proof.
  induction d as [d IH _] using decl_induction. intros path sub Hf. rewrite !finish_args_eq.
  assert (E : forall l acc, (forall fa, In fa l -> In fa (flattened d)) ->
    finish_flats os level path l acc = finish_flats os' level path l acc).
  { induction l as [|[id x] l IHl]; intros acc Hl; [reflexivity|]. unfold finish_flats in *. cbn [fold_left fst snd].
    assert (Hx : In (id, x) (flattened d)) by (apply Hl; left; reflexivity).
    rewrite (IH id x (proj1 (in_flattened d id x) Hx)).
    - apply IHl. intros fa Hfa. apply Hl. right. exact Hfa.
    - intros q a Hq. rewrite <- app_assoc. apply Hf. rewrite reach_eq. apply in_app_iff. right. apply in_flat_map.
      exists (id, x). split; [exact Hx|]. apply in_map_iff. exists (q, a). auto. }
  rewrite E by auto. destruct (finish_flats os' level path (flattened d) (Ok [])) as [outs|e|q]; cbn [bind]; [|reflexivity|reflexivity].
  apply finish_struct_ext. intros a Ha. apply (Hf [sa_id a]). rewrite reach_eq. apply in_app_iff. left.
  apply in_map_iff. exists a. auto.
Qed.
Lemma finish_stack_ext stk : forall sub,
  (forall ad a, In (ad, a) (stack_args stk) -> field_value a (values_of os ad) = field_value a (values_of os' ad)) ->
  finish_stack os stk sub = finish_stack os' stk sub.
Proof.
  induction stk as [|s stk IH]; intros sub Hf; [reflexivity|]. cbn [finish_stack].
  rewrite (finish_args_ext (length stk) (sc_decl s)).
  - destruct (finish_args os' (length stk) [] (sc_decl s) sub) as [x|e|q]; cbn [bind]; [|reflexivity|reflexivity].
    destruct stk; [reflexivity|]. apply IH. intros ad b Hb. apply Hf. cbn [stack_args]. apply in_app_iff. right. exact Hb.
  - intros q a Hq. apply Hf. exact (in_stack_args [] s stk q a Hq).
Qed.
End Ext.

Lemma given_ext os os' ad : values_of os ad = values_of os' ad -> given os ad = given os' ad.
Proof. intros E. unfold given. rewrite E. reflexivity. Qed.

(** *** Exchanging neighbours *)

Lemma first_bad_ext os : forall b b', (forall ad, given b ad = given b' ad) -> first_bad b os = first_bad b' os.
Proof.
  induction os as [|oc os IH]; intros b b' H; [reflexivity|]. cbn [first_bad]. rewrite H.
  destruct (occ_error (oc_arg oc) (given b' (oc_addr oc)) (oc_val oc)); [reflexivity|]. apply IH.
  intros ad. rewrite !given_values, !values_of_app. specialize (H ad). rewrite !given_values in H.
  destruct (values_of b ad), (values_of b' ad); try discriminate; reflexivity.
Qed.
Lemma given_other b (oc : occ) ad : oc_addr oc <> ad -> given (b ++ [oc]) ad = given b ad.
Proof. intros H. unfold given. rewrite values_of_other by congruence. reflexivity. Qed.

Lemma first_bad_swap os1 (o1 o2 : occ) os2 : oc_addr o1 <> oc_addr o2 ->
  first_bad [] (os1 ++ o1 :: o2 :: os2) = None -> first_bad [] (os1 ++ o2 :: o1 :: os2) = None.
Proof.
  intros Hne. rewrite !first_bad_app. destruct (first_bad [] os1); [discriminate|]. cbn [app first_bad].
  rewrite (given_other _ o1 (oc_addr o2)) by exact Hne. rewrite (given_other _ o2 (oc_addr o1)) by congruence.
  destruct (occ_error (oc_arg o1) _ _); [discriminate|]. destruct (occ_error (oc_arg o2) _ _); [discriminate|].
  intros H. rewrite <- H. apply first_bad_ext. intros ad. apply given_ext. rewrite !values_of_app.
  rewrite <- !app_assoc. f_equal. unfold values_of. cbn [filter].
  destruct (addr_eqb ad (oc_addr o1)) eqn:E1, (addr_eqb ad (oc_addr o2)) eqn:E2; try reflexivity.
  apply addr_eqb_eq in E1, E2. congruence.
Qed.
Lemma values_swap os1 (o1 o2 : occ) os2 ad : oc_addr o1 <> oc_addr o2 ->
  values_of (os1 ++ o1 :: o2 :: os2) ad = values_of (os1 ++ o2 :: o1 :: os2) ad.
Proof.
  intros Hne. rewrite !values_of_app. f_equal. unfold values_of. cbn [filter].
  destruct (addr_eqb ad (oc_addr o1)) eqn:E1, (addr_eqb ad (oc_addr o2)) eqn:E2; try reflexivity.
  apply addr_eqb_eq in E1, E2. congruence.
Qed.

Theorem commute d (argv0 : bytes) pre os stk rem t1 t2 (o1 o2 : occ) post o :
  valid d -> at_option d pre os stk rem ->
  read first_named (Normal stk rem) t1 = ([o1], Go (Normal stk rem)) ->
  read first_named (Normal stk rem) t2 = ([o2], Go (Normal stk rem)) ->
  oc_addr o1 <> oc_addr o2 ->
  try_parse_from d (argv0 :: pre ++ t1 ++ t2 ++ post) = Ok o ->
  try_parse_from d (argv0 :: pre ++ t2 ++ t1 ++ post) = Ok o.
Proof.
  intros Hd H H1 H2 Hne. rewrite !(after_prefix _ _ _ _ _ _ _ Hd H).
  rewrite !read_app, H1, H2. unfold then_read. cbn [fst snd]. rewrite !read_app, H1, H2. unfold then_read. cbn [fst snd].
  destruct (read first_named (Normal stk rem) post) as [os2 out]. cbn [fst snd app].
  intros Hc. apply conclude_Ok in Hc. destruct Hc as (Hb & st & -> & Hcm & Hf).
  rewrite conclude_complete; [|apply first_bad_swap; [exact Hne|exact Hb]|exact Hcm].
  rewrite <- Hf. apply finish_stack_ext.
  - intros ad. apply given_ext. symmetry. apply values_swap. exact Hne.
  - intros ad a _. f_equal. symmetry. apply values_swap. exact Hne.
Qed.

(** *** A field depends on its own occurrences only *)

Theorem field_alone d d' (argv0 argv0' : bytes) toks toks' o o' os os' stk stk' ad ad' a :
  valid d -> valid d' -> try_parse_from d (argv0 :: toks) = Ok o -> try_parse_from d' (argv0' :: toks') = Ok o' ->
  reads d toks os stk -> reads d' toks' os' stk' -> In (ad, a) (stack_args stk) -> In (ad', a) (stack_args stk') ->
  values_of os ad = values_of os' ad' -> field_at ad o = field_at ad' o'.
Proof.
  intros Hd Hd' H H' Hr Hr' Hi Hi' E.
  destruct (success_reads _ _ _ _ _ _ Hd H Hr) as (_ & _ & Hf & _). destruct (success_reads _ _ _ _ _ _ Hd' H' Hr') as (_ & _ & Hf' & _).
  rewrite (proj1 (Hf ad a Hi)), (proj1 (Hf' ad' a Hi')), E. reflexivity.
Qed.

(** *** Upper and lower case *)

Definition same_occ (x y : occ) : Prop :=
  oc_addr x = oc_addr y /\ oc_arg x = oc_arg y /\ folded (oc_arg x) (oc_val x) = folded (oc_arg y) (oc_val y).
Lemma same_given os os' : Forall2 same_occ os os' -> forall ad, given os ad = given os' ad.
Proof.
  intros H ad. rewrite !given_values. unfold values_of. induction H as [|x y os os' (E & _) _ IH]; [reflexivity|].
  cbn [filter]. rewrite E. destruct (addr_eqb ad (oc_addr y)); [reflexivity|exact IH].
Qed.
Lemma same_bad os os' : Forall2 same_occ os os' -> forall b b', (forall ad, given b ad = given b' ad) -> first_bad b os = first_bad b' os'.
Proof.
  induction 1 as [|x y os os' (E1 & E2 & E3) _ IH]; intros b b' Hb; [reflexivity|]. cbn [first_bad].
  unfold occ_error. rewrite E3, E2, E1, Hb. destruct (value_error _ _ _); [reflexivity|].
  apply IH. intros ad. rewrite !given_values, !values_of_app. specialize (Hb ad). rewrite !given_values in Hb.
  unfold values_of at 2 4. cbn [filter]. rewrite E1.
  destruct (addr_eqb ad (oc_addr y)); cbn [map]; rewrite ?app_nil_r; [|exact Hb].
  destruct (values_of b ad), (values_of b' ad); try discriminate; reflexivity.
Qed.
Lemma same_values os os' ad a : Forall2 same_occ os os' -> (forall x, In x os -> oc_addr x = ad -> oc_arg x = a) ->
  map (folded a) (values_of os ad) = map (folded a) (values_of os' ad).
Proof.
  intros H Ha. unfold values_of. induction H as [|x y os os' (E1 & E2 & E3) _ IH]; [reflexivity|].
  cbn [filter]. rewrite <- E1. destruct (addr_eqb ad (oc_addr x)) eqn:E; cbn [map].
  - f_equal; [|apply IH; intros z Hz; apply Ha; right; exact Hz]. apply addr_eqb_eq in E.
    specialize (Ha x (or_introl eq_refl) (eq_sym E)). rewrite <- E2, Ha in E3. exact E3.
  - apply IH. intros z Hz. apply Ha. right. exact Hz.
Qed.

Lemma conclude_same (argv0 : bytes) os os' out : Forall2 same_occ os os' ->
  (forall st, out = Go st -> stack_ok (state_stack st) /\ Forall (known (state_stack st)) os) ->
  conclude argv0 (os, out) = conclude argv0 (os', out).
Proof.
  intros H Hok. unfold conclude. rewrite (same_bad os os' H [] [] (fun _ => eq_refl)). destruct (first_bad [] os'); [reflexivity|].
  destruct out as [st|sp]; [|reflexivity]. destruct (Hok st eq_refl) as [Hs Hk].
  assert (E : finish_stack os (state_stack st) None = finish_stack os' (state_stack st) None).
  { apply finish_stack_ext; [apply same_given; exact H|]. intros ad a Hin.
    assert (Ev : map (folded a) (values_of os ad) = map (folded a) (values_of os' ad)).
    { apply same_values; [exact H|]. intros x Hx <-. rewrite Forall_forall in Hk. specialize (Hk x Hx). unfold known in Hk.
      eapply stack_args_unique; eauto. }
    unfold field_value. destruct (values_of os ad) as [|v vs], (values_of os' ad) as [|w ws]; try discriminate; [reflexivity|].
    rewrite Ev. reflexivity. }
  destruct st; [exact E|reflexivity|exact E|exact E].
Qed.

Theorem case_insensitive d (argv0 : bytes) pre os stk rem t1 t2 ad a v w post :
  valid d -> at_option d pre os stk rem -> am_ignore_case (sa_meta a) = true -> map ascii_lower v = map ascii_lower w ->
  read first_named (Normal stk rem) t1 = ([Occ ad a (Some v)], Go (Normal stk rem)) ->
  read first_named (Normal stk rem) t2 = ([Occ ad a (Some w)], Go (Normal stk rem)) ->
  try_parse_from d (argv0 :: pre ++ t1 ++ post) = try_parse_from d (argv0 :: pre ++ t2 ++ post).
Proof.
  intros Hd H Hi Hv H1 H2. pose proof (parse_conclude d argv0 (pre ++ t1 ++ post) Hd) as P1.
  pose proof (parse_conclude d argv0 (pre ++ t2 ++ post) Hd) as P2. rewrite P1, P2. clear P1 P2.
  pose proof (read_ok first_named first_named_in (pre ++ t1 ++ post) (start d)) as Hro.
  rewrite (at_option_app _ _ _ _ _ _ H) in Hro |- *. rewrite (at_option_app _ _ _ _ _ _ H).
  rewrite !read_app, H1, H2 in *. unfold then_read in *. cbn [fst snd] in *.
  destruct (read first_named (Normal stk rem) post) as [os2 out]. cbn [fst snd app] in *. apply conclude_same.
  - apply Forall2_app; [clear; induction os; constructor; [split; auto|assumption]|]. constructor; [|clear; induction os2; constructor; [split; auto|assumption]].
    split; [reflexivity|]. split; [reflexivity|]. cbn. rewrite Hi, Hv. reflexivity.
  - intros st ->. destruct (Hro _ _ (start_ok d (proj1 Hd)) eq_refl) as (H3 & H4 & _). split; [|exact H4]. destruct st; apply H3.
Qed.
End Same.
