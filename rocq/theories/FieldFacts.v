(** Successful parses: the value of every field, the entered subcommands, and
    when a parse succeeds. *)
From Verif Require Import Bytes BytesFacts Utf8 Utf8Facts Attrs AttrFacts Refl Error Values SortFacts
  Places Help Runtime Heck Decl Spec Derive Generated Observe CompileFacts InfoFacts TableFacts PlaceFacts
  ScopeFacts NamedFacts WordFacts FinishFacts ReadFacts SimFacts HelpFacts Refine ContextFacts SafeFacts.

Section Fields.
Context {V : Type}.
Local Notation args_decl := (args_decl V).
Local Notation sarg := (sarg V).
Local Notation scope := (scope V).
Local Notation occ := (occ V).
Implicit Types (d : args_decl) (a p : sarg) (s : scope) (stk : list scope) (os : list occ) (o : outval V).

(** *** Structs *)

Lemma assoc_app {A} id (l m : list (ident * A)) :
  assoc id (l ++ m) = match assoc id l with Some x => Some x | None => assoc id m end.
Proof. induction l as [|[i x] l IH]; [reflexivity|]. cbn. destruct (beqb id i); [reflexivity|exact IH]. Qed.
Lemma assoc_None {A} id (l : list (ident * A)) : ~ In id (map fst l) -> assoc id l = None.
Proof.
  induction l as [|[i x] l IH]; intros H; [reflexivity|]. cbn. destruct (beqb id i) eqn:E.
  - apply beqb_eq in E. subst i. elim H. left. reflexivity.
  - apply IH. intros Hi. apply H. right. exact Hi.
Qed.

Lemma direct_ids os level path l id :
  In id (map fst (flat_map (fun a => match field_value a (values_of os (at_field level path (sa_id a))) with
                     | Some v => [(sa_id a, v)]
                     | None => []
                     end) l)) -> In id (map sa_id l).
Proof.
  intros H. apply in_map_iff in H. destruct H as ([i v] & <- & H). apply in_flat_map in H.
  destruct H as (a & Ha & H). apply in_map_iff. exists a.
  destruct (field_value a _); [|contradiction]. destruct H as [H|[]]. injection H as <- _. auto.
Qed.

Lemma direct_value os level path d a : accepted d -> In a (own_args d) ->
  assoc (sa_id a) (direct_values os level path d) = field_value a (values_of os (at_field level path (sa_id a))).
Proof.
  intros Hd Ha. pose proof (checked_ids d Hd) as Hn. apply in_checked in Ha. unfold direct_values. revert Hn Ha.
  induction (checked d) as [|b l IH]; intros Hn Ha; [contradiction|]. cbn [map] in Hn. inversion Hn as [|? ? H1 H2]; subst.
  cbn [flat_map]. rewrite assoc_app. destruct Ha as [->|Ha].
  - destruct (field_value a _) eqn:E; [cbn; rewrite beqb_refl; reflexivity|]. cbn. apply assoc_None.
    intros Hi. apply direct_ids in Hi. contradiction.
  - assert (Hne : sa_id a <> sa_id b) by (intros E; apply H1; rewrite <- E; apply in_map; exact Ha).
    apply beqb_neq in Hne. destruct (field_value b _); cbn [assoc]; rewrite ?Hne; apply IH; assumption.
Qed.

Definition struct_sat os level path d (has_sub : bool) : Prop :=
  (forall a, In a (own_args d) -> is_required a = true -> is_given os level path (sa_id a) = true) /\
  (forall a, In a (own_args d) -> is_given os level path (sa_id a) = true ->
     (forall id, In id (am_conflicts_with (sa_meta a)) -> is_given os level path id = false) /\
     (forall id, In id (am_requires (sa_meta a)) -> is_given os level path id = true) /\
     (am_exclusive (sa_meta a) = true -> has_sub = false /\
        forall b, In b (own_args d) -> sa_id b <> sa_id a -> is_given os level path (sa_id b) = false)) /\
  (forall id vs, subcommand d = Some (id, false, vs) -> has_sub = true).

Lemma find_None_iff {A} (f : A -> bool) l : find f l = None <-> forall x, In x l -> f x = false.
Proof.
  split; [apply find_none|]. intros H. induction l as [|x l IH]; [reflexivity|]. cbn. rewrite (H x) by (left; reflexivity).
  apply IH. intros y Hy. apply H. right. exact Hy.
Qed.

Lemma violation_None os level path d sub a : violation os level path d sub a = None <->
  (is_given os level path (sa_id a) = true ->
     (forall id, In id (am_conflicts_with (sa_meta a)) -> is_given os level path id = false) /\
     (forall id, In id (am_requires (sa_meta a)) -> is_given os level path id = true) /\
     (am_exclusive (sa_meta a) = true -> sub = false /\
        forall b, In b (own_args d) -> sa_id b <> sa_id a -> is_given os level path (sa_id b) = false)).
Proof.
  unfold violation. destruct (is_given os level path (sa_id a)); [|split; [discriminate|reflexivity]].
  set (others := existsb _ _).
  assert (Ho : others = false <-> forall b, In b (own_args d) -> sa_id b <> sa_id a -> is_given os level path (sa_id b) = false).
  { unfold others. rewrite existsb_false. split; intros H b Hb.
    - intros Hne. specialize (H b Hb). apply beqb_neq in Hne. rewrite Hne in H. exact H.
    - destruct (beqb (sa_id b) (sa_id a)) eqn:E; [reflexivity|]. apply beqb_neq in E. cbn. apply H; assumption. }
  destruct (am_exclusive (sa_meta a) && (others || sub)) eqn:Ee.
  - split; [discriminate|]. intros H. destruct (H eq_refl) as (_ & _ & Hx). apply andb_true_iff in Ee. destruct Ee as [E1 E2].
    destruct (Hx E1) as [-> Hb]. apply Ho in Hb. rewrite Hb in E2. discriminate.
  - destruct (find (fun id => negb (is_given os level path id)) (am_requires (sa_meta a))) as [id|] eqn:Er.
    + split; [discriminate|]. intros H. destruct (H eq_refl) as (_ & Hr & _). apply find_some in Er. destruct Er as [Hi Er].
      rewrite (Hr id Hi) in Er. discriminate.
    + rewrite find_None_iff in Er.
      destruct (find (is_given os level path) (am_conflicts_with (sa_meta a))) as [id|] eqn:Ec.
      * split; [discriminate|]. intros H. destruct (H eq_refl) as (Hc & _). apply find_some in Ec. destruct Ec as [Hi Ec].
        rewrite (Hc id Hi) in Ec. discriminate.
      * rewrite find_None_iff in Ec. split; [|reflexivity]. intros _ _. split; [exact Ec|]. split.
        -- intros id Hi. apply Er in Hi. apply negb_false_iff. exact Hi.
        -- intros Hx. rewrite Hx in Ee. cbn in Ee. apply orb_false_iff in Ee. destruct Ee as [E1 E2]. split; [exact E2|].
           apply Ho. exact E1.
Qed.

Lemma first_violation_None os level path d sub l : first_violation os level path d sub l = None <->
  forall a, In a l -> violation os level path d sub a = None.
Proof.
  induction l as [|a l IH]; [split; [contradiction|reflexivity]|]. cbn [first_violation].
  destruct (violation os level path d sub a) eqn:E.
  - split; [discriminate|]. intros H. rewrite (H a) in E by (left; reflexivity). discriminate.
  - rewrite IH. split; intros H b Hb; [destruct Hb as [<-|Hb]; [exact E|auto]|apply H; right; exact Hb].
Qed.

Lemma check_absent_Ok os level path l :
  check_absent os level path l = Ok tt <->
  forall a, In a l -> is_given os level path (sa_id a) = false -> is_required a = false /\ default_readable a = true.
Proof.
  induction l as [|a l IH]; [split; [contradiction|reflexivity]|]. cbn [check_absent].
  destruct (is_given os level path (sa_id a)) eqn:Eg.
  - rewrite IH. split; intros H b Hb; [destruct Hb as [<-|Hb]; [congruence|auto]|apply H; right; exact Hb].
  - destruct (is_required a) eqn:Er; [|destruct (default_readable a) eqn:Ed].
    + split; [discriminate|]. intros H. destruct (H a (or_introl eq_refl) Eg). congruence.
    + rewrite IH. split; intros H b Hb; [destruct Hb as [<-|Hb]; [auto|auto]|apply H; right; exact Hb].
    + split; [discriminate|]. intros H. destruct (H a (or_introl eq_refl) Eg). congruence.
Qed.

Lemma finish_struct_Ok os level path d flats sub o : finish_struct os level path d flats sub = Ok o ->
  struct_sat os level path d (is_some sub) /\
  (forall a, In a (own_args d) -> is_given os level path (sa_id a) = false -> is_required a = false /\ default_readable a = true) /\
  o = Out (direct_values os level path d) flats
        (match subcommand d with Some (id, _, _) => Some (id, sub) | None => None end).
Proof.
  unfold finish_struct. destruct (first_violation os level path d (is_some sub) (checked d)) eqn:Ev; [discriminate|].
  rewrite first_violation_None in Ev.
  destruct (check_absent os level path (checked d)) as [[]|e|q] eqn:Ea; cbn [bind]; [|discriminate|discriminate].
  rewrite check_absent_Ok in Ea. intros H.
  assert (Hs : (forall id vs, subcommand d = Some (id, false, vs) -> is_some sub = true) /\
     o = Out (direct_values os level path d) flats
        (match subcommand d with Some (id, _, _) => Some (id, sub) | None => None end)).
  { destruct (subcommand d) as [[[id [|]] vs]|], sub; try discriminate; injection H as <-;
      (split; [intros ? ? C; try discriminate C; reflexivity|reflexivity]). }
  split; [|split; [intros a Ha; apply Ea; apply in_checked; exact Ha|apply Hs]]. split; [|split; [|apply Hs]].
  - intros a Ha Hr. destruct (is_given os level path (sa_id a)) eqn:Eg; [reflexivity|].
    apply in_checked in Ha. destruct (Ea a Ha Eg). congruence.
  - intros a Ha. apply violation_None. apply Ev. apply in_checked. exact Ha.
Qed.

Lemma finish_struct_sat os level path d flats sub : (forall a, In a (own_args d) -> default_readable a = true) ->
  struct_sat os level path d (is_some sub) -> exists o, finish_struct os level path d flats sub = Ok o.
Proof.
  intros Hr (H1 & H2 & H3). unfold finish_struct.
  assert (Ev : first_violation os level path d (is_some sub) (checked d) = None).
  { apply first_violation_None. intros a Ha. apply violation_None. apply H2. apply in_checked. exact Ha. }
  assert (Ea : check_absent os level path (checked d) = Ok tt).
  { apply check_absent_Ok. intros a Ha Hg. apply in_checked in Ha. split; [|auto].
    destruct (is_required a) eqn:E; [|reflexivity]. rewrite (H1 a Ha E) in Hg. discriminate. }
  rewrite Ev, Ea. cbn [bind]. destruct (subcommand d) as [[[id [|]] vs]|]; [eauto| |eauto].
  specialize (H3 id vs eq_refl). destruct sub; [eauto|discriminate].
Qed.

(** *** With the flattened structs *)

Lemma finish_flats_Ok os level path l : forall acc outs, finish_flats os level path l (Ok acc) = Ok outs ->
  exists outs', outs = acc ++ outs' /\
    Forall2 (fun fa fo => fst fa = fst fo /\ finish_args os level (path ++ [fst fa]) (snd fa) None = Ok (snd fo)) l outs'.
Proof.
  induction l as [|[id x] l IH]; intros acc outs H.
  - injection H as <-. exists []. rewrite app_nil_r. auto.
  - unfold finish_flats in H. cbn [fold_left bind fst snd] in H.
    destruct (finish_args os level (path ++ [id]) x None) as [o|e|q] eqn:E; cbn [bind] in H.
    + destruct (IH _ _ H) as (outs' & -> & Hf). exists ((id, o) :: outs'). split; [rewrite <- app_assoc; reflexivity|].
      constructor; [auto|exact Hf].
    + fold (finish_flats os level path l (Err (A:=list (ident * outval V)) e)) in H. rewrite finish_flats_Err in H. discriminate.
    + fold (finish_flats os level path l (Panic (A:=list (ident * outval V)) q)) in H. rewrite finish_flats_Panic in H. discriminate.
Qed.
Lemma finish_flats_sat os level path l : forall acc,
  (forall fa, In fa l -> exists o, finish_args os level (path ++ [fst fa]) (snd fa) None = Ok o) ->
  exists outs, finish_flats os level path l (Ok acc) = Ok outs.
Proof.
  induction l as [|[id x] l IH]; intros acc H; [exists acc; reflexivity|].
  destruct (H (id, x) (or_introl eq_refl)) as [o E]. cbn [fst snd] in E.
  unfold finish_flats. cbn [fold_left bind fst snd]. rewrite E. cbn [bind]. apply IH. intros fa Hfa. apply H. right. exact Hfa.
Qed.

Lemma flats_assoc {X} (P : ident * args_decl -> ident * X -> Prop) l outs id x :
  Forall2 (fun fa fo => fst fa = fst fo /\ P fa fo) l outs -> NoDup (map fst l) -> In (id, x) l ->
  exists y, assoc id outs = Some y /\ P (id, x) (id, y).
Proof.
  induction 1 as [|[i1 x1] [i2 y] l outs [E H] _ IH]; intros Hn Hi; [contradiction|]. cbn [fst] in E. subst i2.
  cbn [map fst] in Hn. inversion Hn as [|? ? H1 H2]; subst. cbn [assoc]. destruct Hi as [Hi|Hi].
  - injection Hi as -> ->. rewrite beqb_refl. eauto.
  - destruct (beqb id i1) eqn:E; [|apply IH; assumption]. apply beqb_eq in E. subst i1. elim H1.
    apply in_map_iff. exists (id, x). auto.
Qed.

Lemma finish_args_Ok os level d : forall path sub o, accepted d -> finish_args os level path d sub = Ok o ->
  struct_sat os level path d (is_some sub) /\
  (forall u, In u (units path d) -> u = (path, d) \/ (fst u <> path /\ struct_sat os level (fst u) (snd u) false)) /\
  (forall q a, In (q, a) (reach d) -> field_on q o = field_value a (values_of os (Addr level (path ++ q))) /\
     (given os (Addr level (path ++ q)) = false -> is_required a = false /\ default_readable a = true)) /\
  exists direct flats, o = Out direct flats (match subcommand d with Some (id, _, _) => Some (id, sub) | None => None end).
Proof.
  induction d as [d IH _] using decl_induction. intros path sub o Hd H. rewrite finish_args_eq in H.
  destruct (finish_flats os level path (flattened d) (Ok [])) as [outs|e|q] eqn:Ef; cbn [bind] in H; [|discriminate|discriminate].
  apply finish_struct_Ok in H. destruct H as (Hs & Hr & Ho). destruct (finish_flats_Ok _ _ _ _ _ _ Ef) as (outs' & E & Hf).
  cbn [app] in E. subst outs'. split; [exact Hs|]. split; [|split; [|eauto]].
  - intros u Hu. rewrite units_eq in Hu. destruct Hu as [<-|Hu]; [left; reflexivity|right].
    apply in_flat_map in Hu. destruct Hu as ([id x] & Hx & Hu). cbn [fst snd] in Hu. split.
    { intros E. apply units_prefix in Hu. destruct Hu as [q Hq]. rewrite E in Hq. 
      apply (f_equal (@length _)) in Hq. rewrite !app_length in Hq. cbn in Hq. lia. }
    destruct (accepted_flat d id x Hd Hx) as (Hax & _).
    assert (Hxo : exists y, finish_args os level (path ++ [id]) x None = Ok y).
    { destruct (flats_assoc (fun fa fo => finish_args os level (path ++ [fst fa]) (snd fa) None = Ok (snd fo)) _ _ id x Hf
                  (flattened_ids d (ac_ids d (accepted_facts_of d Hd))) Hx) as (y & _ & Hy). eauto. }
    destruct Hxo as (y & Hy). destruct (IH id x (proj1 (in_flattened d id x) Hx) _ _ _ Hax Hy) as (Hs1 & Hs2 & _).
    destruct (Hs2 u Hu) as [->|[_ Hok]]; [exact Hs1|exact Hok].
  - intros q a Hq. rewrite reach_eq in Hq. apply in_app_iff in Hq. destruct Hq as [Hq|Hq].
    + apply in_map_iff in Hq. destruct Hq as (b & E & Hb). injection E as <- ->. subst o. cbn [field_on].
      split; [exact (direct_value os level path d a Hd Hb)|exact (Hr a Hb)].
    + apply in_flat_map in Hq. destruct Hq as ([id x] & Hx & Hq). cbn [fst snd] in Hq. apply in_map_iff in Hq.
      destruct Hq as ([q' b] & E & Hb). cbn [fst snd] in E. injection E as <- ->.
      destruct (accepted_flat d id x Hd Hx) as (Hax & _).
      destruct (flats_assoc (fun fa fo => finish_args os level (path ++ [fst fa]) (snd fa) None = Ok (snd fo)) _ _ id x Hf
                  (flattened_ids d (ac_ids d (accepted_facts_of d Hd))) Hx) as (y & Ey & Hy). cbn [fst snd] in Hy.
      destruct (IH id x (proj1 (in_flattened d id x) Hx) _ _ _ Hax Hy) as (_ & _ & Hfv & _).
      destruct (Hfv _ _ Hb) as [Hfv1 Hfv2]. rewrite <- app_assoc in Hfv1, Hfv2. split; [|exact Hfv2]. subst o. cbn [field_on].
      destruct q' as [|i q']; [exfalso; clear -Hb; rewrite reach_eq in Hb; apply in_app_iff in Hb;
        destruct Hb as [Hb|Hb]; [apply in_map_iff in Hb; destruct Hb as (? & ? & _); discriminate|
        apply in_flat_map in Hb; destruct Hb as (? & _ & Hb); apply in_map_iff in Hb; destruct Hb as (? & ? & _); discriminate]|].
      rewrite Ey, Hfv1. reflexivity.
Qed.

Lemma finish_args_sat os level d : forall path sub, accepted d -> every_arg default_readable d = true ->
  struct_sat os level path d (is_some sub) ->
  (forall u, In u (units path d) -> u = (path, d) \/ struct_sat os level (fst u) (snd u) false) ->
  exists o, finish_args os level path d sub = Ok o.
Proof.
  induction d as [d IH _] using decl_induction. intros path sub Hd Hr Hs Hu. rewrite finish_args_eq.
  destruct (finish_flats_sat os level path (flattened d) []) as [outs E].
  - intros [id x] Hx. cbn [fst snd]. destruct (accepted_flat d id x Hd Hx) as (Hax & _).
    assert (Hin : forall u, In u (units (path ++ [id]) x) -> struct_sat os level (fst u) (snd u) false).
    { intros u Hu'. assert (Hiu : In u (units path d)) by (rewrite units_eq; right; apply in_flat_map; exists (id, x); auto).
      destruct (Hu u Hiu) as [->|Hok]; [|exact Hok]. exfalso. apply units_prefix in Hu'. destruct Hu' as [q Hq]. cbn in Hq.
      apply (f_equal (@length _)) in Hq. rewrite !app_length in Hq. cbn in Hq. lia. }
    apply (IH id x (proj1 (in_flattened d id x) Hx)); [exact Hax|eapply every_flat; eauto| |].
    + apply (Hin (path ++ [id], x)). rewrite units_eq. left. reflexivity.
    + intros u Hu'. right. apply Hin. exact Hu'.
  - rewrite E. cbn [bind]. apply finish_struct_sat; [|exact Hs]. intros a Ha. eapply every_own; eauto.
Qed.

(** *** Stacks *)

(** Every command was entered by a variant of the one around it. *)
Inductive linked : list scope -> Prop :=
| linked_top d : linked [Scope d [] false]
| linked_sub v s outer : linked (s :: outer) -> In v (sub_variants (s :: outer)) -> linked (variant_scope v :: s :: outer).

Lemma linked_step choose (choose_in : forall vs tok v, choose vs tok = Some v -> In v vs) toks : forall st os st',
  linked (state_stack st) -> read choose st toks = (os, Go st') -> linked (state_stack st').
Proof.
  induction toks as [|t toks IH]; intros st os st' Hok H; cbn [read] in H.
  - injection H as _ <-. exact Hok.
  - destruct (step choose st t) as [o1 out] eqn:E1. destruct out as [st1|]; [|discriminate].
    destruct (read choose st1 toks) as [o2 out2] eqn:E2. injection H as _ ->. eapply IH; [|exact E2].
    destruct (step_stack _ _ _ _ _ E1) as [->|(v & Hv & ->)]; [exact Hok|].
    apply choose_in in Hv. destruct (state_stack st) as [|s outer]; [inversion Hok|]. constructor; assumption.
Qed.

Lemma inside_add n m o : inside (n + m) o = match inside n o with Some o' => inside m o' | None => None end.
Proof.
  revert o. induction n as [|n IH]; intros o; [reflexivity|]. cbn. destruct o as [dir fl [[i [[v [o'|]]|]]|]]; try reflexivity. apply IH.
Qed.

Lemma sub_not_unit s outer v : unit_scope_ok s -> In v (sub_variants (s :: outer)) ->
  sc_unit s = false /\ exists id b vs, subcommand (sc_decl s) = Some (id, b, vs).
Proof.
  intros Hu Hv. unfold sub_variants in Hv. destruct (subcommand (sc_decl s)) as [[[id b] vs]|] eqn:E; [|contradiction].
  split; [|eauto]. destruct (sc_unit s) eqn:Eu; [|reflexivity]. apply subcommand_in in E. rewrite (Hu Eu) in E. contradiction.
Qed.

Lemma finish_stack_inside os stk : forall sub o, linked stk -> stack_ok stk -> finish_stack os stk sub = Ok o ->
  forall pre s outer, stk = pre ++ s :: outer ->
  exists sub' o', finish_args os (length outer) [] (sc_decl s) sub' = Ok o' /\
    (sc_unit s = false -> inside (length outer) o = Some o') /\
    match rev pre with [] => sub' = sub | s' :: _ => exists pl, sub' = Some (SubV (sc_ident s') pl) end.
Proof.
  induction stk as [|s0 stk IH]; intros sub o Hl Hok H pre s outer E; [destruct pre; discriminate|].
  cbn [finish_stack] in H.
  destruct (finish_args os (length stk) [] (sc_decl s0) sub) as [o0|e|q] eqn:E0; cbn [bind] in H; [|discriminate|discriminate].
  destruct stk as [|s1 stk].
  - injection H as <-. destruct pre as [|? [|? ?]]; [|discriminate|discriminate]. injection E as <- <-.
    exists sub, o0. split; [exact E0|]. split; reflexivity.
  - assert (Hl' : linked (s1 :: stk)) by (inversion Hl; assumption).
    assert (Hok' : stack_ok (s1 :: stk)) by (inversion Hok; assumption).
    destruct pre as [|x pre].
    + injection E as <- <-. exists sub, o0. split; [exact E0|]. split; [|reflexivity]. intros Hnu.
      destruct (IH _ _ Hl' Hok' H [] s1 stk eq_refl) as (sub1 & o1 & F1 & I1 & ->).
      inversion Hl as [|v ? ? _ Hv E']; subst.
      destruct (sub_not_unit s1 stk v) as (Hu1 & id & b & vs & Es); [inversion Hok'; tauto|exact Hv|].
      destruct (finish_args_Ok os (length stk) (sc_decl s1) [] _ _ ltac:(inversion Hok'; tauto) F1) as (_ & _ & _ & dir & fl & Eo).
      rewrite Es in Eo. change (length (s1 :: stk)) with (S (length stk)).
      rewrite <- Nat.add_1_r, inside_add, (I1 Hu1), Eo. rewrite Hnu. reflexivity.
    + injection E as <- E. destruct (IH _ _ Hl' Hok' H pre s outer E) as (sub' & o' & F & I & L).
      exists sub', o'. split; [exact F|]. split; [exact I|]. cbn [rev].
      destruct (rev pre) as [|y r] eqn:Er; [|exact L]. cbn. eauto.
Qed.

Lemma entered_out (direct : list (ident * fval V)) flats id v pl :
  entered (Out direct flats (Some (id, Some (SubV v pl)))) = v :: match pl with Some o => entered o | None => [] end.
Proof. destruct pl; reflexivity. Qed.

Lemma finish_stack_entered os stk : forall sub o, linked stk -> stack_ok stk -> finish_stack os stk sub = Ok o ->
  (sub <> None -> has_subcommand stk = true) ->
  entered o = tl (rev (map sc_ident stk)) ++
    match sub with Some (SubV v pl) => v :: match pl with Some o' => entered o' | None => [] end | None => [] end.
Proof.
  induction stk as [|s0 stk IH]; intros sub o Hl Hok H Hsub; [discriminate|]. cbn [finish_stack] in H.
  destruct (finish_args os (length stk) [] (sc_decl s0) sub) as [o0|e|q] eqn:E0; cbn [bind] in H; [|discriminate|discriminate].
  destruct (finish_args_Ok os (length stk) (sc_decl s0) [] _ _ ltac:(inversion Hok; tauto) E0) as (_ & _ & _ & dir & fl & Eo).
  assert (E1 : entered o0 = match sub with Some (SubV v pl) => v :: match pl with Some o' => entered o' | None => [] end | None => [] end).
  { rewrite Eo. destruct sub as [[v pl]|].
    - specialize (Hsub ltac:(discriminate)). cbn [has_subcommand] in Hsub.
      destruct (subcommand (sc_decl s0)) as [[[id b] vs]|]; [|discriminate]. apply entered_out.
    - destruct (subcommand (sc_decl s0)) as [[[id b] vs]|]; reflexivity. }
  destruct stk as [|s1 stk]; [injection H as <-; exact E1|].
  assert (Hl' : linked (s1 :: stk)) by (inversion Hl; assumption).
  assert (Hok' : stack_ok (s1 :: stk)) by (inversion Hok; assumption).
  inversion Hl as [|v ? ? _ Hv E']; subst.
  destruct (sub_not_unit s1 stk v) as (Hu1 & id & b & vs & Es); [inversion Hok'; tauto|exact Hv|].
  apply IH in H; [|exact Hl'|exact Hok'|intros _; cbn [has_subcommand]; rewrite Es; reflexivity].
  rewrite H. cbn [map rev]. set (r := rev (map sc_ident stk)).
  assert (Et : tl ((r ++ [sc_ident s1]) ++ [sc_ident (variant_scope v)]) = tl (r ++ [sc_ident s1]) ++ [sc_ident (variant_scope v)])
    by (destruct r; reflexivity).
  rewrite Et, <- app_assoc. f_equal. cbn [app]. f_equal.
  destruct (sc_unit (variant_scope v)) eqn:Eu; [|exact E1].
  destruct sub as [[w pl]|]; [|reflexivity]. specialize (Hsub ltac:(discriminate)).
  assert (Huv : fields_of (sc_decl (variant_scope v)) = []) by (apply variant_unit; exact Eu).
  cbn [has_subcommand] in Hsub. unfold subcommand in Hsub. rewrite Huv in Hsub. discriminate.
Qed.

Lemma stack_split stk ad a : In (ad, a) (stack_args stk) ->
  exists pre s outer q, stk = pre ++ s :: outer /\ ad = Addr (length outer) q /\ In (q, a) (reach (sc_decl s)).
Proof.
  induction stk as [|s stk IH]; [contradiction|]. cbn [stack_args]. intros H. apply in_app_iff in H. destruct H as [H|H].
  - unfold scope_args in H. apply in_map_iff in H. destruct H as ([q b] & E & Hb). cbn [fst snd] in E. injection E as <- <-.
    exists [], s, stk, q. auto.
  - destruct (IH H) as (pre & s' & outer & q & -> & E & Hq). exists (s :: pre), s', outer, q. auto.
Qed.
Lemma in_stack_args pre s outer q a : In (q, a) (reach (sc_decl s)) ->
  In (Addr (length outer) q, a) (stack_args (pre ++ s :: outer)).
Proof.
  intros H. apply stack_args_app. cbn [stack_args]. apply in_app_iff. left. unfold scope_args. apply in_map_iff. exists (q, a). auto.
Qed.

Lemma reach_unit d q a : In (q, a) (reach d) <->
  exists u, In u (units [] d) /\ In a (own_args (snd u)) /\ q = fst u ++ [sa_id a].
Proof.
  pose proof (reach_units 0 [] d) as E. split.
  - intros H. assert (H' : In (Addr 0 q, a) (flat_map (unit_args 0) (units [] d))).
    { rewrite <- E. apply in_map_iff. exists (q, a). auto. }
    apply in_flat_map in H'. destruct H' as (u & Hu & H'). unfold unit_args in H'. apply in_map_iff in H'.
    destruct H' as (b & Eb & Hb). unfold at_field in Eb. injection Eb as <- <-. eauto.
  - intros (u & Hu & Ha & ->). assert (H' : In (Addr 0 (fst u ++ [sa_id a]), a) (map (fun pa => (Addr 0 ([] ++ fst pa), snd pa)) (reach d))).
    { rewrite E. apply in_flat_map. exists u. split; [exact Hu|]. unfold unit_args. apply in_map_iff. exists a. auto. }
    apply in_map_iff in H'. destruct H' as ([q b] & Eb & Hb). cbn in Eb. injection Eb as <- <-. exact Hb.
Qed.

Lemma unit_no_args s q a : unit_scope_ok s -> sc_unit s = true -> In (q, a) (reach (sc_decl s)) -> False.
Proof.
  intros Hu Es H. specialize (Hu Es). rewrite reach_eq in H. unfold own_args, flattened in H. rewrite Hu in H. contradiction.
Qed.

Theorem finish_fields os stk o ad a : linked stk -> stack_ok stk -> finish_stack os stk None = Ok o ->
  In (ad, a) (stack_args stk) -> field_at ad o = field_value a (values_of os ad) /\
    (given os ad = false -> is_required a = false /\ default_readable a = true).
Proof.
  intros Hl Hok H Hin. destruct (stack_split _ _ _ Hin) as (pre & s & outer & q & -> & -> & Hq).
  destruct (finish_stack_inside os _ _ _ Hl Hok H pre s outer eq_refl) as (sub' & o' & F & I & _).
  assert (Hs : accepted (sc_decl s) /\ unit_scope_ok s) by (apply Forall_app in Hok; destruct Hok as [_ Hok]; inversion Hok; assumption).
  destruct Hs as [Hs Hu].
  assert (Hnu : sc_unit s = false) by (destruct (sc_unit s) eqn:E; [elim (unit_no_args s q a Hu E Hq)|reflexivity]).
  unfold field_at. cbn [ad_level ad_path]. rewrite (I Hnu).
  destruct (finish_args_Ok os _ _ _ _ _ Hs F) as (_ & _ & Hf & _). apply Hf. exact Hq.
Qed.

(** *** When the checks succeed *)

Lemma unit_unique d q x y : accepted d -> In (q, x) (units [] d) -> In (q, y) (units [] d) -> x = y.
Proof.
  intros Hd Hx Hy. pose proof (NoDup_units [] d Hd) as Hn. apply In_nth_error in Hx, Hy. destruct Hx as [i Hi], Hy as [j Hj].
  assert (i = j) by (eapply (NoDup_nth_inj fst); [exact Hn|exact Hi|exact Hj|reflexivity]). congruence.
Qed.

Lemma units_no_sub d q x : accepted d -> In (q, x) (units [] d) -> q <> [] -> subcommand x = None.
Proof.
  intros Hd Hx Hq. assert (G : forall y path, accepted y -> In (q, x) (units path y) -> (q, x) = (path, y) \/ subcommand x = None).
  { intros y. induction y as [y IH _] using decl_induction. intros path Hy Hu. rewrite units_eq in Hu.
    destruct Hu as [<-|Hu]; [left; reflexivity|]. apply in_flat_map in Hu. destruct Hu as ([id z] & Hz & Hu). cbn [fst snd] in Hu.
    destruct (accepted_flat y id z Hy Hz) as (Haz & _ & Hnz). right.
    destruct (IH id z (proj1 (in_flattened y id z) Hz) _ Haz Hu) as [E|E]; [|exact E]. injection E as _ ->. exact Hnz. }
  destruct (G d [] Hd Hx) as [E|E]; [|exact E]. injection E as -> _. contradiction.
Qed.

Lemma app_length_eq_r {A} (l m l' m' : list A) : l ++ m = l' ++ m' -> length m = length m' -> l = l' /\ m = m'.
Proof.
  intros E Hl. assert (Hl' : length l = length l') by (apply (f_equal (@length _)) in E; rewrite !app_length in E; lia).
  revert l' E Hl'. induction l as [|x l IH]; intros [|y l'] E Hl'; try discriminate; [auto|].
  injection E as -> E. destruct (IH l' E ltac:(cbn in Hl'; lia)) as [-> ->]. auto.
Qed.

Lemma removelast_snoc {A} (l : list A) x : removelast (l ++ [x]) = l.
Proof. rewrite removelast_app by discriminate. cbn. apply app_nil_r. Qed.

Theorem finish_satisfied os stk o : linked stk -> stack_ok stk -> finish_stack os stk None = Ok o -> satisfied os stk.
Proof.
  intros Hl Hok H.
  assert (G : forall ad a, In (ad, a) (stack_args stk) -> exists pre s outer u sub',
    stk = pre ++ s :: outer /\ accepted (sc_decl s) /\ In u (units [] (sc_decl s)) /\ In a (own_args (snd u)) /\
    ad = Addr (length outer) (fst u ++ [sa_id a]) /\
    struct_sat os (length outer) (fst u) (snd u) sub' /\
    (fst u = [] -> sub' = match pre with [] => false | _ => true end)).
  { intros ad a Hin. destruct (stack_split _ _ _ Hin) as (pre & s & outer & q & -> & -> & Hq).
    destruct (finish_stack_inside os _ _ _ Hl Hok H pre s outer eq_refl) as (sub' & o' & F & _ & L).
    assert (Hs : accepted (sc_decl s)) by (apply Forall_app in Hok; destruct Hok as [_ Hok]; inversion Hok; tauto).
    destruct (finish_args_Ok os _ _ _ _ _ Hs F) as (S1 & S2 & _).
    apply reach_unit in Hq. destruct Hq as (u & Hu & Ha & ->).
    destruct (S2 u Hu) as [->|[Hne S3]].
    - exists pre, s, outer, ([], sc_decl s), (is_some sub'). split; [reflexivity|]. split; [exact Hs|]. split; [exact Hu|]. split; [exact Ha|]. split; [reflexivity|]. split; [exact S1|].
      intros _. destruct pre as [|x pre]; [cbn in L; rewrite L; reflexivity|]. cbn [rev] in L.
      destruct (rev pre ++ [x]) eqn:E; [destruct (rev pre); discriminate|]. destruct L as [pl ->]. reflexivity.
    - exists pre, s, outer, u, false. split; [reflexivity|]. split; [exact Hs|]. split; [exact Hu|]. split; [exact Ha|]. split; [reflexivity|]. split; [exact S3|].
      intros E. contradiction. }
  constructor.
  - intros ad a Hin Hr. destruct (G ad a Hin) as (pre & s & outer & u & sub' & -> & Hs & Hu & Ha & -> & (S1 & _) & _).
    exact (S1 a Ha Hr).
  - intros ad a id Hin Hg Hc. destruct (G ad a Hin) as (pre & s & outer & u & sub' & -> & Hs & Hu & Ha & -> & (_ & S2 & _) & _).
    unfold sibling. cbn [ad_level ad_path]. rewrite removelast_snoc. apply (S2 a Ha Hg). exact Hc.
  - intros ad a id Hin Hg Hc. destruct (G ad a Hin) as (pre & s & outer & u & sub' & -> & Hs & Hu & Ha & -> & (_ & S2 & _) & _).
    unfold sibling. cbn [ad_level ad_path]. rewrite removelast_snoc. apply (S2 a Ha Hg). exact Hc.
  - intros ad a ad' b Hin Hin' Hx Hg [E1 E2] Hne.
    destruct (G ad a Hin) as (pre & s & outer & u & sub' & E & Hs & Hu & Ha & -> & (_ & S2 & _) & _).
    destruct (G ad' b Hin') as (pre' & s' & outer' & u' & sub'' & E' & Hs' & Hu' & Hb & -> & _ & _).
    cbn [ad_level ad_path] in *. rewrite !removelast_snoc in E2. rewrite E in E'.
    destruct (app_length_eq_r _ _ _ _ E' ltac:(cbn; congruence)) as [-> Es]. injection Es as <- <-.
    destruct u as [q x], u' as [q' y]. cbn [fst snd] in *. subst q'.
    assert (x = y) by (eapply (unit_unique (sc_decl s) q); [exact Hs|exact Hu|exact Hu']). subst y.
    destruct (S2 a Ha Hg) as (_ & _ & Hxx). apply (proj2 (Hxx Hx) b Hb). intros Ei. apply Hne. rewrite Ei. reflexivity.
  - intros ad a Hin Hx Hg Ho.
    destruct (G ad a Hin) as (pre & s & outer & u & sub' & -> & Hs & Hu & Ha & -> & (_ & S2 & _) & Hsub).
    unfold own_field in Ho. cbn [ad_level ad_path] in *. rewrite removelast_snoc in Ho. specialize (Hsub Ho).
    destruct (S2 a Ha Hg) as (_ & _ & Hxx). destruct (Hxx Hx) as [-> _].
    destruct pre; [reflexivity|discriminate].
  - intros s outer id vs -> E.
    destruct (finish_stack_inside os _ _ _ Hl Hok H [] s outer eq_refl) as (sub' & o' & F & _ & ->).
    destruct (finish_args_Ok os _ (sc_decl s) _ _ _ ltac:(inversion Hok; tauto) F) as ((_ & _ & S3) & _).
    discriminate (S3 id vs E).
Qed.

Theorem satisfied_finish os stk : linked stk -> stack_ok stk ->
  (forall s, In s stk -> defaults_readable (sc_decl s) = true) -> satisfied os stk ->
  exists o, finish_stack os stk None = Ok o.
Proof.
  intros Hl Hok Hr Hs.
  assert (G : forall pre rest sub, stk = pre ++ rest -> rest <> [] -> is_some sub = match pre with [] => false | _ => true end ->
              exists o, finish_stack os rest sub = Ok o).
  { intros pre rest. revert pre. induction rest as [|s rest IH]; intros pre sub E Hne Hsub; [contradiction|]. cbn [finish_stack].
    assert (Has : accepted (sc_decl s)) by (rewrite E in Hok; apply Forall_app in Hok; destruct Hok as [_ Hk]; inversion Hk; tauto).
    assert (U : forall u, In u (units [] (sc_decl s)) ->
              struct_sat os (length rest) (fst u) (snd u) (match fst u with [] => is_some sub | _ => false end)).
    { intros u Hu.
      assert (In_stk : forall a, In a (own_args (snd u)) -> In (Addr (length rest) (fst u ++ [sa_id a]), a) (stack_args stk)).
      { intros a Ha. rewrite E. apply in_stack_args. apply reach_unit. eauto. }
      split; [|split].
      - intros a Ha Hq. exact (sat_required _ _ Hs _ _ (In_stk a Ha) Hq).
      - intros a Ha Hg. split; [|split].
        + intros id Hi. pose proof (sat_conflicts _ _ Hs _ _ id (In_stk a Ha) Hg Hi) as Hc.
          unfold sibling in Hc. cbn [ad_level ad_path] in Hc. rewrite removelast_snoc in Hc. exact Hc.
        + intros id Hi. pose proof (sat_requires _ _ Hs _ _ id (In_stk a Ha) Hg Hi) as Hc.
          unfold sibling in Hc. cbn [ad_level ad_path] in Hc. rewrite removelast_snoc in Hc. exact Hc.
        + intros Hx. split.
          * destruct (fst u) as [|i q] eqn:Eu; [|reflexivity].
            pose proof (sat_exclusive_sub _ _ Hs _ _ (In_stk a Ha) Hx Hg) as Hc. unfold own_field in Hc.
            cbn [ad_level ad_path] in Hc. rewrite removelast_snoc in Hc. specialize (Hc eq_refl).
            rewrite E, app_length in Hc. cbn [length] in Hc. destruct pre; [exact Hsub|cbn in Hc; lia].
          * intros b Hb Hi. eapply (sat_exclusive _ _ Hs _ _ _ _ (In_stk a Ha) (In_stk b Hb) Hx Hg).
            -- split; [reflexivity|]. cbn [ad_path]. rewrite !removelast_snoc. reflexivity.
            -- intros C. apply (at_field_inj (length rest) (fst u)) in C. destruct C as (_ & _ & C). contradiction.
      - intros id vs Esub. destruct u as [q x]. cbn [fst snd] in *. destruct q as [|i q].
        + assert (x = sc_decl s) by (eapply (unit_unique (sc_decl s) []); [exact Has|exact Hu|rewrite units_eq; left; reflexivity]).
          subst x. rewrite Hsub. destruct pre; [|reflexivity]. elim (sat_subcommand _ _ Hs s rest id vs E Esub).
        + exfalso. rewrite (units_no_sub _ _ _ Has Hu) in Esub; [discriminate Esub|discriminate]. }
    destruct (finish_args_sat os (length rest) (sc_decl s) [] sub) as [o Ho].
    - exact Has.
    - apply Hr. rewrite E. apply in_app_iff. right. left. reflexivity.
    - apply (U ([], sc_decl s)). rewrite units_eq. left. reflexivity.
    - intros u Hu. specialize (U u Hu). destruct u as [[|i q] x]; [left|right; exact U]. cbn [fst snd] in *. f_equal.
      eapply (unit_unique (sc_decl s) []); [exact Has|exact Hu|rewrite units_eq; left; reflexivity].
    - rewrite Ho. cbn [bind]. destruct rest as [|s1 rest]; [eauto|].
      apply (IH (pre ++ [s])); [rewrite <- app_assoc; exact E|discriminate|destruct pre; reflexivity]. }
  apply (G [] stk None); [reflexivity| |reflexivity]. intros ->. inversion Hl.
Qed.
End Fields.
