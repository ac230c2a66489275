(** The checks after reading: [validate_finish] is [finish_struct], and leaving
    the frames of a struct is [finish_args]. *)
From Verif Require Import Bytes BytesFacts Utf8 Utf8Facts Attrs AttrFacts Refl Error Values SortFacts
  Places Help Runtime Heck Decl Spec Derive Generated CompileFacts InfoFacts TableFacts PlaceFacts UnwindFacts
  ScopeFacts NamedFacts.
From Coq Require Import Permutation.

Section Finish.
Context {V : Type}.
Local Notation args_decl := (args_decl V).
Local Notation sarg := (sarg V).
Local Notation scope := (scope V).
Local Notation occ := (occ V).
Implicit Types (d : args_decl) (a : sarg) (s : scope) (stk : list scope).

(** The generated fields of some of the checked arguments. *)
Fixpoint fields_from d (k : nat) (l : list sarg) : list (field_info V) :=
  match l with
  | [] => []
  | a :: l' => final_field d k a :: fields_from d (S k) l'
  end.
Lemma fields_from_nth d k l i : nth_error (fields_from d k l) i = option_map (final_field d (k + i)) (nth_error l i).
Proof.
  revert k i. induction l as [|a l IH]; intros k [|i]; try reflexivity.
  - cbn. rewrite Nat.add_0_r. reflexivity.
  - cbn [fields_from nth_error]. rewrite IH. rewrite Nat.add_succ_r. reflexivity.
Qed.
Lemma nth_ext {A} (l m : list A) : (forall i, nth_error l i = nth_error m i) -> l = m.
Proof.
  revert m. induction l as [|x l IH]; intros [|y m] H.
  - reflexivity.
  - specialize (H 0). discriminate.
  - specialize (H 0). discriminate.
  - f_equal; [specialize (H 0); injection H; auto|]. apply IH. intros i. exact (H (S i)).
Qed.
Lemma direct_fields d : direct_of d = fields_from d 0 (checked d).
Proof. apply nth_ext. intros i. rewrite direct_nth, fields_from_nth. reflexivity. Qed.

Section Struct.
Variable os : list occ.
Variable level : nat.
Variable path : list ident.
Variable d : args_decl.
Hypothesis Hd : accepted d.

Definition vals a : list (option bytes) := folded_values os (at_field level path (sa_id a)) a.
Definition pl a : place V := place_of a (vals a).
Hypothesis Hvals : forall a, In a (own_args d) -> vals_ok a (vals a).

Lemma vals_given a : nonempty (vals a) = is_given os level path (sa_id a).
Proof. unfold vals, folded_values, is_given. rewrite nonempty_map. symmetry. apply given_values. Qed.
Lemma pl_set a : In a (own_args d) -> is_set (pl a) = is_given os level path (sa_id a).
Proof.
  intros Ha. unfold pl. rewrite is_set_place; [apply vals_given| |apply Hvals; exact Ha].
  eapply accepted_arg; eauto.
Qed.
Lemma nth_own i a : nth_error (checked d) i = Some a -> In a (own_args d).
Proof. intros H. apply in_checked. eapply nth_error_In; eauto. Qed.
Lemma set_at_given i a : nth_error (checked d) i = Some a ->
  set_at (map pl (checked d)) (N.of_nat i) = is_given os level path (sa_id a).
Proof.
  intros Hi. unfold set_at. rewrite Nnat.Nat2N.id, nth_error_map, Hi. cbn [option_map].
  apply pl_set. eapply nth_own; eauto.
Qed.

(** *** Counting *)

Lemma filter_set : length (filter is_set (map pl (checked d)))
                   = length (filter (fun a => is_given os level path (sa_id a)) (checked d)).
Proof.
  assert (G : forall l, (forall a, In a l -> In a (own_args d)) ->
    length (filter is_set (map pl l)) = length (filter (fun a => is_given os level path (sa_id a)) l)).
  { induction l as [|a l IH]; intros H; [reflexivity|]. cbn [map filter]. rewrite pl_set by (apply H; left; reflexivity).
    destruct (is_given os level path (sa_id a)); cbn [length]; rewrite IH; auto; intros b Hb; apply H; right; exact Hb. }
  apply G. intros a. apply in_checked.
Qed.

Lemma filter_length_le {A} (p : A -> bool) l : length (filter p l) <= length l.
Proof. induction l as [|x l IH]; simpl; [lia|]. destruct (p x); simpl; lia. Qed.

Lemma total_spec sub : total_args (map pl (checked d)) sub =
  Ok (N.of_nat (length (filter (fun a => is_given os level path (sa_id a)) (checked d))) + (if sub then 1 else 0))%N.
Proof.
  unfold total_args. rewrite filter_set.
  pose proof (filter_length_le (fun a => is_given os level path (sa_id a)) (checked d)) as H1.
  pose proof (checked_length d Hd) as H2.
  assert (E : (N.of_nat (length (filter (fun a => is_given os level path (sa_id a)) (checked d)))
               + (if sub then 1 else 0) <=? 255)%N = true) by (apply N.leb_le; destruct sub; lia).
  rewrite E. reflexivity.
Qed.

Definition others a : bool :=
  existsb (fun b => negb (beqb (sa_id b) (sa_id a)) && is_given os level path (sa_id b)) (own_args d).

(** More than one argument is given. *)
Lemma others_count a : In a (own_args d) -> is_given os level path (sa_id a) = true ->
  (1 <? length (filter (fun b => is_given os level path (sa_id b)) (checked d))) = others a.
Proof.
  intros Ha Hg. set (g := filter (fun b => is_given os level path (sa_id b)) (checked d)).
  assert (Hin : forall b, In b g <-> In b (own_args d) /\ is_given os level path (sa_id b) = true).
  { intros b. unfold g. rewrite filter_In, in_checked. tauto. }
  assert (Hn : NoDup (map sa_id g)).
  { pose proof (checked_ids d Hd) as Hc. unfold g. clear -Hc. induction (checked d) as [|b l IH]; [constructor|].
    cbn [map] in Hc. inversion Hc as [|? ? H1 H2]; subst. cbn [filter]. destruct (is_given os level path (sa_id b)); [|auto].
    cbn [map]. constructor; [|auto]. intros Hi. apply H1. apply in_map_iff in Hi. destruct Hi as (x & E & Hx).
    apply filter_In in Hx. apply in_map_iff. exists x. tauto. }
  assert (Hag : In a g) by (apply Hin; auto).
  destruct (others a) eqn:E.
  - unfold others in E. apply existsb_exists in E. destruct E as (b & Hb & E). apply andb_true_iff in E.
    destruct E as [E1 E2]. apply negb_true_iff, beqb_neq in E1.
    assert (Hbg : In b g) by (apply Hin; auto). apply Nat.ltb_lt.
    destruct g as [|x [|y g']]; [contradiction| |simpl; lia].
    destruct Hag as [<-|[]], Hbg as [<-|[]]. congruence.
  - apply Nat.ltb_ge. destruct g as [|x [|y g']]; [simpl; lia|simpl; lia|]. exfalso.
    assert (Hall : forall b, In b (x :: y :: g') -> sa_id b = sa_id a).
    { intros b Hb. apply Hin in Hb. destruct Hb as [Hb1 Hb2]. unfold others in E. rewrite existsb_false in E.
      specialize (E b Hb1). rewrite Hb2, andb_true_r in E. apply negb_false_iff, beqb_eq in E. exact E. }
    cbn [map] in Hn. inversion Hn as [|? ? Hni _]; subst. apply Hni. left.
    rewrite (Hall x), (Hall y); simpl; auto.
Qed.

(** *** Constraints *)

Lemma refers_given id idx : refers d id idx ->
  set_at (map pl (checked d)) idx = is_given os level path id.
Proof. intros (j & b & -> & Hj & <-). apply set_at_given. exact Hj. Qed.

Lemma find_given ids idxs (f : bool -> bool) : Forall2 (refers d) ids idxs ->
  match find (fun i => f (set_at (map pl (checked d)) i)) idxs with
  | Some i => exists id, find (fun id => f (is_given os level path id)) ids = Some id /\ refers d id i
  | None => find (fun id => f (is_given os level path id)) ids = None
  end.
Proof.
  induction 1 as [|id idx ids idxs Hr _ IH]; [reflexivity|]. cbn [find]. rewrite (refers_given _ _ Hr).
  destruct (f (is_given os level path id)); [eauto|exact IH].
Qed.

Lemma find_own id b : In b (own_args d) -> sa_id b = id -> find (fun a => beqb id (sa_id a)) (own_args d) = Some b.
Proof.
  intros Hb <-. destruct (find _ _) as [c|] eqn:E.
  - apply find_some in E. destruct E as [Hc E]. apply beqb_eq in E. f_equal.
    apply in_checked in Hb, Hc. apply In_nth_error in Hb, Hc. destruct Hb as [i Hi], Hc as [j Hj].
    assert (i = j) by (eapply (NoDup_nth_inj sa_id); [apply checked_ids; exact Hd| | |]; eauto).
    subst j. congruence.
  - exfalso. pose proof (find_none _ _ E b Hb) as H. cbn beta in H. rewrite beqb_refl in H. discriminate.
Qed.

Lemma about_id k id idx : refers d id idx ->
  with_arg_idx k (info_of (impl d)) idx = error_about_id k d id.
Proof.
  intros (j & b & -> & Hj & <-). unfold with_arg_idx. rewrite (get_description_spec d j b Hd Hj).
  unfold error_about_id. rewrite (find_own _ b) by (auto; eapply nth_own; eauto). reflexivity.
Qed.
Lemma about_idx k i a : nth_error (checked d) i = Some a ->
  with_arg_idx k (info_of (impl d)) (N.of_nat i) = error_about k a.
Proof. intros Hi. unfold with_arg_idx. rewrite (get_description_spec d i a Hd Hi). reflexivity. Qed.

Definition opt_err (o : option error) : res unit := match o with Some e => Err e | None => Ok tt end.

Lemma final_exclusive i a : fi_exclusive (final_field d i a) = am_exclusive (sa_meta a).
Proof. unfold final_field, resolve_field, with_index. cbn [fi_exclusive]. rewrite field_of_spec. reflexivity. Qed.

Definition count sub : N :=
  (N.of_nat (length (filter (fun a => is_given os level path (sa_id a)) (checked d))) + (if sub : bool then 1 else 0))%N.

Lemma on_set_check_spec i a sub total :
  nth_error (checked d) i = Some a ->
  (am_exclusive (sa_meta a) = true -> total = count sub) ->
  on_set_check (info_of (impl d)) total (map pl (checked d)) (final_field d i a)
  = opt_err (violation os level path d sub a).
Proof.
  intros Hi Ht. unfold on_set_check, violation. cbn zeta.
  change (fi_attrs (final_field d i a)) with (arg_attrs i a). rewrite (arg_attrs_index d i a Hd Hi).
  rewrite (set_at_given i a Hi), final_exclusive. fold (others a).
  destruct (is_given os level path (sa_id a)) eqn:Eg; [|reflexivity].
  assert (Ee : am_exclusive (sa_meta a) && (1 <? total)%N = am_exclusive (sa_meta a) && (others a || sub)).
  { destruct (am_exclusive (sa_meta a)) eqn:Ex; [|reflexivity]. cbn [andb]. rewrite (Ht eq_refl).
    rewrite <- (others_count a) by (auto; eapply nth_own; eauto). unfold count.
    set (n := length _). 
    assert (Hn : 1 <= n).
    { unfold n. assert (Hf : In a (filter (fun b => is_given os level path (sa_id b)) (checked d)))
        by (apply filter_In; split; [eapply nth_error_In; eauto|exact Eg]).
      destruct (filter _ _); [contradiction|simpl; lia]. }
    destruct sub.
    - rewrite orb_true_r. apply N.ltb_lt. lia.
    - rewrite orb_false_r, N.add_0_r. destruct (1 <? n) eqn:E1.
      + apply Nat.ltb_lt in E1. apply N.ltb_lt. lia.
      + apply Nat.ltb_ge in E1. apply N.ltb_ge. lia. }
  rewrite Ee. destruct (am_exclusive (sa_meta a) && (others a || sub)).
  { rewrite (about_idx _ i a Hi). reflexivity. }
  destruct (final_refs d i a Hd Hi) as [Hr Hc].
  pose proof (find_given _ _ negb Hr) as Fr. cbn beta in Fr.
  destruct (find (fun i0 => negb (set_at (map pl (checked d)) i0)) (fi_requires_idx (final_field d i a))) as [j|].
  { destruct Fr as (id & E & Hrf). rewrite (about_id _ id j Hrf), E. reflexivity. }
  rewrite Fr. pose proof (find_given _ _ (fun b => b) Hc) as Fc. cbn beta in Fc.
  destruct (find (fun i0 => set_at (map pl (checked d)) i0) (fi_conflicts_idx (final_field d i a))) as [j|].
  { destruct Fc as (id & E & _). rewrite (about_idx _ i a Hi).
    replace (find (is_given os level path) (am_conflicts_with (sa_meta a))) with (Some id) by (symmetry; exact E).
    reflexivity. }
  replace (find (is_given os level path) (am_conflicts_with (sa_meta a))) with (None (A:=ident)) by (symmetry; exact Fc).
  reflexivity.
Qed.

Lemma on_set_checks_spec sub total :
  (forall a, In a (checked d) -> am_exclusive (sa_meta a) = true -> total = count sub) ->
  forall l k, (forall i a, nth_error l i = Some a -> nth_error (checked d) (k + i) = Some a) ->
  on_set_checks (info_of (impl d)) total (map pl (checked d)) (fields_from d k l)
  = opt_err (first_violation os level path d sub l).
Proof.
  intros Ht. induction l as [|a l IH]; intros k Hl; [reflexivity|]. cbn [fields_from on_set_checks first_violation].
  assert (Hk : nth_error (checked d) k = Some a) by (rewrite <- (Nat.add_0_r k); apply Hl; reflexivity).
  rewrite (on_set_check_spec k a sub total Hk) by (apply Ht; eapply nth_error_In; eauto).
  destruct (violation os level path d sub a); [reflexivity|]. cbn [opt_err bind]. apply IH.
  intros i b Hb. rewrite Nat.add_succ_l, <- Nat.add_succ_r. apply Hl. exact Hb.
Qed.

(** *** Defaults and values *)

Definition fin_val a : option (fval V) := field_value a (values_of os (at_field level path (sa_id a))).

Lemma final_required i a : arg_facts a -> fi_required (final_field d i a) = is_required a.
Proof.
  intros Ha. rewrite <- (required_spec a Ha). unfold final_field, resolve_field, with_index. cbn [fi_required].
  rewrite field_of_spec. reflexivity.
Qed.
Lemma final_default i a : fi_default (final_field d i a) = dflt_of a.
Proof. unfold final_field, resolve_field, with_index. cbn [fi_default]. rewrite field_of_spec. reflexivity. Qed.
Lemma final_kind i a : fi_kind (final_field d i a) = kind_of_shape (shape_a a).
Proof. unfold final_field, resolve_field, with_index. cbn [fi_kind]. rewrite field_of_spec. reflexivity. Qed.

Definition settled i a (p : place V) : Prop :=
  (exists v, fin_val a = Some v /\ extractor (final_field d i a) p = Ok v) /\
  (kind_eqb (fi_kind (final_field d i a)) KValue && negb (fi_required (final_field d i a)) && negb (is_set p) = false).

Lemma on_unset_spec i a : nth_error (checked d) i = Some a ->
  if is_given os level path (sa_id a) then
    on_unset (info_of (impl d)) (final_field d i a) (pl a) = Ok (pl a) /\ settled i a (pl a)
  else if is_required a then
    on_unset (info_of (impl d)) (final_field d i a) (pl a) = Err (error_about MissingRequiredArgument a)
  else if default_readable a then
    exists p, on_unset (info_of (impl d)) (final_field d i a) (pl a) = Ok p /\ settled i a p
  else on_unset (info_of (impl d)) (final_field d i a) (pl a) = Panic PDefault.
Proof.
  intros Hi. pose proof (nth_own i a Hi) as Hin. pose proof (accepted_arg d a Hd Hin) as Ha.
  pose proof (Hvals a Hin) as Hv. unfold on_unset. rewrite (pl_set a Hin).
  destruct (is_given os level path (sa_id a)) eqn:Eg.
  - split; [reflexivity|]. split.
    + pose proof (extractor_place d i a (vals a) Ha) as Ee. fold (pl a) in Ee.
      assert (Hne : vals a <> []) by (rewrite <- vals_given in Eg; destruct (vals a); discriminate).
      pose proof (content_some a (vals a) Ha Hv (fun _ => Hne)) as Hc.
      destruct (content a (vals a)) as [v|] eqn:Ec; [|contradiction]. exists v. split; [|exact Ee].
      unfold fin_val, field_value. unfold vals, folded_values in Ec, Hne.
      destruct (values_of os (at_field level path (sa_id a))); [contradiction|]. exact Ec.
    + rewrite (pl_set a Hin), Eg. apply andb_false_r.
  - assert (Ev : values_of os (at_field level path (sa_id a)) = []).
    { unfold is_given in Eg. rewrite given_values in Eg. destruct (values_of _ _); [reflexivity|discriminate]. }
    assert (Epl : pl a = place_of a []) by (unfold pl, vals, folded_values; rewrite Ev; reflexivity).
    assert (Efv : fin_val a = field_value a []) by (unfold fin_val; rewrite Ev; reflexivity).
    rewrite final_default, (final_required i a Ha). pose proof (dflt_of_spec a Ha) as Hds.
    unfold default_readable. unfold field_value in Efv.
    destruct (default_of a) as [|t|v] eqn:Edf.
    + destruct Hds as (E1 & E2 & _). rewrite E1. destruct (is_required a) eqn:Er.
      * change (fi_attrs (final_field d i a)) with (arg_attrs i a). rewrite (arg_attrs_index d i a Hd Hi).
        rewrite (about_idx _ i a Hi). reflexivity.
      * exists (pl a). split; [reflexivity|]. unfold is_required in Er. rewrite E2 in Er. cbn [negb andb] in Er.
        apply orb_false_iff in Er. destruct Er as [_ Er].
        assert (Hs : shape_a a <> ShOne) by (destruct (shape_a a); congruence).
        split.
        -- rewrite Efv, Epl, (extractor_place d i a [] Ha).
           pose proof (content_some a [] Ha (vals_ok_nil a) (fun E => False_rect _ (Hs E))) as Hc.
           destruct (content a []) as [v|]; [|contradiction]. exists v. auto.
        -- rewrite final_kind. destruct (shape_a a); try reflexivity. contradiction.
    + destruct Hds as (E1 & E2 & _). rewrite E1.
      assert (Er : is_required a = false) by (unfold is_required; rewrite E2; reflexivity). rewrite Er. rewrite Epl, (set_default_parse_place a t Ha).
      destruct (value_error a false (Some t)) eqn:Ee; [reflexivity|].
      assert (Hvt : vals_ok a [Some t]) by (apply (vals_ok_snoc a []); [apply vals_ok_nil|exact Ee]).
      exists (place_of a [Some t]). split; [reflexivity|]. split.
      * rewrite Efv, (extractor_place d i a _ Ha). 
        assert (Hne : shape_a a = ShOne -> [Some t] <> []) by discriminate.
        pose proof (content_some a [Some t] Ha Hvt Hne) as Hc.
        destruct (content a [Some t]) as [v|]; [|contradiction]. exists v. auto.
      * rewrite is_set_place by assumption. apply andb_false_r.
    + destruct Hds as (t & E1 & E2 & _ & Hfit). rewrite E1.
      assert (Er : is_required a = false) by (unfold is_required; rewrite E2; reflexivity). rewrite Er. rewrite Epl.
      destruct (set_default_place d i a v Ha Hfit) as (p & Hp1 & Hp2 & Hp3 & Hp4).
      exists p. split; [exact Hp1|]. split.
      * rewrite Efv, Hp3. destruct (default_content a v) as [w|]; [|contradiction]. exists w. auto.
      * rewrite Hp2. apply andb_false_r.
Qed.

Definition values_from (l : list sarg) : list (ident * fval V) :=
  flat_map (fun a => match fin_val a with Some v => [(sa_id a, v)] | None => [] end) l.

Lemma on_unset_all_spec l : forall k,
  (forall i a, nth_error l i = Some a -> nth_error (checked d) (k + i) = Some a) ->
  match check_absent os level path l with
  | Ok _ => exists ps, on_unset_all (info_of (impl d)) (fields_from d k l) (map pl l) = Ok ps /\
                       assert_set (fields_from d k l) ps = Ok tt /\
                       extract_all (fields_from d k l) ps = Ok (values_from l)
  | Err e => on_unset_all (info_of (impl d)) (fields_from d k l) (map pl l) = Err e
  | Panic p => on_unset_all (info_of (impl d)) (fields_from d k l) (map pl l) = Panic p
  end.
Proof.
  induction l as [|a l IH]; intros k Hl.
  - cbn. exists []. auto.
  - assert (Hk : nth_error (checked d) k = Some a) by (rewrite <- (Nat.add_0_r k); apply Hl; reflexivity).
    assert (Hl' : forall i b, nth_error l i = Some b -> nth_error (checked d) (S k + i) = Some b)
      by (intros i b Hb; rewrite Nat.add_succ_l, <- Nat.add_succ_r; apply Hl; exact Hb).
    specialize (IH (S k) Hl'). pose proof (on_unset_spec k a Hk) as Hu.
    cbn [check_absent fields_from map on_unset_all].
    assert (Hgo : forall p, settled k a p ->
      on_unset (info_of (impl d)) (final_field d k a) (pl a) = Ok p ->
      match check_absent os level path l with
      | Ok _ => exists ps, (let* pl0 := on_unset (info_of (impl d)) (final_field d k a) (pl a) in
                  let* pls := on_unset_all (info_of (impl d)) (fields_from d (S k) l) (map pl l) in Ok (pl0 :: pls)) = Ok ps /\
                       assert_set (final_field d k a :: fields_from d (S k) l) ps = Ok tt /\
                       extract_all (final_field d k a :: fields_from d (S k) l) ps = Ok (values_from (a :: l))
      | Err e => (let* pl0 := on_unset (info_of (impl d)) (final_field d k a) (pl a) in
                  let* pls := on_unset_all (info_of (impl d)) (fields_from d (S k) l) (map pl l) in Ok (pl0 :: pls)) = Err e
      | Panic p => (let* pl0 := on_unset (info_of (impl d)) (final_field d k a) (pl a) in
                  let* pls := on_unset_all (info_of (impl d)) (fields_from d (S k) l) (map pl l) in Ok (pl0 :: pls)) = Panic p
      end).
    { intros p ((v & Hv1 & Hv2) & Hs) ->. cbn [bind].
      destruct (check_absent os level path l) as [u|e|q].
      - destruct IH as (ps & -> & Has & Hex). exists (p :: ps). split; [reflexivity|].
        cbn [assert_set extract_all]. rewrite Hs, Hv2, Hex. split; [exact Has|]. cbn [bind].
        unfold values_from. cbn [flat_map]. rewrite Hv1. 
        assert (Hid : fi_ident (final_field d k a) = sa_id a).
        { unfold final_field, resolve_field, with_index. cbn [fi_ident]. rewrite field_of_spec. reflexivity. }
        rewrite Hid. reflexivity.
      - rewrite IH. reflexivity.
      - rewrite IH. reflexivity. }
    destruct (is_given os level path (sa_id a)).
    + destruct Hu as [Hu1 Hu2]. apply (Hgo (pl a)); assumption.
    + destruct (is_required a); [rewrite Hu; reflexivity|].
      destruct (default_readable a); [|rewrite Hu; reflexivity].
      destruct Hu as (p & Hu1 & Hu2). apply (Hgo p); assumption.
Qed.

Lemma ai_sub_impl : ai_sub (impl d) = option_map sub_impl_of (subcommand d).
Proof. rewrite (accepted_impl d Hd). reflexivity. Qed.
Lemma ai_direct_impl : ai_direct (impl d) = direct_of d.
Proof. rewrite (accepted_impl d Hd). reflexivity. Qed.

Lemma existsb_exclusive : existsb fi_exclusive (direct_of d) = existsb (fun a => am_exclusive (sa_meta a)) (checked d).
Proof.
  rewrite direct_fields. generalize 0. induction (checked d) as [|a l IH]; intros k; [reflexivity|].
  cbn [fields_from existsb]. rewrite final_exclusive, IH. reflexivity.
Qed.

Lemma validate_finish_spec flats sub :
  validate_finish (impl d) (map pl (checked d)) sub flats = finish_struct os level path d flats sub.
Proof.
  unfold validate_finish, finish_struct. rewrite ai_direct_impl, ai_sub_impl.
  assert (Hs : opt_is_some sub = is_some sub) by reflexivity. rewrite Hs. clear Hs.
  set (tot := if existsb fi_exclusive (direct_of d) then count (is_some sub) else 0%N).
  assert (Ht : (if existsb fi_exclusive (direct_of d) then total_args (map pl (checked d)) (is_some sub) else Ok 0%N)
               = Ok tot).
  { unfold tot. destruct (existsb fi_exclusive (direct_of d)); [apply total_spec|reflexivity]. }
  rewrite Ht. cbn [bind]. rewrite direct_fields.
  rewrite (on_set_checks_spec (is_some sub) tot).
  2:{ intros a Ha Hx. unfold tot. rewrite existsb_exclusive.
      assert (E : existsb (fun a => am_exclusive (sa_meta a)) (checked d) = true) by (apply existsb_exists; eauto).
      rewrite E. reflexivity. }
  2:{ intros i a Hi. exact Hi. }
  destruct (first_violation os level path d (is_some sub) (checked d)); [reflexivity|]. cbn [opt_err bind].
  pose proof (on_unset_all_spec (checked d) 0 (fun i a Hi => Hi)) as Hu.
  destruct (check_absent os level path (checked d)) as [u|e|p]; cbn [bind].
  - destruct Hu as (ps & -> & Has & Hex). cbn [bind].
    change (direct_values os level path d) with (values_from (checked d)).
    destruct (subcommand d) as [[[id o] vs]|]; cbn [option_map sub_impl_of fst].
    + destruct o; [|destruct sub]; cbn [bind]; rewrite ?Has; cbn [bind]; rewrite ?Hex; reflexivity.
    + cbn [bind]. rewrite Has. cbn [bind]. rewrite Hex. reflexivity.
  - rewrite Hu. reflexivity.
  - rewrite Hu. reflexivity.
Qed.
End Struct.

(** *** A struct with its flattened structs *)

Definition finish_flats os level path (l : list (ident * args_decl)) (acc : res (list (ident * outval V))) :=
  fold_left (fun acc (fa : ident * args_decl) =>
    let* outs := acc in
    let* o := finish_args os level (path ++ [fst fa]) (snd fa) None in
    Ok (outs ++ [(fst fa, o)])) l acc.

Lemma finish_args_eq os level path d sub :
  finish_args os level path d sub =
  let* outs := finish_flats os level path (flattened d) (Ok []) in
  finish_struct os level path d outs sub.
Proof.
  destruct d as [at_ fs]. cbn [finish_args].
  assert (G : forall acc,
    fold_left (fun acc (f : ident * field_decl V) =>
      let '(id, fd) := f in
      match fd with
      | FFlatten a =>
          let* outs := acc in
          let* o := finish_args os level (path ++ [id]) a None in
          Ok (outs ++ [(id, o)])
      | _ => acc
      end) fs acc = finish_flats os level path (flattened (MkArgsDecl at_ fs)) acc).
  { unfold flattened. cbn [fields_of]. unfold finish_flats. induction fs as [|[id fd] fs IH]; intros acc; [reflexivity|].
    cbn [fold_left flat_map]. rewrite fold_left_app, <- IH. f_equal. destruct fd; reflexivity. }
  rewrite G. reflexivity.
Qed.

Lemma finish_flats_Err os level path l e : finish_flats os level path l (Err e) = Err e.
Proof. induction l as [|fa l IH]; [reflexivity|exact IH]. Qed.
Lemma finish_flats_Panic os level path l e : finish_flats os level path l (Panic e) = Panic e.
Proof. induction l as [|fa l IH]; [reflexivity|exact IH]. Qed.

Lemma ai_flat_impl d : accepted d -> ai_flat (impl d) = map (fun fa => (fst fa, impl (snd fa))) (flattened d).
Proof. intros Hd. rewrite (accepted_impl d Hd). reflexivity. Qed.

Lemma unit_items_app level us ws : unit_items (V:=V) level (us ++ ws) = unit_items level us ++ unit_items level ws.
Proof. apply map_app. Qed.
Lemma unit_items_cons level u us :
  unit_items (V:=V) level (u :: us) = IU (UI level (fst u) (snd u) (info_of (impl (snd u))) 0) :: unit_items level us.
Proof. reflexivity. Qed.

Lemma unwind_spec os level d : forall path f (ch : chain V) sub,
  accepted d ->
  (forall u a, In u (units path d) -> In a (own_args (snd u)) ->
     vals_ok a (folded_values os (at_field level (fst u) (sa_id a)) a)) ->
  af_fields f = map (fun a => place_of a (folded_values os (at_field level path (sa_id a)) a)) (checked d) ->
  unwind (impl d) (AF f :: map (item_frame os) (unit_items level
            (flat_map (fun fa => units (path ++ [fst fa]) (snd fa)) (flattened d))) ++ ch) sub
  = let* o := finish_args os level path d sub in Ok (o, ch).
Proof.
  induction d as [d IH _] using decl_induction. intros path f ch sub Hd Hv Hf.
  rewrite unwind_eq, finish_args_eq. cbn [pop_frame head_frame bind]. unfold pop_frame. cbn [head_frame bind].
  rewrite (ai_flat_impl d Hd).
  assert (Hflats : forall l, (forall fa, In fa l -> In fa (flattened d)) -> forall outs,
    unwind_flats (map (fun fa => (fst fa, impl (snd fa))) l)
      (Ok (outs, map (item_frame os) (unit_items level (flat_map (fun fa => units (path ++ [fst fa]) (snd fa)) l)) ++ ch))
    = let* outs' := finish_flats os level path l (Ok outs) in Ok (outs', ch)).
  { induction l as [|[id x] l IHl]; intros Hl outs; [reflexivity|].
    assert (Hx : In (id, x) (flattened d)) by (apply Hl; left; reflexivity).
    destruct (accepted_flat d id x Hd Hx) as (Hax & _).
    cbn [map fst snd flat_map]. unfold unwind_flats. cbn [fold_left unwind_step bind fst snd].
    unfold finish_flats. cbn [fold_left bind fst snd].
    rewrite (units_eq (path ++ [id]) x). cbn [app]. rewrite unit_items_cons, unit_items_app. cbn [map item_frame fst snd app].
    rewrite map_app, <- app_assoc.
    rewrite (IH id x).
    - destruct (finish_args os level (path ++ [id]) x None) as [o|e|p]; cbn [bind].
      + apply IHl. intros fa Hfa. apply Hl. right. exact Hfa.
      + fold (unwind_flats (V:=V)). change (fold_left unwind_step) with (unwind_flats (V:=V)). rewrite unwind_flats_Err.
        fold (finish_flats os level path l (Err e)). rewrite finish_flats_Err. reflexivity.
      + change (fold_left unwind_step) with (unwind_flats (V:=V)). rewrite unwind_flats_Panic.
        fold (finish_flats os level path l (Panic (A:=list (ident * outval V)) p)). rewrite finish_flats_Panic. reflexivity.
    - apply in_flattened. exact Hx.
    - exact Hax.
    - intros u a Hu Ha. apply Hv; [|exact Ha]. rewrite units_eq. right. apply in_flat_map. exists (id, x). auto.
    - reflexivity. }
  rewrite Hflats by auto.
  destruct (finish_flats os level path (flattened d) (Ok [])) as [outs|e|p]; cbn [bind]; [|reflexivity|reflexivity].
  rewrite Hf. change (fun a => place_of a (folded_values os (at_field level path (sa_id a)) a)) with (pl os level path).
  rewrite validate_finish_spec; [reflexivity|exact Hd|].
  intros a Ha. apply (Hv (path, d)); [rewrite units_eq; left; reflexivity|exact Ha].
Qed.
End Finish.
