(** The rendered help is the one specified. *)
From Verif Require Import Bytes BytesFacts Utf8 Utf8Facts Attrs AttrFacts Refl Error Values SortFacts
  Places Help Runtime Heck HeckFacts Decl Spec Derive Generated CompileFacts InfoFacts TableFacts PlaceFacts UnwindFacts
  ScopeFacts NamedFacts WordFacts FinishFacts.

(** *** The name of the program *)

Lemma split_on_slash s acc : split_on_aux [c_slash] s 0 acc = cut_slash s acc.
Proof.
  revert acc. induction s as [|x s IH]; intros acc; [reflexivity|]. cbn [split_on_aux cut_slash].
  assert (E : starts_with [c_slash] (x :: s) = Byte.eqb x "/"%byte).
  { unfold starts_with. cbn [strip_prefix]. unfold c_slash. rewrite byte_eqb_sym.
    destruct (Byte.eqb x "/"%byte); reflexivity. }
  rewrite E. cbn [length Nat.sub]. rewrite !IH. reflexivity.
Qed.
Lemma last_component_spec l :
  last_component l = match filter real_component l with
                     | c :: _ => if beqb c (bs "..") then None else Some c
                     | [] => None
                     end.
Proof.
  induction l as [|p l IH]; [reflexivity|]. cbn [last_component filter]. unfold real_component.
  destruct (beqb p []); [exact IH|]. destruct (beqb p (bs ".")); [exact IH|]. reflexivity.
Qed.
Lemma filter_rev {A} (f : A -> bool) l : filter f (rev l) = rev (filter f l).
Proof.
  induction l as [|x l IH]; [reflexivity|]. cbn [rev filter]. rewrite filter_app, IH. cbn [filter].
  destruct (f x); [reflexivity|apply app_nil_r].
Qed.
Lemma program_name_spec argv0 : program_name argv0 = shown_name argv0.
Proof.
  unfold program_name, shown_name, file_name. rewrite last_component_spec, filter_rev.
  unfold split_on. rewrite split_on_slash.
  destruct (rev (filter real_component (cut_slash argv0 []))) as [|c l]; [reflexivity|].
  destruct (beqb c (bs "..")); reflexivity.
Qed.

Section HelpEq.
Context {V : Type}.
Local Notation args_decl := (args_decl V).
Local Notation sarg := (sarg V).
Local Notation scope := (scope V).
Implicit Types (d : args_decl) (a : sarg) (s : scope) (stk : list scope).

Lemma prefix_of_names prog stk : stk <> [] ->
  prefix_of prog stk = flat_map (fun n => bs " " ++ n) (prog :: command_names stk).
Proof.
  induction stk as [|s outer IH]; intros H; [contradiction|]. destruct outer as [|t outer].
  - cbn. rewrite app_nil_r. reflexivity.
  - change (prefix_of prog (s :: t :: outer)) with (prefix_of prog (t :: outer) ++ bs " " ++ kebab_case (sc_ident s)).
    change (command_names (s :: t :: outer)) with (command_names (t :: outer) ++ [kebab_case (sc_ident s)]).
    rewrite IH by discriminate. rewrite app_comm_cons, flat_map_app. cbn [flat_map]. rewrite app_nil_r. reflexivity.
Qed.

(** *** One argument *)

Lemma usage_desc_not_dash x (r : bytes) : x <> c_dash -> usage_desc (x :: r) = x :: r.
Proof.
  intros H. unfold usage_desc. destruct r as [|y [|z r]]; try reflexivity.
  assert (E : Byte.eqb x c_dash = false) by (apply byte_eqb_neq; exact H). rewrite E. reflexivity.
Qed.
Lemma usage_desc_keep x y (r : bytes) : y = c_dash \/ hd_error r <> Some ","%byte -> usage_desc (x :: y :: r) = x :: y :: r.
Proof.
  intros H. unfold usage_desc. destruct r as [|z r]; [reflexivity|]. destruct H as [->|H].
  - rewrite byte_eqb_refl, andb_false_r. reflexivity.
  - assert (E : Byte.eqb z ","%byte = false) by (apply byte_eqb_neq; intros ->; apply H; reflexivity).
    rewrite E, andb_false_r. reflexivity.
Qed.

Lemma usage_desc_cut y (r : bytes) : Byte.eqb y c_dash = false ->
  usage_desc (c_dash :: y :: ","%byte :: " "%byte :: r) = r.
Proof. intros H. unfold usage_desc. rewrite H. reflexivity. Qed.

Lemma positional_head a : is_option a = false -> exists x r, describe a = x :: r /\ x <> c_dash.
Proof.
  intros H. unfold describe. rewrite H. destruct (is_required a).
  - exists "<"%byte. eexists. split; [reflexivity|discriminate].
  - exists "["%byte. eexists. split; [reflexivity|discriminate].
Qed.
Lemma value_part_head a : value_part a = [] \/ exists x r, value_part a = x :: r /\ x <> ","%byte /\ x <> c_dash.
Proof.
  unfold value_part. destruct (shape_a a); [left; reflexivity| | | | | ]; right;
    try destruct (needs_equals a); do 2 eexists; (split; [reflexivity|split; discriminate]).
Qed.
Lemma short_facts a c : arg_facts a -> short_name a = Some c -> is_scalar c = true /\ c <> 45%N /\ is_option a = true.
Proof.
  intros Ha Hc. assert (Ho : is_option a = true).
  { unfold short_name in Hc. unfold is_option. destruct (am_long (sa_meta a)), (am_short (sa_meta a)); try reflexivity.
    discriminate. }
  destruct (ar_named a Ha Ho) as (_ & _ & Hne). apply names_facts_of in Hne. destruct Hne as [_ Hs].
  destruct (Hs c) as (H1 & H2 & H3 & H4 & H5); [apply in_short_names; right; exact Hc|].
  split; [exact H5|]. split; [|exact Ho]. intros ->. congruence.
Qed.

Lemma encode_big c : (128 <= c)%N -> is_scalar c = true -> exists x y r, utf8_encode c = x :: y :: r /\ y <> ","%byte /\ x <> c_dash.
Proof.
  intros Hc Hs.
  assert (Hn : forall b, (b2n b < 128)%N -> ~ In b (utf8_encode c)).
  { intros b Hb Hi. eapply utf8_encode_not_ascii in Hi; eauto. lia. }
  destruct (utf8_encode c) as [|x [|y r]] eqn:E.
  - exfalso. eapply utf8_encode_not_nil; eauto.
  - exfalso. assert (Hd : decode1 (utf8_encode c ++ []) = Some (c, [])) by (apply decode1_complete; exact Hs).
    rewrite E in Hd. cbn [app] in Hd. unfold utf8_encode in E.
    assert ((c <? 128)%N = false) as E1 by (apply N.ltb_ge; exact Hc). rewrite E1 in E.
    destruct (c <? 2048)%N; [discriminate|]. destruct (c <? 65536)%N; discriminate.
  - exists x, y, r. split; [reflexivity|]. split.
    + intros ->. apply (Hn ","%byte); [reflexivity|]. right. left. reflexivity.
    + intros ->. apply (Hn c_dash); [reflexivity|]. left. reflexivity.
Qed.

Lemma usage_desc_spec a : arg_facts a -> usage_desc (describe a) = usage_form a.
Proof.
  intros Ha. unfold usage_form. destruct (is_option a) eqn:Ho.
  2:{ destruct (positional_head a Ho) as (x & r & -> & Hx). apply usage_desc_not_dash. exact Hx. }
  unfold describe. rewrite Ho. destruct (short_name a) as [c|] eqn:Ec.
  - destruct (short_facts a c Ha Ec) as (Hsc & Hd & _).
    destruct (c <? 128)%N eqn:Elt.
    + apply N.ltb_lt in Elt. rewrite (utf8_encode_ascii c Elt).
      destruct (long_name a) as [l|].
      * assert (Eb : Byte.eqb (n2b c) c_dash = false).
        { apply byte_eqb_neq. intros E. apply Hd. rewrite <- (b2n_n2b c) by lia. rewrite E. reflexivity. }
        apply (usage_desc_cut (n2b c) (bs "--" ++ l ++ value_part a) Eb).
      * cbn [app bs]. apply usage_desc_keep. destruct (value_part_head a) as [->|(x & r & -> & Hx & _)].
        -- right. discriminate.
        -- right. cbn. congruence.
    + apply N.ltb_ge in Elt. destruct (encode_big c Elt Hsc) as (x & y & r & -> & Hy & Hx).
      destruct (long_name a) as [l|]; cbn [app bs]; apply usage_desc_keep; right; cbn; congruence.
  - destruct (long_name a) as [l|]; cbn [app bs].
    + apply usage_desc_keep. left. reflexivity.
    + destruct (value_part_head a) as [->|(x & r & -> & _ & Hx)]; [reflexivity|]. apply usage_desc_not_dash. exact Hx.
Qed.

Lemma long_head a : arg_facts a -> starts_with (bs "--") (describe a)
  = if is_option a then match short_name a with None => true | Some _ => false end else false.
Proof.
  intros Ha. destruct (is_option a) eqn:Ho.
  2:{ destruct (positional_head a Ho) as (x & r & -> & Hx). apply starts_with_false. intros r' E.
      injection E as E _. contradiction. }
  unfold describe. rewrite Ho. destruct (short_name a) as [c|] eqn:Ec.
  - destruct (short_facts a c Ha Ec) as (Hsc & Hd & _). apply starts_with_false. intros r E.
    assert (E' : exists r', utf8_encode c ++ r' = utf8_encode 45 ++ r).
    { destruct (long_name a); cbn [app bs] in E; injection E as E; rewrite <- ?app_assoc in E; eexists; exact E. }
    destruct E' as [r' E']. apply utf8_encode_prefix in E'; [|exact Hsc|reflexivity]. destruct E' as [E' _]. contradiction.
  - destruct (long_name a) as [l|] eqn:El.
    + apply starts_with_true. eexists. rewrite <- app_assoc. reflexivity.
    + exfalso. unfold is_option in Ho. unfold short_name, long_name in *.
      destruct (am_short (sa_meta a)) as [[|c]|] eqn:Es.
      * pose proof (ar_ident a Ha) as Hi. destruct (sa_id a); [discriminate|discriminate].
      * discriminate.
      * destruct (am_long (sa_meta a)) as [[|l]|]; discriminate.
Qed.

Lemma final_attrs d i a : fi_attrs (final_field d i a) = arg_attrs i a.
Proof. reflexivity. Qed.

Lemma usage_for_spec d i a : accepted d -> nth_error (checked d) i = Some a -> usage_for (final_field d i a) = usage_of a.
Proof.
  intros Hd Hi. pose proof (accepted_checked d i a Hd Hi) as Ha. unfold usage_for, usage_of.
  rewrite (final_attrs d i a), (final_required d i a Ha), (final_description d i a), (description_spec a Ha),
    (usage_desc_spec a Ha).
  destruct (is_option a) eqn:Ho.
  - rewrite (flag_opt_LAST d i a Hd Hi Ho), (flag_opt_VAR_ARG d i a Hd Hi Ho), !orb_false_r.
    cbn [andb app]. rewrite app_nil_r. reflexivity.
  - rewrite (flag_LAST d i a Hd Hi Ho), (flag_VAR_ARG d i a Hd Hi Ho).
    assert (E : usage_form a = describe a) by (unfold usage_form; rewrite Ho; reflexivity). rewrite E.
    destruct (is_last a).
    + rewrite !orb_true_r. destruct (is_required a); cbn [andb negb app bs]; [rewrite app_nil_r; reflexivity|].
      reflexivity.
    + rewrite !orb_false_r. cbn [andb app]. rewrite app_nil_r. reflexivity.
Qed.

Lemma final_doc d i a : fi_doc (final_field d i a) = doc_process (am_doc (sa_meta a)).
Proof. unfold final_field, resolve_field, with_index. rewrite field_of_spec. reflexivity. Qed.
Lemma final_hide d i a : fi_hide (final_field d i a) = negb (shown a).
Proof. unfold shown. rewrite negb_involutive. unfold final_field, resolve_field, with_index. rewrite field_of_spec. reflexivity. Qed.

Lemma help_for_spec d i a : accepted d -> nth_error (checked d) i = Some a -> help_for (final_field d i a) = entry a.
Proof.
  intros Hd Hi. pose proof (accepted_checked d i a Hd Hi) as Ha. unfold help_for, entry.
  rewrite (final_description d i a), (description_spec a Ha), (long_head a Ha), (final_doc d i a), (final_default d i a).
  f_equal. f_equal; [destruct (is_option a), (short_name a); reflexivity|]. do 3 f_equal. f_equal.
  pose proof (dflt_of_spec a Ha) as Hdf. destruct (default_of a) as [|t|v].
  - destruct Hdf as (-> & _ & ->). reflexivity.
  - destruct Hdf as (-> & _ & ->). reflexivity.
  - destruct Hdf as (t & -> & _ & -> & _). reflexivity.
Qed.

(** *** A struct *)

Lemma fields_from_app d k l m : fields_from d k (l ++ m) = fields_from d k l ++ fields_from d (k + length l) m.
Proof.
  revert k. induction l as [|a l IH]; intros k; cbn [app fields_from length]; [rewrite Nat.add_0_r; reflexivity|].
  rewrite IH. do 2 f_equal. f_equal. lia.
Qed.
Lemma fields_from_length d k l : length (fields_from d k l) = length l.
Proof. revert k. induction l as [|a l IH]; intros k; [reflexivity|]. cbn. rewrite IH. reflexivity. Qed.

Lemma firstn_named d : firstn (named_cnt_of d) (direct_of d) = fields_from d 0 (opts (own_args d)).
Proof.
  rewrite direct_fields, checked_split, fields_from_app. unfold named_cnt_of.
  rewrite <- (fields_from_length d 0 (opts (own_args d))). rewrite firstn_app, firstn_all, Nat.sub_diag. cbn [firstn].
  apply app_nil_r.
Qed.
Lemma skipn_named d : skipn (named_cnt_of d) (direct_of d) = fields_from d (named_cnt_of d) (positionals d).
Proof.
  rewrite direct_fields, checked_split, fields_from_app. unfold named_cnt_of.
  rewrite <- (fields_from_length d 0 (opts (own_args d))) at 1. rewrite skipn_app, skipn_all, Nat.sub_diag. reflexivity.
Qed.

Lemma visible_spec (f : field_info V -> bytes) (g : sarg -> bytes) d k l :
  (forall i a, nth_error l i = Some a -> f (final_field d (k + i) a) = g a) ->
  flat_map f (visible (fields_from d k l)) = flat_map g (filter shown l).
Proof.
  revert k. induction l as [|a l IH]; intros k H; [reflexivity|]. cbn [fields_from visible filter].
  rewrite final_hide, negb_involutive.
  assert (IH' : flat_map f (visible (fields_from d (S k) l)) = flat_map g (filter shown l)).
  { apply IH. intros i b Hb. replace (S k + i) with (k + S i) by lia. apply H. exact Hb. }
  destruct (shown a).
  - cbn [map concat flat_map]. fold (visible (fields_from d (S k) l)). rewrite IH'. f_equal.
    specialize (H 0 a eq_refl). rewrite Nat.add_0_r in H. exact H.
  - exact IH'.
Qed.
Lemma optional_spec d k l : (forall i a, nth_error l i = Some a -> arg_facts a) ->
  existsb (fun f => negb (fi_required f) && negb (fi_hide f)) (fields_from d k l)
  = existsb (fun a => negb (is_required a)) (filter shown l).
Proof.
  revert k. induction l as [|a l IH]; intros k H; [reflexivity|]. cbn [fields_from existsb filter].
  rewrite final_hide, negb_involutive, (final_required d k a) by exact (H 0 a eq_refl).
  rewrite IH by (intros i b Hb; exact (H (S i) b Hb)).
  destruct (shown a); [rewrite andb_true_r; reflexivity|]. rewrite andb_false_r. reflexivity.
Qed.

Definition all_args d : list sarg := map snd (reach d).
Lemma all_args_eq d : all_args d = own_args d ++ flat_map (fun fa => all_args (snd fa)) (flattened d).
Proof.
  unfold all_args. rewrite reach_eq, map_app, map_map, map_flat_map. f_equal.
  - rewrite <- (map_id (own_args d)) at 2. reflexivity.
  - apply flat_map_ext_in. intros fa _. rewrite map_map. reflexivity.
Qed.
Definition shown_opts d : list sarg := filter is_option (filter shown (all_args d)).
Lemma filter_comm {A} (p q : A -> bool) l : filter p (filter q l) = filter q (filter p l).
Proof.
  induction l as [|x l IH]; [reflexivity|]. cbn [filter].
  destruct (p x) eqn:Ep, (q x) eqn:Eq; cbn [filter]; rewrite ?Ep, ?Eq, IH; reflexivity.
Qed.
Lemma filter_flat_map {A B} (p : B -> bool) (f : A -> list B) l : filter p (flat_map f l) = flat_map (fun x => filter p (f x)) l.
Proof. induction l as [|x l IH]; [reflexivity|]. cbn [flat_map]. rewrite filter_app, IH. reflexivity. Qed.
Lemma shown_opts_eq d :
  shown_opts d = filter shown (opts (own_args d)) ++ flat_map (fun fa => shown_opts (snd fa)) (flattened d).
Proof.
  unfold shown_opts. rewrite all_args_eq, !filter_app, !filter_flat_map. f_equal.
  unfold opts. apply filter_comm.
Qed.

Lemma fold_orb {A} (f : A -> bool) l b : fold_left (fun acc x => acc || f x) l b = b || existsb f l.
Proof.
  revert b. induction l as [|x l IH]; intros b; cbn [fold_left existsb]; [rewrite orb_false_r; reflexivity|].
  rewrite IH, orb_assoc. reflexivity.
Qed.
Lemma existsb_flat_map {A B} (p : B -> bool) (f : A -> list B) l : existsb p (flat_map f l) = existsb (fun x => existsb p (f x)) l.
Proof. induction l as [|x l IH]; [reflexivity|]. cbn [flat_map existsb]. rewrite existsb_app, IH. reflexivity. Qed.
Lemma existsb_ext_in {A} (p q : A -> bool) l : (forall x, In x l -> p x = q x) -> existsb p l = existsb q l.
Proof.
  induction l as [|x l IH]; intros H; [reflexivity|]. cbn [existsb]. rewrite (H x) by (left; reflexivity). f_equal.
  apply IH. intros y Hy. apply H. right. exact Hy.
Qed.

Lemma existsb_map {A B} (p : B -> bool) (f : A -> B) l : existsb p (map f l) = existsb (fun x => p (f x)) l.
Proof. induction l as [|x l IH]; [reflexivity|]. cbn. rewrite IH. reflexivity. Qed.

Lemma help_eq d p : accepted d ->
  ri_help (info_of (impl d)) p
  = args_help (direct_of d) (named_cnt_of d) (map (fun fa => ri_help (info_of (impl (snd fa)))) (flattened d))
      (cmd_meta_of (attrs_of d)) p.
Proof.
  intros Hd. rewrite (accepted_impl d Hd) at 1. cbn [info_of ri_help info_new].
  rewrite !map_map. reflexivity.
Qed.
Lemma optional_eq d : accepted d ->
  ri_has_optional_named (info_of (impl d))
  = existsb (fun f => negb (fi_required f) && negb (fi_hide f)) (firstn (named_cnt_of d) (direct_of d))
    || existsb (fun fa => ri_has_optional_named (info_of (impl (snd fa)))) (flattened d).
Proof.
  intros Hd. rewrite (accepted_impl d Hd) at 1. cbn [info_of ri_has_optional_named info_new].
  rewrite fold_orb, !existsb_map. reflexivity.
Qed.

Lemma opts_nth d i a : nth_error (opts (own_args d)) i = Some a -> nth_error (checked d) i = Some a.
Proof. intros H. rewrite checked_split, nth_error_app1; [exact H|]. apply nth_error_Some. congruence. Qed.

Lemma help_struct d : accepted d ->
  ri_help (info_of (impl d)) 0 = flat_map usage_of (shown_opts d) /\
  ri_help (info_of (impl d)) 1 = flat_map usage_of (filter shown (positionals d)) /\
  ri_help (info_of (impl d)) 2 = flat_map entry (shown_opts d) /\
  ri_help (info_of (impl d)) 3 = flat_map entry (filter shown (positionals d)) /\
  ri_has_optional_named (info_of (impl d)) = existsb (fun a => negb (is_required a)) (shown_opts d).
Proof.
  induction d as [d IH _] using decl_induction. intros Hd.
  rewrite !help_eq, optional_eq by exact Hd. unfold args_help. rewrite firstn_named, skipn_named.
  assert (IHf : forall fa, In fa (flattened d) -> accepted (snd fa) /\ positionals (snd fa) = [] /\
    ri_help (info_of (impl (snd fa))) 0 = flat_map usage_of (shown_opts (snd fa)) /\
    ri_help (info_of (impl (snd fa))) 1 = flat_map usage_of (filter shown (positionals (snd fa))) /\
    ri_help (info_of (impl (snd fa))) 2 = flat_map entry (shown_opts (snd fa)) /\
    ri_help (info_of (impl (snd fa))) 3 = flat_map entry (filter shown (positionals (snd fa))) /\
    ri_has_optional_named (info_of (impl (snd fa))) = existsb (fun a => negb (is_required a)) (shown_opts (snd fa))).
  { intros [id x] Hx. destruct (accepted_flat d id x Hd Hx) as (Hax & Hp & _). split; [exact Hax|]. split; [exact Hp|].
    apply (IH id x); [apply in_flattened; exact Hx|exact Hax]. }
  rewrite shown_opts_eq, !flat_map_app, existsb_app, !flat_map_flat_map, existsb_flat_map, !map_map, <- !flat_map_concat_map.
  assert (Ho : forall i a, nth_error (opts (own_args d)) i = Some a -> nth_error (checked d) (0 + i) = Some a)
    by (intros i a Ha; apply opts_nth; exact Ha).
  assert (Hp : forall i a, nth_error (positionals d) i = Some a -> nth_error (checked d) (named_cnt_of d + i) = Some a)
    by (intros i a Ha; rewrite checked_pos; exact Ha).
  assert (Hz : forall g, (forall fa, In fa (flattened d) -> g fa = []) -> flat_map g (flattened d) = ([] : bytes)).
  { intros g Hg. rewrite (flat_map_ext_in g (fun _ => [])) by exact Hg. clear. induction (flattened d); [reflexivity|assumption]. }
  split; [|split; [|split; [|split]]].
  - rewrite (visible_spec usage_for usage_of d 0 (opts (own_args d))).
    + f_equal. apply flat_map_ext_in. intros fa Hfa. apply (IHf fa Hfa).
    + intros i a Ha. apply usage_for_spec; [exact Hd|exact (Ho i a Ha)].
  - rewrite (visible_spec usage_for usage_of d (named_cnt_of d) (positionals d)).
    + rewrite Hz; [apply app_nil_r|]. intros fa Hfa. destruct (IHf fa Hfa) as (_ & Ep & _ & -> & _). rewrite Ep. reflexivity.
    + intros i a Ha. apply usage_for_spec; [exact Hd|exact (Hp i a Ha)].
  - rewrite (visible_spec help_for entry d 0 (opts (own_args d))).
    + f_equal. apply flat_map_ext_in. intros fa Hfa. apply (IHf fa Hfa).
    + intros i a Ha. apply help_for_spec; [exact Hd|exact (Ho i a Ha)].
  - rewrite (visible_spec help_for entry d (named_cnt_of d) (positionals d)).
    + rewrite Hz; [apply app_nil_r|]. intros fa Hfa. destruct (IHf fa Hfa) as (_ & Ep & _ & _ & _ & -> & _). rewrite Ep. reflexivity.
    + intros i a Ha. apply help_for_spec; [exact Hd|exact (Hp i a Ha)].
  - rewrite optional_spec by (intros i a Ha; eapply accepted_checked; [exact Hd|exact (Ho i a Ha)]).
    f_equal. apply existsb_ext_in. intros fa Hfa. apply (IHf fa Hfa).
Qed.

Lemma help_about d : accepted d ->
  ri_help (info_of (impl d)) 4 = about (attrs_of d) /\ ri_help (info_of (impl d)) 5 = after_help (attrs_of d).
Proof.
  intros Hd. rewrite !help_eq by exact Hd. unfold args_help, meta_help, about, after_help.
  split; destruct (cmd_meta_of (attrs_of d)); reflexivity.
Qed.

(** *** The list of commands *)

Lemma kebab_no_nul i : ~ In c_nul (kebab_case i).
Proof. intros H. apply kebab_chars in H. discriminate. Qed.

Lemma variant_help d id o vs v : accepted d -> subcommand d = Some (id, o, vs) -> In v vs ->
  ri_help (variant_info (snd (variant_impl v))) 4 = variant_about v.
Proof.
  intros Hd Hs Hv. pose proof (accepted_variant d id o vs v Hd Hs Hv) as Ha. unfold variant_about.
  destruct v as [w [at_|at_ x|x]]; cbn [variant_impl snd variant_scope sc_decl attrs_of] in *.
  - cbn. unfold about. destruct (cmd_meta_of at_); reflexivity.
  - apply (help_about x Ha).
  - apply (help_about x Ha).
Qed.

Lemma help_pad_repeat n : firstn n help_pad = repeat " "%byte (Nat.min 24 n).
Proof.
  do 25 (destruct n as [|n]; [reflexivity|]). rewrite firstn_all2 by (cbn; lia). rewrite Nat.min_l by lia. reflexivity.
Qed.

Lemma command_line_spec width v h : h 4 = variant_about v ->
  help_command_line width (sub_name v) h = command_line (V:=V) width v.
Proof.
  intros Hh. unfold help_command_line, command_line. rewrite Hh, help_pad_repeat. f_equal. f_equal.
  set (n := Nat.min 24 (width - length (sub_name v) + 2)).
  assert (Hn : exists k, n = S k) by (exists (pred n); lia). destruct Hn as [k Hk].
  assert (E : forall t, match repeat " "%byte n ++ t with
      | [] => []
      | _ => match split_once c_nl (repeat " "%byte n ++ t) with Some (lhs, _) => lhs | None => repeat " "%byte n ++ t end
      end = repeat " "%byte n ++ first_line t).
  { intros t. rewrite Hk at 1. cbn [repeat app]. unfold first_line.
    assert (Hsp : ~ In c_nl (repeat " "%byte n)) by (intros H; apply repeat_spec in H; discriminate).
    destruct (split_once c_nl t) as [[l r]|] eqn:Es.
    - apply split_once_Some in Es. destruct Es as [-> Hl].
      rewrite app_assoc, split_once_app; [reflexivity|]. rewrite in_app_iff. tauto.
    - apply split_once_None in Es.
      assert (En : split_once c_nl (repeat " "%byte n ++ t) = None) by (apply split_once_None; rewrite in_app_iff; tauto).
      rewrite En. reflexivity. }
  rewrite (E (variant_about v)), <- app_assoc. reflexivity.
Qed.

Lemma subcommands_spec d : accepted d ->
  subcommands_with_help (info_of (impl d)) =
  match subcommand d with
  | Some (_, _, vs) => Some (map (fun v => (sub_name v, ri_help (variant_info (snd (variant_impl v))))) vs)
  | None => None
  end.
Proof.
  intros Hd. unfold subcommands_with_help. rewrite (subcmd_info d Hd).
  destruct (subcommand d) as [[[id o] vs]|]; [|reflexivity]. f_equal.
  rewrite compile_sub_eq. cbn [fst sub_info_of rs_names rs_variant_helps]. rewrite !map_map.
  assert (E : concat (map (fun x => variant_name (variant_impl x) ++ [c_nul]) vs)
              = concat (map (fun w => w ++ [c_nul]) (map (sub_name (V:=V)) vs))) by (rewrite map_map; reflexivity).
  rewrite E, split_terminator_concat.
  - clear. induction vs as [|v vs IH]; [reflexivity|]. cbn [map combine]. rewrite IH. f_equal.
  - intros w Hw. apply in_map_iff in Hw. destruct Hw as (v & <- & _). apply kebab_no_nul.
Qed.

Lemma section_eq t b : help_section t b = section t b.
Proof. reflexivity. Qed.

Definition same_help (i j : raw_args_info) : Prop :=
  ri_subcmd_info i = ri_subcmd_info j /\ ri_is_subcmd_optional i = ri_is_subcmd_optional j /\
  ri_has_optional_named i = ri_has_optional_named j /\ forall p, ri_help i p = ri_help j p.
Lemma render_ext i j prefix : same_help i j -> render_help_text i prefix = render_help_text j prefix.
Proof.
  intros (H1 & H2 & H3 & H4). unfold render_help_text, subcommands_with_help. rewrite H1, H2, H3, !H4. reflexivity.
Qed.

Theorem help_text_spec argv0 s outer : accepted (sc_decl s) -> unit_scope_ok s ->
  code_help (to_string_lossy (program_name argv0)) (s :: outer) = help_text argv0 (s :: outer).
Proof.
  intros Hd Hu. unfold code_help.
  assert (E : same_help (scope_info s) (info_of (impl (sc_decl s)))).
  { unfold scope_info. destruct (sc_unit s) eqn:Eu.
    - specialize (Hu Eu). destruct (sc_decl s) as [at_ fs]. cbn [fields_of] in Hu. subst fs.
      destruct (unit_info_eq (V:=V) at_) as (_ & _ & _ & H4 & H5 & H6 & H7). unfold same_help. auto.
    - unfold same_help. auto. }
  rewrite (render_ext _ _ _ E). clear E.
  destruct (help_struct _ Hd) as (H0 & H1 & H2 & H3 & Hopt). destruct (help_about _ Hd) as (H4 & H5).
  unfold render_help_text, help_text. fold (all_args (sc_decl s)). fold (shown_opts (sc_decl s)).
  rewrite H0, H1, H2, H3, H4, H5, Hopt, (subcommands_spec _ Hd), (prefix_of_names _ (s :: outer)), program_name_spec by discriminate.
  assert (Esub : ri_is_subcmd_optional (info_of (impl (sc_decl s)))
                 = match subcommand (sc_decl s) with Some (_, o, _) => o | None => false end).
  { rewrite (accepted_impl _ Hd). cbn [info_of ri_is_subcmd_optional info_new].
    destruct (subcommand (sc_decl s)) as [[[? ?] ?]|]; reflexivity. }
  rewrite Esub. cbn zeta. rewrite !section_eq.
  destruct (subcommand (sc_decl s)) as [[[id o] vs]|] eqn:Es.
  - rewrite !map_map. cbn [fst].
    assert (E1 : forall width, concat (map (fun x => help_command_line width (sub_name x)
        (snd (sub_name x, ri_help (variant_info (snd (variant_impl x)))))) vs) = flat_map (command_line width) vs).
    { intros width. rewrite flat_map_concat_map. f_equal. apply map_ext_in. intros v Hv. apply command_line_spec.
      eapply variant_help; eauto. }
    rewrite E1. destruct o; reflexivity.
  - reflexivity.
Qed.
End HelpEq.
