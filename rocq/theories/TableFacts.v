(** Looking things up in the reflection data of an accepted declaration. *)
From Verif Require Import Bytes BytesFacts Utf8 Utf8Facts Attrs AttrFacts Refl Error Values SortFacts
  Places Heck Decl Spec Derive CompileFacts InfoFacts.
From Coq Require Import Permutation Sorted.

Section Tables.
Context {V : Type}.
Local Notation args_decl := (args_decl V).
Local Notation sarg := (sarg V).
Implicit Types (d : args_decl) (a : sarg).

Lemma nth_error_firstn {A} (n i : nat) (l : list A) :
  nth_error (firstn n l) i = if i <? n then nth_error l i else None.
Proof.
  revert i l. induction n as [|n IH]; intros i l; [destruct i; reflexivity|].
  destruct l as [|x l]; [rewrite firstn_nil; destruct i as [|i]; [reflexivity|]; destruct (S i <? S n); reflexivity|].
  destruct i as [|i]; [reflexivity|]. cbn [firstn nth_error]. rewrite IH. reflexivity.
Qed.
Lemma nth_error_skipn {A} (n i : nat) (l : list A) : nth_error (skipn n l) i = nth_error l (n + i).
Proof.
  revert l. induction n as [|n IH]; intros l; [reflexivity|].
  destruct l as [|x l]; [destruct i; reflexivity|]. apply IH.
Qed.

(** ** Parts of an accepted declaration are accepted *)

Lemma accepted_arg d a : accepted d -> In a (own_args d) -> arg_facts a.
Proof.
  intros Hd Ha. apply in_own_args in Ha.
  pose proof (ac_good d (accepted_facts_of d Hd) _ Ha) as Hg. unfold field_good in Hg. cbn [fst snd] in Hg.
  destruct a. apply arg_facts_of. exact Hg.
Qed.
Lemma accepted_checked d i a : accepted d -> nth_error (checked d) i = Some a -> arg_facts a.
Proof. intros Hd Hi. apply (accepted_arg d); [exact Hd|]. apply in_checked. eapply nth_error_In; eauto. Qed.

Lemma accepted_impl d : accepted d -> 
  impl d = MkArgs (direct_of d) (named_cnt_of d)
                  (map (fun fa => (fst fa, impl (snd fa))) (flattened d))
                  (option_map sub_impl_of (subcommand d)) (cmd_meta_of (attrs_of d)).
Proof. intros H. exact (ac_impl d (accepted_facts_of d H)). Qed.

Lemma checked_split d : checked d = opts (own_args d) ++ positionals d.
Proof. reflexivity. Qed.
Lemma checked_pos d j : nth_error (checked d) (named_cnt_of d + j) = nth_error (positionals d) j.
Proof.
  rewrite checked_split. unfold named_cnt_of.
  rewrite nth_error_app2 by lia. f_equal. lia.
Qed.
Lemma checked_opt d i : i < named_cnt_of d -> nth_error (checked d) i = nth_error (opts (own_args d)) i.
Proof. intros H. rewrite checked_split. apply nth_error_app1. exact H. Qed.

Lemma accepted_flat d id fd : accepted d -> In (id, fd) (flattened d) ->
  accepted fd /\ positionals fd = [] /\ subcommand fd = None.
Proof.
  intros Hd Hi. apply in_flattened in Hi.
  pose proof (ac_good d (accepted_facts_of d Hd) _ Hi) as Hg. unfold field_good in Hg. cbn [fst snd] in Hg.
  destruct Hg as (Ha & Hf & _). split; [exact Ha|]. unfold flatten_errs in Hf.
  change (fst (compile_args fd)) with (impl fd) in Hf. rewrite (accepted_impl fd Ha) in Hf.
  cbn [ai_direct ai_named_cnt ai_sub] in Hf. rewrite app_nil, !cerr_when_nil in Hf. destruct Hf as [H1 H2].
  split.
  - rewrite direct_length, checked_split, app_length in H1. apply negb_false_iff, Nat.leb_le in H1.
    unfold named_cnt_of in H1. destruct (positionals fd); [reflexivity|]. simpl in H1. lia.
  - destruct (subcommand fd); [discriminate|reflexivity].
Qed.

Lemma accepted_empty at_ : accepted (MkArgsDecl at_ [] : args_decl).
Proof. reflexivity. Qed.
Lemma accepted_variant d id o vs v : accepted d -> subcommand d = Some (id, o, vs) -> In v vs ->
  accepted (sc_decl (variant_scope v)).
Proof.
  intros Hd Hs Hv. apply subcommand_in in Hs.
  pose proof (ac_good d (accepted_facts_of d Hd) _ Hs) as Hg. unfold field_good in Hg. cbn [fst snd] in Hg.
  destruct Hg as [Hg _]. rewrite compile_sub_eq in Hg. cbn [snd] in Hg. apply app_nil in Hg.
  destruct Hg as [_ Hg]. rewrite concat_nil in Hg.
  assert (He : variant_errs v = []) by (apply Hg; apply in_map; exact Hv).
  unfold variant_errs in He. apply app_nil in He. destruct He as [_ He].
  unfold variant_scope. destruct (snd v) as [at_|at_ a|a]; cbn [sc_decl].
  - apply accepted_empty.
  - apply app_nil in He. tauto.
  - exact He.
Qed.

(** ** Descriptions *)

Definition no_nul (s : bytes) : Prop := ~ In c_nul s.
Lemma no_nul_app s t : no_nul s -> no_nul t -> no_nul (s ++ t).
Proof. unfold no_nul. intros H1 H2. rewrite in_app_iff. tauto. Qed.
Lemma no_nul_nil : no_nul [].
Proof. intros []. Qed.
Lemma no_nul_dec s : existsb (Byte.eqb c_nul) s = false -> no_nul s.
Proof.
  intros H Hi. rewrite existsb_false in H. specialize (H _ Hi). rewrite byte_eqb_refl in H. discriminate.
Qed.
Lemma no_nul_control s : existsb is_ascii_control s = false -> no_nul s.
Proof. intros H Hi. rewrite existsb_false in H. specialize (H _ Hi). discriminate. Qed.
Lemma no_nul_encode c : is_scalar c = true -> c <> 0%N -> no_nul (utf8_encode c).
Proof.
  intros Hs Hc Hi. destruct (N.lt_ge_cases c 128) as [H|H].
  - rewrite utf8_encode_ascii in Hi by exact H. destruct Hi as [Hi|[]].
    apply (f_equal b2n) in Hi. rewrite b2n_n2b in Hi by lia. apply Hc. exact Hi.
  - apply (utf8_encode_not_ascii c) in Hi; [|assumption..]. cbv in Hi. contradiction.
Qed.

Lemma describe_no_nul a : arg_facts a -> no_nul (describe a).
Proof.
  intros Ha. pose proof (no_nul_control _ (ar_value_name a Ha)) as Hv.
  unfold describe. destruct (is_option a) eqn:Ho.
  - destruct (ar_named a Ha Ho) as (_ & _ & Hne). apply names_facts_of in Hne. destruct Hne as [Hl Hs].
    assert (HL : forall l, long_name a = Some l -> no_nul l).
    { intros l E Hi. destruct (Hl l) as (_ & _ & _ & Hb); [apply in_long_names; auto|].
      destruct (Hb _ Hi) as [_ Hc]. discriminate. }
    assert (HS : forall c, short_name a = Some c -> no_nul (utf8_encode c)).
    { intros c E. destruct (Hs c) as (_ & _ & Hc & _ & Hsc); [apply in_short_names; auto|].
      apply no_nul_encode; [exact Hsc|]. intros ->. lia. }
    apply no_nul_app.
    + destruct (short_name a) as [c|], (long_name a) as [l|];
        repeat apply no_nul_app; auto; apply no_nul_dec; reflexivity.
    + unfold value_part. destruct (shape_a a), (needs_equals a);
        repeat apply no_nul_app; auto; apply no_nul_dec; reflexivity.
  - destruct (is_required a), (many a);
      repeat apply no_nul_app; auto; apply no_nul_dec; reflexivity.
Qed.

Lemma get_description_concat ds i :
  (forall x, In x ds -> no_nul x) ->
  get_description_from (concat (map (fun x => x ++ [c_nul]) ds)) i = nth_error ds i.
Proof.
  revert i. induction ds as [|x ds IH]; intros i H; cbn [map concat].
  - destruct i; reflexivity.
  - rewrite <- app_assoc. cbn [app].
    destruct i; cbn [get_description_from]; rewrite split_once_app by (apply H; left; reflexivity);
      [reflexivity|]. apply IH. intros y Hy. apply H. right. exact Hy.
Qed.

Lemma final_description d i a : fi_description (final_field d i a) = fi_description (field_of a).
Proof. reflexivity. Qed.

Lemma map_nth_ext {A B C} (f : A -> C) (g : B -> C) (l : list A) (m : list B) :
  (forall i, option_map f (nth_error l i) = option_map g (nth_error m i)) -> map f l = map g m.
Proof.
  revert m. induction l as [|x l IH]; intros [|y m] H.
  - reflexivity.
  - specialize (H 0). discriminate.
  - specialize (H 0). discriminate.
  - simpl. f_equal; [specialize (H 0); simpl in H; congruence|]. apply IH. intros i. exact (H (S i)).
Qed.

Lemma direct_descriptions d : accepted d -> map fi_description (direct_of d) = map describe (checked d).
Proof.
  intros Hd. apply map_nth_ext. intros i. rewrite direct_nth.
  destruct (nth_error (checked d) i) as [a|] eqn:E; [|reflexivity]. cbn [option_map]. f_equal.
  rewrite final_description. apply description_spec. eapply accepted_checked; eauto.
Qed.

Lemma get_description_spec d i a : accepted d -> nth_error (checked d) i = Some a ->
  get_description (info_of (impl d)) (N.of_nat i) = Some (describe a).
Proof.
  intros Hd Hi. rewrite (accepted_impl d Hd). unfold get_description. cbn [info_of ri_descriptions info_new].
  unfold descriptions_of. rewrite Nnat.Nat2N.id.
  rewrite <- (map_map fi_description (fun x => x ++ [c_nul])), (direct_descriptions d Hd).
  rewrite get_description_concat.
  - rewrite nth_error_map, Hi. reflexivity.
  - intros x Hx. apply in_map_iff in Hx. destruct Hx as (b & <- & Hb). apply describe_no_nul.
    apply (accepted_arg d); [exact Hd|]. apply in_checked. exact Hb.
Qed.

(** ** Options by name *)

Lemma named_entries d :
  accepted d -> forall n at_,
  In (n, at_) (concat (map (fun f => map (fun n => (n, fi_attrs f)) (fi_enc_names f))
                           (firstn (named_cnt_of d) (direct_of d)))) <->
  exists i a, nth_error (checked d) i = Some a /\ is_option a = true /\ In n (enc_names a) /\ at_ = arg_attrs i a.
Proof.
  intros Hd n at_. rewrite in_concat. split.
  - intros (l & Hl & Hn). apply in_map_iff in Hl. destruct Hl as (f & <- & Hf).
    apply in_map_iff in Hn. destruct Hn as (n' & E & Hn). injection E as -> <-.
    apply In_nth_error in Hf. destruct Hf as [i Hf].
    assert (Hi : i < named_cnt_of d).
    { assert (H : i < length (firstn (named_cnt_of d) (direct_of d))) by (apply nth_error_Some; congruence).
      pose proof (firstn_le_length (named_cnt_of d) (direct_of d)). rewrite firstn_length in H. lia. }
    rewrite nth_error_firstn in Hf.
    replace (i <? named_cnt_of d) with true in Hf by (symmetry; apply Nat.ltb_lt; exact Hi).
    rewrite direct_nth in Hf. destruct (nth_error (checked d) i) as [a|] eqn:E; [|discriminate].
    injection Hf as <-. exists i, a. split; [exact E|].
    assert (Ho : is_option a = true).
    { rewrite checked_opt in E by exact Hi. apply nth_error_In in E. apply filter_In in E. tauto. }
    split; [exact Ho|]. change (fi_enc_names (final_field d i a)) with (fi_enc_names (field_of a)) in Hn.
    rewrite field_of_spec in Hn. cbn [fi_enc_names] in Hn. rewrite Ho in Hn. split; [exact Hn|reflexivity].
  - intros (i & a & Hi & Ho & Hn & ->).
    assert (Hlt : i < named_cnt_of d).
    { destruct (Nat.lt_ge_cases i (named_cnt_of d)) as [H|H]; [exact H|]. exfalso.
      replace i with (named_cnt_of d + (i - named_cnt_of d)) in Hi by lia. rewrite checked_pos in Hi.
      apply nth_error_In in Hi. unfold positionals in Hi. apply in_app_iff in Hi. rewrite !filter_In in Hi.
      rewrite Ho in Hi. simpl in Hi. destruct Hi as [[[_ Hi] _]|[[_ Hi] _]]; discriminate. }
    exists (map (fun n => (n, arg_attrs i a)) (enc_names a)). split.
    + apply in_map_iff. exists (final_field d i a). split.
      * change (fi_attrs (final_field d i a)) with (arg_attrs i a). f_equal.
        change (fi_enc_names (final_field d i a)) with (fi_enc_names (field_of a)).
        rewrite field_of_spec. cbn [fi_enc_names]. rewrite Ho. reflexivity.
      * apply nth_error_In with (n := i). rewrite nth_error_firstn.
        replace (i <? named_cnt_of d) with true by (symmetry; apply Nat.ltb_lt; exact Hlt).
        rewrite direct_nth, Hi. reflexivity.
    + apply in_map_iff. exists n. auto.
Qed.

Lemma NoDup_concat_unique {A B} (f : A -> list B) (l : list A) i j (a b : A) (x : B) :
  NoDup (concat (map f l)) -> nth_error l i = Some a -> nth_error l j = Some b ->
  In x (f a) -> In x (f b) -> i = j.
Proof.
  assert (G : forall (m1 m2 : list B) y, NoDup (m1 ++ m2) -> In y m1 -> ~ In y m2).
  { induction m1 as [|z m1 IH]; intros m2 y Hn Hy; [contradiction|]. inversion Hn; subst.
    destruct Hy as [<-|Hy]; [rewrite in_app_iff in *; tauto|]. apply IH; assumption. }
  assert (G2 : forall (m1 m2 : list B), NoDup (m1 ++ m2) -> NoDup m2).
  { induction m1 as [|z m1 IH]; intros m2 Hn; [exact Hn|]. inversion Hn; subst. auto. }
  revert i j. induction l as [|c l IH]; intros i j Hn Hi Hj Hx Hy; [destruct i; discriminate|].
  cbn [map concat] in Hn. destruct i as [|i], j as [|j]; simpl in Hi, Hj.
  - reflexivity.
  - exfalso. injection Hi as ->. apply (G _ _ x Hn Hx). apply in_concat. exists (f b).
    split; [apply in_map; eapply nth_error_In; eauto|exact Hy].
  - exfalso. injection Hj as ->. apply (G _ _ x Hn Hy). apply in_concat. exists (f a).
    split; [apply in_map; eapply nth_error_In; eauto|exact Hx].
  - f_equal. apply (IH i j); auto. eapply G2; eauto.
Qed.

Lemma enc_name_unique d i j a b n :
  accepted d -> nth_error (checked d) i = Some a -> nth_error (checked d) j = Some b ->
  is_option a = true -> is_option b = true -> In n (enc_names a) -> In n (enc_names b) -> i = j.
Proof.
  intros Hd Hi Hj Ha Hb Hna Hnb.
  assert (G : forall k c, nth_error (checked d) k = Some c -> is_option c = true ->
              nth_error (opts (own_args d)) k = Some c).
  { intros k c Hk Hc. rewrite <- checked_opt; [exact Hk|].
    destruct (Nat.lt_ge_cases k (named_cnt_of d)) as [H|H]; [exact H|]. exfalso.
    replace k with (named_cnt_of d + (k - named_cnt_of d)) in Hk by lia. rewrite checked_pos in Hk.
    apply nth_error_In in Hk. unfold positionals in Hk. apply in_app_iff in Hk. rewrite !filter_In in Hk.
    rewrite Hc in Hk. simpl in Hk. destruct Hk as [[[_ Hk] _]|[[_ Hk] _]]; discriminate. }
  pose proof (ac_names d (accepted_facts_of d Hd)) as Hn. unfold all_enc_names in Hn.
  eapply (NoDup_concat_unique enc_names (opts (own_args d))); eauto.
Qed.

Lemma get_named_entry d n at_ :
  accepted d ->
  get_named (info_of (impl d)) n = Some at_ <->
  exists i a, nth_error (checked d) i = Some a /\ is_option a = true /\ In n (enc_names a) /\ at_ = arg_attrs i a.
Proof.
  intros Hd. rewrite (accepted_impl d Hd). unfold get_named. cbn [info_of ri_named_attrs info_new].
  unfold named_map. set (tbl := concat _).
  assert (Ht : forall n at_, In (n, at_) tbl <-> exists i a, nth_error (checked d) i = Some a /\
    is_option a = true /\ In n (enc_names a) /\ at_ = arg_attrs i a) by exact (named_entries d Hd).
  rewrite <- Ht. clearbody tbl. split.
  - destruct (bsearch_key fst n (sort_by fst tbl)) as [k|] eqn:E; [|discriminate].
    apply bsearch_key_sound in E. destruct E as ([n' at'] & E & En). rewrite E. simpl in En |- *.
    intros H. injection H as ->. subst n'. apply nth_error_In in E. apply sort_by_In in E. exact E.
  - intros Hi.
    destruct (bsearch_key_complete fst n (sort_by fst tbl) (n, at_)) as [k Hk].
    + apply sort_by_sorted.
    + apply sort_by_In. exact Hi.
    + reflexivity.
    + rewrite Hk. apply bsearch_key_sound in Hk. destruct Hk as ([n' at'] & E & En). simpl in En. subst n'.
      rewrite E. simpl. f_equal. apply nth_error_In in E. apply (proj1 (sort_by_In _ _ _)) in E.
      apply Ht in E. apply Ht in Hi.
      destruct E as (i & a & Ei & Eo & En & ->). destruct Hi as (j & b & Hj & Ho & Hn & ->).
      assert (i = j) by (eapply enc_name_unique; eauto). subst j. congruence.
Qed.

Lemma find_In {A} (p : A -> bool) l x : find p l = Some x -> In x l /\ p x = true.
Proof. apply find_some. Qed.

Lemma get_named_spec d n :
  accepted d -> name_ok n ->
  match find (fun a => has_nameb a n) (own_args d) with
  | Some a => is_option a = true /\
      exists i, nth_error (checked d) i = Some a /\
                get_named (info_of (impl d)) (enc_of n) = Some (arg_attrs i a)
  | None => get_named (info_of (impl d)) (enc_of n) = None
  end.
Proof.
  intros Hd Hn. destruct (find (fun a => has_nameb a n) (own_args d)) as [a|] eqn:E.
  - apply find_some in E. destruct E as [Hi Hb].
    assert (Ho : is_option a = true).
    { destruct (is_option a) eqn:Ho; [reflexivity|]. rewrite has_name_positional in Hb by exact Ho. discriminate. }
    split; [exact Ho|].
    assert (Hc : In a (checked d)) by (apply in_checked; exact Hi).
    apply In_nth_error in Hc. destruct Hc as [i Hc]. exists i. split; [exact Hc|].
    apply get_named_entry; [exact Hd|]. exists i, a. split; [exact Hc|]. split; [exact Ho|].
    split; [|reflexivity]. apply has_name_enc; auto. eapply accepted_arg; eauto.
  - destruct (get_named (info_of (impl d)) (enc_of n)) as [at_|] eqn:G; [|reflexivity].
    apply get_named_entry in G; [|exact Hd]. destruct G as (i & a & Hi & Ho & Hen & _).
    assert (Ha : In a (own_args d)) by (apply in_checked; eapply nth_error_In; eauto).
    apply (find_none _ _ E) in Ha. simpl in Ha. apply (has_name_enc a n) in Hen.
    + congruence.
    + eapply accepted_checked; eauto.
    + exact Hn.
    + exact Ho.
Qed.

(** At most one option of a struct has a given name. *)
Lemma name_unique d i j a b n :
  accepted d -> name_ok n -> nth_error (checked d) i = Some a -> nth_error (checked d) j = Some b ->
  has_nameb a n = true -> has_nameb b n = true -> i = j.
Proof.
  intros Hd Hn Hi Hj Ha Hb.
  assert (Hoa : is_option a = true) by (destruct (is_option a) eqn:E; [reflexivity|rewrite has_name_positional in Ha by exact E; discriminate]).
  assert (Hob : is_option b = true) by (destruct (is_option b) eqn:E; [reflexivity|rewrite has_name_positional in Hb by exact E; discriminate]).
  eapply (enc_name_unique d i j a b (enc_of n)); eauto; apply has_name_enc; eauto; eapply accepted_checked; eauto.
Qed.

Lemma get_named_junk d n : accepted d -> utf8_valid n = false -> get_named (info_of (impl d)) n = None.
Proof.
  intros Hd Hn. destruct (get_named (info_of (impl d)) n) as [at_|] eqn:G; [|reflexivity].
  apply get_named_entry in G; [|exact Hd]. destruct G as (i & a & Hi & Ho & Hen & _).
  apply enc_names_utf8 in Hen; [congruence| |exact Ho]. eapply accepted_checked; eauto.
Qed.

(** ** Positionals *)

Lemma positional_attrs_nth d j : accepted d ->
  nth_error (ri_positional_attrs (info_of (impl d))) j
  = option_map (arg_attrs (named_cnt_of d + j)) (nth_error (positionals d) j).
Proof.
  intros Hd. rewrite (accepted_impl d Hd). cbn [info_of ri_positional_attrs info_new].
  rewrite nth_error_map, nth_error_skipn, direct_nth, checked_pos.
  destruct (nth_error (positionals d) j); reflexivity.
Qed.
Lemma positional_attrs_length d : accepted d ->
  length (ri_positional_attrs (info_of (impl d))) = length (positionals d).
Proof.
  intros Hd. rewrite (accepted_impl d Hd). cbn [info_of ri_positional_attrs info_new].
  rewrite map_length, skipn_length, direct_length, checked_split, app_length. unfold named_cnt_of. lia.
Qed.
Lemma positional_not_option d a : In a (positionals d) -> is_option a = false /\ In a (own_args d).
Proof.
  unfold positionals. rewrite in_app_iff, !filter_In. intros [[[H1 H2] _]|[[H1 H2] _]];
    (split; [destruct (is_option a); [discriminate|reflexivity]|exact H1]).
Qed.

(** ** Subcommands *)

Lemma subcmd_info d : accepted d ->
  ri_subcmd_info (info_of (impl d)) =
  match subcommand d with
  | Some (_, _, vs) => Some (sub_info_of (fst (compile_sub (MkSubDecl vs))))
  | None => None
  end.
Proof.
  intros Hd. rewrite (accepted_impl d Hd). cbn [info_of ri_subcmd_info info_new]. fold (sub_info_of (V:=V)).
  destruct (subcommand d) as [[[id o] vs]|]; reflexivity.
Qed.

(** The variant chosen by the generated code. *)
Definition code_choice (vs : list (ident * variant_decl V)) (tok : bytes)
  : option (ident * variant_decl V) :=
  match sub_search (sub_info_of (fst (compile_sub (MkSubDecl vs)))) tok with
  | Some (_, idx) => nth_error vs idx
  | None => None
  end.

Lemma name_map_entries vs n i :
  In (n, i) (name_map (map variant_impl vs)) <->
  exists v : ident * variant_decl V, nth_error vs i = Some v /\ sub_name v = n.
Proof.
  unfold name_map. rewrite sort_by_In.
  rewrite map_map, map_length. change (fun x => variant_name (variant_impl x)) with (@sub_name V).
  assert (G : forall off, In (n, i) (combine (map sub_name vs) (seq off (length vs))) <->
              off <= i /\ exists v, nth_error vs (i - off) = Some v /\ sub_name v = n).
  { induction vs as [|w vs IH]; intros off; simpl.
    - split; [contradiction|]. intros (_ & v & H & _). destruct (i - off); discriminate.
    - rewrite IH. split.
      + intros [E|(H & v & Hv & En)].
        * injection E as <- <-. split; [lia|]. exists w. rewrite Nat.sub_diag. auto.
        * split; [lia|]. exists v. replace (i - off) with (S (i - S off)) by lia. auto.
      + intros (H & v & Hv & En). destruct (Nat.eq_dec i off) as [->|Hne].
        * rewrite Nat.sub_diag in Hv. injection Hv as ->. subst n. left. reflexivity.
        * right. split; [lia|]. exists v. replace (i - off) with (S (i - S off)) in Hv by lia. auto. }
  rewrite G. rewrite Nat.sub_0_r. split; [tauto|]. intros H. split; [lia|exact H].
Qed.

Lemma sub_search_spec vs tok :
  match sub_search (sub_info_of (fst (compile_sub (V:=V) (MkSubDecl vs)))) tok with
  | Some (n, i) => n = tok /\ exists v, nth_error vs i = Some v /\ sub_name v = tok
  | None => forall v, In v vs -> sub_name v <> tok
  end.
Proof.
  rewrite compile_sub_eq. cbn [fst sub_info_of]. unfold sub_search. cbn [rs_map].
  set (l := name_map (map variant_impl vs)).
  destruct (bsearch_key fst tok l) as [k|] eqn:E.
  - apply bsearch_key_sound in E. destruct E as ([n i] & E & En). simpl in En. subst n. rewrite E.
    split; [reflexivity|]. apply nth_error_In in E. apply name_map_entries in E. exact E.
  - intros v Hv En. apply bsearch_key_None in E; [|apply sort_by_sorted]. apply E.
    apply In_nth_error in Hv. destruct Hv as [i Hv].
    apply in_map_iff. exists (tok, i). split; [reflexivity|]. apply name_map_entries. eauto.
Qed.

Lemma code_choice_sound vs tok v : code_choice vs tok = Some v -> In v vs /\ sub_name v = tok.
Proof.
  unfold code_choice. pose proof (sub_search_spec vs tok) as H.
  destruct (sub_search _ tok) as [[n i]|]; [|discriminate]. intros E.
  destruct H as (_ & w & Hw & En). rewrite Hw in E. injection E as ->.
  split; [eapply nth_error_In; eauto|exact En].
Qed.
Lemma code_choice_None vs tok : code_choice vs tok = None <-> forall v, In v vs -> sub_name v <> tok.
Proof.
  unfold code_choice. pose proof (sub_search_spec vs tok) as H.
  destruct (sub_search _ tok) as [[n i]|].
  - destruct H as (_ & w & Hw & En). rewrite Hw. split; [discriminate|]. intros H. exfalso.
    apply (H w); [eapply nth_error_In; eauto|exact En].
  - tauto.
Qed.
Lemma code_choice_first vs tok :
  NoDup (map sub_name vs) -> code_choice vs tok = first_named vs tok.
Proof.
  intros Hn. unfold first_named. destruct (find (fun v => beqb (sub_name v) tok) vs) as [v|] eqn:E.
  - apply find_some in E. destruct E as [Hv En]. apply beqb_eq in En.
    destruct (code_choice vs tok) as [w|] eqn:C.
    + apply code_choice_sound in C. destruct C as [Hw Ew]. f_equal.
      apply In_nth_error in Hv, Hw. destruct Hv as [i Hv], Hw as [j Hw].
      assert (i = j) by (eapply (NoDup_nth_inj sub_name); eauto; congruence). subst. congruence.
    + apply code_choice_None with (v := v) in C; [|exact Hv]. contradiction.
  - apply code_choice_None. intros v Hv En. apply (find_none _ _ E) in Hv. simpl in Hv.
    rewrite En, beqb_refl in Hv. discriminate.
Qed.

(** ** Unit variants *)

Definition unit_info (at_ : cmd_attrs) : raw_args_info := variant_info (VUnit (V:=V) (cmd_meta_of at_)).

Lemma unit_info_eq at_ :
  let i := unit_info at_ in let j := info_of (impl (MkArgsDecl at_ [] : args_decl)) in
  ri_descriptions i = ri_descriptions j /\ ri_named_attrs i = ri_named_attrs j /\
  ri_positional_attrs i = ri_positional_attrs j /\ ri_subcmd_info i = ri_subcmd_info j /\
  ri_is_subcmd_optional i = ri_is_subcmd_optional j /\ ri_has_optional_named i = ri_has_optional_named j /\
  forall p, ri_help i p = ri_help j p.
Proof.
  cbn zeta. do 6 (split; [reflexivity|]). intros p.
  do 4 (destruct p as [|p]; [cbn; destruct (cmd_meta_of at_); reflexivity|]). reflexivity.
Qed.

Definition scope_info (s : scope V) : raw_args_info :=
  if sc_unit s then unit_info (attrs_of (sc_decl s)) else info_of (impl (sc_decl s)).
End Tables.
