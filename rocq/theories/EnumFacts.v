(** Proofs about [derive(ValueEnum)]. *)
From Verif Require Import Bytes BytesFacts Utf8 Refl Error Values SortFacts Places Heck Decl Spec Derive
  CompileFacts InfoFacts TableFacts PlaceFacts Generated Observe WriteFacts EnumDerive Parts PartsFacts.
From Coq Require Import Permutation Sorted.

Lemma convention_rename e r : convention e r <-> enum_rename e = Some r.
Proof.
  unfold enum_rename, parse_rename. split.
  - intros H. destruct H as [H|H|H|H|H|H|H|H|H]; rewrite H; reflexivity.
  - destruct (ed_rename_all e) as [s|] eqn:E; [|intros H; injection H as <-; constructor; exact E].
    repeat match goal with
    | |- (if beqb s ?n then _ else _) = _ -> _ =>
        let K := fresh "K" in
        destruct (beqb s n) eqn:K;
        [apply beqb_eq in K; subst s; intros H; injection H as <-; econstructor; exact E|]
    end. discriminate.
Qed.
Lemma convention_unique e r r' : convention e r -> convention e r' -> r = r'.
Proof. rewrite !convention_rename. congruence. Qed.
Lemma named_parse e r v n : convention e r -> named e v n <-> parse_name r v = n.
Proof.
  intros Hr. unfold parse_name. split.
  - intros [n0 H|r' H Hr']; rewrite H; [reflexivity|]. rewrite (convention_unique _ _ _ Hr Hr'). reflexivity.
  - destruct (ev_name v) as [n0|] eqn:E; intros <-; [constructor; exact E|apply named_ident; assumption].
Qed.
Lemma nth_named_map e r i n : convention e r -> nth_named e i n <-> nth_error (map (parse_name r) (ed_variants e)) i = Some n.
Proof.
  intros Hr. unfold nth_named. rewrite nth_error_map. destruct (nth_error (ed_variants e) i) as [v|]; cbn [option_map].
  - split.
    + intros (v' & E & H). injection E as <-. f_equal. apply (proj1 (named_parse e r v n Hr)). exact H.
    + intros H. injection H as H. exists v. split; [reflexivity|]. apply (named_parse e r); assumption.
  - split; [intros (v & E & _); discriminate|discriminate].
Qed.

Lemma find_adjacent_dup_Some l n : find_adjacent_dup l = Some n -> ~ NoDup (map vv_name l).
Proof.
  induction l as [|v l IH]; [discriminate|]. destruct l as [|w l]; [discriminate|].
  cbn [find_adjacent_dup]. destruct (beqb (vv_name v) (vv_name w)) eqn:E.
  - intros _ H. inversion H as [|? ? Hn _]; subst. apply Hn. apply beqb_eq in E. rewrite E. left. reflexivity.
  - intros H Hn. inversion Hn; subst. apply (IH H). assumption.
Qed.
Lemma ve_expand_iff names : (exists vs, ve_expand names = inl vs) <->
  NoDup names /\ forall n, In n names -> existsb is_ascii_control n = false.
Proof.
  split.
  - intros [vs H]. apply ve_expand_facts in H. destruct H. auto.
  - intros [Hn Hc]. unfold ve_expand. fold (ve_all names).
    set (ok := fun v => negb (existsb is_ascii_control (vv_name v))).
    assert (Hok : forall v, In v (ve_all names) -> ok v = true).
    { intros v Hv. unfold ok. rewrite Hc; [reflexivity|]. rewrite <- (ve_all_names names). apply in_map. exact Hv. }
    assert (E1 : filter (fun v => negb (ok v)) (ve_all names) = []).
    { clear -Hok. induction (ve_all names) as [|v l IH]; [reflexivity|]. cbn [filter]. rewrite (Hok v) by (left; reflexivity).
      cbn [negb]. apply IH. intros w Hw. apply Hok. right. exact Hw. }
    unfold ok in E1. rewrite E1. rewrite (filter_all _ _ Hok). cbn [map app].
    destruct (find_adjacent_dup (sort_by vv_name (ve_all names))) as [n|] eqn:E; [|eauto].
    exfalso. apply (find_adjacent_dup_Some _ _ E). rewrite sort_by_map, ve_all_names.
    eapply Permutation_NoDup; [apply Permutation_sym, sort_by_perm|exact Hn].
Qed.

Lemma enum_expand_inv e vs : enum_expand e = Some vs ->
  exists r, convention e r /\ Forall (fun v => ev_unit v = true) (ed_variants e) /\
            ve_expand (map (parse_name r) (ed_variants e)) = inl vs.
Proof.
  unfold enum_expand. destruct (enum_rename e) as [r|] eqn:Er; [|discriminate].
  destruct (forallb ev_unit (ed_variants e)) eqn:Eu; [|discriminate].
  destruct (ve_expand _) as [vs'|] eqn:E; [|discriminate]. intros H. injection H as <-.
  exists r. split; [apply convention_rename; exact Er|]. split; [|exact E]. apply Forall_forall. apply forallb_forall. exact Eu.
Qed.

Theorem enum_accepts e : (exists vs, enum_expand e = Some vs) <->
  (exists r, convention e r) /\
  Forall (fun v => ev_unit v = true) (ed_variants e) /\
  (forall i j n, nth_named e i n -> nth_named e j n -> i = j) /\
  (forall i n, nth_named e i n -> Forall (fun b => ~ control b) n).
Proof.
  split.
  - intros [vs H]. apply enum_expand_inv in H. destruct H as (r & Hr & Hu & H). apply ve_expand_facts in H. destruct H as [_ Hc Hn _ _].
    split; [eauto|]. split; [exact Hu|]. split.
    + intros i j n Hi Hj. rewrite (nth_named_map e r) in Hi by exact Hr. rewrite (nth_named_map e r) in Hj by exact Hr.
      rewrite NoDup_nth_error in Hn. apply Hn; [apply nth_error_Some; congruence|congruence].
    + intros i n Hi. rewrite (nth_named_map e r) in Hi by exact Hr. apply nth_error_In in Hi. apply Hc in Hi.
      apply Forall_forall. intros b Hb Hctl. apply control_spec in Hctl. apply (proj1 (existsb_false _ _) Hi) in Hb. congruence.
  - intros ((r & Hr) & Hu & Hd & Hc). unfold enum_expand. rewrite (proj1 (convention_rename e r) Hr).
    replace (forallb ev_unit (ed_variants e)) with true by (symmetry; apply forallb_forall; apply Forall_forall; exact Hu).
    destruct (proj2 (ve_expand_iff (map (parse_name r) (ed_variants e)))) as [vs ->]; [|eauto]. split.
    + apply NoDup_nth_error. intros i j Hi E. apply nth_error_Some in Hi.
      destruct (nth_error (map (parse_name r) (ed_variants e)) i) as [n|] eqn:En; [|congruence].
      apply (Hd i j n); apply (nth_named_map e r); auto.
    + intros n Hin. apply In_nth_error in Hin. destruct Hin as [i Hi]. apply (nth_named_map e r) in Hi; [|exact Hr].
      apply existsb_false. intros b Hb. destruct (is_ascii_control b) eqn:E; [|reflexivity].
      apply control_spec in E. exfalso. apply Hc in Hi. rewrite Forall_forall in Hi. exact (Hi b Hb E).
Qed.

Theorem enum_parse e vs s i : enum_expand e = Some vs -> ve_parse vs s = Some i <-> nth_named e i s.
Proof.
  intros H. apply enum_expand_inv in H. destruct H as (r & Hr & _ & H). apply ve_expand_facts in H.
  rewrite (nth_named_map e r) by exact Hr. rewrite (ve_parse_position _ _ _ H). apply position_Some. apply (vf_nodup _ _ H).
Qed.
Theorem enum_display e vs i n : enum_expand e = Some vs -> ve_display vs i = Some n <-> nth_named e i n.
Proof.
  intros H. apply enum_expand_inv in H. destruct H as (r & Hr & _ & H). apply ve_expand_facts in H.
  rewrite (nth_named_map e r) by exact Hr. apply ve_display_iff. exact H.
Qed.
Theorem enum_roundtrip e vs i : enum_expand e = Some vs -> i < length (ed_variants e) ->
  exists n, ve_display vs i = Some n /\ ve_parse vs n = Some i.
Proof.
  intros H Hi. assert (N : exists n, nth_named e i n).
  { destruct (enum_expand_inv _ _ H) as (r & Hr & _). apply nth_error_Some in Hi.
    destruct (nth_error (ed_variants e) i) as [v|] eqn:E; [|congruence]. exists (parse_name r v).
    apply (nth_named_map e r); [exact Hr|]. rewrite nth_error_map, E. reflexivity. }
  destruct N as [n N]. exists n. split; [apply (enum_display e vs i n H)|apply (enum_parse e vs n i H)]; exact N.
Qed.

Lemma lists_sorted names : lists_names names (bs "[possible values: " ++ join (bs ", ") (sort_by (fun n => n) names) ++ bs "]").
Proof.
  exists (sort_by (fun n => n) names). split; [apply Permutation_sym, sort_by_perm|]. split; [|rewrite glue_join; reflexivity].
  pose proof (sort_by_sorted (fun n : bytes => n) names) as H. induction H as [|x l _ IH Hf]; constructor; [exact IH|].
  eapply Forall_impl; [|exact Hf]. intros y Hy. apply ble_before. exact Hy.
Qed.
Theorem enum_lists e vs : enum_expand e = Some vs ->
  exists names, (forall i n, nth_error names i = Some n <-> nth_named e i n) /\
                lists_names names (possible_values (ve_possible_nul vs)).
Proof.
  intros H. apply enum_expand_inv in H. destruct H as (r & Hr & _ & H). apply ve_expand_facts in H.
  exists (map (parse_name r) (ed_variants e)). split.
  - intros i n. rewrite (nth_named_map e r) by exact Hr. reflexivity.
  - rewrite (possible_values_names _ _ H). apply lists_sorted.
Qed.

Section Message.
Context {V : Type}.
Theorem enum_message (d : args_decl V) (argv0 : bytes) pre os stk rem toks ad a (v : bytes) names inj post :
  valid d -> at_option d pre os stk rem -> no_error_in os -> writes stk toks ad a (Some v) -> takes_value a = true -> many a = false ->
  given os ad = false -> vt_value_enum (value_of_ty (sa_ty a)) = Some (names, inj) -> ~ In (text_of a v) names ->
  exists e, try_parse_from d (argv0 :: pre ++ toks ++ post) = Err e /\ e_kind e = InvalidValue /\
    e_arg_desc e = Some (describe a) /\ e_input e = Some (text_of a v) /\ lists_names names (e_context e).
Proof.
  intros Hd H Hn Hw Ht Hm Hg He Hni.
  destruct (enum_unknown d argv0 pre os stk rem toks ad a v names inj post Hd H Hn Hw Ht Hm Hg He Hni) as (e & E & Hk & Ha & Hi & Hc).
  exists e. repeat split; auto. rewrite Hc. apply lists_sorted.
Qed.
End Message.
