(** The table of a value enum has the variants of the enum. *)
From Verif Require Import Bytes BytesFacts Utf8 Refl Error Values SortFacts Places Heck Decl Spec Derive CompileFacts.
From Coq Require Import Permutation Sorted.

Lemma sort_by_map {A} (key : A -> bytes) l : map key (sort_by key l) = sort_by (fun n => n) (map key l).
Proof.
  induction l as [|x l IH]; [reflexivity|]. cbn [sort_by fold_right map]. 
  change (fold_right (insert_by key) [] l) with (sort_by key l).
  change (fold_right (insert_by (fun n : bytes => n)) [] (map key l)) with (sort_by (fun n => n) (map key l)).
  rewrite <- IH. generalize (sort_by key l). clear IH. intros m.
  induction m as [|y m IH]; [reflexivity|]. cbn [insert_by map].
  destruct (bcompare (key x) (key y)); cbn [map]; [reflexivity|reflexivity|]. rewrite IH. reflexivity.
Qed.

Definition ve_all (names : list bytes) : list ve_variant :=
  map (fun '(i, n) => mkVariant n i) (combine (seq 0 (length names)) names).

Lemma ve_all_names names : map vv_name (ve_all names) = names.
Proof.
  unfold ve_all. rewrite map_map. generalize 0.
  induction names as [|n names IH]; intros off; [reflexivity|]. simpl. f_equal. apply IH.
Qed.
Lemma ve_all_In names n i : In (mkVariant n i) (ve_all names) <-> nth_error names i = Some n.
Proof.
  unfold ve_all. rewrite in_map_iff.
  assert (G : forall off, (exists x : nat * bytes, (let '(j, m) := x in mkVariant m j) = mkVariant n i /\
                In x (combine (seq off (length names)) names)) <->
              off <= i /\ nth_error names (i - off) = Some n).
  { induction names as [|m names IH]; intros off; simpl.
    - split; [intros (x & _ & [])|]. intros [_ H]. destruct (i - off); discriminate.
    - split.
      + intros ([j m'] & E & [E'|Hx]).
        * injection E as -> ->. injection E' as -> ->. split; [lia|]. rewrite Nat.sub_diag. reflexivity.
        * destruct (proj1 (IH (S off))) as [H1 H2]; [exists (j, m'); auto|]. split; [lia|].
          replace (i - off) with (S (i - S off)) by lia. exact H2.
      + intros [H1 H2]. destruct (Nat.eq_dec i off) as [->|Hne].
        * rewrite Nat.sub_diag in H2. injection H2 as ->. exists (off, n). auto.
        * destruct (proj2 (IH (S off))) as (x & E & Hx).
          { split; [lia|]. replace (i - off) with (S (i - S off)) in H2 by lia. exact H2. }
          eauto. }
  rewrite G, Nat.sub_0_r. split; [tauto|]. intros H. split; [lia|exact H].
Qed.

Lemma find_adjacent_dup_None l :
  StronglySorted (kle vv_name) l -> find_adjacent_dup l = None -> NoDup (map vv_name l).
Proof.
  induction l as [|v l IH]; intros Hs H; [constructor|].
  inversion Hs as [|? ? Hs' Hf]; subst. destruct l as [|w l].
  - constructor; [intros []|constructor].
  - cbn [find_adjacent_dup] in H. destruct (beqb (vv_name v) (vv_name w)) eqn:E; [discriminate|].
    constructor; [|apply IH; assumption].
    intros Hi. apply (in_map_iff vv_name (w :: l)) in Hi. destruct Hi as (x & Ex & Hx).
    apply beqb_neq in E. apply E. apply ble_antisym.
    + rewrite Forall_forall in Hf. apply (Hf w). left. reflexivity.
    + rewrite <- Ex. destruct Hx as [<-|Hx]; [apply ble_refl|].
      inversion Hs' as [|? ? _ Hf']; subst. rewrite Forall_forall in Hf'. apply (Hf' x Hx).
Qed.

Lemma NoDup_ve_parse vs s i :
  NoDup (map vv_name vs) -> ve_parse vs s = Some i <-> In (mkVariant s i) vs.
Proof.
  induction vs as [|[n j] vs IH]; intros Hn; simpl; [split; [discriminate|contradiction]|].
  inversion Hn as [|? ? Hni Hn']; subst. destruct (beqb s n) eqn:E.
  - apply beqb_eq in E. subst n. split.
    + intros H. injection H as ->. auto.
    + intros [H|H]; [congruence|]. exfalso. apply Hni. apply in_map_iff. exists (mkVariant s i). auto.
  - apply beqb_neq in E. rewrite IH by exact Hn'. split; [auto|]. intros [H|H]; [congruence|exact H].
Qed.

Lemma position_Some b names i : NoDup names -> position b names = Some i <-> nth_error names i = Some b.
Proof.
  revert i. induction names as [|n names IH]; intros i Hn; simpl.
  - split; [discriminate|]. destruct i; discriminate.
  - inversion Hn as [|? ? Hni Hn']; subst. destruct (beqb b n) eqn:E.
    + apply beqb_eq in E. subst n. split.
      * intros H. injection H as <-. reflexivity.
      * destruct i as [|i]; [reflexivity|]. simpl. intros H. exfalso. apply Hni.
        eapply nth_error_In; eauto.
    + apply beqb_neq in E. split.
      * destruct (position b names) as [k|] eqn:P; [|discriminate]. simpl. intros H. injection H as <-.
        simpl. apply IH; [exact Hn'|reflexivity].
      * destruct i as [|i]; simpl; [congruence|]. intros H. apply IH in H; [|exact Hn']. rewrite H. reflexivity.
Qed.

Record ve_facts (names : list bytes) (vs : list ve_variant) : Prop := {
  vf_sorted : vs = sort_by vv_name (ve_all names);
  vf_clean : forall n, In n names -> existsb is_ascii_control n = false;
  vf_nodup : NoDup names;
  vf_names : map vv_name vs = sort_by (fun n => n) names;
  vf_in : forall n i, In (mkVariant n i) vs <-> nth_error names i = Some n
}.

Lemma filter_all {A} (p : A -> bool) l : (forall x, In x l -> p x = true) -> filter p l = l.
Proof.
  induction l as [|x l IH]; intros H; [reflexivity|]. simpl. rewrite H by (left; reflexivity).
  f_equal. apply IH. intros y Hy. apply H. right. exact Hy.
Qed.

Lemma ve_expand_facts names vs : ve_expand names = inl vs -> ve_facts names vs.
Proof.
  unfold ve_expand. fold (ve_all names). set (ok := fun v => negb (existsb is_ascii_control (vv_name v))).
  destruct (_ ++ _) as [|e es] eqn:E; [|discriminate]. intros H. injection H as <-.
  apply app_nil in E. destruct E as [E1 E2]. apply map_eq_nil in E1.
  assert (Hok : forall v, In v (ve_all names) -> ok v = true).
  { intros v Hv. destruct (ok v) eqn:K; [reflexivity|].
    assert (Hin : In v (filter (fun v => negb (ok v)) (ve_all names))) by (apply filter_In; rewrite K; auto).
    unfold ok in Hin. unfold ok in E1. rewrite E1 in Hin. destruct Hin. }
  rewrite (filter_all ok) in * by exact Hok.
  assert (Hd : find_adjacent_dup (sort_by vv_name (ve_all names)) = None)
    by (destruct (find_adjacent_dup _); [discriminate|reflexivity]).
  apply find_adjacent_dup_None in Hd; [|apply sort_by_sorted].
  assert (Hnd : NoDup names).
  { rewrite sort_by_map, ve_all_names in Hd. eapply Permutation_NoDup; [|exact Hd]. apply sort_by_perm. }
  constructor.
  - reflexivity.
  - intros n Hn. apply In_nth_error in Hn. destruct Hn as [i Hn]. apply ve_all_In in Hn.
    apply Hok in Hn. unfold ok in Hn. cbn [vv_name] in Hn. apply negb_true_iff in Hn. exact Hn.
  - exact Hnd.
  - rewrite sort_by_map, ve_all_names. reflexivity.
  - intros n i. rewrite sort_by_In. apply ve_all_In.
Qed.

Lemma ve_parse_position names vs s : ve_facts names vs -> ve_parse vs s = position s names.
Proof.
  intros [H1 H2 H3 H4 H5].
  assert (Hn : NoDup (map vv_name vs)).
  { rewrite H4. eapply Permutation_NoDup; [apply Permutation_sym, sort_by_perm|exact H3]. }
  destruct (ve_parse vs s) as [i|] eqn:E.
  - apply NoDup_ve_parse in E; [|exact Hn]. apply H5 in E. symmetry. apply position_Some; assumption.
  - destruct (position s names) as [i|] eqn:P; [|reflexivity].
    apply position_Some in P; [|exact H3]. apply H5 in P. apply NoDup_ve_parse in P; [|exact Hn]. congruence.
Qed.

Lemma ve_display_iff names vs i n : ve_facts names vs -> ve_display vs i = Some n <-> nth_error names i = Some n.
Proof.
  intros [H1 H2 H3 H4 H5]. rewrite <- H5.
  assert (Hn : forall n n', In (mkVariant n i) vs -> In (mkVariant n' i) vs -> n = n').
  { intros m m'. rewrite !H5. congruence. }
  clear -Hn. induction vs as [|[m j] vs IH]; cbn [ve_display]; [split; [discriminate|intros []]|]. cbn [vv_ident vv_name].
  destruct (Nat.eqb_spec i j) as [<-|Hne].
  - split; [intros H; injection H as <-; left; reflexivity|]. intros H. f_equal. eapply Hn; [left; reflexivity|exact H].
  - rewrite IH.
    + split; [right; assumption|]. intros [H|H]; [congruence|exact H].
    + intros x x' Hx Hx'. eapply Hn; right; eassumption.
Qed.

(** What is shown of a default value. *)
Lemma shown_text {V} (u : value_ty V) (v : V) p : infer_parser u = Some p ->
  match option_map (fun f => f v) (infer_display u) with Some s => s | None => [] end
  = match value_text u v with Some t => t | None => [] end.
Proof.
  unfold infer_display, value_text, infer_parser. destruct (vt_value_enum u) as [[names inj]|]; [|reflexivity].
  destruct (ve_expand names) as [vs|] eqn:E; [|discriminate]. intros _. cbn [option_map].
  apply ve_expand_facts in E. destruct (ve_display vs (vt_variant u v)) as [n|] eqn:D.
  - apply (ve_display_iff names vs) in D; [|exact E]. rewrite D. reflexivity.
  - destruct (nth_error names (vt_variant u v)) as [n|] eqn:K; [|reflexivity].
    apply (ve_display_iff names vs) in K; [|exact E]. congruence.
Qed.
