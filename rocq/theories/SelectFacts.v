(** The name lookup of the specification picks the chosen argument. *)
From Verif Require Import Bytes BytesFacts Utf8 Error Values Places Heck Decl Spec Derive CompileFacts InfoFacts
  TableFacts ScopeFacts NamedFacts FieldFacts Generated Observe OptionFacts WriteFacts WellFormedFacts Select.

Lemma FOP_app {A} (R : A -> A -> Prop) l m :
  ForallOrdPairs R l -> ForallOrdPairs R m -> (forall x y, In x l -> In y m -> R x y) -> ForallOrdPairs R (l ++ m).
Proof.
  intros Hl Hm H. induction Hl as [|x l Hx Hl IH]; [exact Hm|]. cbn [app]. constructor.
  - apply Forall_app. split; [exact Hx|]. apply Forall_forall. intros y Hy. apply H; [left; reflexivity|exact Hy].
  - apply IH. intros y z Hy Hz. apply H; [right; exact Hy|exact Hz].
Qed.
Lemma FOP_map {A B} (R : B -> B -> Prop) (f : A -> B) l :
  ForallOrdPairs (fun x y => R (f x) (f y)) l -> ForallOrdPairs R (map f l).
Proof.
  intros H. induction H as [|x l Hx H IH]; [constructor|]. cbn [map]. constructor; [|exact IH].
  rewrite Forall_forall in *. intros y Hy. apply in_map_iff in Hy. destruct Hy as (z & <- & Hz). auto.
Qed.
Lemma FOP_filter {A} (R : A -> A -> Prop) p l : ForallOrdPairs R l -> ForallOrdPairs R (filter p l).
Proof.
  intros H. induction H as [|x l Hx H IH]; [constructor|]. cbn [filter]. destruct (p x); [|exact IH].
  constructor; [|exact IH]. rewrite Forall_forall in *. intros y Hy. apply filter_In in Hy. apply Hx. tauto.
Qed.
Lemma FOP_find {A} (R : A -> A -> Prop) p l x y :
  ForallOrdPairs R l -> find p l = Some x -> In y l -> p y = true -> y = x \/ R x y.
Proof.
  intros H. induction H as [|z l Hz H IH]; [discriminate|]. cbn [find]. destruct (p z) eqn:E.
  - intros K. injection K as <-. intros [<-|Hy] _; [auto|]. right. rewrite Forall_forall in Hz. auto.
  - intros K [<-|Hy] Hp; [congruence|]. auto.
Qed.

Section Facts.
Context {V : Type}.
Local Notation args_decl := (args_decl V).
Local Notation sarg := (sarg V).
Local Notation scope := (scope V).
Implicit Types (d : args_decl) (a b : sarg) (stk : list scope).

Definition both_named (n : name) (P : Prop) a b : Prop := has_name a n -> has_name b n -> P.

Lemma reach_nonempty d p a : In (p, a) (reach d) -> exists i q, p = i :: q.
Proof.
  rewrite reach_eq, in_app_iff, in_map_iff, in_flat_map. intros [(b & E & _)|(x & _ & H)].
  - injection E as <- _. eauto.
  - apply in_map_iff in H. destruct H as (y & E & _). injection E as <- _. eauto.
Qed.

Lemma own_pairs d n : accepted d ->
  ForallOrdPairs (fun a b => has_name a n -> has_name b n -> False) (own_args d).
Proof.
  intros H. assert (G : forall l r, own_args d = l ++ r ->
    ForallOrdPairs (fun a b => has_name a n -> has_name b n -> False) r).
  { intros l r. revert l. induction r as [|a r IH]; intros l E; constructor.
    - apply Forall_forall. intros b Hb Hna Hnb.
      assert (a = b).
      { apply (own_name_unique d a b n H); [rewrite E; apply in_app_iff; right; left; reflexivity| |exact Hna|exact Hnb].
        rewrite E. apply in_app_iff. right. right. exact Hb. }
      subst b. pose proof (own_args_ids d (ac_ids d (accepted_facts_of d H))) as Hnd. rewrite E, map_app in Hnd.
      destruct (NoDup_app_r _ _ Hnd) as [K _]. inversion K as [|? ? K1 K2]; subst. apply K1, in_map. exact Hb.
    - apply (IH (l ++ [a])). rewrite <- app_assoc. exact E. }
  exact (G [] _ eq_refl).
Qed.

Lemma reach_pairs d n : accepted d ->
  ForallOrdPairs (fun x y => has_name (snd x) n -> has_name (snd y) n -> prefers d (fst x) (fst y)) (reach d).
Proof.
  induction d as [d IH _] using decl_induction. intros Hd. rewrite reach_eq. apply FOP_app.
  - apply FOP_map. cbn [fst snd]. pose proof (own_pairs d n Hd) as H. revert H. generalize (own_args d).
    intros l H. induction H as [|x l Hx H IHl]; constructor; [|exact IHl].
    rewrite Forall_forall in *. intros y Hy K1 K2. elim (Hx y Hy K1 K2).
  - assert (G : forall l r, flattened d = l ++ r ->
      ForallOrdPairs (fun x y => has_name (snd x) n -> has_name (snd y) n -> prefers d (fst x) (fst y))
        (flat_map (fun fa => map (fun pa => (fst fa :: fst pa, snd pa)) (reach (snd fa))) r)).
    { intros l r. revert l. induction r as [|[id x] r IHr]; intros l E; [constructor|]. cbn [flat_map fst snd].
      assert (Hin : In (id, x) (flattened d)) by (rewrite E; apply in_app_iff; right; left; reflexivity).
      apply FOP_app.
      - apply FOP_map. cbn [fst snd]. destruct (accepted_flat d id x Hd Hin) as (Hx & _).
        pose proof (IH id x (proj1 (in_flattened d id x) Hin) Hx) as H. revert H. generalize (reach x).
        intros k H. induction H as [|y k Hy H IHk]; constructor; [|exact IHk].
        rewrite Forall_forall in *. intros z Hz K1 K2. eapply prefers_inside; [exact Hin|]. exact (Hy z Hz K1 K2).
      - apply (IHr (l ++ [(id, x)])). rewrite <- app_assoc. exact E.
      - intros y z Hy Hz _ _. apply in_map_iff in Hy. destruct Hy as ([p a] & <- & Hy).
        apply in_flat_map in Hz. destruct Hz as ([id' x'] & Hx' & Hz). apply in_map_iff in Hz.
        destruct Hz as ([q b] & <- & Hz). cbn [fst snd] in *.
        destruct (reach_nonempty _ _ _ Hy) as (i & p' & ->). destruct (reach_nonempty _ _ _ Hz) as (j & q' & ->).
        apply in_split in Hx'. destruct Hx' as (m1 & m2 & ->). eapply prefers_earlier. exact E. }
    exact (G [] _ eq_refl).
  - intros x y Hx Hy _ _. apply in_map_iff in Hx. destruct Hx as (a & <- & _). apply in_flat_map in Hy.
    destruct Hy as ([id z] & _ & Hy). apply in_map_iff in Hy. destruct Hy as ([p b] & <- & Hp). cbn [fst snd] in *.
    destruct (reach_nonempty _ _ _ Hp) as (i & p' & ->). apply prefers_own.
Qed.

Lemma stack_pairs stk n : stack_ok stk ->
  ForallOrdPairs (fun x y => has_name (snd x) n -> has_name (snd y) n -> comes_first stk (fst x) (fst y)) (stack_args stk).
Proof.
  intros Hok.
  assert (G : forall inner outer, stk = inner ++ outer ->
    ForallOrdPairs (fun x y => has_name (snd x) n -> has_name (snd y) n -> comes_first stk (fst x) (fst y)) (stack_args outer)).
  { intros inner outer. revert inner. induction outer as [|s outer IH]; intros inner E; [constructor|].
    cbn [stack_args].
    assert (Hs : accepted (sc_decl s)).
    { unfold stack_ok in Hok. rewrite Forall_forall in Hok. apply (Hok s). rewrite E. apply in_app_iff. right. left. reflexivity. }
    apply FOP_app.
    - unfold scope_args. apply FOP_map. cbn [fst snd]. pose proof (reach_pairs (sc_decl s) n Hs) as H. revert H.
      generalize (reach (sc_decl s)). intros k H. induction H as [|y k Hy H IHk]; constructor; [|exact IHk].
      rewrite Forall_forall in *. intros z Hz K1 K2. right. split; [reflexivity|]. exists s. split; [|exact (Hy z Hz K1 K2)].
      cbn [ad_level]. rewrite E, rev_app_distr. cbn [rev]. rewrite <- app_assoc. cbn [app].
      rewrite nth_error_app2 by (rewrite rev_length; lia). rewrite rev_length, Nat.sub_diag. reflexivity.
    - apply (IH (inner ++ [s])). rewrite <- app_assoc. exact E.
    - intros x y Hx Hy _ _. left. unfold scope_args in Hx. apply in_map_iff in Hx. destruct Hx as (p & <- & _).
      destruct y as [ad b]. pose proof (stack_args_level _ _ _ Hy). cbn [fst ad_level]. lia. }
  exact (G [] stk eq_refl).
Qed.

Lemma in_scope_pairs stk n : stack_ok stk ->
  ForallOrdPairs (fun x y => has_name (snd x) n -> has_name (snd y) n -> comes_first stk (fst x) (fst y)) (in_scope stk).
Proof.
  intros Hok. pose proof (stack_pairs stk n Hok) as H.
  destruct stk as [|s outer]; [constructor|]. unfold in_scope. cbn [stack_args] in H.
  revert H. generalize (comes_first (s :: outer)). intros R. generalize (scope_args (length outer) s). intros l.
  induction l as [|x l IH]; cbn [app]; intros H.
  - apply FOP_filter. exact H.
  - inversion H as [|? ? H1 H2]; subst. constructor; [|auto]. rewrite Forall_forall in *. intros y Hy. apply H1.
    apply in_app_iff in Hy. apply in_app_iff. destruct Hy as [Hy|Hy]; [auto|]. apply filter_In in Hy. tauto.
Qed.

Lemma prefers_asym d p q : accepted d -> prefers d p q -> ~ prefers d q p.
Proof.
  intros Hd H. revert Hd. induction H as [d id id' i q|d id x p q Hx H IH|d l m r id x id' x' i p j q E]; intros Hd K.
  - inversion K; subst. match goal with H : prefers _ _ [] |- _ => inversion H end.
  - destruct (accepted_flat d id x Hd Hx) as (Ha & _).
    pose proof (flattened_ids d (ac_ids d (accepted_facts_of d Hd))) as Hnd.
    inversion K as [| ? ? y ? ? Hy Kp|? l m r ? y ? z ? ? ? ? E]; subst.
    + inversion H.
    + assert (y = x).
      { clear -Hnd Hx Hy. induction (flattened d) as [|[k w] f IH]; [contradiction|]. cbn [map fst] in Hnd.
        inversion Hnd as [|? ? N1 N2]; subst. destruct Hx as [Ex|Hx], Hy as [Ey|Hy]; auto.
        - congruence.
        - injection Ex as -> ->. exfalso. apply N1. apply (in_map fst) in Hy. exact Hy.
        - injection Ey as -> ->. exfalso. apply N1. apply (in_map fst) in Hx. exact Hx. }
      subst y. exact (IH Ha Kp).
    + rewrite E, map_app in Hnd. cbn [map fst] in Hnd. rewrite map_app in Hnd. cbn [map fst] in Hnd.
      destruct (NoDup_app_r _ _ Hnd) as [N _]. inversion N as [|? ? N1 N2]; subst. apply N1, in_app_iff. right. left. reflexivity.
  - pose proof (flattened_ids d (ac_ids d (accepted_facts_of d Hd))) as Hnd.
    assert (Hne : id <> id').
    { intros <-. rewrite E, map_app in Hnd. cbn [map fst] in Hnd. rewrite map_app in Hnd. cbn [map fst] in Hnd.
      destruct (NoDup_app_r _ _ Hnd) as [N _]. inversion N as [|? ? N1 N2]; subst. apply N1, in_app_iff. right. left. reflexivity. }
    inversion K as [| ? ? y ? ? Hy Kp|? l' m' r' ? y ? z ? ? ? ? E']; subst; [congruence|].
    (* [id] before [id'] and [id'] before [id] *)
    apply (f_equal (map fst)) in E, E'. rewrite map_app in E, E'. cbn [map fst] in E, E'. rewrite map_app in E, E'. cbn [map fst] in E, E'.
    rewrite E' in E. rewrite E' in Hnd. clear -Hnd E Hne. revert l' Hnd E. generalize (map fst l) as k. clear l.
    intros k l' Hnd E. revert k E Hnd. generalize (map fst l') as k'. generalize (map fst m') (map fst r') (map fst m) (map fst r).
    intros a b c e. induction k' as [|u k' IH]; intros [|w k] E Hnd; cbn [app] in E.
    + injection E as E1 _. congruence.
    + injection E as <- E. cbn [app] in Hnd. inversion Hnd as [|? ? N1 N2]; subst. apply N1. rewrite E. apply in_app_iff. right. right.
      apply in_app_iff. right. left. reflexivity.
    + injection E as -> E. cbn [app] in Hnd. inversion Hnd as [|? ? N1 N2]; subst. apply N1. apply in_app_iff. right. right.
      apply in_app_iff. right. left. reflexivity.
    + injection E as -> E. cbn [app] in Hnd. inversion Hnd as [|? ? N1 N2]; subst. exact (IH k E N2).
Qed.
Lemma comes_first_asym stk x y : stack_ok stk -> comes_first stk x y -> ~ comes_first stk y x.
Proof.
  intros Hok [H|[E (s & Hs & Hp)]] [K|[E' (s' & Hs' & Hp')]]; try lia.
  rewrite <- E in Hs'. rewrite Hs in Hs'. injection Hs' as <-. revert Hp'. apply prefers_asym; [|exact Hp].
  unfold stack_ok in Hok. rewrite Forall_forall in Hok. apply (Hok s). apply in_rev. eapply nth_error_In. exact Hs.
Qed.

Theorem resolve_chosen_stack stk n ad a : stack_ok stk -> (resolve stk n = Some (ad, a) <-> chosen stk n ad a).
Proof.
  intros Hok.
  assert (G : forall ad a, resolve stk n = Some (ad, a) -> chosen stk n ad a).
  { clear ad a. intros ad a E. split; [exact (resolve_sound stk n ad a Hok E)|].
    intros ad' b (H1 & H2 & H3). unfold resolve in E.
    assert (Hin : In (ad', b) (in_scope stk)) by (apply in_scope_iff; auto).
    destruct (FOP_find _ _ _ _ _ (in_scope_pairs stk n Hok) E Hin) as [K|K].
    - cbn [snd]. apply has_nameb_spec. exact H2.
    - left. exact K.
    - right. apply K; cbn [snd]; [|exact H2]. apply find_some in E. apply has_nameb_spec. exact (proj2 E). }
  split; [apply G|]. intros [Hc Ho].
  destruct (resolve stk n) as [[ad0 a0]|] eqn:E.
  - destruct (G _ _ eq_refl) as [Hc0 Ho0]. destruct (Ho _ _ Hc0) as [K|K]; [congruence|].
    destruct (Ho0 _ _ Hc) as [K'|K']; [congruence|]. elim (comes_first_asym _ _ _ Hok K K').
  - exfalso. destruct Hc as (H1 & H2 & H3). apply (proj2 (resolve_iff stk n Hok)); [|exact E]. exists ad, a. auto.
Qed.

Theorem resolve_chosen d pre os stk rem n ad a : valid d -> at_option d pre os stk rem ->
  (resolve stk n = Some (ad, a) <-> chosen stk n ad a).
Proof. intros Hd H. apply resolve_chosen_stack. exact (at_option_stack _ _ _ _ _ Hd H). Qed.

Theorem chosen_receives d pre os stk rem n ad a v toks : valid d -> at_option d pre os stk rem ->
  chosen stk n ad a -> takes_value a = true -> gives_value a n v toks ->
  at_option d (pre ++ toks) (os ++ [Occ ad a (Some v)]) stk rem.
Proof.
  intros Hd H Hc Ht Hg. apply (resolve_chosen d pre os stk rem n ad a Hd H) in Hc.
  apply writes_occ; [exact Hd|exact H|]. exact (writes_value stk n ad a v toks Hc Ht Hg).
Qed.
Theorem comes_first_one_way d pre os stk rem (x y : addr) : valid d -> at_option d pre os stk rem ->
  comes_first stk x y -> ~ comes_first stk y x.
Proof. intros Hd H. apply comes_first_asym. exact (at_option_stack _ _ _ _ _ Hd H). Qed.
End Facts.
