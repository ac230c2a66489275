(** Facts about the arguments of a source and their names. *)
From Verif Require Import Bytes BytesFacts Utf8 Attrs Refl Error Values Places Help Heck Decl Derive
  EnumDerive Spec Parts Page CompileFacts WellFormed WellFormedFacts Source Written SourceFacts SourceArg
  SourceField SourceItems SourceWhole SourceValue.

Section Names.
Context {V : Type}.
Local Notation item := (@item V).
Variable pd : bytes.

Lemma each2_in {A B} (R : A -> B -> Prop) l l' : each2 R l l' ->
  (forall x, In x l -> exists y, In y l' /\ R x y) /\ (forall y, In y l' -> exists x, In x l /\ R x y).
Proof.
  revert l'. induction l as [|a l IH]; intros [|b l'] H; try easy.
  destruct H as [Hab H]. destruct (IH l' H) as [H1 H2]. split.
  - intros x [<-|Hx]; [exists b; cbn; auto|]. destruct (H1 x Hx) as (y & Hy & Hr). exists y. cbn. auto.
  - intros x [<-|Hx]; [exists a; cbn; auto|]. destruct (H2 x Hx) as (y & Hy & Hr). exists y. cbn. auto.
Qed.

Lemma belongs_reach (s : src_struct V) p attrs t tg : belongs s p (SField attrs t tg) ->
  forall d l, struct_says pd s d -> field_says attrs (AnArg l) ->
  exists a, In (p, a) (reach d) /\ argument_says (SField attrs t tg) (last p []) a.
Proof.
  remember (SField attrs t tg) as f eqn:Ef. intros H.
  induction H as [cattrs g fs id f Hin|cattrs g fs id attrs' t' s p f Hin Hk Hb IH]; subst f;
    intros [ca fds] l [_ Hd] Hl.
  - destruct (proj1 (each2_in _ _ _ Hd) _ Hin) as ([id' fd] & Hin' & Hid & Hf). cbn [fst snd] in *. subst id'.
    destruct fd as [m ty|d|o d].
    + destruct Hf as [Hm Ht]. exists (Spec.Arg id m ty). split.
      * cbn [reach]. apply in_app_iff. left. apply in_flat_map. exists (id, FArg m ty).
        split; [exact Hin'|]. cbn. auto.
      * cbn. split; [reflexivity|]. auto.
    + destruct Hf as [Hf _]. assert (E := field_says_kind _ _ _ Hl Hf). discriminate.
    + destruct Hf as [Hf _]. assert (E := field_says_kind _ _ _ Hl Hf). discriminate.
  - destruct (proj1 (each2_in _ _ _ Hd) _ Hin) as ([id' fd] & Hin' & Hid & Hf). cbn [fst snd] in *. subst id'.
    destruct fd as [m ty|d|o d].
    + destruct Hf as [(l' & Hf & _) _]. assert (E := field_says_kind _ _ _ Hk Hf). discriminate.
    + destruct Hf as [_ Hs]. destruct (IH eq_refl d l Hs Hl) as (a & Ha & Hy). exists a. split.
      * cbn [reach]. apply in_app_iff. right. apply in_flat_map. exists (id, FFlatten d).
        split; [exact Hin'|]. apply in_map_iff. exists (p, a). auto.
      * destruct p as [|x p]; [inversion Hb|]. exact Hy.
    + destruct Hf as [Hf _]. assert (E := field_says_kind _ _ _ Hk Hf). discriminate.
Qed.

Definition reached_back (s : src_struct V) : Prop :=
  forall d p a, struct_says pd s d -> In (p, a) (reach d) ->
  exists f, belongs s p f /\ argument_says f (last p []) a.
Definition target_back (f : src_field V) : Prop :=
  let '(SField _ _ tg) := f in match tg with TgArgs s => reached_back s | _ => True end.
Lemma reach_belongs (s : src_struct V) : reached_back s.
Proof.
  revert s. apply (src_ind reached_back target_back (fun _ => True) (fun _ => True)); try easy.
  - intros attrs g fs IH [ca fds] p a [_ Hd] Hin. cbn [reach] in Hin. apply in_app_iff in Hin.
    destruct Hin as [Hin|Hin]; apply in_flat_map in Hin; destruct Hin as ([id fd] & Hfd & Hin).
    + apply in_map_iff in Hin. destruct Hin as (a' & [= <- <-] & Ha).
      destruct fd as [m ty|d|o d]; cbn in Ha; try easy. destruct Ha as [<-|[]]. cbn [sa_id last].
      destruct (proj2 (each2_in _ _ _ Hd) _ Hfd) as ([id' f] & Hf & Hid & Hy). cbn [fst snd] in *. subst id'.
      exists f. split; [now constructor|]. destruct f as [fattrs t tg]. destruct Hy as [Hm Ht].
      cbn. auto.
    + destruct fd as [m ty|d|o d]; try easy. apply in_map_iff in Hin.
      destruct Hin as ([p' a'] & [= <- <-] & Ha). cbn [fst snd] in *.
      destruct (proj2 (each2_in _ _ _ Hd) _ Hfd) as ([id' f] & Hf & Hid & Hy). cbn [fst snd] in *. subst id'.
      assert (Ht := IH _ _ Hf). destruct f as [fattrs t tg]. destruct Hy as [Hk Hs].
      destruct tg as [|s|e]; try easy. destruct (Ht d p' a' Hs Ha) as (f & Hb & Hy).
      exists f. split; [eapply be_flat; eassumption|]. destruct p' as [|x p']; [inversion Hb|exact Hy].
  - intros attrs g [ca fds] p a [_ []].
Qed.

(** ** Names *)

Lemma gather_in {A} ns (f : form -> list A) (l : list item) x :
  In x (gather ns f l) <->
  exists n e, In (Item n (Some e)) l /\ In n ns /\ In x (f (ax_form e)).
Proof.
  unfold gather. rewrite in_flat_map. split.
  - intros ([n [e|]] & Hi & Hx); cbn [it_name it_value] in Hx;
      destruct (existsb (beqb n) ns) eqn:E; try easy. apply existsb_beqb_In in E. eauto 6.
  - intros (n & e & Hi & Hn & Hx). exists (Item n (Some e)). split; [exact Hi|]. cbn [it_name it_value].
    apply existsb_beqb_In in Hn. now rewrite Hn.
Qed.

Lemma has_name_says ds (l : list item) (a : sarg V) n : good_items arg_table l ->
  arg_says ds l (sa_meta a) -> (has_name a n <-> names l (sa_id a) n).
Proof.
  intros Hg Hy.
  assert (Hld := ay_long_default _ _ _ Hy). assert (Hl := ay_long _ _ _ Hy).
  assert (Hsd := ay_short_default _ _ _ Hy). assert (Hs := ay_short _ _ _ Hy).
  assert (Ha := ay_alias _ _ _ Hy). assert (Hsa := ay_short_alias _ _ _ Hy).
  assert (Hlong : am_long (sa_meta a) <> None <-> exists v, In (Item (bs "long") v) l).
  { split.
    - intros H. destruct (am_long (sa_meta a)) as [[|s]|] eqn:E; [|  |easy].
      + exists None. now apply Hld.
      + destruct (proj1 (Hl s) eq_refl) as (e & He & _). eauto.
    - intros [[e|] Hin] E; [|apply Hld in Hin; congruence]. rewrite E in Hl. destruct Hg as [HF _].
      rewrite Forall_forall in HF. destruct (HF _ Hin) as (r & Hr & Hn & Ht).
      assert (r = once (bs "long") VkOptStr).
      { assert (Hr' : In (once (bs "long") VkOptStr) arg_table) by now left.
        apply row_of_in in Hr; [|exact arg_table_nodup]. apply row_of_in in Hr'; [|exact arg_table_nodup].
        rewrite Hn in Hr. cbn [it_name] in Hr. cbn [r_name once] in Hr'. congruence. }
      subst r. destruct Ht as [s Ht]. assert (@None bytes = Some s) by (apply Hl; eauto). discriminate. }
  assert (Hshort : am_short (sa_meta a) <> None <-> exists v, In (Item (bs "short") v) l).
  { split.
    - intros H. destruct (am_short (sa_meta a)) as [[|s]|] eqn:E; [|  |easy].
      + exists None. now apply Hsd.
      + destruct (proj1 (Hs s) eq_refl) as (e & He & _). eauto.
    - intros [[e|] Hin] E; [|apply Hsd in Hin; congruence]. rewrite E in Hs. destruct Hg as [HF _].
      rewrite Forall_forall in HF. destruct (HF _ Hin) as (r & Hr & Hn & Ht).
      assert (r = once (bs "short") VkOptChar).
      { assert (Hr' : In (once (bs "short") VkOptChar) arg_table) by (right; now left).
        apply row_of_in in Hr; [|exact arg_table_nodup]. apply row_of_in in Hr'; [|exact arg_table_nodup].
        rewrite Hn in Hr. cbn [it_name] in Hr. cbn [r_name once] in Hr'. congruence. }
      subst r. destruct Ht as [s Ht]. assert (@None N = Some s) by (apply Hs; eauto). discriminate. }
  assert (Hopt : is_option a = true <->
                 exists v, In (Item (bs "long") v) l \/ In (Item (bs "short") v) l).
  { unfold is_option. transitivity (am_long (sa_meta a) <> None \/ am_short (sa_meta a) <> None).
    - destruct (am_long (sa_meta a)), (am_short (sa_meta a)); split; intros H; try easy;
        try (left; discriminate); try (right; discriminate); destruct H as [H|H]; now exfalso; apply H.
    - rewrite Hlong, Hshort. split.
      + intros [[v H]|[v H]]; eauto.
      + intros [v [H|H]]; eauto. }
  assert (Hal : forall s, In s (am_alias (sa_meta a)) <->
    exists n e, In (Item n (Some e)) l /\ (n = bs "alias" \/ n = bs "aliases") /\ In s (strs (ax_form e))).
  { intros s. rewrite Ha, gather_in. split; intros (m & e & H1 & H2 & H3); exists m, e; (split; [exact H1|]).
    - split; [|exact H3]. destruct H2 as [<-|[<-|[]]]; auto.
    - split; [|exact H3]. destruct H2 as [->| ->]; cbn; auto. }
  assert (Hsal : forall s, In s (am_short_alias (sa_meta a)) <->
    exists n e, In (Item n (Some e)) l /\ (n = bs "short_alias" \/ n = bs "short_aliases") /\
                In s (chars (ax_form e))).
  { intros s. rewrite Hsa, gather_in. split; intros (m & e & H1 & H2 & H3); exists m, e; (split; [exact H1|]).
    - split; [|exact H3]. destruct H2 as [<-|[<-|[]]]; auto.
    - split; [|exact H3]. destruct H2 as [->| ->]; cbn; auto. }
  assert (Hln : forall s, long_name a = Some s <->
    (exists e, In (Item (bs "long") (Some e)) l /\ ax_form e = FoStr s) \/
    (In (Item (bs "long") None) l /\ s = kebab_case (sa_id a))).
  { intros s. rewrite <- (Hl s), <- Hld. unfold long_name.
    destruct (am_long (sa_meta a)) as [[|x]|]; split; intros H.
    - injection H as <-. now right.
    - destruct H as [H|[_ ->]]; easy.
    - injection H as <-. now left.
    - destruct H as [[= <-]|[H _]]; easy.
    - easy.
    - destruct H as [H|[H _]]; easy. }
  assert (Hsn : forall c, short_name a = Some c <->
    (exists e, In (Item (bs "short") (Some e)) l /\ ax_form e = FoChar c) \/
    (In (Item (bs "short") None) l /\ exists b r, sa_id a = b :: r /\ c = b2n b)).
  { intros c. rewrite <- (Hs c), <- Hsd. unfold short_name.
    destruct (am_short (sa_meta a)) as [[|x]|]; split; intros H.
    - destruct (sa_id a) as [|b r]; [easy|]. injection H as <-. right. eauto.
    - destruct H as [H|[_ (b & r & E & ->)]]; [easy|]. now rewrite E.
    - injection H as <-. now left.
    - destruct H as [[= <-]|[H _]]; easy.
    - easy.
    - destruct H as [H|[H _]]; easy. }
  split.
  - intros [Ho Hn]. apply Hopt in Ho. destruct Ho as [v Hv]. destruct n as [s|c].
    + destruct Hn as [Hn|Hn].
      * apply Hal in Hn. destruct Hn as (m & e & H1 & H2 & H3). eapply nm_alias; eassumption.
      * apply Hln in Hn. destruct Hn as [(e & H1 & H2)|[H1 ->]]; [eapply nm_long; eassumption|].
        now constructor.
    + destruct Hn as [Hn|Hn].
      * apply Hsal in Hn. destruct Hn as (m & e & H1 & H2 & H3). eapply nm_short_alias; eassumption.
      * apply Hsn in Hn. destruct Hn as [(e & H1 & H2)|[H1 (b & r & H2 & ->)]];
          [eapply nm_short; eassumption|]. eapply nm_short_default; eassumption.
  - intros H. destruct H as [e s H1 H2|H1|e c H1 H2|b r H1 H2|m e s v H1 H2 H3 H4|m e c v H1 H2 H3 H4].
    + split; [apply Hopt; eauto|]. right. apply Hln. eauto.
    + split; [apply Hopt; eauto|]. right. apply Hln. eauto.
    + split; [apply Hopt; eauto|]. right. apply Hsn. eauto.
    + split; [apply Hopt; eauto|]. right. apply Hsn. eauto 6.
    + split; [apply Hopt; eauto|]. left. apply Hal. eauto 6.
    + split; [apply Hopt; eauto|]. left. apply Hsal. eauto 6.
Qed.

Lemma field_says_items (attrs : list (attribute V)) l :
  field_says attrs (AnArg l) -> items (bs "arg") attrs l /\ good_items arg_table l.
Proof. intros H. inversion H as [its Hd0 Hc0 Hi0| |]; subst. exact Hi0. Qed.

(** The arguments of the command and the names they have. *)
Lemma source_arguments (s : src_struct V) p : compiles pd s ->
  (forall a, In (p, a) (reach (declared pd s)) ->
     exists f, belongs s p f /\ argument_says f (last p []) a) /\
  (forall attrs t tg l, belongs s p (SField attrs t tg) -> field_says attrs (AnArg l) ->
     exists a, In (p, a) (reach (declared pd s)) /\ argument_says (SField attrs t tg) (last p []) a).
Proof.
  intros H. apply compiles_says in H. split.
  - intros a. now apply reach_belongs.
  - intros attrs t tg l Hb Hl. eapply belongs_reach; eassumption.
Qed.
Lemma source_offers (s : src_struct V) n : compiles pd s ->
  (offers (declared pd s) n <->
   exists p attrs t tg l, belongs s p (SField attrs t tg) /\ field_says attrs (AnArg l) /\
     names l (last p []) n).
Proof.
  intros H. split.
  - intros (p & a & Ha & Hn). apply source_arguments in Ha; [|exact H].
    destruct Ha as ([attrs t tg] & Hb & Hid & (l & Hl & Hy) & _).
    exists p, attrs, t, tg, l. split; [exact Hb|]. split; [exact Hl|]. rewrite <- Hid.
    eapply has_name_says; [|exact Hy|exact Hn]. now apply field_says_items in Hl.
  - intros (p & attrs & t & tg & l & Hb & Hl & Hn).
    destruct (proj2 (source_arguments s p H) attrs t tg l Hb Hl) as (a & Ha & Hid & (l' & Hl' & Hy) & _).
    assert (E := field_says_kind _ _ _ Hl Hl'). injection E as <-. exists p, a. split; [exact Ha|].
    eapply has_name_says; [|exact Hy|]; [now apply field_says_items in Hl|]. now rewrite Hid.
Qed.
End Names.
