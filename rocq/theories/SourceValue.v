(** Facts about the attributes of value enums. *)
From Verif Require Import Bytes BytesFacts Utf8 Attrs Refl Error Values Places Help Heck Decl Derive
  EnumDerive Spec Parts EnumFacts Source Written SourceFacts SourceArg SourceField SourceItems SourceWhole.

Section One.
Context {V : Type}.
Local Notation aexpr := (aexpr V).
Local Notation attribute := (attribute V).
Local Notation item := (@item V).

(** One name that may be given once. *)
Variables (n : bytes) (k : vkind) (g : form -> option bytes).
Definition one_update : update (V := V) (option bytes) := fun s p ts =>
  match key_of [(n, tt)] p with
  | None => (s, [AE_unknown], Some ts)
  | Some tt => commit s (value_of (parse_form g) ts) (set_once s)
  end.
Hypothesis Hlocal : local one_update.
Hypothesis Htakes : forall v : option aexpr,
  takes k v <-> exists e x, v = Some e /\ g (ax_form e) = Some x.
Hypothesis Hstr : forall f x, g f = Some x -> f = FoStr x.

Definition one_inv (l : list item) (s : option bytes) : Prop :=
  (In n (slots [once n k] l) <-> s <> None) /\ says_str l n s.

Lemma one_nodup : NoDup (map r_name [once n k]).
Proof. repeat constructor. easy. Qed.
Lemma one_row : row_of [once n k] n = Some (once n k).
Proof. apply (row_of_in [once n k] (once n k)); [exact one_nodup|now left]. Qed.
Lemma one_row_other m : m <> n -> row_of [once n k] m = None.
Proof.
  intros H. destruct (row_of [once n k] m) as [r|] eqn:E; [|easy]. apply row_of_name in E.
  destruct E as [[<-|[]] Hn]. cbn in Hn. congruence.
Qed.
Lemma one_key : key_of [(n, tt)] (word n) = Some tt.
Proof. apply key_of_iff; [repeat constructor; easy|]. exists n. split; [reflexivity|now left]. Qed.
Lemma one_key_other m : m <> n -> key_of [(n, tt)] (word m) = None.
Proof.
  intros H. destruct (key_of [(n, tt)] (word m)) as [[]|] eqn:E; [|easy].
  apply key_of_iff in E; [|repeat constructor; easy]. destruct E as (m' & Hw & [[= <-]|[]]).
  now injection Hw.
Qed.

Lemma one_step l s i : good_items [once n k] l -> one_inv l s ->
  (forall s', apply one_update s i = Some s' ->
     good_items [once n k] (l ++ [i]) /\ one_inv (l ++ [i]) s') /\
  (good_items [once n k] (l ++ [i]) -> exists s', apply one_update s i = Some s').
Proof.
  intros Hg [I1 I2]. destruct i as [m v]. destruct (beqb m n) eqn:Em.
  - apply beqb_eq in Em. subst m. split.
    + intros s' E. apply apply_some in E. cbn [it_name it_value] in E. unfold one_update in E.
      rewrite one_key in E. apply commit_value in E. destruct E as (e & x & -> & Hx & E).
      apply set_once_ok in E. destruct E as [Hs0 ->]. subst s.
      split.
      * apply good_items_snoc; [exact one_nodup|]. split; [exact Hg|]. exists (once n k).
        split; [exact one_row|]. split; [apply Htakes; exists e, x; now split|]. intros y [= <-] Hin. apply I1 in Hin. now apply Hin.
      * split.
        -- split; [discriminate|]. intros _. rewrite slots_app, in_app_iff. right.
           rewrite slots_one by exact one_nodup. unfold slot_of. cbn [it_name]. rewrite one_row. now left.
        -- apply says_str_new; [exact I2|]. now apply Hstr.
    + intros H. apply good_items_snoc in H; [|exact one_nodup].
      destruct H as [_ (r & Hr & Ht & Hs)]. cbn [it_name it_value] in *. rewrite one_row in Hr.
      injection Hr as <-. apply Htakes in Ht. destruct Ht as (e & x & -> & Hx).
      assert (Hn : s = None).
      { specialize (Hs n eq_refl). rewrite I1 in Hs. destruct s; [|easy]. exfalso. now apply Hs. }
      exists (Some x). apply apply_some. cbn [it_name it_value]. unfold one_update. rewrite one_key.
      apply commit_value. exists e, x. split; [easy|]. split; [exact Hx|]. now apply set_once_ok.
  - assert (Hm : m <> n) by (intros ->; now rewrite beqb_refl in Em). split.
    + intros s' E. apply apply_some in E. cbn [it_name it_value] in E. unfold one_update in E.
      rewrite one_key_other in E by exact Hm. discriminate.
    + intros H. apply good_items_snoc in H; [|exact one_nodup].
      destruct H as [_ (r & Hr & _)]. cbn [it_name] in Hr. rewrite one_row_other in Hr by exact Hm.
      discriminate.
Qed.
Lemma one_all (l : list item) :
  (forall s', apply_all one_update None l = Some s' -> good_items [once n k] l /\ one_inv l s') /\
  (good_items [once n k] l -> exists s', apply_all one_update None l = Some s').
Proof.
  apply (apply_all_good one_update [once n k] one_inv one_step l [] None (good_items_nil _)).
  split; [split; [intros []|now intros H; exfalso; apply H]|]. apply says_str_nil.
Qed.

Lemma value_fold (l : list attribute) : forall s s' es,
  fold_left (value_step one_update) l (s, es) = (s', []) <->
  es = [] /\ exists its, items (bs "value") l its /\ apply_all one_update s its = Some s'.
Proof.
  induction l as [|a l IH]; intros s s' es.
  - cbn. split.
    + intros [= -> ->]. split; [easy|]. exists []. split; [constructor|easy].
    + intros (-> & its & Hi & E). inversion Hi; subst. cbn in E. now injection E as <-.
  - cbn [fold_left]. unfold value_step at 2. destruct (attr_is a (bs "value")) eqn:Ea; cbn [fst snd].
    + apply bears_iff in Ea as Hb.
      destruct (parse_nested_meta one_update s a) as [st es'] eqn:Ep. rewrite IH. split.
      * intros (H & its & Hi & E). apply app_eq_nil in H. destruct H as [-> ->]. split; [easy|].
        apply parse_nested_iff in Ep; [|exact Hlocal]. destruct Ep as (p & ts & l1 & -> & H1 & E1).
        cbn in Hb. subst p. exists (l1 ++ its). split; [now constructor|].
        now rewrite apply_all_app, E1.
      * intros (-> & its & Hi & E).
        destruct (items_bears _ _ _ _ Hb Hi) as [ts ->].
        apply items_cons_list in Hi. destruct Hi as (l1 & l2 & H1 & H2 & ->).
        rewrite apply_all_app in E. destruct (apply_all one_update s l1) as [y|] eqn:Ey; [|discriminate].
        assert (Ep' : parse_nested_meta one_update s (AtList (word (bs "value")) ts) = (y, [])).
        { apply parse_nested_iff; [exact Hlocal|]. exists (word (bs "value")), ts, l1. auto. }
        rewrite Ep' in Ep. injection Ep as <- <-. split; [easy|]. exists l2. auto.
    + rewrite IH. apply bears_not in Ea. split; intros (-> & its & Hi & E); (split; [easy|]);
        exists its; (split; [|exact E]).
      * now apply is_other.
      * now apply items_cons_other in Hi.
Qed.
Lemma value_attrs_ok (l : list attribute) s :
  value_attrs one_update l = (s, []) ->
  exists its, good_attrs (bs "value") [once n k] l its /\ says_str its n s.
Proof.
  intros H. unfold value_attrs in H. apply value_fold in H. destruct H as (_ & its & Hi & E).
  apply (proj1 (one_all its)) in E. destruct E as [Hg [_ Hs]]. exists its. split; [now split|exact Hs].
Qed.
Lemma value_attrs_iff (l : list attribute) :
  snd (value_attrs one_update l) = [] <-> exists its, good_attrs (bs "value") [once n k] l its.
Proof.
  destruct (value_attrs one_update l) as [s es] eqn:E. cbn [snd]. split.
  - intros ->. destruct (value_attrs_ok l s E) as (its & H & _). eauto.
  - intros (its & Hi & Hg). destruct (proj2 (one_all its) Hg) as [s' Hs].
    assert (E' : value_attrs one_update l = (s', [])) by (apply value_fold; eauto).
    rewrite E' in E. now injection E.
Qed.
End One.

Section Enums.
Context {V : Type}.

Lemma as_rename_iff f x : as_rename f = Some x <-> f = FoStr x /\ parse_rename x <> None.
Proof.
  unfold as_rename. destruct f; try (split; [discriminate|now intros [? _]]).
  destruct (parse_rename s) eqn:E; split.
  - intros [= <-]. split; [easy|congruence].
  - now intros [[= <-] _].
  - discriminate.
  - now intros [[= <-] H].
Qed.
Lemma parse_rename_iff s : parse_rename s <> None <->
  In s [bs "camelCase"; bs "kebab-case"; bs "PascalCase"; bs "SCREAMING_SNAKE_CASE";
        bs "snake_case"; bs "lower"; bs "UPPER"; bs "verbatim"].
Proof.
  unfold parse_rename. split.
  - intros H. repeat match goal with
      | H : (if beqb ?a ?b then _ else _) <> None |- _ => destruct (beqb a b) eqn:?
      end; try easy;
    match goal with E : beqb _ _ = true |- _ => apply beqb_eq in E; subst; cbn; tauto end.
  - intros H. cbn [In] in H. repeat destruct H as [<-|H]; try easy.
Qed.
Lemma rename_takes (v : option (aexpr V)) :
  takes VkRename v <-> exists e x, v = Some e /\ as_rename (ax_form e) = Some x.
Proof.
  destruct v as [e|]; cbn; split.
  - intros (s & Hf & Hs). exists e, s. split; [easy|]. apply as_rename_iff. split; [exact Hf|].
    now apply parse_rename_iff.
  - intros (e' & x & [= <-] & H). apply as_rename_iff in H. destruct H as [H1 H2]. exists x.
    split; [exact H1|]. now apply parse_rename_iff.
  - easy.
  - now intros (e & x & ? & _).
Qed.
Lemma str_takes (v : option (aexpr V)) :
  takes VkStr v <-> exists e x, v = Some e /\ as_str (ax_form e) = Some x.
Proof.
  destruct v as [e|]; cbn; split.
  - intros (s & Hf). exists e, s. split; [easy|]. now apply as_str_iff.
  - intros (e' & x & [= <-] & H). apply as_str_iff in H. now exists x.
  - easy.
  - now intros (e & x & ? & _).
Qed.

Definition enum_ok := fun l => value_attrs_ok (V := V) (bs "rename_all") VkRename as_rename
  value_enum_local rename_takes (fun f x H => proj1 (proj1 (as_rename_iff f x) H)) l.
Definition enum_iff := fun l => value_attrs_iff (V := V) (bs "rename_all") VkRename as_rename
  value_enum_local rename_takes (fun f x H => proj1 (proj1 (as_rename_iff f x) H)) l.
Definition variant_ok := fun l => value_attrs_ok (V := V) (bs "name") VkStr as_str
  value_variant_local str_takes (fun f x H => proj1 (as_str_iff f x) H) l.
Definition variant_iff := fun l => value_attrs_iff (V := V) (bs "name") VkStr as_str
  value_variant_local str_takes (fun f x H => proj1 (as_str_iff f x) H) l.

Definition elab_value_variant (v : src_value_variant V) : enum_variant * list aerr :=
  let '(n, es) := value_attrs value_variant_update (sv_attrs v) in
  (mkEnumVariant (sv_ident v) (sv_unit v) n, es).
Lemma elab_value_enum_eq (e : src_value_enum V) :
  elab_value_enum e =
  (mkEnumDecl (fst (value_attrs value_enum_update (se_attrs e)))
     (map (fun v => fst (elab_value_variant v)) (se_variants e)),
   snd (value_attrs value_enum_update (se_attrs e)) ++
   concat (map (fun v => snd (elab_value_variant v)) (se_variants e))).
Proof.
  transitivity (let '(r, es) := value_attrs value_enum_update (se_attrs e) in
    (mkEnumDecl r (map fst (map elab_value_variant (se_variants e))),
     es ++ concat (map snd (map elab_value_variant (se_variants e))))); [reflexivity|].
  destruct (value_attrs value_enum_update (se_attrs e)) as [r es]. now rewrite !map_map.
Qed.
Lemma value_enum_good (e : src_value_enum V) :
  snd (elab_value_enum e) = [] <-> good_value_enum e.
Proof.
  rewrite elab_value_enum_eq. cbn [snd]. rewrite nil_app, concat_nil_iff.
  assert (Hv : forall v : src_value_variant V, snd (elab_value_variant v) = [] <->
    exists l, good_attrs (bs "value") variant_table (sv_attrs v) l).
  { intros v. unfold elab_value_variant. rewrite <- (variant_iff (sv_attrs v)).
    change (one_update (bs "name") as_str) with (@value_variant_update V).
    now destruct (value_attrs value_variant_update (sv_attrs v)). }
  split.
  - intros [H1 H2]. split; [now apply enum_iff in H1|]. intros v Hi. apply Hv. now apply H2.
  - intros [H1 H2]. split; [now apply enum_iff in H1|]. intros v Hi. apply Hv. now apply H2.
Qed.
Lemma value_enum_says_ok (e : src_value_enum V) :
  snd (elab_value_enum e) = [] -> value_enum_says e (fst (elab_value_enum e)).
Proof.
  rewrite elab_value_enum_eq. cbn [fst snd]. rewrite nil_app, concat_nil_iff. intros [H1 H2].
  split; cbn [ed_rename_all ed_variants].
  - destruct (value_attrs value_enum_update (se_attrs e)) as [r es] eqn:E. cbn in H1. subst es.
    apply enum_ok in E. destruct E as (its & [Hi _] & Hs). exists its. split; assumption.
  - apply each2_map. intros v Hi. specialize (H2 v Hi). unfold elab_value_variant in *.
    destruct (value_attrs value_variant_update (sv_attrs v)) as [r es] eqn:E. cbn in H2 |- *. subst es.
    split; [easy|]. split; [easy|].
    apply variant_ok in E. destruct E as (its & [Hi' _] & Hs). exists its. split; assumption.
Qed.
Lemma value_enum_compiles_iff (e : src_value_enum V) :
  value_enum_compiles e <->
  good_value_enum e /\ exists vs, enum_expand (fst (elab_value_enum e)) = Some vs.
Proof.
  unfold value_enum_compiles. rewrite value_enum_good. split; intros [H1 H2]; (split; [exact H1|]).
  - destruct (enum_expand (fst (elab_value_enum e))) as [vs|]; [eauto|easy].
  - destruct H2 as [vs ->]. discriminate.
Qed.

(** ** Names *)

Lemma each2_nth {A B} (R : A -> B -> Prop) l l' : each2 R l l' -> forall i,
  (forall x, nth_error l i = Some x -> exists y, nth_error l' i = Some y /\ R x y) /\
  (forall y, nth_error l' i = Some y -> exists x, nth_error l i = Some x /\ R x y).
Proof.
  revert l'. induction l as [|a l IH]; intros [|b l'] H; try easy.
  - intros [|i]; split; intros z Hz; discriminate Hz.
  - destruct H as [Hab H]. intros [|i]; cbn [nth_error].
    + split; intros z [= <-]; eauto.
    + apply (IH l' H i).
Qed.
Lemma says_str_none table (l : list (item (V := V))) n k o : NoDup (map r_name table) -> In (once n k) table ->
  k = VkStr \/ k = VkRename -> good_items table l -> says_str l n o ->
  (o = None <-> forall v, ~ In (Item n v) l).
Proof.
  intros Hnd Hk Hkk [HF _] Hs. split.
  - intros -> v Hin. rewrite Forall_forall in HF. destruct (HF _ Hin) as (r & Hr & Hn & Ht).
    assert (r = once n k).
    { apply row_of_in in Hr; [|exact Hnd]. apply row_of_in in Hk; [|exact Hnd]. rewrite Hn in Hr.
      cbn [it_name] in Hr. cbn [r_name once] in Hk. congruence. }
    subst r. assert (Hv : exists e s, v = Some e /\ ax_form e = FoStr s).
    { cbn [r_kind once it_value] in Ht. destruct v as [e|].
      - destruct Hkk as [-> | ->]; cbn in Ht.
        + destruct Ht as [s Ht]. eauto.
        + destruct Ht as (s & Ht & _). eauto.
      - now destruct Hkk as [-> | ->]. }
    destruct Hv as (e & s & -> & Hf). assert (@None bytes = Some s) by (apply Hs; eauto). discriminate.
  - intros H. destruct o as [s|]; [|easy]. destruct (proj1 (Hs s) eq_refl) as (e & Hin & _).
    exfalso. eapply H, Hin.
Qed.
Lemma value_enum_cased (e : src_value_enum V) d l r :
  good_value_enum e -> value_enum_says e d -> items (bs "value") (se_attrs e) l ->
  (convention d r <-> cased l r).
Proof.
  intros [(l0 & H0 & Hg) _] [(l1 & H1 & Hs) _] Hl.
  assert (l0 = l) by (eapply items_once; eassumption).
  assert (l1 = l) by (eapply items_once; eassumption). subst l0 l1.
  assert (Hno := says_str_none enum_table l (bs "rename_all") VkRename (ed_rename_all d)
    ltac:(repeat constructor; easy) ltac:(now left) (or_intror eq_refl) Hg Hs).
  split.
  - intros H. destruct H as [E|E|E|E|E|E|E|E|E];
      try (destruct (proj1 (Hs _) E) as (x & Hin & Hf); eapply cased_as; [exact Hin|exact Hf|];
           cbn; tauto).
    apply cased_default. now apply Hno.
  - intros H. destruct H as [Hn|x s r Hin Hf Hr].
    + apply conv_default. now apply Hno.
    + assert (E : ed_rename_all d = Some s) by (apply Hs; eauto). cbn [In] in Hr.
      repeat (destruct Hr as [Hr|Hr]; [injection Hr as <- <-; now constructor|]). destruct Hr.
Qed.
Lemma value_enum_named (e : src_value_enum V) d i n :
  good_value_enum e -> value_enum_says e d -> (nth_named d i n <-> written_name e i n).
Proof.
  intros Hg Hd. assert (Hc := fun l r => value_enum_cased e d l r Hg Hd).
  destruct Hg as [(le & He & Hge) Hgv]. destruct Hd as [(l1 & H1 & Hs1) Hv].
  assert (Hnth := each2_nth _ _ _ Hv i).
  assert (Hnone : forall v x l, In v (se_variants e) -> items (bs "value") (sv_attrs v) l ->
    says_str l (bs "name") x -> (x = None <-> forall w, ~ In (Item (bs "name") w) l)).
  { intros v x l Hin Hl Hs. destruct (Hgv v Hin) as (l' & Hl' & Hg').
    assert (l' = l) by (eapply items_once; eassumption). subst l'.
    exact (says_str_none variant_table l (bs "name") VkStr x
      ltac:(repeat constructor; easy) ltac:(now left) (or_introl eq_refl) Hg' Hs). }
  split.
  - intros (v & Hvi & Hn). destruct (proj2 Hnth v Hvi) as (v0 & Hv0 & Hid & _ & l & Hl & Hs).
    exists v0, l. split; [exact Hv0|]. split; [exact Hl|].
    assert (Hin := nth_error_In _ _ Hv0).
    destruct Hn as [n Hn|r Hn Hr].
    + left. now apply Hs.
    + right. split; [now apply (Hnone v0 (ev_name v))|]. exists le, r. split; [exact He|].
      split; [now apply Hc|]. now rewrite Hid.
  - intros (v0 & l & Hv0 & Hl & Hn). destruct (proj1 Hnth v0 Hv0) as (v & Hvi & Hid & _ & l2 & Hl2 & Hs).
    assert (l2 = l) by (eapply items_once; eassumption). subst l2.
    assert (Hin := nth_error_In _ _ Hv0). exists v. split; [exact Hvi|].
    destruct Hn as [Hx|[Hx (l' & r & Hl' & Hr & ->)]].
    + apply named_explicit. now apply Hs.
    + rewrite <- Hid. apply named_ident; [now apply (Hnone v0 (ev_name v) l)|]. now apply (Hc l').
Qed.

Lemma value_enum_parse (e : src_value_enum V) : value_enum_compiles e ->
  exists vs, enum_expand (fst (elab_value_enum e)) = Some vs /\
  forall s i, ve_parse vs s = Some i <-> written_name e i s.
Proof.
  intros H. apply value_enum_compiles_iff in H. destruct H as [Hg [vs Hvs]]. exists vs.
  split; [exact Hvs|]. intros s i. rewrite (enum_parse _ _ s i Hvs). apply value_enum_named; [exact Hg|].
  apply value_enum_says_ok. now apply value_enum_good.
Qed.
Lemma value_enum_accepts (e : src_value_enum V) : value_enum_compiles e <->
  good_value_enum e /\ (forall v, In v (se_variants e) -> sv_unit v = true) /\
  (forall i j n, written_name e i n -> written_name e j n -> i = j) /\
  (forall i n, written_name e i n -> Forall (fun b => ~ control b) n).
Proof.
  rewrite value_enum_compiles_iff. split.
  - intros [Hg Hx]. split; [exact Hg|]. apply value_enum_good in Hg as Hg'.
    apply value_enum_says_ok in Hg'. apply enum_accepts in Hx. destruct Hx as (_ & Hu & Hd & Hc).
    split; [|split].
    + intros v Hin. apply In_nth_error in Hin. destruct Hin as [i Hi].
      destruct Hg' as [_ Hv]. destruct (proj1 (each2_nth _ _ _ Hv i) v Hi) as (y & Hy & _ & E & _).
      rewrite <- E. rewrite Forall_forall in Hu. apply Hu. eapply nth_error_In, Hy.
    + intros i j n Hi Hj. eapply Hd; apply (value_enum_named e _ _ _ Hg Hg'); eassumption.
    + intros i n Hi. eapply Hc. apply (value_enum_named e _ _ _ Hg Hg'). exact Hi.
  - intros (Hg & Hu & Hd & Hc). split; [exact Hg|]. apply value_enum_good in Hg as Hg'.
    apply value_enum_says_ok in Hg'. apply enum_accepts. split; [|split; [|split]].
    + assert (Hg0 := Hg). destruct Hg as [(l & Hl & Hgi) Hgv].
      assert (Hcase : exists r, cased l r).
      { destruct (ed_rename_all (fst (elab_value_enum e))) as [s|] eqn:E.
        - destruct Hg' as [(l1 & H1 & Hs1) _]. assert (l1 = l) by (eapply items_once; eassumption).
          subst l1. destruct (proj1 (Hs1 s) E) as (x & Hin & Hf). destruct Hgi as [HF _].
          rewrite Forall_forall in HF. destruct (HF _ Hin) as (r & [<-|[]] & _ & s' & Hf' & Hin').
          rewrite Hf in Hf'. injection Hf' as <-. cbn [In] in Hin'.
          repeat (destruct Hin' as [<-|Hin'];
                  [eexists; eapply cased_as; [exact Hin|exact Hf|]; cbn; eauto 20|]).
          destruct Hin'.
        - destruct Hg' as [(l1 & H1 & Hs1) _]. assert (l1 = l) by (eapply items_once; eassumption).
          subst l1. exists KebabCase. apply cased_default.
          rewrite E in Hs1. exact (proj1 (says_str_none enum_table l (bs "rename_all") VkRename None
            ltac:(repeat constructor; easy) ltac:(now left) (or_intror eq_refl) Hgi Hs1) eq_refl). }
      destruct Hcase as [r Hr]. exists r.
      apply (value_enum_cased e _ l r Hg0 Hg' Hl).
      exact Hr.
    + apply Forall_forall. intros y Hy. apply In_nth_error in Hy. destruct Hy as [i Hi].
      destruct Hg' as [_ Hv]. destruct (proj2 (each2_nth _ _ _ Hv i) y Hi) as (v & Hv' & _ & E & _).
      rewrite E. apply Hu. eapply nth_error_In, Hv'.
    + intros i j n Hi Hj. eapply Hd; apply (value_enum_named e _ _ _ Hg Hg'); eassumption.
    + intros i n Hi. eapply Hc. apply (value_enum_named e _ _ _ Hg Hg'). exact Hi.
Qed.
End Enums.
