(** Facts about sources that mean the same, and about mistakes anywhere. *)
From Verif Require Import Bytes BytesFacts Utf8 Attrs Refl Error Values Places Help Heck Decl Derive
  EnumDerive Spec Parts CompileFacts WellFormed WellFormedFacts Source Written SourceFacts SourceArg
  SourceField SourceItems SourceWhole.
From Coq Require Import Permutation.

Section Same.
Context {V : Type}.
Local Notation aexpr := (aexpr V).
Local Notation tok := (tok V).
Local Notation attribute := (attribute V).
Local Notation item := (@item V).
Variable pd : bytes.

(** ** Contexts *)

Scheme struct_around_mind := Induction for struct_around Sort Prop
with field_around_mind := Induction for field_around Sort Prop
with enum_around_mind := Induction for enum_around Sort Prop
with variant_around_mind := Induction for variant_around Sort Prop.
Combined Scheme around_ind from struct_around_mind, field_around_mind, enum_around_mind,
  variant_around_mind.

Lemma elab_fields_put pre id (f : src_field V) post :
  elab_fields pd (pre ++ (id, f) :: post) =
  elab_fields pd pre ++ (id, fst (elab_field pd f)) :: elab_fields pd post.
Proof. unfold elab_fields. now rewrite map_app. Qed.
Lemma fields_errs_put pre id (f : src_field V) post :
  fields_errs pd (pre ++ (id, f) :: post) =
  fields_errs pd pre ++ snd (elab_field pd f) ++ fields_errs pd post.
Proof. unfold fields_errs. now rewrite map_app, concat_app. Qed.
Lemma elab_variants_put pre id (f : src_variant V) post :
  elab_variants pd (pre ++ (id, f) :: post) =
  elab_variants pd pre ++ (id, fst (elab_variant pd f)) :: elab_variants pd post.
Proof. unfold elab_variants. now rewrite map_app. Qed.
Lemma variants_errs_put pre id (f : src_variant V) post :
  variants_errs pd (pre ++ (id, f) :: post) =
  variants_errs pd pre ++ snd (elab_variant pd f) ++ variants_errs pd post.
Proof. unfold variants_errs. now rewrite map_app, concat_app. Qed.

Lemma put_struct_eq attrs g pre id x post (f : src_field V) :
  put_struct (AroundStruct attrs g pre id x post) f =
  SStruct attrs g (SbNamed (pre ++ (id, put_field x f) :: post)).
Proof. reflexivity. Qed.
Lemma put_args_eq attrs t x (f : src_field V) :
  put_field (InArgs attrs t x) f = SField attrs t (TgArgs (put_struct x f)).
Proof. reflexivity. Qed.
Lemma put_sub_eq attrs t x (f : src_field V) :
  put_field (InSub attrs t x) f = SField attrs t (TgSub (put_enum x f)).
Proof. reflexivity. Qed.
Lemma put_enum_eq attrs g pre id x post (f : src_field V) :
  put_enum (AroundEnum attrs g pre id x post) f =
  SEnum attrs g (EbVariants (pre ++ (id, put_variant x f) :: post)).
Proof. reflexivity. Qed.
Lemma put_tuple_eq attrs attrs' x (f : src_field V) :
  put_variant (InTuple attrs attrs' x) f = SvTuple attrs [(attrs', TgArgs (put_struct x f))].
Proof. reflexivity. Qed.
Lemma put_in_struct_eq attrs pre id x post (f : src_field V) :
  put_variant (InStruct attrs pre id x post) f = SvStruct attrs (pre ++ (id, put_field x f) :: post).
Proof. reflexivity. Qed.

(** A field that is read alike makes no difference anywhere. *)
Lemma put_same (f f' : src_field V) : elab_field pd f = elab_field pd f' ->
  (forall c, elab_struct pd (put_struct c f) = elab_struct pd (put_struct c f')) /\
  (forall c, elab_field pd (put_field c f) = elab_field pd (put_field c f')) /\
  (forall c, elab_enum pd (put_enum c f) = elab_enum pd (put_enum c f')) /\
  (forall c, elab_variant pd (put_variant c f) = elab_variant pd (put_variant c f') /\
             dropped (put_variant c f) = dropped (put_variant c f')).
Proof.
  intros Hf. apply around_ind.
  - intros attrs g pre id x IH post. rewrite !put_struct_eq, !elab_struct_eq, !elab_fields_put,
      !fields_errs_put, IH. reflexivity.
  - exact Hf.
  - intros attrs t x IH. rewrite !put_args_eq, !elab_field_eq.
    destruct (field_attrs attrs) as [[m|[]] es]; try reflexivity. now rewrite IH.
  - intros attrs t x IH. rewrite !put_sub_eq, !elab_field_eq.
    destruct (field_attrs attrs) as [[m|[]] es]; try reflexivity. now rewrite IH.
  - intros attrs g pre id x [IH IHd] post. rewrite !put_enum_eq, !elab_enum_eq, !elab_variants_put,
      !variants_errs_put, !existsb_app, !app_length, IH. cbn [existsb snd length]. now rewrite IHd.
  - intros attrs attrs' x IH. rewrite !put_tuple_eq. split; [|reflexivity].
    destruct (elab_variant_tuple pd attrs [(attrs', TgArgs (put_struct x f))])
      as [(a & tg & E0 & E)|[Hn _]]; [|cbn in Hn; lia].
    destruct (elab_variant_tuple pd attrs [(attrs', TgArgs (put_struct x f'))])
      as [(a' & tg' & E0' & E')|[Hn _]]; [|cbn in Hn; lia].
    injection E0 as <- <-. injection E0' as <- <-. rewrite E, E', IH. reflexivity.
  - intros attrs pre id x IH post. rewrite !put_in_struct_eq. split.
    + rewrite !elab_variant_struct, !elab_fields_put, !fields_errs_put, IH. reflexivity.
    + cbn [dropped]. rewrite !app_length. reflexivity.
Qed.

(** A field that is not written well is a mistake wherever it is reached. *)
Lemma put_good (f : src_field V) :
  (forall c, reached_struct c -> good_struct (put_struct c f) -> good_field f) /\
  (forall c, reached_field c -> good_field (put_field c f) -> good_field f) /\
  (forall c, reached_enum c -> good_enum (put_enum c f) -> good_field f) /\
  (forall c, reached_variant c -> good_variant (put_variant c f) -> good_field f).
Proof.
  apply around_ind.
  - intros attrs g pre id x IH post Hr (_ & _ & Hg). cbn [put_struct] in *.
    apply IH; [exact Hr|]. assert (Hg' := proj1 (each_iff _ _) Hg (id, put_field x f)). apply Hg'.
    apply in_app_iff. cbn. auto.
  - easy.
  - intros attrs t x IH [Hk Hr] (k & Hk' & Hg). 
    assert (k = AFlatten) by (eapply field_says_kind; eassumption). subst k. now apply IH.
  - intros attrs t x IH [Hk Hr] (k & Hk' & Hg). 
    assert (k = ASubcommand) by (eapply field_says_kind; eassumption). subst k. now apply IH.
  - intros attrs g pre id x IH post Hr (_ & Hg). cbn [put_enum] in *.
    apply IH; [exact Hr|]. assert (Hg' := proj1 (each_iff _ _) Hg (id, put_variant x f)). apply Hg'.
    apply in_app_iff. cbn. auto.
  - intros attrs attrs' x IH Hr [_ Hg]. now apply IH.
  - intros attrs pre id x IH post Hr [_ Hg]. 
    apply IH; [exact Hr|]. assert (Hg' := proj1 (each_iff _ _) Hg (id, put_field x f)). apply Hg'.
    apply in_app_iff. cbn. auto.
Qed.
Lemma compiles_put c (f : src_field V) :
  reached_struct c -> compiles pd (put_struct c f) -> good_field f.
Proof.
  intros Hr Hc. apply compiles_iff in Hc. destruct Hc as [Hg _]. now apply (proj1 (put_good f)) in Hg.
Qed.

(** ** Mistakes *)

Lemma items_uses name (attrs : list attribute) l i : items name attrs l -> In i l -> uses name attrs.
Proof.
  induction 1 as [|ts l attrs l' Hl H IH|a attrs l Ha H IH]; intros Hin.
  - destruct Hin.
  - exists (AtList (word name) ts). cbn. auto.
  - apply uses_cons. right. auto.
Qed.
Lemma good_field_items attrs t (tg : target V) l i :
  good_field (SField attrs t tg) -> items (bs "arg") attrs l -> In i l ->
  field_says attrs (AnArg l).
Proof.
  intros (k & Hk & _) Hl Hi. assert (Hu := items_uses _ _ _ _ Hl Hi).
  destruct Hk as [its Hd Hc [Hits Hg]|pre post Hd Ha E Hn|pre post Hd Ha E Hn]; try easy.
  assert (its = l) by (eapply items_once; eassumption). subst its. apply fy_arg; auto. split; auto.
Qed.
Lemma good_field_good attrs t (tg : target V) l i :
  good_field (SField attrs t tg) -> items (bs "arg") attrs l -> In i l -> good_items arg_table l.
Proof.
  intros H Hl Hi. assert (Hk := good_field_items _ _ _ _ _ H Hl Hi).
  inversion Hk as [its Hd Hc [_ Hg]| |]. exact Hg.
Qed.

Lemma bad_item c attrs t (tg : target V) l i :
  reached_struct c -> items (bs "arg") attrs l -> In i l ->
  (forall r, In r arg_table -> r_name r = it_name i -> ~ takes (r_kind r) (it_value i)) ->
  ~ compiles pd (put_struct c (SField attrs t tg)).
Proof.
  intros Hr Hl Hi Hbad Hc. apply (compiles_put c _ Hr) in Hc.
  destruct (good_field_good _ _ _ _ _ Hc Hl Hi) as [HF _]. rewrite Forall_forall in HF.
  destruct (HF i Hi) as (r & Hin & Hn & Ht). now apply (Hbad r).
Qed.
Lemma repeated_item c attrs t (tg : target V) l1 i l2 j l3 r s :
  reached_struct c -> items (bs "arg") attrs (l1 ++ i :: l2 ++ j :: l3) ->
  In r arg_table -> r_name r = it_name i -> r_slot r = Some s ->
  (exists r', In r' arg_table /\ r_name r' = it_name j /\ r_slot r' = Some s) ->
  ~ compiles pd (put_struct c (SField attrs t tg)).
Proof.
  intros Hr Hl Hin Hn Hs (r' & Hin' & Hn' & Hs') Hc. apply (compiles_put c _ Hr) in Hc.
  destruct (good_field_good _ _ _ _ i Hc Hl) as [_ Hnd].
  { apply in_app_iff. cbn. auto. }
  assert (Hsl : forall q k, In q arg_table -> r_name q = it_name k -> r_slot q = Some s ->
                            slots (V := V) arg_table [k] = [s]).
  { intros q k H1 H2 H3. rewrite slots_one by exact arg_table_nodup. unfold slot_of.
    rewrite <- H2, row_of_in by (try exact arg_table_nodup; exact H1). now rewrite H3. }
  change (l1 ++ i :: l2 ++ j :: l3) with (l1 ++ [i] ++ l2 ++ [j] ++ l3) in Hnd.
  rewrite !slots_app, (Hsl r i), (Hsl r' j) in Hnd by assumption.
  apply NoDup_remove_2 in Hnd. apply Hnd. rewrite !in_app_iff. cbn. auto.
Qed.

(** ** The same items *)

Definition spoken : list bytes :=
  [bs "long"; bs "short"; bs "value_name"; bs "require_equals"; bs "global";
   bs "allow_hyphen_values"; bs "allow_negative_numbers"; bs "ignore_case"; bs "trailing_var_arg";
   bs "last"; bs "default_value"; bs "default_value_t"; bs "default_values_t"; bs "value_delimiter";
   bs "use_value_delimiter"; bs "hide"; bs "required"; bs "exclusive"].

Lemma gather_repeatable {A} ns (f : form -> list A) (l : list item) :
  forallb (fun n => existsb (beqb n)
    [bs "alias"; bs "aliases"; bs "short_alias"; bs "short_aliases"; bs "requires";
     bs "conflicts_with"; bs "conflicts_with_all"]) ns = true ->
  gather ns f l = gather ns f (filter repeatable l).
Proof.
  intros Hns. induction l as [|i l IH]; [easy|]. cbn [filter].
  change (gather ns f (i :: l)) with (gather ns f ([i] ++ l)). rewrite gather_app, IH.
  destruct (repeatable i) eqn:E.
  - change (i :: filter repeatable l) with ([i] ++ filter repeatable l). now rewrite gather_app.
  - assert (Hno : gather ns f [i] = []); [|now rewrite Hno].
    unfold gather. cbn [flat_map]. destruct (existsb (beqb (it_name i)) ns) eqn:En; [|easy].
    exfalso. apply existsb_beqb_In in En. rewrite forallb_forall in Hns. apply Hns in En.
    unfold repeatable in E. congruence.
Qed.

Lemma says_str_ext (l l' : list item) n o :
  (forall v, In (Item n v) l <-> In (Item n v) l') -> says_str l n o -> says_str l' n o.
Proof.
  intros H Hs s. rewrite (Hs s). split; intros (e & He & Hf); exists e; split; auto; now apply H.
Qed.
Lemma says_char_ext (l l' : list item) n o :
  (forall v, In (Item n v) l <-> In (Item n v) l') -> says_char l n o -> says_char l' n o.
Proof.
  intros H Hs s. rewrite (Hs s). split; intros (e & He & Hf); exists e; split; auto; now apply H.
Qed.
Lemma says_true_ext (l l' : list item) n o :
  (forall v, In (Item n v) l <-> In (Item n v) l') -> says_true l n o -> says_true l' n o.
Proof.
  unfold says_true. intros H [H1 H2]. split.
  - intros Ho. destruct (H1 Ho) as [v Hv]. exists v. now apply H.
  - intros [v Hv]. apply H2. exists v. now apply H.
Qed.

Lemma arg_says_ext ds (l l' : list item) m :
  (forall n v, In n spoken -> (In (Item n v) l <-> In (Item n v) l')) ->
  filter repeatable l = filter repeatable l' -> arg_says ds l m -> arg_says ds l' m.
Proof.
  intros H Hr Hy.
  assert (K : forall n, existsb (beqb n) spoken = true ->
                        forall v, In (Item n v) l <-> In (Item n v) l').
  { intros n Hn v. apply H. now apply existsb_beqb_In. }
  assert (Hdt := ay_default_value_t _ _ _ Hy). assert (Hvd := ay_value_delimiter _ _ _ Hy).
  destruct Hy. split; try assumption;
    try (eapply says_str_ext; [apply K; reflexivity|eassumption]);
    try (eapply says_char_ext; [apply K; reflexivity|eassumption]);
    try (eapply says_true_ext; [apply K; reflexivity|eassumption]);
    try (rewrite gather_repeatable, <- Hr, <- gather_repeatable by reflexivity; assumption).
  - rewrite <- K by reflexivity. assumption.
  - rewrite <- K by reflexivity. assumption.
  - rewrite <- !K by reflexivity. assumption.
  - intros x. etransitivity; [apply (Hdt x)|].
    split; intros (e & He & Hx); exists e; (split; [|exact Hx]); destruct He; [left|right|left|right];
      apply K; try reflexivity; assumption.
  - intros c. etransitivity; [apply (Hvd c)|].
    split; (intros [(e & He & Hx)|(e & He & Hx)]; [left|right]; exists e; split; auto; apply K;
      try reflexivity; assumption).
Qed.

Lemma good_items_perm table (l l' : list item) :
  Permutation l l' -> good_items table l -> good_items table l'.
Proof.
  intros Hp [HF Hs]. split.
  - eapply Permutation_Forall; eassumption.
  - eapply Permutation_NoDup; [|exact Hs]. unfold slots. now apply Permutation_flat_map.
Qed.

(** Two fields with the same meaning. *)
Lemma same_field attrs attrs' t (tg : target V) l l' :
  field_says attrs (AnArg l) -> field_says attrs' (AnArg l') -> docs attrs = docs attrs' ->
  (forall m, arg_says (docs attrs) l m -> arg_says (docs attrs) l' m) ->
  elab_field pd (SField attrs t tg) = elab_field pd (SField attrs' t tg).
Proof.
  intros Hk Hk' Hd Hs. destruct (field_says_exists attrs l Hk) as [m Hm].
  rewrite !elab_field_eq, (field_says_arg attrs l m Hk Hm).
  assert (Hm' : arg_says (docs attrs') l' m) by (rewrite <- Hd; now apply Hs).
  now rewrite (field_says_arg attrs' l' m Hk' Hm').
Qed.
Lemma same_put c attrs attrs' t (tg : target V) l l' :
  field_says attrs (AnArg l) -> field_says attrs' (AnArg l') -> docs attrs = docs attrs' ->
  (forall m, arg_says (docs attrs) l m -> arg_says (docs attrs) l' m) ->
  declared pd (put_struct c (SField attrs t tg)) = declared pd (put_struct c (SField attrs' t tg)) /\
  (compiles pd (put_struct c (SField attrs t tg)) <-> compiles pd (put_struct c (SField attrs' t tg))).
Proof.
  intros Hk Hk' Hd Hs. unfold declared, compiles.
  rewrite (proj1 (put_same _ _ (same_field attrs attrs' t tg l l' Hk Hk' Hd Hs)) c). split; reflexivity.
Qed.

Lemma reordered_put c attrs attrs' t (tg : target V) l l' :
  field_says attrs (AnArg l) -> reordered l l' ->
  items (bs "arg") attrs' l' -> docs attrs' = docs attrs -> docs_literal attrs' ->
  ~ uses (bs "command") attrs' ->
  declared pd (put_struct c (SField attrs t tg)) = declared pd (put_struct c (SField attrs' t tg)) /\
  (compiles pd (put_struct c (SField attrs t tg)) <-> compiles pd (put_struct c (SField attrs' t tg))).
Proof.
  intros Hk [Hp Hr] Hl' Hd Hdl Hc.
  assert (Hg : good_items arg_table l) by now inversion Hk as [its Hd0 Hc0 [Hi0 Hg0]| |]; subst.
  apply (same_put c attrs attrs' t tg l l' Hk); [|easy|].
  - apply fy_arg; auto. split; [exact Hl'|]. eapply good_items_perm; eassumption.
  - intros m. apply arg_says_ext; [|exact Hr]. intros n v _. split; apply Permutation_in; [|symmetry]; auto.
Qed.

Lemma field_says_good attrs (l : list item) : field_says attrs (AnArg l) -> good_items arg_table l.
Proof. intros H. now inversion H as [its Hd0 Hc0 [Hi0 Hg0]| |]; subst. Qed.

(** Synonyms are read alike. *)
Lemma synonym_apply (i i' : item) s s' :
  synonym i i' -> apply arg_update s i = Some s' -> apply arg_update s i' = Some s'.
Proof.
  intros H. destruct H as [i|v|v|v|v|v|v|v|e e' He He'|e e' He He']; try exact (fun E => E).
  - rewrite !apply_some. cbn [it_name it_value].
    change (arg_update s (word (bs "conflicts_with")) (value_toks v)) with
      (commit s (value_of (parse_form as_field) (value_toks v))
        (fun x => (with_meta s (with_conflicts_with (as_meta s) (am_conflicts_with (as_meta s) ++ [x])), []))).
    change (arg_update s (word (bs "conflicts_with_all")) (value_toks v)) with
      (commit s (value_of (parse_form (one_or_array as_field)) (value_toks v))
        (fun x => (with_meta s (with_conflicts_with (as_meta s) (am_conflicts_with (as_meta s) ++ x)), []))).
    rewrite !commit_value. intros (e & x & -> & Hx & E). exists e, [x]. split; [easy|]. split; [|exact E].
    apply as_field_iff in Hx as Hx'. destruct Hx' as [Hf _]. rewrite Hf in *. unfold one_or_array.
    now rewrite Hx.
  - rewrite !apply_some. cbn [it_name it_value].
    change (arg_update s (word (bs "use_value_delimiter")) (value_toks (Some e))) with
      (commit s (value_of (parse_form as_bool) (value_toks (Some e))) (fun v =>
           let '(x, es) := set_once (am_value_delimiter (as_meta s)) (b2n ","%byte) in
           (with_meta s (with_value_delimiter (as_meta s) x),
            (if v then [] else [AE_not_true]) ++ es))).
    change (arg_update s (word (bs "value_delimiter")) (value_toks (Some e'))) with
      (commit s (value_of (parse_form as_char) (value_toks (Some e')))
        (fun v => let '(x, es) := set_once (am_value_delimiter (as_meta s)) v in
                  (with_meta s (with_value_delimiter (as_meta s) x), es))).
    rewrite !commit_value. intros (e0 & x & [= <-] & Hx & E). exists e', (b2n ",").
    split; [easy|]. rewrite He'. split; [easy|]. rewrite He in Hx. injection Hx as <-. exact E.
  - rewrite !apply_some. cbn [it_name it_value].
    change (arg_update s (word (bs "use_value_delimiter")) (value_toks (Some e))) with
      (commit s (value_of (parse_form as_bool) (value_toks (Some e))) (fun v =>
           let '(x, es) := set_once (am_value_delimiter (as_meta s)) (b2n ","%byte) in
           (with_meta s (with_value_delimiter (as_meta s) x),
            (if v then [] else [AE_not_true]) ++ es))).
    change (arg_update s (word (bs "value_delimiter")) (value_toks (Some e'))) with
      (commit s (value_of (parse_form as_char) (value_toks (Some e')))
        (fun v => let '(x, es) := set_once (am_value_delimiter (as_meta s)) v in
                  (with_meta s (with_value_delimiter (as_meta s) x), es))).
    rewrite !commit_value. intros (e0 & x & [= <-] & Hx & E). exists e, true.
    split; [easy|]. rewrite He. split; [easy|]. rewrite He' in Hx. injection Hx as <-. exact E.
Qed.
Lemma synonym_all (l l' : list item) : Forall2 synonym l l' -> forall s s',
  apply_all arg_update s l = Some s' -> apply_all arg_update s l' = Some s'.
Proof.
  induction 1 as [|i i' l l' Hi H IH]; intros s s' E; [exact E|]. cbn in *.
  destruct (apply arg_update s i) as [s1|] eqn:E1; [|discriminate].
  rewrite (synonym_apply i i' s s1 Hi E1). now apply IH.
Qed.
Lemma synonym_says (l l' : list item) : Forall2 synonym l l' -> good_items arg_table l ->
  good_items arg_table l' /\ forall ds m, arg_says ds l m -> arg_says ds l' m.
Proof.
  intros H Hg. destruct (proj2 (arg_all l) Hg) as [x Hx].
  destruct (proj1 (arg_all l) x Hx) as [_ [_ Hy]].
  apply (synonym_all l l' H) in Hx. destruct (proj1 (arg_all l') x Hx) as [Hg' [_ Hy']].
  split; [exact Hg'|]. intros ds m Hm.
  assert (Hm0 := says_doc ds l (as_meta x) Hy). assert (m = with_doc (as_meta x) ds)
    by (eapply arg_says_once; eassumption). subst m. now apply says_doc.
Qed.
Lemma synonym_put c attrs attrs' t (tg : target V) l l' :
  field_says attrs (AnArg l) -> Forall2 synonym l l' ->
  items (bs "arg") attrs' l' -> docs attrs' = docs attrs -> docs_literal attrs' ->
  ~ uses (bs "command") attrs' ->
  declared pd (put_struct c (SField attrs t tg)) = declared pd (put_struct c (SField attrs' t tg)) /\
  (compiles pd (put_struct c (SField attrs t tg)) <-> compiles pd (put_struct c (SField attrs' t tg))).
Proof.
  intros Hk Hsy Hl' Hd Hdl Hc. destruct (synonym_says l l' Hsy (field_says_good _ _ Hk)) as [Hg Hs].
  apply (same_put c attrs attrs' t tg l l' Hk); [|easy|apply Hs].
  apply fy_arg; auto. split; assumption.
Qed.

(** Idle items. *)
Lemma filter_filter_idle (l : list item) :
  filter repeatable l = filter repeatable (filter (fun i => negb (idle i)) l).
Proof.
  induction l as [|i l IH]; [easy|]. cbn [filter]. destruct (idle i) eqn:Ei; cbn [negb].
  - destruct (repeatable i) eqn:Er; [|exact IH]. exfalso. unfold idle in Ei. unfold repeatable in Er.
    apply existsb_beqb_In in Ei, Er. revert Er. cbn [In] in Ei.
    destruct Ei as [<-|[<-|[<-|[]]]]; intros Er; apply existsb_beqb_In in Er; discriminate.
  - cbn [filter]. destruct (repeatable i); [now f_equal|exact IH].
Qed.
Lemma slots_filter_incl table (p : item -> bool) l : NoDup (slots table l) -> NoDup (slots table (filter p l)).
Proof.
  assert (Hin : forall (l : list item) x, In x (slots table (filter p l)) -> In x (slots table l)).
  { intros l0 x. unfold slots. rewrite !in_flat_map. intros (i & Hi & Hx). exists i.
    apply filter_In in Hi. tauto. }
  induction l as [|i l IH]; cbn [filter]; intros H; [exact H|].
  change (i :: l) with ([i] ++ l) in H. rewrite slots_app in H.
  assert (Hl : NoDup (slots table l)).
  { clear - H. induction (slots table [i]) as [|x r IHr]; [exact H|]. inversion H; subst. auto. }
  destruct (p i); [|auto].
  change (i :: filter p l) with ([i] ++ filter p l). rewrite slots_app. specialize (IH Hl).
  revert H IH. generalize (slots table [i]). intros r H IH.
  induction r as [|x r IHr]; [exact IH|]. inversion H as [|y k Hn Hnd]; subst. cbn. constructor; [|auto].
  intros Hx. apply Hn. apply in_app_iff in Hx. apply in_app_iff. destruct Hx; auto.
Qed.
Lemma good_items_filter table (p : item -> bool) l : good_items table l -> good_items table (filter p l).
Proof.
  intros [HF Hs]. split; [|now apply slots_filter_incl]. rewrite Forall_forall in *. intros i Hi.
  apply filter_In in Hi. now apply HF.
Qed.
Lemma idle_put c attrs attrs' t (tg : target V) l :
  field_says attrs (AnArg l) ->
  items (bs "arg") attrs' (filter (fun i => negb (idle i)) l) -> docs attrs' = docs attrs ->
  docs_literal attrs' -> ~ uses (bs "command") attrs' ->
  declared pd (put_struct c (SField attrs t tg)) = declared pd (put_struct c (SField attrs' t tg)) /\
  (compiles pd (put_struct c (SField attrs t tg)) <-> compiles pd (put_struct c (SField attrs' t tg))).
Proof.
  intros Hk Hl' Hd Hdl Hc.
  apply (same_put c attrs attrs' t tg l (filter (fun i => negb (idle i)) l) Hk); [|easy|].
  - apply fy_arg; auto. split; [exact Hl'|]. apply good_items_filter. now apply field_says_good in Hk.
  - intros m. apply arg_says_ext; [|apply filter_filter_idle]. intros n v Hn.
    rewrite filter_In. split; [|easy]. intros Hin. split; [exact Hin|]. unfold idle. cbn [it_name].
    apply negb_true_iff. apply existsb_beqb_nIn. intros Hi. revert Hn. cbn [In] in Hi.
    destruct Hi as [<-|[<-|[<-|[]]]]; intros Hn; apply existsb_beqb_In in Hn; discriminate.
Qed.
End Same.

(** Attributes written out. *)
Section Attrs.
Context {V : Type}.
Lemma commas_list (l : list (@item V)) : item_list (commas l) l.
Proof.
  induction l as [|i l IH]; [constructor|]. destruct l as [|j l]; [constructor|].
  change (commas (i :: j :: l)) with (item_toks i ++ TComma :: commas (j :: l)). now constructor.
Qed.
Lemma arg_attrs (ls : list (list (@item V))) : items (bs "arg") (map arg_attr ls) (concat ls).
Proof. induction ls as [|l ls IH]; constructor; [apply commas_list|exact IH]. Qed.
Lemma arg_attrs_clean (ls : list (list (@item V))) : ~ uses (bs "command") (map arg_attr ls).
Proof.
  intros (a & Hin & Hb). apply in_map_iff in Hin. destruct Hin as (l & <- & _). cbn in Hb. discriminate.
Qed.
Lemma arg_attrs_docs (ls : list (list (@item V))) :
  docs (map arg_attr ls) = [] /\ docs_literal (map arg_attr ls).
Proof.
  split; [induction ls; auto|]. intros H. apply in_map_iff in H. destruct H as (l & H & _). discriminate.
Qed.

Lemma idle_command_top pd (attrs attrs' : list (attribute V)) g b l :
  items (bs "command") attrs l ->
  items (bs "command") attrs' (filter (fun i => negb (idle_command i)) l) ->
  docs attrs' = docs attrs -> docs_literal attrs' -> ~ uses (bs "arg") attrs' ->
  (uses (bs "command") attrs' <-> uses (bs "command") attrs) ->
  compiles pd (SStruct attrs g b) ->
  compiles pd (SStruct attrs' g b) /\ declared pd (SStruct attrs g b) = declared pd (SStruct attrs' g b).
Proof.
  intros Hl Hl' Hd Hdl Ha Hu Hc.
  assert (Hgood : good_struct (SStruct attrs g b)) by now apply compiles_iff in Hc.
  destruct b as [fs|]; [|now destruct Hgood]. destruct Hgood as (_ & Hg & _).
  assert (E : command_attrs pd attrs = command_attrs pd attrs').
  { destruct Hg as (Hdl0 & Ha0 & l0 & [Hl0 Hgi] & Ht).
    assert (l0 = l) by (eapply items_once; eassumption). subst l0.
    assert (Hin : forall n v, n = bs "long_about" \/ n = bs "after_long_help" ->
      (In (Item n v) l <-> In (Item n v) (filter (fun i => negb (idle_command i)) l))).
    { intros n v Hn. rewrite filter_In. split; [|easy]. intros Hi. split; [exact Hi|].
      now destruct Hn as [-> | ->]. }
    assert (Hgi' := good_items_filter cmd_table (fun i => negb (idle_command i)) l Hgi).
    assert (Hg' : good_command attrs').
    { split; [exact Hdl|]. split; [exact Ha|]. eexists. split; [split; [exact Hl'|exact Hgi']|].
      intros n e Hi Hn. apply (Hin n (Some e) Hn) in Hi. now apply (Ht n e). }
    assert (Hg : good_command attrs).
    { split; [exact Hdl0|]. split; [exact Ha0|]. exists l. split; [now split|exact Ht]. }
    apply (command_attrs_iff pd) in Hg, Hg'.
    assert (S := command_attrs_says pd attrs Hg). assert (S' := command_attrs_says pd attrs' Hg').
    destruct (command_attrs pd attrs) as [ca es], (command_attrs pd attrs') as [ca' es'].
    cbn [fst snd] in *. subst es es'. f_equal. apply (cmd_says_once pd attrs); [exact S|].
    destruct S' as [D C (l1 & [H1 G1] & A & B)].
    assert (l1 = filter (fun i => negb (idle_command i)) l) by (eapply items_once; eassumption). subst l1.
    split.
    - now rewrite D.
    - now rewrite C.
    - exists l. split; [now split|]. split.
      + intros s. rewrite A. rewrite <- (Hin _ None (or_introl eq_refl)).
        split; (intros [H|(e & He & Hs)]; [now left|right; exists e; split; [|exact Hs]]);
          now apply (Hin _ (Some e) (or_introl eq_refl)).
      + intros s. rewrite B.
        split; intros (e & He & Hs); exists e; (split; [|exact Hs]);
          now apply (Hin _ (Some e) (or_intror eq_refl)). }
  revert Hc. unfold compiles, declared. rewrite !elab_struct_eq, E. auto.
Qed.

(** What nobody looks at. *)
Lemma enum_attrs_put pd c (fattrs : list (attribute V)) t attrs attrs' g b :
  declared pd (put_struct c (SField fattrs t (TgSub (SEnum attrs g b)))) =
  declared pd (put_struct c (SField fattrs t (TgSub (SEnum attrs' g b)))) /\
  (compiles pd (put_struct c (SField fattrs t (TgSub (SEnum attrs g b)))) <->
   compiles pd (put_struct c (SField fattrs t (TgSub (SEnum attrs' g b))))).
Proof.
  assert (E : elab_field pd (SField fattrs t (TgSub (SEnum attrs g b))) =
              elab_field pd (SField fattrs t (TgSub (SEnum attrs' g b)))).
  { rewrite !elab_field_eq. destruct (field_attrs fattrs) as [[m|[]] es]; reflexivity. }
  unfold declared, compiles. rewrite (proj1 (put_same pd _ _ E) c). split; reflexivity.
Qed.
End Attrs.
