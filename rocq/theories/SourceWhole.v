(** Facts about whole sources: which compile, and what they declare. *)
From Verif Require Import Bytes BytesFacts Utf8 Attrs Refl Error Values Places Help Heck Decl Derive
  EnumDerive Spec Parts CompileFacts WellFormed WellFormedFacts Source Written SourceFacts SourceArg
  SourceField SourceItems.
From Coq Require Import Permutation.

(** ** Induction *)

Section Induction.
Context {V : Type}.
Variables (PS : src_struct V -> Prop) (PF : src_field V -> Prop) (PE : src_enum V -> Prop)
  (PV : src_variant V -> Prop).
Definition target_ok (tg : target V) : Prop :=
  match tg with TgNone => True | TgArgs s => PS s | TgSub e => PE e end.
Hypothesis HSn : forall attrs g fs, (forall id f, In (id, f) fs -> PF f) -> PS (SStruct attrs g (SbNamed fs)).
Hypothesis HSo : forall attrs g, PS (SStruct attrs g SbOther).
Hypothesis HF : forall attrs t tg, target_ok tg -> PF (SField attrs t tg).
Hypothesis HEv : forall attrs g vs, (forall id v, In (id, v) vs -> PV v) -> PE (SEnum attrs g (EbVariants vs)).
Hypothesis HEo : forall attrs g, PE (SEnum attrs g EbOther).
Hypothesis HVu : forall attrs, PV (SvUnit attrs).
Hypothesis HVt : forall attrs fs, (forall a tg, In (a, tg) fs -> target_ok tg) -> PV (SvTuple attrs fs).
Hypothesis HVs : forall attrs fs, (forall id f, In (id, f) fs -> PF f) -> PV (SvStruct attrs fs).

Fixpoint ind_struct (s : src_struct V) : PS s :=
  match s with
  | SStruct attrs g (SbNamed fs) =>
      HSn attrs g fs
        ((fix go (l : list (ident * src_field V)) : forall id f, In (id, f) l -> PF f :=
            match l with
            | [] => fun id f H => match H with end
            | (id0, f0) :: l' => fun id f H =>
                match H with
                | or_introl E => match E in _ = q return PF (snd q) with eq_refl => ind_field f0 end
                | or_intror H' => go l' id f H'
                end
            end) fs)
  | SStruct attrs g SbOther => HSo attrs g
  end
with ind_field (f : src_field V) : PF f :=
  match f with
  | SField attrs t tg => HF attrs t tg
      (match tg as tg return target_ok tg with
       | TgNone => I | TgArgs s => ind_struct s | TgSub e => ind_enum e end)
  end
with ind_enum (e : src_enum V) : PE e :=
  match e with
  | SEnum attrs g (EbVariants vs) =>
      HEv attrs g vs
        ((fix go (l : list (ident * src_variant V)) : forall id f, In (id, f) l -> PV f :=
            match l with
            | [] => fun id f H => match H with end
            | (id0, f0) :: l' => fun id f H =>
                match H with
                | or_introl E => match E in _ = q return PV (snd q) with eq_refl => ind_variant f0 end
                | or_intror H' => go l' id f H'
                end
            end) vs)
  | SEnum attrs g EbOther => HEo attrs g
  end
with ind_variant (v : src_variant V) : PV v :=
  match v with
  | SvUnit attrs => HVu attrs
  | SvTuple attrs fs =>
      HVt attrs fs
        ((fix go (l : list (list (attribute V) * target V)) : forall a tg, In (a, tg) l -> target_ok tg :=
            match l with
            | [] => fun id f H => match H with end
            | (a0, tg0) :: l' => fun a tg H =>
                match H with
                | or_introl E => match E in _ = q return target_ok (snd q) with
                    | eq_refl =>
                        match tg0 as tg0 return target_ok tg0 with
                        | TgNone => I | TgArgs s => ind_struct s | TgSub e => ind_enum e end
                    end
                | or_intror H' => go l' a tg H'
                end
            end) fs)
  | SvStruct attrs fs =>
      HVs attrs fs
        ((fix go (l : list (ident * src_field V)) : forall id f, In (id, f) l -> PF f :=
            match l with
            | [] => fun id f H => match H with end
            | (id0, f0) :: l' => fun id f H =>
                match H with
                | or_introl E => match E in _ = q return PF (snd q) with eq_refl => ind_field f0 end
                | or_intror H' => go l' id f H'
                end
            end) fs)
  end.
Lemma src_ind :
  (forall s, PS s) /\ (forall f, PF f) /\ (forall e, PE e) /\ (forall v, PV v).
Proof. exact (conj ind_struct (conj ind_field (conj ind_enum ind_variant))). Qed.
End Induction.

Section Whole.
Context {V : Type}.
Variable pd : bytes.

(** ** Unfolding *)

Lemma elab_field_eq attrs t (tg : target V) :
  elab_field pd (SField attrs t tg) =
  let '(x, aes) := field_attrs attrs in
  match x with
  | Source.Arg m => (FArg m (ty_of t), map SE_attr aes)
  | Command CFlatten =>
      match tg with
      | TgArgs s => let '(d, es') := elab_struct pd s in (FFlatten d, map SE_attr aes ++ es')
      | _ => (FFlatten no_struct, map SE_attr aes ++ [SE_not_args])
      end
  | Command CSubcommand =>
      let optional := match strip_ty_ctor t (bs "Option") with Some _ => true | None => false end in
      match tg with
      | TgSub e => let '(d, es') := elab_enum pd e in (FSub optional d, map SE_attr aes ++ es')
      | _ => (FSub optional (MkSubDecl []), map SE_attr aes ++ [SE_not_subcommand])
      end
  end.
Proof. reflexivity. Qed.

Definition elab_fields (fs : list (ident * src_field V)) : list (ident * field_decl V) :=
  map (fun f => (fst f, fst (elab_field pd (snd f)))) fs.
Definition fields_errs (fs : list (ident * src_field V)) : list serr :=
  concat (map (fun f => snd (elab_field pd (snd f))) fs).
Definition elab_variants (vs : list (ident * src_variant V)) : list (ident * variant_decl V) :=
  map (fun f => (fst f, fst (elab_variant pd (snd f)))) vs.
Definition variants_errs (vs : list (ident * src_variant V)) : list serr :=
  concat (map (fun f => snd (elab_variant pd (snd f))) vs).

Definition map_fields (fs : list (ident * src_field V)) : list (ident * field_decl V * list serr) :=
  map (fun f => let '(id, x) := f in let '(fd, es) := elab_field pd x in ((id, fd), es)) fs.
Definition map_variants (vs : list (ident * src_variant V))
  : list (ident * variant_decl V * list serr) :=
  map (fun v => let '(id, x) := v in let '(vd, es) := elab_variant pd x in ((id, vd), es)) vs.
Lemma map_fields_fst fs : map fst (map_fields fs) = elab_fields fs.
Proof.
  unfold map_fields, elab_fields. rewrite map_map. apply map_ext. intros [id f].
  cbn [fst snd]. now destruct (elab_field pd f).
Qed.
Lemma map_fields_snd fs : concat (map snd (map_fields fs)) = fields_errs fs.
Proof.
  unfold map_fields, fields_errs. rewrite map_map. f_equal. apply map_ext. intros [id f].
  cbn [fst snd]. now destruct (elab_field pd f).
Qed.
Lemma map_variants_fst vs : map fst (map_variants vs) = elab_variants vs.
Proof.
  unfold map_variants, elab_variants. rewrite map_map. apply map_ext. intros [id f].
  cbn [fst snd]. now destruct (elab_variant pd f).
Qed.
Lemma map_variants_snd vs : concat (map snd (map_variants vs)) = variants_errs vs.
Proof.
  unfold map_variants, variants_errs. rewrite map_map. f_equal. apply map_ext. intros [id f].
  cbn [fst snd]. now destruct (elab_variant pd f).
Qed.

Lemma elab_struct_eq attrs g (fs : list (ident * src_field V)) :
  elab_struct pd (SStruct attrs g (SbNamed fs)) =
  (MkArgsDecl (fst (command_attrs pd attrs)) (elab_fields fs),
   (if g then [SE_generics] else []) ++ snd (command_attrs pd attrs) ++ fields_errs fs).
Proof.
  rewrite <- map_fields_fst, <- map_fields_snd.
  transitivity (let '(ca, es) := command_attrs pd attrs in
    (MkArgsDecl ca (map fst (map_fields fs)),
     (if g then [SE_generics] else []) ++ es ++ concat (map snd (map_fields fs)))); [reflexivity|].
  now destruct (command_attrs pd attrs).
Qed.
Lemma elab_enum_eq attrs g (vs : list (ident * src_variant V)) :
  elab_enum pd (SEnum attrs g (EbVariants vs)) =
  (MkSubDecl (elab_variants vs),
   (if g then [SE_generics] else [])
   ++ if existsb (fun v => dropped (snd v)) vs && (2 <=? length vs)
      then [SE_macro_panic] else variants_errs vs).
Proof.
  rewrite <- map_variants_fst, <- map_variants_snd. reflexivity.
Qed.
Lemma elab_variant_struct attrs (fs : list (ident * src_field V)) :
  elab_variant pd (SvStruct attrs fs) =
  (VDStruct (MkArgsDecl (fst (command_attrs pd attrs)) (elab_fields fs)),
   snd (command_attrs pd attrs) ++ fields_errs fs).
Proof.
  rewrite <- map_fields_fst, <- map_fields_snd.
  transitivity (let '(ca, es) := command_attrs pd attrs in
    (VDStruct (MkArgsDecl ca (map fst (map_fields fs))),
     es ++ concat (map snd (map_fields fs)))); [reflexivity|].
  now destruct (command_attrs pd attrs).
Qed.
Lemma elab_variant_tuple attrs (fs : list (list (attribute V) * target V)) :
  (exists a tg, fs = [(a, tg)] /\
   elab_variant pd (SvTuple attrs fs) =
   match tg with
   | TgArgs s => (VDNewtype (fst (command_attrs pd attrs)) (fst (elab_struct pd s)),
                  snd (command_attrs pd attrs) ++ snd (elab_struct pd s))
   | _ => (VDNewtype (fst (command_attrs pd attrs)) no_struct,
           snd (command_attrs pd attrs) ++ [SE_not_args])
   end) \/
  (length fs <> 1 /\
   elab_variant pd (SvTuple attrs fs) =
   (VDUnit (fst (command_attrs pd attrs)), snd (command_attrs pd attrs) ++ [SE_tuple_variant])).
Proof.
  destruct fs as [|[a tg] [|b fs]].
  - right. split; [cbn; lia|].
    transitivity (let '(ca, es) := command_attrs pd attrs in
      (@VDUnit V ca, es ++ [SE_tuple_variant])); [reflexivity|]. now destruct (command_attrs pd attrs).
  - left. exists a, tg. split; [easy|].
    transitivity (let '(ca, es) := command_attrs pd attrs in
      match tg with
      | TgArgs s => let '(d, es') := elab_struct pd s in (VDNewtype ca d, es ++ es')
      | _ => (VDNewtype ca no_struct, es ++ [SE_not_args])
      end); [reflexivity|].
    destruct (command_attrs pd attrs) as [ca es].
    cbn [fst snd]. destruct tg as [|s|e]; try easy. now destruct (elab_struct pd s).
  - right. split; [cbn; lia|].
    transitivity (let '(ca, es) := command_attrs pd attrs in
      (@VDUnit V ca, es ++ [SE_tuple_variant])); [reflexivity|]. now destruct (command_attrs pd attrs).
Qed.

Lemma nil_app {A} (l m : list A) : l ++ m = [] <-> l = [] /\ m = [].
Proof. split; [apply app_eq_nil|]. now intros [-> ->]. Qed.
Lemma concat_nil_iff {A B} (f : A -> list B) l :
  concat (map f l) = [] <-> forall x, In x l -> f x = [].
Proof.
  induction l as [|a l IH]; cbn; [easy|]. rewrite nil_app, IH. split.
  - intros [H1 H2] x [<-|Hx]; auto.
  - intros H. split; auto.
Qed.
Lemma fields_errs_nil (fs : list (ident * src_field V)) :
  fields_errs fs = [] <-> forall id f, In (id, f) fs -> snd (elab_field pd f) = [].
Proof.
  unfold fields_errs. rewrite concat_nil_iff. split.
  - intros H id f Hin. apply (H (id, f) Hin).
  - intros H [id f] Hin. apply (H id f Hin).
Qed.
Lemma variants_errs_nil (vs : list (ident * src_variant V)) :
  variants_errs vs = [] <-> forall id v, In (id, v) vs -> snd (elab_variant pd v) = [].
Proof.
  unfold variants_errs. rewrite concat_nil_iff. split.
  - intros H id f Hin. apply (H (id, f) Hin).
  - intros H [id f] Hin. apply (H id f Hin).
Qed.
Lemma each_iff {A} (P : A -> Prop) l : each P l <-> forall x, In x l -> P x.
Proof.
  induction l as [|a l IH]; cbn; [easy|]. rewrite IH. split.
  - intros [H1 H2] x [<-|Hx]; auto.
  - intros H. split; auto.
Qed.
Lemma each2_map {A B} (R : A -> B -> Prop) (f : A -> B) l :
  (forall x, In x l -> R x (f x)) -> each2 R l (map f l).
Proof.
  induction l as [|a l IH]; cbn; intros H; [easy|]. split; auto.
Qed.
Lemma generic_nil (g : bool) (l : list serr) :
  (if g then [SE_generics] else []) ++ l = [] <-> g = false /\ l = [].
Proof. destruct g; cbn; split; easy. Qed.

(** ** What compiles is written well *)

Definition field_fwd (f : src_field V) : Prop :=
  snd (elab_field pd f) = [] -> good_field f /\ decl_says pd f (fst (elab_field pd f)).
Definition struct_fwd (s : src_struct V) : Prop :=
  snd (elab_struct pd s) = [] -> good_struct s /\ struct_says pd s (fst (elab_struct pd s)).
Definition enum_fwd (e : src_enum V) : Prop :=
  snd (elab_enum pd e) = [] -> good_enum e /\ enum_says pd e (fst (elab_enum pd e)).
Definition variant_fwd (v : src_variant V) : Prop :=
  snd (elab_variant pd v) = [] -> good_variant v /\ variant_says pd v (fst (elab_variant pd v)).

Lemma fields_fwd (fs : list (ident * src_field V)) :
  (forall id f, In (id, f) fs -> field_fwd f) -> fields_errs fs = [] ->
  each (fun f => let '(_, x) := f in good_field x) fs /\
  each2 (fun f fd => let '(id, x) := f in id = fst fd /\ decl_says pd x (snd fd)) fs (elab_fields fs).
Proof.
  intros HF He. assert (He' := proj1 (fields_errs_nil fs) He). split.
  - apply each_iff. intros [id f] Hin. apply (HF id f Hin). eauto.
  - apply each2_map. intros [id f] Hin. cbn [fst snd]. split; [easy|].
    apply (HF id f Hin). eauto.
Qed.

Lemma all_fwd :
  (forall s, struct_fwd s) /\ (forall f, field_fwd f) /\ (forall e, enum_fwd e) /\
  (forall v, variant_fwd v).
Proof.
  apply src_ind.
  - intros attrs g fs HF. unfold struct_fwd. rewrite elab_struct_eq. cbn [fst snd]. intros H.
    apply generic_nil in H. destruct H as [-> H]. apply nil_app in H. destruct H as [Hc Hf].
    destruct (fields_fwd fs HF Hf) as [Hg Hs].
    cbn [good_struct struct_says]. split.
    + split; [easy|]. split; [now apply (command_attrs_iff pd)|exact Hg].
    + split; [now apply command_attrs_says|exact Hs].
  - intros attrs g H. cbn in H. apply generic_nil in H. destruct H as [_ H]. discriminate.
  - intros attrs t tg Htg H. rewrite elab_field_eq in *.
    assert (Ha : snd (field_attrs attrs) = []).
    { destruct (field_attrs attrs) as [[m|[]] es]; cbn [snd] in *.
      - now apply map_attr_nil in H.
      - destruct tg as [|s|e]; try (destruct (elab_enum pd e) as [d es']); cbn [snd] in H;
          apply nil_app in H; destruct H as [H _]; now apply map_attr_nil in H.
      - destruct tg as [|s|e]; try (destruct (elab_struct pd s) as [d es']); cbn [snd] in H;
          apply nil_app in H; destruct H as [H _]; now apply map_attr_nil in H. }
    destruct (field_attrs_ok attrs Ha) as (k & Hk & Hres). destruct k as [its| |].
    + destruct Hres as (m & -> & Hm). cbn [fst snd] in *. split.
      * cbn [good_field]. exists (AnArg its). auto.
      * cbn [decl_says]. split; [eauto|]. apply ty_says_of.
    + rewrite Hres in *. cbn [map app] in *. destruct tg as [|s|e]; try discriminate.
      destruct (elab_enum pd e) as [d es'] eqn:Ee. cbn [fst snd] in *. cbn in Htg.
      unfold enum_fwd in Htg. rewrite Ee in Htg. destruct (Htg H) as [Hg Hs]. split.
      * cbn [good_field]. exists ASubcommand. auto.
      * cbn [decl_says]. split; [exact Hk|]. split; [|exact Hs].
        destruct (strip_ty_ctor t (bs "Option")) as [t'|] eqn:Et.
        -- apply strip_iff in Et. destruct Et as [u Et]. unfold written_as. split; eauto.
        -- apply strip_none in Et. split; [discriminate|easy].
    + rewrite Hres in *. cbn [map app] in *. destruct tg as [|s|e]; try discriminate.
      destruct (elab_struct pd s) as [d es'] eqn:Ee. cbn [fst snd] in *. cbn in Htg.
      unfold struct_fwd in Htg. rewrite Ee in Htg. destruct (Htg H) as [Hg Hs]. split.
      * cbn [good_field]. exists AFlatten. auto.
      * cbn [decl_says]. auto.
  - intros attrs g vs HV. unfold enum_fwd. rewrite elab_enum_eq. cbn [fst snd]. intros H.
    apply generic_nil in H. destruct H as [-> H].
    destruct (existsb (fun v => dropped (snd v)) vs && (2 <=? length vs)); [discriminate|].
    assert (He' := proj1 (variants_errs_nil vs) H). cbn [good_enum enum_says]. split.
    + split; [easy|]. apply each_iff. intros [id v] Hin. apply (HV id v Hin). eauto.
    + apply each2_map. intros [id v] Hin. cbn [fst snd]. split; [easy|].
      apply (HV id v Hin). eauto.
  - intros attrs g H. cbn in H. apply generic_nil in H. destruct H as [_ H]. discriminate.
  - intros attrs H. cbn [elab_variant] in *. destruct (command_attrs pd attrs) as [ca es] eqn:E.
    cbn [fst snd] in *. subst es. cbn [good_variant variant_says]. split.
    + apply (command_attrs_iff pd). now rewrite E.
    + exists ca. split; [easy|]. now apply command_attrs_fwd in E.
  - intros attrs fs HT H. destruct (elab_variant_tuple attrs fs) as [(a & tg & -> & E)|[Hn E]].
    + rewrite E in *. destruct tg as [|s|e]; cbn [fst snd] in *;
        try (apply nil_app in H; destruct H as [_ H]; discriminate).
      apply nil_app in H. destruct H as [Hc Hs].
      assert (HSs : struct_fwd s) by exact (HT a (TgArgs s) (or_introl eq_refl)).
      destruct (HSs Hs) as [Hg Hy]. cbn [good_variant variant_says]. split.
      * split; [now apply (command_attrs_iff pd)|exact Hg].
      * eexists _, _. split; [reflexivity|]. split; [now apply command_attrs_says|exact Hy].
    + rewrite E in H. cbn in H. apply nil_app in H. destruct H as [_ H]. discriminate.
  - intros attrs fs HF. unfold variant_fwd. rewrite elab_variant_struct. cbn [fst snd]. intros H.
    apply nil_app in H. destruct H as [Hc Hf].
    destruct (fields_fwd fs HF Hf) as [Hg Hs]. cbn [good_variant variant_says]. split.
    + split; [now apply (command_attrs_iff pd)|exact Hg].
    + eexists _, _. split; [reflexivity|]. split; [now apply command_attrs_says|exact Hs].
Qed.

(** ** What is written well compiles, as far as attributes and types go *)

Definition wf_variant (vd : variant_decl V) : Prop :=
  forall id, well_formed (sc_decl (variant_scope (id, vd))).
Definition wf_field (fd : field_decl V) : Prop :=
  match fd with
  | FArg _ _ => True
  | FFlatten d => well_formed d
  | FSub _ (MkSubDecl vs) => forall id v, In (id, v) vs -> wf_variant v
  end.
Lemma wf_fields (d : args_decl V) :
  well_formed d ->
  length (fields_of d) <= 254 /\ forall id fd, In (id, fd) (fields_of d) -> wf_field fd.
Proof.
  intros H. inversion H as [d' L1 L2 L3]; subst d'. split; [apply (ls_count _ L1)|].
  intros id fd Hin. destruct fd as [m t|x|o [vs]]; cbn [wf_field]; [easy| |].
  - apply (L2 id x). now apply in_flattened.
  - intros i v Hv. intros j. assert (Hs : In (id, o, vs) (subcommands d)) by now apply in_subcommands.
    specialize (L3 id o vs (i, v) Hs Hv). unfold variant_scope in *. cbn [fst snd] in *.
    destruct v; exact L3.
Qed.

Definition field_bwd (f : src_field V) : Prop :=
  good_field f -> wf_field (fst (elab_field pd f)) -> snd (elab_field pd f) = [].
Definition struct_bwd (s : src_struct V) : Prop :=
  good_struct s -> well_formed (fst (elab_struct pd s)) -> snd (elab_struct pd s) = [].
Definition enum_bwd (e : src_enum V) : Prop :=
  good_enum e -> wf_field (FSub true (fst (elab_enum pd e))) -> snd (elab_enum pd e) = [].
Definition variant_bwd (v : src_variant V) : Prop :=
  good_variant v -> wf_variant (fst (elab_variant pd v)) ->
  snd (elab_variant pd v) = [] /\ dropped v = false.

Lemma fields_bwd ca (fs : list (ident * src_field V)) :
  (forall id f, In (id, f) fs -> field_bwd f) ->
  each (fun f => let '(_, x) := f in good_field x) fs ->
  well_formed (MkArgsDecl ca (elab_fields fs)) -> fields_errs fs = [] /\ length fs <= 254.
Proof.
  intros HF Hg Hw. apply wf_fields in Hw. cbn [fields_of] in Hw. destruct Hw as [Hl Hw]. split.
  - apply fields_errs_nil. intros id f Hin.
    assert (Hg' := proj1 (each_iff _ _) Hg _ Hin). cbn beta iota in Hg'.
    apply (HF id f Hin); [exact Hg'|]. apply (Hw id).
    unfold elab_fields. apply in_map_iff. exists (id, f). auto.
  - unfold elab_fields in Hl. now rewrite map_length in Hl.
Qed.

Lemma all_bwd :
  (forall s, struct_bwd s) /\ (forall f, field_bwd f) /\ (forall e, enum_bwd e) /\
  (forall v, variant_bwd v).
Proof.
  apply src_ind.
  - intros attrs g fs HF. unfold struct_bwd. rewrite elab_struct_eq. cbn [fst snd good_struct].
    intros (-> & Hc & Hf) Hw. cbn [app]. destruct (fields_bwd _ fs HF Hf Hw) as [He _].
    rewrite He. apply (command_attrs_iff pd) in Hc. now rewrite Hc.
  - intros attrs g [_ []].
  - intros attrs t tg Htg (k & Hk & Hg) Hw.
    assert (Ha := field_says_ok _ _ Hk). destruct (field_attrs_ok attrs Ha) as (k' & Hk' & Hres).
    assert (k' = k) by (eapply field_says_kind; eassumption). subst k'.
    rewrite elab_field_eq in *. destruct k as [its| |].
    + destruct Hres as (m & -> & _). reflexivity.
    + rewrite Hres in *. cbn [map app] in *. destruct tg as [|s|e]; try easy.
      destruct (elab_enum pd e) as [d es'] eqn:Ee. cbn [fst snd] in *. cbn in Htg.
      unfold enum_bwd in Htg. rewrite Ee in Htg. now apply Htg.
    + rewrite Hres in *. cbn [map app] in *. destruct tg as [|s|e]; try easy.
      destruct (elab_struct pd s) as [d es'] eqn:Ee. cbn [fst snd] in *. cbn in Htg.
      unfold struct_bwd in Htg. rewrite Ee in Htg. now apply Htg.
  - intros attrs g vs HV. unfold enum_bwd. rewrite elab_enum_eq. cbn [fst snd good_enum wf_field].
    intros (-> & Hg) Hw. cbn [app].
    assert (Hv : forall id v, In (id, v) vs -> snd (elab_variant pd v) = [] /\ dropped v = false).
    { intros id v Hin. assert (Hg' := proj1 (each_iff _ _) Hg _ Hin). cbn beta iota in Hg'.
      apply (HV id v Hin); [exact Hg'|]. apply (Hw id). unfold elab_variants. apply in_map_iff.
      exists (id, v). auto. }
    assert (Hd : existsb (fun v => dropped (snd v)) vs = false).
    { apply not_true_is_false. intros Ht. apply existsb_exists in Ht.
      destruct Ht as ([id v] & Hin & Ht). cbn [snd] in Ht. destruct (Hv id v Hin). congruence. }
    rewrite Hd. cbn [andb]. apply variants_errs_nil. intros id v Hin. now apply (Hv id v).
  - intros attrs g [_ []].
  - intros attrs Hg _. cbn [elab_variant good_variant] in *. apply (command_attrs_iff pd) in Hg.
    destruct (command_attrs pd attrs) as [ca es]. auto.
  - intros attrs fs HT Hg Hw. destruct (elab_variant_tuple attrs fs) as [(a & tg & -> & E)|[Hn E]].
    + rewrite E in *. destruct tg as [|s|e]; cbn [good_variant] in Hg; try easy.
      destruct Hg as [Hc Hg]. cbn [fst snd] in *. split; [|easy].
      assert (HSs : struct_bwd s) by exact (HT a (TgArgs s) (or_introl eq_refl)).
      apply (command_attrs_iff pd) in Hc. rewrite Hc. cbn [app]. apply HSs; [exact Hg|].
      exact (Hw []).
    + exfalso. destruct fs as [|[a [|s|e]] [|b fs]]; cbn in Hg; try easy; try (cbn in Hn; lia).
  - intros attrs fs HF. unfold variant_bwd. rewrite elab_variant_struct. cbn [fst snd good_variant].
    intros [Hc Hf] Hw. specialize (Hw []). unfold variant_scope in Hw. cbn [fst snd sc_decl] in Hw.
    destruct (fields_bwd _ fs HF Hf Hw) as [He Hl]. apply (command_attrs_iff pd) in Hc.
    rewrite He, Hc. split; [easy|]. cbn [dropped]. apply N.ltb_ge. lia.
Qed.

Lemma compiles_iff (s : src_struct V) :
  compiles pd s <-> good_struct s /\ well_formed (declared pd s).
Proof.
  unfold compiles, declared. rewrite accepted_well_formed. split.
  - intros [He Hw]. split; [|exact Hw]. now apply (proj1 all_fwd).
  - intros [Hg Hw]. split; [|exact Hw]. now apply (proj1 all_bwd).
Qed.
Lemma compiles_says (s : src_struct V) :
  compiles pd s -> struct_says pd s (declared pd s).
Proof. intros [He _]. now apply (proj1 all_fwd). Qed.
End Whole.
