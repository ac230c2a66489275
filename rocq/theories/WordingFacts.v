(** Rewording a declaration. *)
From Verif Require Import Bytes BytesFacts Utf8 Utf8Facts Attrs AttrFacts Refl Error Values SortFacts
  Places Help Runtime Heck Decl Spec Derive Generated Observe CompileFacts InfoFacts TableFacts PlaceFacts
  ScopeFacts NamedFacts WordFacts FinishFacts ReadFacts SimFacts HelpFacts Refine ContextFacts WellFormed WellFormedFacts Wording.

Lemma filter_map_comm {A B} (p : B -> bool) (q : A -> bool) (f : A -> B) l :
  (forall x, p (f x) = q x) -> filter p (map f l) = map f (filter q l).
Proof.
  intros H. induction l as [|x l IH]; [reflexivity|]. cbn [map filter]. rewrite H, IH. destruct (q x); reflexivity.
Qed.
Lemma find_map_comm {A B} (p : B -> bool) (q : A -> bool) (f : A -> B) l :
  (forall x, p (f x) = q x) -> find p (map f l) = option_map f (find q l).
Proof.
  intros H. induction l as [|x l IH]; [reflexivity|]. cbn [map find]. rewrite H, IH. destruct (q x); reflexivity.
Qed.
Lemma flat_map_map' {A B C} (g : B -> list C) (f : A -> B) l : flat_map g (map f l) = flat_map (fun x => g (f x)) l.
Proof. induction l as [|x l IH]; [reflexivity|]. cbn [map flat_map]. rewrite IH. reflexivity. Qed.
Lemma existsb_map_comm {A B} (p : B -> bool) (q : A -> bool) (f : A -> B) l :
  (forall x, p (f x) = q x) -> existsb p (map f l) = existsb q l.
Proof. intros H. induction l as [|x l IH]; [reflexivity|]. cbn [map existsb]. rewrite H, IH. reflexivity. Qed.

Section Wording.
Context {V : Type}.
Local Notation args_decl := (args_decl V).
Local Notation sarg := (sarg V).
Local Notation scope := (scope V).
Local Notation occ := (occ V).
Local Notation state := (state V).

Section Reword.
Variable fm : arg_meta V -> arg_meta V.
Variable fa : bool -> cmd_attrs -> cmd_attrs.
Variable inline : bool.
Variable norm : error -> error.
Local Notation rw := (reword fm fa inline).

Definition rw_arg (a : sarg) : sarg := Arg (sa_id a) (fm (sa_meta a)) (sa_ty a).
Definition rw_field (f : ident * field_decl V) : ident * field_decl V :=
  let '(id, fd) := f in
  (id, match fd with
       | FArg m t => FArg (fm m) t
       | FFlatten x => FFlatten (rw false x)
       | FSub o (MkSubDecl vs) =>
           FSub o (MkSubDecl (map (fun v : ident * variant_decl V =>
             let '(vid, vd) := v in
             (vid, match vd with
                   | VDUnit at_ => VDUnit (fa true at_)
                   | VDNewtype at_ x => if inline then VDStruct (rw true x) else VDNewtype at_ (rw true x)
                   | VDStruct x => VDStruct (rw true x)
                   end)) vs))
       end).
Definition rw_variant (v : ident * variant_decl V) : ident * variant_decl V :=
  let '(vid, vd) := v in
  (vid, match vd with
        | VDUnit at_ => VDUnit (fa true at_)
        | VDNewtype at_ x => if inline then VDStruct (rw true x) else VDNewtype at_ (rw true x)
        | VDStruct x => VDStruct (rw true x)
        end).
Definition rw_scope (s : scope) : scope := Scope (rw true (sc_decl s)) (sc_ident s) (sc_unit s).
Definition rw_stack : list scope -> list scope := map rw_scope.
Definition rw_occ (o : occ) : occ := Occ (oc_addr o) (rw_arg (oc_arg o)) (oc_val o).
Definition rw_state (st : state) : state :=
  match st with
  | Normal stk rem => Normal (rw_stack stk) (map rw_arg rem)
  | Await stk rem ad a => Await (rw_stack stk) (map rw_arg rem) ad (rw_arg a)
  | Verbatim stk rem => Verbatim (rw_stack stk) (map rw_arg rem)
  | Drain stk p => Drain (rw_stack stk) (rw_arg p)
  end.

(** ** Declarations *)

Lemma rw_fields top d : fields_of (rw top d) = map rw_field (fields_of d).
Proof. destruct d as [at_ fs]. reflexivity. Qed.
Lemma rw_attrs top d : attrs_of (rw top d) = fa top (attrs_of d).
Proof. destruct d as [at_ fs]. reflexivity. Qed.
Lemma rw_own top d : own_args (rw top d) = map rw_arg (own_args d).
Proof.
  unfold own_args. rewrite rw_fields. induction (fields_of d) as [|[id f] fs IH]; [reflexivity|].
  cbn [map flat_map]. rewrite map_app, <- IH. f_equal. destruct f as [m t|x|o [vs]]; reflexivity.
Qed.
Lemma rw_flattened top d : flattened (rw top d) = map (fun fx => (fst fx, rw false (snd fx))) (flattened d).
Proof.
  unfold flattened. rewrite rw_fields. induction (fields_of d) as [|[id f] fs IH]; [reflexivity|].
  cbn [map flat_map]. rewrite map_app, <- IH. f_equal. destruct f as [m t|x|o [vs]]; reflexivity.
Qed.
Definition rw_sub (x : ident * bool * list (ident * variant_decl V)) := (fst x, map rw_variant (snd x)).
Lemma rw_subs top d : flat_map sub_field (fields_of (rw top d)) = map rw_sub (flat_map sub_field (fields_of d)).
Proof.
  rewrite rw_fields. induction (fields_of d) as [|[id f] fs IH]; [reflexivity|].
  cbn [map flat_map]. rewrite map_app, <- IH. f_equal. destruct f as [m t|x|o [vs]]; reflexivity.
Qed.
Lemma rw_subcommand top d : subcommand (rw top d) = option_map rw_sub (subcommand d).
Proof. unfold subcommand. rewrite rw_subs. destruct (flat_map sub_field (fields_of d)); reflexivity. Qed.
Lemma rw_variant_scope v : variant_scope (rw_variant v) = rw_scope (variant_scope v).
Proof. destruct v as [id [at_|at_ x|x]]; cbn [rw_variant]; [reflexivity| |reflexivity]. unfold rw_scope. destruct inline; reflexivity. Qed.
Lemma rw_sub_name v : sub_name (rw_variant v) = sub_name v.
Proof. destruct v as [id vd]. reflexivity. Qed.
Lemma rw_reach d : forall top, reach (rw top d) = map (fun pa => (fst pa, rw_arg (snd pa))) (reach d).
Proof.
  induction d as [d IH _] using decl_induction. intros top. rewrite !reach_eq, rw_own, rw_flattened, map_app, !map_map.
  f_equal. rewrite flat_map_map'.
  assert (Hall : forall fx, In fx (flattened d) -> forall top, reach (rw top (snd fx)) = map (fun pa => (fst pa, rw_arg (snd pa))) (reach (snd fx))).
  { intros [id x] Hi. apply (IH id x). apply in_flattened. exact Hi. }
  induction (flattened d) as [|fx l IHl]; [reflexivity|]. cbn [flat_map]. rewrite map_app, <- IHl.
  - f_equal. cbn [fst snd]. rewrite (Hall fx (or_introl eq_refl)), !map_map. reflexivity.
  - intros fy Hy. apply Hall. right. exact Hy.
Qed.
Lemma rw_distinct d : forall top, distinct_subcommands (rw top d) = distinct_subcommands d.
Proof.
  induction d as [d _ IH] using decl_induction. intros top. destruct d as [at_ fs]. cbn [reword distinct_subcommands].
  cbn [fields_of] in IH. induction fs as [|[id f] fs IHfs]; [reflexivity|]. cbn [map forallb]. f_equal.
  - destruct f as [m t|x|o [vs]]; try reflexivity. rewrite map_map. f_equal.
    + f_equal. apply map_ext. intros [vid vd]. reflexivity.
    + specialize (IH id o vs). assert (Hvs : forall v, In v vs -> forall top, distinct_subcommands (rw top (sc_decl (variant_scope v))) = distinct_subcommands (sc_decl (variant_scope v))).
      { intros v Hv. apply IH; [left; reflexivity|exact Hv]. }
      clear - Hvs. induction vs as [|[vid vd] vs IHvs]; [reflexivity|]. cbn [map forallb]. f_equal.
      * specialize (Hvs (vid, vd) (or_introl eq_refl) true). destruct vd; [reflexivity| |exact Hvs]. destruct inline; exact Hvs.
      * apply IHvs. intros v Hv. apply Hvs. right. exact Hv.
  - apply IHfs. intros id' o' vs' v' Hi Hv. apply (IH id' o' vs' v'); [right; exact Hi|exact Hv].
Qed.

(** ** Arguments *)

Hypothesis Hfm : forall m, unworded_arg (fm m) = unworded_arg m.

Ltac proj P := intros m; pose proof (f_equal P (Hfm m)) as H; exact H.
Lemma fm_long m : am_long (fm m) = am_long m. Proof. revert m. proj (@am_long V). Qed.
Lemma fm_short m : am_short (fm m) = am_short m. Proof. revert m. proj (@am_short V). Qed.
Lemma fm_alias m : am_alias (fm m) = am_alias m. Proof. revert m. proj (@am_alias V). Qed.
Lemma fm_short_alias m : am_short_alias (fm m) = am_short_alias m. Proof. revert m. proj (@am_short_alias V). Qed.
Lemma fm_eq m : am_require_equals (fm m) = am_require_equals m. Proof. revert m. proj (@am_require_equals V). Qed.
Lemma fm_global m : am_global (fm m) = am_global m. Proof. revert m. proj (@am_global V). Qed.
Lemma fm_hyphen m : am_allow_hyphen_values (fm m) = am_allow_hyphen_values m. Proof. revert m. proj (@am_allow_hyphen_values V). Qed.
Lemma fm_neg m : am_allow_negative_numbers (fm m) = am_allow_negative_numbers m. Proof. revert m. proj (@am_allow_negative_numbers V). Qed.
Lemma fm_case m : am_ignore_case (fm m) = am_ignore_case m. Proof. revert m. proj (@am_ignore_case V). Qed.
Lemma fm_trailing m : am_trailing_var_arg (fm m) = am_trailing_var_arg m. Proof. revert m. proj (@am_trailing_var_arg V). Qed.
Lemma fm_last m : am_last (fm m) = am_last m. Proof. revert m. proj (@am_last V). Qed.
Lemma fm_default m : am_default_value (fm m) = am_default_value m. Proof. revert m. proj (@am_default_value V). Qed.
Lemma fm_default_t m : am_default_value_t (fm m) = am_default_value_t m. Proof. revert m. proj (@am_default_value_t V). Qed.
Lemma fm_delim m : am_value_delimiter (fm m) = am_value_delimiter m. Proof. revert m. proj (@am_value_delimiter V). Qed.
Lemma fm_required m : am_required (fm m) = am_required m. Proof. revert m. proj (@am_required V). Qed.
Lemma fm_exclusive m : am_exclusive (fm m) = am_exclusive m. Proof. revert m. proj (@am_exclusive V). Qed.
Lemma fm_requires m : am_requires (fm m) = am_requires m. Proof. revert m. proj (@am_requires V). Qed.
Lemma fm_conflicts m : am_conflicts_with (fm m) = am_conflicts_with m. Proof. revert m. proj (@am_conflicts_with V). Qed.

Lemma rw_takes a : takes_value (rw_arg a) = takes_value a. Proof. reflexivity. Qed.
Lemma rw_many a : many (rw_arg a) = many a. Proof. reflexivity. Qed.
Lemma rw_needs a : needs_equals (rw_arg a) = needs_equals a. Proof. apply fm_eq. Qed.
Lemma rw_global a : is_global (rw_arg a) = is_global a. Proof. apply fm_global. Qed.
Lemma rw_last a : is_last (rw_arg a) = is_last a. Proof. apply fm_last. Qed.
Lemma rw_greedy a : greedy (rw_arg a) = greedy a.
Proof. unfold greedy. cbn [rw_arg sa_meta]. rewrite fm_trailing, fm_last. reflexivity. Qed.
Lemma rw_option a : is_option (rw_arg a) = is_option a.
Proof. unfold is_option. cbn [rw_arg sa_meta]. rewrite fm_long, fm_short. reflexivity. Qed.
Lemma rw_has a n : has_nameb (rw_arg a) n = has_nameb a n.
Proof.
  unfold has_nameb, long_name, short_name. rewrite rw_option. cbn [rw_arg sa_meta sa_id].
  rewrite fm_long, fm_short, fm_alias, fm_short_alias. reflexivity.
Qed.
Lemma rw_follow a tok : may_follow (rw_arg a) tok = may_follow a tok.
Proof. unfold may_follow. cbn [rw_arg sa_meta]. rewrite fm_hyphen, fm_neg. reflexivity. Qed.
Lemma rw_has_default a : has_default (rw_arg a) = has_default a.
Proof. unfold has_default. cbn [rw_arg sa_meta]. rewrite fm_default, fm_default_t. reflexivity. Qed.
Lemma rw_required a : is_required (rw_arg a) = is_required a.
Proof. unfold is_required. rewrite rw_has_default. cbn [rw_arg sa_meta]. rewrite fm_required. reflexivity. Qed.
Lemma rw_folded a v : folded (rw_arg a) v = folded a v.
Proof. unfold folded. cbn [rw_arg sa_meta]. rewrite fm_case. reflexivity. Qed.
Lemma rw_pieces a b : pieces (rw_arg a) b = pieces a b.
Proof. unfold pieces. rewrite rw_many. cbn [rw_arg sa_meta]. rewrite fm_delim. reflexivity. Qed.
Lemma rw_value_error a p v : value_error (rw_arg a) p v = value_error a p v.
Proof. unfold value_error. rewrite rw_pieces. reflexivity. Qed.
Lemma rw_parsed a b : parsed (rw_arg a) b = parsed a b.
Proof. unfold parsed. rewrite rw_pieces. reflexivity. Qed.
Lemma rw_content a vals : content (rw_arg a) vals = content a vals.
Proof.
  unfold content. cbv beta zeta.
  assert (E : forall (f : option (list byte) -> list byte) l, flat_map (fun v => parsed (rw_arg a) (f v)) l = flat_map (fun v => parsed a (f v)) l).
  { intros f l. apply flat_map_ext. intros v. apply rw_parsed. }
  change (shape_a (rw_arg a)) with (shape_a a). destruct (shape_a a); try reflexivity;
    try (match goal with |- context [flat_map (fun v => parsed (rw_arg a) (@?f v)) _] => rewrite (E f) end; reflexivity).
  destruct vals as [|[b|] vs]; try reflexivity. rewrite rw_parsed. reflexivity.
Qed.
Lemma rw_default_of a : default_of (rw_arg a) = default_of a.
Proof. unfold default_of. cbn [rw_arg sa_meta]. rewrite fm_default, fm_default_t. reflexivity. Qed.
Lemma rw_readable a : default_readable (rw_arg a) = default_readable a.
Proof. unfold default_readable. rewrite rw_default_of. destruct (default_of a); try reflexivity. rewrite rw_value_error. reflexivity. Qed.
Lemma rw_field_value a vals : field_value (rw_arg a) vals = field_value a vals.
Proof.
  unfold field_value. rewrite rw_default_of. destruct vals as [|v vs].
  - destruct (default_of a); try apply rw_content. reflexivity.
  - rewrite rw_content. f_equal. apply map_ext. intros x. apply rw_folded.
Qed.
Lemma rw_positionals top d : positionals (rw top d) = map rw_arg (positionals d).
Proof.
  unfold positionals. rewrite rw_own. rewrite (filter_map_comm _ (fun a => negb (is_option a))); [|intros a; rewrite rw_option; reflexivity].
  cbn zeta. rewrite map_app. f_equal; apply filter_map_comm; intros a; rewrite rw_last; reflexivity.
Qed.
Lemma rw_checked top d : checked (rw top d) = map rw_arg (checked d).
Proof.
  unfold checked. rewrite rw_own, rw_positionals, map_app. f_equal. apply filter_map_comm. apply rw_option.
Qed.

(** ** Scopes *)

Definition rw_pair (x : addr * sarg) : addr * sarg := (fst x, rw_arg (snd x)).
Lemma rw_scope_args n s : scope_args n (rw_scope s) = map rw_pair (scope_args n s).
Proof. unfold scope_args. cbn [rw_scope sc_decl]. rewrite rw_reach, !map_map. reflexivity. Qed.
Lemma rw_length stk : length (rw_stack stk) = length stk.
Proof. apply map_length. Qed.
Lemma rw_stack_args stk : stack_args (rw_stack stk) = map rw_pair (stack_args stk).
Proof.
  induction stk as [|s stk IH]; [reflexivity|]. cbn [rw_stack map stack_args]. fold (rw_stack stk).
  rewrite rw_length, rw_scope_args, IH, map_app. reflexivity.
Qed.
Lemma rw_in_scope stk : in_scope (rw_stack stk) = map rw_pair (in_scope stk).
Proof.
  destruct stk as [|s stk]; [reflexivity|]. cbn [rw_stack map in_scope]. fold (rw_stack stk).
  rewrite rw_length, rw_scope_args, rw_stack_args, map_app. f_equal. apply filter_map_comm. intros x. apply rw_global.
Qed.
Lemma rw_resolve stk n : resolve (rw_stack stk) n = option_map rw_pair (resolve stk n).
Proof. unfold resolve. rewrite rw_in_scope. apply find_map_comm. intros x. apply rw_has. Qed.
Lemma rw_has_subcommand stk : has_subcommand (rw_stack stk) = has_subcommand stk.
Proof. destruct stk as [|s stk]; [reflexivity|]. cbn [rw_stack map has_subcommand rw_scope sc_decl]. rewrite rw_subcommand. destruct (subcommand (sc_decl s)); reflexivity. Qed.
Lemma rw_sub_variants stk : sub_variants (rw_stack stk) = map rw_variant (sub_variants stk).
Proof.
  destruct stk as [|s stk]; [reflexivity|]. cbn [rw_stack map sub_variants rw_scope sc_decl]. rewrite rw_subcommand.
  destruct (subcommand (sc_decl s)) as [[[id o] vs]|]; reflexivity.
Qed.
Lemma rw_first_named vs tok : first_named (map rw_variant vs) tok = option_map rw_variant (first_named vs tok).
Proof. unfold first_named. apply find_map_comm. intros v. rewrite rw_sub_name. reflexivity. Qed.
Lemma rw_after_sep stk rem : after_sep (rw_stack stk) (map rw_arg rem) = map rw_arg (after_sep stk rem).
Proof.
  destruct stk as [|s stk]; [reflexivity|]. cbn [rw_stack map after_sep rw_scope sc_decl]. rewrite rw_positionals.
  rewrite (filter_map_comm _ is_last); [|apply rw_last]. destruct (filter is_last (positionals (sc_decl s))); reflexivity.
Qed.

(** ** Reading *)

Hypothesis Hnorm : forall a k i s c h,
  norm (mkError k (Some (describe (rw_arg a))) i s c h) = norm (mkError k (Some (describe a)) i s c h).

Definition out_sim (x y : outcome V) : Prop :=
  match x, y with
  | Go st, Go st' => st' = rw_state st
  | Stop (SErr e), Stop (SErr e') => norm e' = norm e
  | Stop (SHelp stk), Stop (SHelp stk') => stk' = rw_stack stk
  | _, _ => False
  end.
Definition sim (x y : list occ * outcome V) : Prop :=
  fst y = map rw_occ (fst x) /\ out_sim (snd x) (snd y).

Lemma about_sim k a : norm (error_about k (rw_arg a)) = norm (error_about k a).
Proof. apply Hnorm. Qed.

Lemma bare_sim stk rem ad a : sim (bare stk rem ad a) (bare (rw_stack stk) (map rw_arg rem) ad (rw_arg a)).
Proof.
  unfold bare. rewrite rw_takes, rw_needs. destruct (takes_value a); [destruct (needs_equals a)|]; split; try reflexivity.
  apply about_sim.
Qed.
Lemma long_sim stk rem s v : sim (read_long stk rem s v) (read_long (rw_stack stk) (map rw_arg rem) s v).
Proof.
  unfold read_long. rewrite rw_resolve. destruct (resolve stk (Long s)) as [[ad a]|]; cbn [option_map rw_pair fst snd].
  - destruct v; [split; reflexivity|apply bare_sim].
  - unfold unknown_long. split; [reflexivity|]. destruct (beqb s (bs "help")); reflexivity.
Qed.
Lemma bundle_sim stk rem cs junk : sim (read_bundle stk rem cs junk) (read_bundle (rw_stack stk) (map rw_arg rem) cs junk).
Proof.
  revert junk. induction cs as [|c cs IH]; intros junk.
  - cbn [read_bundle]. destruct junk; split; reflexivity.
  - cbn [read_bundle]. rewrite rw_resolve. destruct (resolve stk (Short c)) as [[ad a]|]; cbn [option_map rw_pair fst snd].
    2:{ unfold unknown_short. split; [reflexivity|]. destruct (c =? b2n "h")%N; reflexivity. }
    destruct (IH junk) as [H1 H2].
    destruct (read_bundle stk rem cs junk) as [os out]. destruct (read_bundle (rw_stack stk) (map rw_arg rem) cs junk) as [os' out'].
    cbn [fst snd] in H1, H2. subst os'.
    destruct (encode_all cs ++ junk) as [|b v]; [apply bare_sim|]. rewrite rw_takes, rw_needs.
    assert (E1 : forall w, sim (Occ ad a w :: os, out) (Occ ad (rw_arg a) w :: map rw_occ os, out')) by (intros w; split; [reflexivity|exact H2]).
    assert (E2 : forall w, sim ([Occ ad a w], Go (Normal stk rem)) ([Occ ad (rw_arg a) w], Go (Normal (rw_stack stk) (map rw_arg rem)))) by (intros w; split; reflexivity).
    assert (E3 : forall k, sim ([], Stop (SErr (error_about k a))) ([], Stop (SErr (error_about k (rw_arg a))))) by (intros k; split; [reflexivity|apply about_sim]).
    destruct b; destruct (takes_value a); destruct (needs_equals a); auto.
Qed.
Lemma word_sim sep stk rem tok : sim (take_word sep stk rem tok) (take_word sep (rw_stack stk) (map rw_arg rem) tok).
Proof.
  unfold take_word. rewrite rw_has_subcommand, rw_length. destruct rem as [|p rem]; cbn [map]; [split; reflexivity|].
  rewrite rw_last, rw_many, rw_greedy. destruct (sep || negb (is_last p)); [|split; reflexivity]. split; [reflexivity|]. cbn [snd].
  destruct (greedy p); [reflexivity|]. destruct sep, (many p); reflexivity.
Qed.
Lemma step_sim st tok : sim (step first_named st tok) (step first_named (rw_state st) tok).
Proof.
  destruct st as [stk rem|stk rem ad a|stk rem|stk p]; cbn [rw_state step].
  - destruct (form_of tok) as [|s v|b|].
    + rewrite rw_after_sep. split; reflexivity.
    + apply long_sim.
    + destruct (utf8_prefix b) as [cs junk]. apply bundle_sim.
    + rewrite rw_sub_variants, rw_first_named. destruct (first_named (sub_variants stk) tok) as [v|]; cbn [option_map].
      * rewrite rw_variant_scope. split; [reflexivity|]. cbn [snd out_sim rw_state rw_scope sc_decl]. rewrite rw_positionals. reflexivity.
      * apply word_sim.
  - rewrite rw_follow. destruct (may_follow a tok); split; try reflexivity. apply about_sim.
  - apply word_sim.
  - split; [|reflexivity]. rewrite rw_length. reflexivity.
Qed.
Lemma read_sim toks : forall st, sim (read first_named st toks) (read first_named (rw_state st) toks).
Proof.
  induction toks as [|tok toks IH]; intros st; [split; reflexivity|]. cbn [read].
  destruct (step_sim st tok) as [H1 H2]. destruct (step first_named st tok) as [os out]. destruct (step first_named (rw_state st) tok) as [os' out'].
  cbn [fst snd] in H1, H2. subst os'. destruct out as [st1|sp].
  - destruct out' as [st2|sp']; [|contradiction]. cbn [out_sim] in H2. subst st2. destruct (IH st1) as [G1 G2].
    destruct (read first_named st1 toks) as [os1 out1]. destruct (read first_named (rw_state st1) toks) as [os2 out2]. cbn [fst snd] in G1, G2. subst os2.
    split; [cbn [fst]; rewrite map_app; reflexivity|exact G2].
  - destruct out' as [st2|sp']; [destruct sp; contradiction|]. split; [reflexivity|exact H2].
Qed.
Lemma start_sim d : start (rw true d) = rw_state (start d).
Proof. unfold start. cbn [rw_state rw_stack map rw_scope sc_decl sc_ident sc_unit]. rewrite rw_positionals. reflexivity. Qed.

(** ** Values and constraints *)

Lemma rw_values os ad : values_of (map rw_occ os) ad = values_of os ad.
Proof.
  unfold values_of. rewrite (filter_map_comm _ (fun o => addr_eqb ad (oc_addr o))); [|reflexivity]. rewrite map_map. reflexivity.
Qed.
Lemma rw_given os ad : given (map rw_occ os) ad = given os ad.
Proof. unfold given. rewrite rw_values. reflexivity. Qed.
Definition opt_sim (x y : option error) : Prop :=
  match x, y with Some e, Some e' => norm e' = norm e | None, None => True | _, _ => False end.
Lemma occ_error_sim a p v : opt_sim (occ_error a p v) (occ_error (rw_arg a) p v).
Proof.
  unfold occ_error. rewrite rw_folded, rw_value_error, rw_option. destruct (value_error a p (folded a v)) as [e|]; [|exact I].
  cbn [opt_sim]. destruct (is_option a); [apply Hnorm|reflexivity].
Qed.
Lemma bad_sim os : forall b, opt_sim (first_bad b os) (first_bad (map rw_occ b) (map rw_occ os)).
Proof.
  induction os as [|o os IH]; intros b; [exact I|]. cbn [map first_bad]. rewrite rw_given. cbn [rw_occ oc_arg oc_addr oc_val].
  pose proof (occ_error_sim (oc_arg o) (given b (oc_addr o)) (oc_val o)) as H.
  destruct (occ_error (oc_arg o) (given b (oc_addr o)) (oc_val o)) as [e|], (occ_error (rw_arg (oc_arg o)) (given b (oc_addr o)) (oc_val o)) as [e'|];
    try contradiction; [exact H|]. specialize (IH (b ++ [o])). rewrite map_app in IH. exact IH.
Qed.

Definition res_sim {A} (x y : res A) : Prop :=
  match x, y with
  | Ok a, Ok b => b = a
  | Err e, Err e' => norm e' = norm e
  | Panic p, Panic q => q = p
  | _, _ => False
  end.
Lemma rw_is_given os level path id : is_given (map rw_occ os) level path id = is_given os level path id.
Proof. apply rw_given. Qed.
Lemma violation_sim os level path top d sub a :
  opt_sim (violation os level path d sub a) (violation (map rw_occ os) level path (rw top d) sub (rw_arg a)).
Proof.
  unfold violation. cbn zeta. rewrite rw_is_given. cbn [rw_arg sa_id sa_meta]. destruct (is_given os level path (sa_id a)); [|exact I].
  rewrite fm_exclusive, fm_requires, fm_conflicts, rw_own.
  rewrite (existsb_map_comm _ (fun b => negb (beqb (sa_id b) (sa_id a)) && is_given os level path (sa_id b))); [|intros b; rewrite rw_is_given; reflexivity].
  match goal with |- context [if ?c then _ else _] => destruct c end; [apply about_sim|].
  rewrite (find_ext (fun id => negb (is_given (map rw_occ os) level path id)) (fun id => negb (is_given os level path id)));
    [|intros id _; rewrite rw_is_given; reflexivity].
  destruct (find (fun id => negb (is_given os level path id)) (am_requires (sa_meta a))) as [id|].
  - unfold error_about_id. rewrite rw_own. rewrite (find_map_comm _ (fun b => beqb id (sa_id b))); [|reflexivity].
    destruct (find (fun b => beqb id (sa_id b)) (own_args d)) as [b|]; [apply about_sim|reflexivity].
  - rewrite (find_ext (is_given (map rw_occ os) level path) (is_given os level path)); [|intros id _; apply rw_is_given].
    destruct (find (is_given os level path) (am_conflicts_with (sa_meta a))); [apply about_sim|exact I].
Qed.
Lemma first_violation_sim os level path top d sub l :
  opt_sim (first_violation os level path d sub l) (first_violation (map rw_occ os) level path (rw top d) sub (map rw_arg l)).
Proof.
  induction l as [|a l IH]; [exact I|]. cbn [map first_violation]. pose proof (violation_sim os level path top d sub a) as H.
  destruct (violation os level path d sub a), (violation (map rw_occ os) level path (rw top d) sub (rw_arg a)); try contradiction; [exact H|exact IH].
Qed.
Lemma absent_sim os level path l : res_sim (check_absent os level path l) (check_absent (map rw_occ os) level path (map rw_arg l)).
Proof.
  induction l as [|a l IH]; [reflexivity|]. cbn [map check_absent]. rewrite rw_is_given, rw_required, rw_readable. cbn [rw_arg sa_id].
  destruct (is_given os level path (sa_id a)); [exact IH|]. destruct (is_required a); [apply about_sim|].
  destruct (default_readable a); [exact IH|reflexivity].
Qed.
Lemma rw_direct os level path top d : direct_values (map rw_occ os) level path (rw top d) = direct_values os level path d.
Proof.
  unfold direct_values. rewrite rw_checked, flat_map_map'. apply flat_map_ext. intros a. rewrite rw_values, rw_field_value. reflexivity.
Qed.
Lemma struct_sim os level path top d flats sub :
  res_sim (finish_struct os level path d flats sub) (finish_struct (map rw_occ os) level path (rw top d) flats sub).
Proof.
  unfold finish_struct. rewrite rw_checked, rw_direct. pose proof (first_violation_sim os level path top d (is_some sub) (checked d)) as H.
  destruct (first_violation os level path d (is_some sub) (checked d)), (first_violation (map rw_occ os) level path (rw top d) (is_some sub) (map rw_arg (checked d)));
    try contradiction; [exact H|].
  pose proof (absent_sim os level path (checked d)) as G.
  destruct (check_absent os level path (checked d)), (check_absent (map rw_occ os) level path (map rw_arg (checked d))); try contradiction; try exact G.
  cbn [bind]. rewrite rw_subcommand. destruct (subcommand d) as [[[id [|]] vs]|]; cbn [option_map rw_sub fst snd]; [reflexivity| |reflexivity].
  destruct sub; reflexivity.
Qed.
Lemma args_sim os level d : forall path top sub,
  res_sim (finish_args os level path d sub) (finish_args (map rw_occ os) level path (rw top d) sub).
Proof.
  induction d as [d IH _] using decl_induction. intros path top sub. rewrite !finish_args_eq, rw_flattened.
  assert (Hall : forall fx, In fx (flattened d) -> forall path top sub,
    res_sim (finish_args os level path (snd fx) sub) (finish_args (map rw_occ os) level path (rw top (snd fx)) sub)).
  { intros [id x] Hi. apply (IH id x). apply in_flattened. exact Hi. }
  assert (E : forall l acc acc', (forall fx, In fx l -> In fx (flattened d)) -> res_sim acc acc' ->
    res_sim (finish_flats os level path l acc) (finish_flats (map rw_occ os) level path (map (fun fx => (fst fx, rw false (snd fx))) l) acc')).
  { induction l as [|fx l IHl]; intros acc acc' Hl Ha; [exact Ha|]. unfold finish_flats in *. cbn [map fold_left fst snd]. apply IHl.
    - intros fy Hy. apply Hl. right. exact Hy.
    - destruct acc as [outs|e|p], acc' as [outs'|e'|p']; try contradiction; try exact Ha. cbn [res_sim] in Ha. subst outs'. cbn [bind].
      pose proof (Hall fx (Hl fx (or_introl eq_refl)) (path ++ [fst fx]) false None) as H.
      destruct (finish_args os level (path ++ [fst fx]) (snd fx) None), (finish_args (map rw_occ os) level (path ++ [fst fx]) (rw false (snd fx)) None);
        try contradiction; try exact H. cbn [res_sim] in H. subst. reflexivity. }
  pose proof (E (flattened d) (Ok []) (Ok []) (fun _ H => H) eq_refl) as H.
  destruct (finish_flats os level path (flattened d) (Ok [])), (finish_flats (map rw_occ os) level path (map (fun fx => (fst fx, rw false (snd fx))) (flattened d)) (Ok []));
    try contradiction; try exact H. cbn [res_sim] in H. subst. cbn [bind]. apply struct_sim.
Qed.
Lemma stack_sim os stk : forall sub, res_sim (finish_stack os stk sub) (finish_stack (map rw_occ os) (rw_stack stk) sub).
Proof.
  induction stk as [|s stk IH]; intros sub; [reflexivity|]. cbn [rw_stack map finish_stack]. fold (rw_stack stk). rewrite rw_length.
  pose proof (args_sim os (length stk) (sc_decl s) [] true sub) as H. cbn [rw_scope sc_decl sc_ident sc_unit].
  destruct (finish_args os (length stk) [] (sc_decl s) sub), (finish_args (map rw_occ os) (length stk) [] (rw true (sc_decl s)) sub);
    try contradiction; try exact H. cbn [res_sim] in H. subst. cbn [bind]. destruct stk as [|s2 stk]; [reflexivity|]. apply IH.
Qed.

Hypothesis Hhelp : forall argv0 stk,
  norm (mkError Help None None None [] (Some (help_text argv0 (rw_stack stk)))) = norm (mkError Help None None None [] (Some (help_text argv0 stk))).

Lemma rw_state_stack st : state_stack (rw_state st) = rw_stack (state_stack st).
Proof. destruct st; reflexivity. Qed.
Theorem reword_parse d argv : res_sim (spec_parse d argv) (spec_parse (rw true d) argv).
Proof.
  unfold spec_parse, spec_parse_with. destruct argv as [|argv0 toks]; [reflexivity|]. rewrite start_sim.
  destruct (read_sim toks (start d)) as [H1 H2].
  destruct (read first_named (start d) toks) as [os out]. destruct (read first_named (rw_state (start d)) toks) as [os' out']. cbn [fst snd] in H1, H2. subst os'.
  pose proof (bad_sim os []) as H. cbn [map] in H.
  destruct (first_bad [] os), (first_bad [] (map rw_occ os)); try contradiction; [exact H|]. destruct out as [st|[e|stk]], out' as [st'|[e'|stk']]; try contradiction.
  - cbn [out_sim] in H2. subst st'. pose proof (stack_sim os (state_stack st) None) as G.
    destruct st; cbn [rw_state state_stack] in *; try exact G. apply about_sim.
  - exact H2.
  - cbn [out_sim] in H2. subst stk'. apply Hhelp.
Qed.
End Reword.

(** ** The attributes of arguments and commands unchanged *)
Section Plain.
Variable fm : arg_meta V -> arg_meta V.
Variable fa : bool -> cmd_attrs -> cmd_attrs.
Variable inline : bool.
Hypothesis Hfm : forall m, fm m = m.
Hypothesis Hfa : forall at_, fa true at_ = at_.
Local Notation rw := (reword fm fa inline).
Local Notation rwv := (rw_variant fm fa inline).
Local Notation rws := (rw_scope fm fa inline).

Lemma plain_arg a : rw_arg fm a = a.
Proof. destruct a as [id m t]. unfold rw_arg. cbn [sa_id sa_meta sa_ty]. rewrite Hfm. reflexivity. Qed.
Lemma plain_args l : map (rw_arg fm) l = l.
Proof. rewrite (map_ext _ (fun a => a) plain_arg). apply map_id. Qed.
Lemma plain_meta m : unworded_arg (fm m) = unworded_arg m.
Proof. rewrite Hfm. reflexivity. Qed.
Lemma plain_own top d : own_args (rw top d) = own_args d.
Proof. rewrite rw_own. apply plain_args. Qed.
Lemma plain_reach top d : reach (rw top d) = reach d.
Proof.
  rewrite rw_reach. rewrite (map_ext _ (fun pa => pa)); [apply map_id|]. intros [p a]. cbn [fst snd]. rewrite plain_arg. reflexivity.
Qed.
Lemma plain_pos top d : positionals (rw top d) = positionals d.
Proof. rewrite (rw_positionals _ _ _ plain_meta). apply plain_args. Qed.
Lemma plain_variant_attrs v : attrs_of (sc_decl (variant_scope (rwv v))) = attrs_of (sc_decl (variant_scope v)).
Proof. rewrite rw_variant_scope. cbn [rw_scope sc_decl]. rewrite rw_attrs. apply Hfa. Qed.
Lemma plain_command_names stk : command_names (rw_stack fm fa inline stk) = command_names stk.
Proof.
  induction stk as [|s [|s2 stk] IH]; [reflexivity|reflexivity|]. unfold rw_stack in *. cbn [map command_names] in *. rewrite IH. reflexivity.
Qed.
Lemma plain_help argv0 stk : help_text argv0 (rw_stack fm fa inline stk) = help_text argv0 stk.
Proof.
  unfold help_text. rewrite plain_command_names. destruct stk as [|s stk]; [reflexivity|]. cbn [rw_stack map]. cbn [rw_scope sc_decl].
  rewrite rw_attrs, Hfa, plain_reach, plain_pos, rw_subcommand.
  destruct (subcommand (sc_decl s)) as [[[id o] vs]|]; cbn [option_map rw_sub fst snd]; [|reflexivity].
  rewrite map_map. rewrite (map_ext (fun v => length (sub_name (rwv v))) (fun v => length (sub_name v)));
    [|intros v; rewrite rw_sub_name; reflexivity].
  rewrite flat_map_map'. rewrite (flat_map_ext _ (command_line (fold_right Nat.max 0 (map (fun v => length (sub_name v)) vs)))); [reflexivity|].
  intros v. unfold command_line, variant_about. rewrite rw_sub_name, plain_variant_attrs. reflexivity.
Qed.
Theorem plain_parse d argv : spec_parse (rw true d) argv = spec_parse d argv.
Proof.
  pose proof (reword_parse fm fa inline (fun e => e) plain_meta
    ltac:(intros a k i s c h; rewrite plain_arg; reflexivity) ltac:(intros argv0 stk; rewrite plain_help; reflexivity) d argv) as H.
  destruct (spec_parse d argv), (spec_parse (rw true d) argv); try contradiction; cbn [res_sim] in H; subst; reflexivity.
Qed.

Lemma rw_fields_fst top d : map fst (fields_of (rw top d)) = map fst (fields_of d).
Proof. rewrite rw_fields, map_map. apply map_ext. intros [id f]. reflexivity. Qed.
Lemma rwv_fst v : fst (rwv v) = fst v.
Proof. destruct v as [id vd]. reflexivity. Qed.
Lemma subs_nil top d : subcommands (rw top d) = [] <-> subcommands d = [].
Proof. unfold subcommands. rewrite rw_subs. split; [apply map_eq_nil|]. intros E. rewrite E. reflexivity. Qed.
Lemma struct_plain top d :
  (forall id o vs v, In (id, o, vs) (subcommands d) -> In v vs -> legal_variant (rwv v) <-> legal_variant v) ->
  legal_struct (rw top d) <-> legal_struct d.
Proof.
  intros Hv.
  assert (Hsub : forall id o vs, In (id, o, vs) (subcommands (rw top d)) <-> exists ws, In (id, o, ws) (subcommands d) /\ vs = map rwv ws).
  { intros id o vs. unfold subcommands. rewrite rw_subs, in_map_iff. split.
    - intros ([[id' o'] ws] & E & Hi). unfold rw_sub in E. cbn [fst snd] in E. inversion E; subst. exists ws. split; [exact Hi|reflexivity].
    - intros (ws & Hi & ->). exists (id, o, ws). split; [reflexivity|exact Hi]. }
  assert (Hflat : forall id x, In (id, x) (flattened (rw top d)) <-> exists y, In (id, y) (flattened d) /\ x = rw false y).
  { intros id x. rewrite rw_flattened, in_map_iff. split.
    - intros ([id' y] & E & Hi). cbn [fst snd] in E. inversion E; subst. exists y. split; [exact Hi|reflexivity].
    - intros (y & Hi & ->). exists (id, y). split; [reflexivity|exact Hi]. }
  assert (Hfn : flattened (rw top d) = [] <-> flattened d = []).
  { rewrite rw_flattened. split; [apply map_eq_nil|]. intros E. rewrite E. reflexivity. }
  assert (Hpl : plain_positionals (rw top d) = plain_positionals d) by (unfold plain_positionals; rewrite plain_own; reflexivity).
  assert (Hla : last_positionals (rw top d) = last_positionals d) by (unfold last_positionals; rewrite plain_own; reflexivity).
  assert (Hid : forall id, (exists f, In (id, f) (fields_of (rw top d))) <-> (exists f, In (id, f) (fields_of d))).
  { intros id. assert (Hm : forall fs : list (ident * field_decl V), (exists f, In (id, f) fs) <-> In id (map fst fs)).
    { intros fs. rewrite in_map_iff. split; [intros (f & H); exists (id, f); split; [reflexivity|exact H]|].
      intros ([id' f] & E & H). cbn [fst] in E. subst id'. exists f. exact H. }
    rewrite !Hm, rw_fields_fst. reflexivity. }
  assert (Hlen : length (fields_of (rw top d)) = length (fields_of d)) by (rewrite rw_fields; apply map_length).
  assert (Hslen : length (subcommands (rw top d)) = length (subcommands d)) by (unfold subcommands; rewrite rw_subs; apply map_length).
  assert (Hvs : forall ws, map fst (map rwv ws) = map fst ws) by (intros ws; rewrite map_map; apply map_ext; apply rwv_fst).
  split; intros [H1 H2 H3 H4 H5 H6 H7 H8 H9 H10 H11 H12]; constructor.
  - rewrite <- Hlen. exact H1.
  - rewrite <- (rw_fields_fst top). exact H2.
  - intros id f Hi. destruct (proj2 (Hid id) (ex_intro _ f Hi)) as (f' & Hi'). exact (H3 id f' Hi').
  - intros a Ha. apply H4. rewrite plain_own. exact Ha.
  - rewrite plain_own in H5. exact H5.
  - rewrite Hpl in H6. exact H6.
  - rewrite Hla in H7. exact H7.
  - rewrite Hslen in H8. exact H8.
  - rewrite plain_own in H9. exact H9.
  - intros a Ha He. apply Hfn. apply (H10 a); [rewrite plain_own; exact Ha|exact He].
  - intros id x Hi. destruct (H11 id (rw false x)) as [G1 G2]; [apply Hflat; exists x; split; [exact Hi|reflexivity]|].
    rewrite plain_own in G1. apply subs_nil in G2. split; assumption.
  - intros id o vs Hi. destruct (H12 id o (map rwv vs)) as [G1 G2]; [apply Hsub; exists vs; split; [exact Hi|reflexivity]|].
    rewrite Hvs in G1. split; [exact G1|]. intros v Hvi. apply (Hv id o vs v Hi Hvi). apply G2. apply in_map. exact Hvi.
  - rewrite Hlen. exact H1.
  - rewrite rw_fields_fst. exact H2.
  - intros id f Hi. destruct (proj1 (Hid id) (ex_intro _ f Hi)) as (f' & Hi'). exact (H3 id f' Hi').
  - intros a Ha. apply H4. rewrite plain_own in Ha. exact Ha.
  - rewrite plain_own. exact H5.
  - rewrite Hpl. exact H6.
  - rewrite Hla. exact H7.
  - rewrite Hslen. exact H8.
  - rewrite plain_own. exact H9.
  - intros a Ha He. apply Hfn. apply (H10 a); [rewrite plain_own in Ha; exact Ha|exact He].
  - intros id x Hi. apply Hflat in Hi. destruct Hi as (y & Hi & ->). rewrite plain_own, subs_nil. exact (H11 id y Hi).
  - intros id o vs Hi. apply Hsub in Hi. destruct Hi as (ws & Hi & ->). rewrite Hvs. destruct (H12 id o ws Hi) as [G1 G2].
    split; [exact G1|]. intros v Hvi. apply in_map_iff in Hvi. destruct Hvi as (w & <- & Hw). apply (Hv id o ws w Hi Hw). exact (G2 w Hw).
Qed.
Lemma well_formed_plain :
  (forall v, legal_variant (rwv v) <-> legal_variant v) -> forall d top, well_formed (rw top d) <-> well_formed d.
Proof.
  intros Hv d. induction d as [d IHf IHs] using decl_induction. intros top.
  assert (IHs' : forall id o vs v, In (id, o, vs) (subcommands d) -> In v vs -> forall top,
    well_formed (rw top (sc_decl (variant_scope v))) <-> well_formed (sc_decl (variant_scope v))).
  { intros id o vs v Hi Hvi. apply (IHs id o vs v); [|exact Hvi]. unfold subcommands in Hi. apply in_flat_map in Hi.
    destruct Hi as ([id' f] & Hi & Hf). unfold sub_field in Hf. cbn [fst snd] in Hf. destruct f as [m t|x|o' [ws]]; try contradiction.
    destruct Hf as [Hf|[]]. inversion Hf; subst. exact Hi. }
  split; intros H; inversion H as [d' G1 G2 G3 E]; subst d'; constructor.
  - apply (struct_plain top); [|exact G1]. intros id o vs v _ _. apply Hv.
  - intros id x Hi. apply (IHf id x (proj1 (in_flattened d id x) Hi) false). apply (G2 id). rewrite rw_flattened.
    apply in_map_iff. exists (id, x). split; [reflexivity|exact Hi].
  - intros id o vs v Hi Hvi. apply (IHs' id o vs v Hi Hvi true).
    assert (K : well_formed (sc_decl (variant_scope (rwv v)))).
    { apply (G3 id o (map rwv vs) (rwv v)); [|apply in_map; exact Hvi]. unfold subcommands. rewrite rw_subs. apply in_map_iff.
      exists (id, o, vs). split; [reflexivity|exact Hi]. }
    rewrite rw_variant_scope in K. exact K.
  - apply struct_plain; [|exact G1]. intros id o vs v _ _. apply Hv.
  - intros id x Hi. rewrite rw_flattened in Hi. apply in_map_iff in Hi. destruct Hi as ([id' y] & E & Hi). cbn [fst snd] in E. inversion E; subst.
    apply (IHf id y (proj1 (in_flattened d id y) Hi) false). exact (G2 id y Hi).
  - intros id o vs v Hi Hvi. unfold subcommands in Hi. rewrite rw_subs in Hi. apply in_map_iff in Hi. destruct Hi as ([[id' o'] ws] & E & Hi).
    unfold rw_sub in E. cbn [fst snd] in E. inversion E; subst. apply in_map_iff in Hvi. destruct Hvi as (w & <- & Hw).
    rewrite rw_variant_scope. cbn [rw_scope sc_decl]. apply (IHs' id o ws w Hi Hw true). exact (G3 id o ws w Hi Hw).
Qed.
End Plain.

(** ** Flattened structs *)

Definition title (top : bool) (at_ : cmd_attrs) : cmd_attrs := if top then at_ else blank_attrs.
Lemma untitled_accepted (d : args_decl) : accepted (untitled d) <-> accepted d.
Proof.
  rewrite !accepted_well_formed. unfold untitled. apply (well_formed_plain (fun m => m) title false (fun _ => eq_refl)).
  intros [id vd]. destruct vd; reflexivity.
Qed.
Lemma valid_iff (d d' : args_decl) : (accepted d <-> accepted d') -> distinct_subcommands d = distinct_subcommands d' -> valid d <-> valid d'.
Proof. intros H1 H2. unfold valid. rewrite H1, H2. reflexivity. Qed.
Lemma untitled_valid (d : args_decl) : valid (untitled d) <-> valid d.
Proof. apply valid_iff; [apply untitled_accepted|]. unfold untitled. apply rw_distinct. Qed.
Theorem flattened_titles (d d' : args_decl) : untitled d = untitled d' ->
  (accepted d <-> accepted d') /\ (valid d <-> valid d') /\
  (valid d -> forall argv, try_parse_from d argv = try_parse_from d' argv).
Proof.
  intros E. assert (H : valid d <-> valid d') by (rewrite <- (untitled_valid d), <- (untitled_valid d'), E; reflexivity).
  split; [rewrite <- (untitled_accepted d), <- (untitled_accepted d'), E; reflexivity|]. split; [exact H|].
  intros Hd argv. rewrite (refines d argv Hd), (refines d' argv (proj1 H Hd)).
  rewrite <- (plain_parse (fun m => m) title false (fun _ => eq_refl) (fun _ => eq_refl) d argv).
  rewrite <- (plain_parse (fun m => m) title false (fun _ => eq_refl) (fun _ => eq_refl) d' argv).
  f_equal. exact E.
Qed.

(** ** Tuple variants *)
Definition as_is (top : bool) (at_ : cmd_attrs) : cmd_attrs := at_.
Lemma inlined_well_formed (d : args_decl) : forall top, well_formed d -> well_formed (reword (fun m => m) as_is true top d).
Proof.
  induction d as [d IHf IHs] using decl_induction. intros top H. inversion H as [d' G1 G2 G3 E]; subst d'. constructor.
  - apply (struct_plain _ as_is true (fun _ => eq_refl) top d); [|exact G1]. intros id o vs v Hi Hvi.
    assert (K : legal_variant v) by (apply (proj2 (ls_variants d G1 id o vs Hi)); exact Hvi).
    split; [intros _; exact K|]. intros _. destruct v as [vid [at_|at_ x|x]]; split; try exact (proj1 K); exact I.
  - intros id x Hi. rewrite rw_flattened in Hi. apply in_map_iff in Hi. destruct Hi as ([id' y] & E & Hi). cbn [fst snd] in E. inversion E; subst.
    apply (IHf id y (proj1 (in_flattened d id y) Hi) false). exact (G2 id y Hi).
  - intros id o vs v Hi Hvi. unfold subcommands in Hi. rewrite rw_subs in Hi. apply in_map_iff in Hi. destruct Hi as ([[id' o'] ws] & E & Hi).
    unfold rw_sub in E. cbn [fst snd] in E. inversion E; subst. apply in_map_iff in Hvi. destruct Hvi as (w & <- & Hw).
    rewrite rw_variant_scope. cbn [rw_scope sc_decl]. apply (IHs id o ws w); [|exact Hw|exact (G3 id o ws w Hi Hw)].
    apply in_flat_map in Hi. destruct Hi as ([id' f] & Hi & Hf). unfold sub_field in Hf. cbn [fst snd] in Hf.
    destruct f as [m t|x|o' [ws']]; try contradiction. destruct Hf as [Hf|[]]. inversion Hf; subst. exact Hi.
Qed.
Theorem inlined_same (d : args_decl) : valid d -> valid (inlined d) /\ forall argv, try_parse_from (inlined d) argv = try_parse_from d argv.
Proof.
  intros Hd. assert (H : valid (inlined d)).
  { destruct Hd as [H1 H2]. split.
    - apply accepted_well_formed. apply (inlined_well_formed d true). apply accepted_well_formed. exact H1.
    - unfold inlined. rewrite rw_distinct. exact H2. }
  split; [exact H|]. intros argv. rewrite (refines d argv Hd), (refines _ argv H).
  apply (plain_parse (fun m => m) as_is true (fun _ => eq_refl) (fun _ => eq_refl)).
Qed.

(** ** Documentation *)
Definition forget_help (e : error) : error := mkError (e_kind e) (e_arg_desc e) (e_input e) (e_source e) (e_context e) None.
Definition forget_wording (e : error) : error := mkError (e_kind e) None (e_input e) (e_source e) (e_context e) None.
Lemma undocumented_parse (d : args_decl) argv : res_sim forget_help (spec_parse d argv) (spec_parse (undocumented d) argv).
Proof. apply reword_parse; intros; reflexivity. Qed.
Lemma unworded_parse (d : args_decl) argv : res_sim forget_wording (spec_parse d argv) (spec_parse (unworded d) argv).
Proof. apply reword_parse; intros; reflexivity. Qed.
Theorem documentation (d d' : args_decl) argv : undocumented d = undocumented d' -> valid d -> valid d' ->
  same_but_help (try_parse_from d argv) (try_parse_from d' argv).
Proof.
  intros E Hd Hd'. rewrite (refines d argv Hd), (refines d' argv Hd'). pose proof (undocumented_parse d argv) as H1. pose proof (undocumented_parse d' argv) as H2.
  rewrite <- E in H2. destruct (spec_parse d argv), (spec_parse d' argv), (spec_parse (undocumented d) argv); try contradiction; cbn [res_sim same_but_help] in *;
    try congruence.
  rewrite H1 in H2. unfold forget_help in H2. inversion H2. repeat split; congruence.
Qed.
Theorem wording (d d' : args_decl) argv : unworded d = unworded d' -> valid d -> valid d' ->
  same_but_wording (try_parse_from d argv) (try_parse_from d' argv).
Proof.
  intros E Hd Hd'. rewrite (refines d argv Hd), (refines d' argv Hd'). pose proof (unworded_parse d argv) as H1. pose proof (unworded_parse d' argv) as H2.
  rewrite <- E in H2. destruct (spec_parse d argv), (spec_parse d' argv), (spec_parse (unworded d) argv); try contradiction; cbn [res_sim same_but_wording] in *;
    try congruence.
  rewrite H1 in H2. unfold forget_wording in H2. inversion H2. repeat split; congruence.
Qed.
End Wording.
