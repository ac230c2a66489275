(** Renaming the fields of a declaration. *)
From Verif Require Import Bytes BytesFacts Utf8 Utf8Facts Attrs AttrFacts Refl Error Values SortFacts
  Places Help Runtime Heck Decl Spec Derive Generated Observe CompileFacts InfoFacts TableFacts PlaceFacts
  ScopeFacts NamedFacts WordFacts FinishFacts ReadFacts SimFacts HelpFacts Refine ContextFacts WellFormed WellFormedFacts
  WordingFacts Rename.

Section Rename.
Context {V : Type}.
Local Notation args_decl := (args_decl V).
Local Notation sarg := (sarg V).
Local Notation scope := (scope V).
Local Notation occ := (occ V).
Local Notation state := (state V).

Variable r : list ident -> ident -> ident.
Hypothesis Hr : renaming r.
Local Notation rn := (rename (V := V) r).
Implicit Types (d : args_decl) (a : sarg) (stk : list scope).

Definition rn_arg (c : list ident) (a : sarg) : sarg := Arg (r c (sa_id a)) (rename_meta r c (sa_id a) (sa_meta a)) (sa_ty a).
Definition rn_variant (c : list ident) (v : ident * variant_decl V) : ident * variant_decl V :=
  let '(vid, vd) := v in
  (vid, match vd with
        | VDUnit at_ => VDUnit at_
        | VDNewtype at_ x => VDNewtype at_ (rn (c ++ [vid]) x)
        | VDStruct x => VDStruct (rn (c ++ [vid]) x)
        end).
Definition rn_field (c : list ident) (f : ident * field_decl V) : ident * field_decl V :=
  let '(id, fd) := f in
  (r c id, match fd with
       | FArg m t => FArg (rename_meta r c id m) t
       | FFlatten x => FFlatten (rn (c ++ [id]) x)
       | FSub o (MkSubDecl vs) => FSub o (MkSubDecl (map (rn_variant c) vs))
       end).

(** Where the commands of a stack are. *)
Fixpoint ctx_of (stk : list scope) : list ident :=
  match stk with
  | [] | [_] => []
  | s :: outer => ctx_of outer ++ [sc_ident s]
  end.
Fixpoint rn_stack (stk : list scope) : list scope :=
  match stk with
  | [] => []
  | s :: outer => Scope (rn (ctx_of stk) (sc_decl s)) (sc_ident s) (sc_unit s) :: rn_stack outer
  end.
(** The context of the command at a level. *)
Fixpoint ctx_at (stk : list scope) (level : nat) : list ident :=
  match stk with
  | [] => []
  | _ :: outer => if level =? length outer then ctx_of stk else ctx_at outer level
  end.
Fixpoint rn_path (c : list ident) (p : list ident) : list ident :=
  match p with
  | [] => []
  | id :: p' => r c id :: rn_path (c ++ [id]) p'
  end.
Definition rn_addr (stk : list scope) (ad : addr) : addr :=
  Addr (ad_level ad) (rn_path (ctx_at stk (ad_level ad)) (ad_path ad)).
Definition arg_ctx (stk : list scope) (ad : addr) : list ident := ctx_at stk (ad_level ad) ++ removelast (ad_path ad).
Definition rn_pair (stk : list scope) (x : addr * sarg) : addr * sarg := (rn_addr stk (fst x), rn_arg (arg_ctx stk (fst x)) (snd x)).
Definition rn_occ (stk : list scope) (o : occ) : occ :=
  Occ (rn_addr stk (oc_addr o)) (rn_arg (arg_ctx stk (oc_addr o)) (oc_arg o)) (oc_val o).
Definition rn_state (st : state) : state :=
  match st with
  | Normal stk rem => Normal (rn_stack stk) (map (rn_arg (ctx_of stk)) rem)
  | Await stk rem ad a => Await (rn_stack stk) (map (rn_arg (ctx_of stk)) rem) (rn_addr stk ad) (rn_arg (arg_ctx stk ad) a)
  | Verbatim stk rem => Verbatim (rn_stack stk) (map (rn_arg (ctx_of stk)) rem)
  | Drain stk p => Drain (rn_stack stk) (rn_arg (ctx_of stk) p)
  end.

Lemma r_inj c x y : beqb (r c x) (r c y) = beqb x y.
Proof.
  destruct (Hr c) as [H _]. destruct (beqb x y) eqn:E.
  - apply beqb_eq in E. subst. apply beqb_refl.
  - destruct (beqb (r c x) (r c y)) eqn:F; [|reflexivity]. apply beqb_eq in F. apply H in F. subst. rewrite beqb_refl in E. discriminate.
Qed.

(** ** Declarations *)

Lemma rn_fields c d : fields_of (rn c d) = map (rn_field c) (fields_of d).
Proof.
  destruct d as [at_ fs]. cbn [rename fields_of]. apply map_ext. intros [id [m t|x|o [vs]]]; reflexivity.
Qed.
Lemma rn_attrs c d : attrs_of (rn c d) = attrs_of d.
Proof. destruct d as [at_ fs]. reflexivity. Qed.
Lemma rn_own c d : own_args (rn c d) = map (rn_arg c) (own_args d).
Proof.
  unfold own_args. rewrite rn_fields. induction (fields_of d) as [|[id f] fs IH]; [reflexivity|].
  cbn [map flat_map]. rewrite map_app, <- IH. f_equal. destruct f as [m t|x|o [vs]]; reflexivity.
Qed.
Definition rn_flat (c : list ident) (fx : ident * args_decl) : ident * args_decl := (r c (fst fx), rn (c ++ [fst fx]) (snd fx)).
Lemma rn_flattened c d : flattened (rn c d) = map (rn_flat c) (flattened d).
Proof.
  unfold flattened. rewrite rn_fields. induction (fields_of d) as [|[id f] fs IH]; [reflexivity|].
  cbn [map flat_map]. rewrite map_app, <- IH. f_equal. destruct f as [m t|x|o [vs]]; reflexivity.
Qed.
Definition rn_sub (c : list ident) (x : ident * bool * list (ident * variant_decl V)) :=
  (r c (fst (fst x)), snd (fst x), map (rn_variant c) (snd x)).
Lemma rn_subs c d : flat_map sub_field (fields_of (rn c d)) = map (rn_sub c) (flat_map sub_field (fields_of d)).
Proof.
  rewrite rn_fields. induction (fields_of d) as [|[id f] fs IH]; [reflexivity|].
  cbn [map flat_map]. rewrite map_app, <- IH. f_equal. destruct f as [m t|x|o [vs]]; reflexivity.
Qed.
Lemma rn_subcommand c d : subcommand (rn c d) = option_map (rn_sub c) (subcommand d).
Proof. unfold subcommand. rewrite rn_subs. destruct (flat_map sub_field (fields_of d)); reflexivity. Qed.
Lemma rn_variant_scope c v : variant_scope (rn_variant c v) =
  Scope (rn (c ++ [sc_ident (variant_scope v)]) (sc_decl (variant_scope v))) (sc_ident (variant_scope v)) (sc_unit (variant_scope v)).
Proof. destruct v as [id [at_|at_ x|x]]; reflexivity. Qed.
Lemma rn_sub_name c v : sub_name (rn_variant c v) = sub_name v.
Proof. destruct v as [id vd]. reflexivity. Qed.
Lemma rn_reach d : forall c, reach (rn c d) = map (fun pa => (rn_path c (fst pa), rn_arg (c ++ removelast (fst pa)) (snd pa))) (reach d).
Proof.
  induction d as [d IH _] using decl_induction. intros c. rewrite !reach_eq, rn_own, rn_flattened, map_app, !map_map.
  f_equal.
  { apply map_ext. intros a. cbn [fst snd removelast rn_path]. rewrite app_nil_r. reflexivity. }
  rewrite flat_map_map'.
  assert (Hall : forall fx, In fx (flattened d) -> forall c, reach (rn c (snd fx)) = map (fun pa => (rn_path c (fst pa), rn_arg (c ++ removelast (fst pa)) (snd pa))) (reach (snd fx))).
  { intros [id x] Hi. apply (IH id x). apply in_flattened. exact Hi. }
  assert (Hne : forall d p a, In (p, a) (reach d) -> p <> []).
  { clear. intros d p a H E. subst p. rewrite reach_eq in H. apply in_app_or in H. destruct H as [H|H].
    - apply in_map_iff in H. destruct H as (b & E & _). discriminate.
    - apply in_flat_map in H. destruct H as (fx & _ & H). apply in_map_iff in H. destruct H as (b & E & _). discriminate. }
  induction (flattened d) as [|fx l IHl]; [reflexivity|]. cbn [flat_map]. rewrite map_app, <- IHl.
  - f_equal. cbn [rn_flat fst snd]. rewrite (Hall fx (or_introl eq_refl)), !map_map. apply map_ext_in. intros [p a] Hp. cbn [fst snd rn_path].
    f_equal. f_equal. specialize (Hne _ _ _ Hp). destruct p as [|y p]; [contradiction|]. rewrite <- app_assoc. reflexivity.
  - intros fy Hy. apply Hall. right. exact Hy.
Qed.
Lemma rn_distinct d : forall c, distinct_subcommands (rn c d) = distinct_subcommands d.
Proof.
  induction d as [d _ IH] using decl_induction. intros c. destruct d as [at_ fs]. cbn [rename distinct_subcommands].
  cbn [fields_of] in IH. induction fs as [|[id f] fs IHfs]; [reflexivity|]. cbn [map forallb]. f_equal.
  - destruct f as [m t|x|o [vs]]; try reflexivity. rewrite map_map. f_equal.
    + f_equal. apply map_ext. intros [vid vd]. reflexivity.
    + specialize (IH id o vs). assert (Hvs : forall v, In v vs -> forall c, distinct_subcommands (rn c (sc_decl (variant_scope v))) = distinct_subcommands (sc_decl (variant_scope v))).
      { intros v Hv. apply IH; [left; reflexivity|exact Hv]. }
      clear - Hvs. induction vs as [|[vid vd] vs IHvs]; [reflexivity|]. cbn [map forallb]. f_equal.
      * specialize (Hvs (vid, vd) (or_introl eq_refl) (c ++ [vid])). destruct vd; [reflexivity|exact Hvs|exact Hvs].
      * apply IHvs. intros v Hv. apply Hvs. right. exact Hv.
  - apply IHfs. intros id' o' vs' v' Hi Hv. apply (IH id' o' vs' v'); [right; exact Hi|exact Hv].
Qed.

(** ** Arguments *)

Section Args.
Variable c : list ident.
Local Notation ra := (rn_arg c).

Lemma rn_option a : is_option (ra a) = is_option a.
Proof.
  unfold is_option. cbn [rn_arg sa_meta rename_meta am_long am_short].
  destruct (am_long (sa_meta a)) as [[|l]|]; try reflexivity. destruct (am_short (sa_meta a)) as [[|l]|]; try reflexivity.
  destruct (sa_id a); reflexivity.
Qed.
Lemma rn_long a : long_name (ra a) = long_name a.
Proof. unfold long_name. cbn [rn_arg sa_meta sa_id rename_meta am_long]. destruct (am_long (sa_meta a)) as [[|l]|]; reflexivity. Qed.
Lemma rn_short a : short_name (ra a) = short_name a.
Proof.
  unfold short_name. cbn [rn_arg sa_meta sa_id rename_meta am_short].
  destruct (am_short (sa_meta a)) as [[|l]|]; [|destruct (sa_id a); reflexivity|destruct (sa_id a); reflexivity].
  destruct (sa_id a) as [|b l]; [|reflexivity]. destruct (Hr c) as (_ & _ & ->). reflexivity.
Qed.
Lemma rn_value_name a : value_name (ra a) = value_name a.
Proof. unfold value_name. cbn [rn_arg sa_meta sa_id rename_meta am_value_name]. destruct (am_value_name (sa_meta a)); reflexivity. Qed.
Lemma rn_has a n : has_nameb (ra a) n = has_nameb a n.
Proof. unfold has_nameb. rewrite rn_option, rn_long, rn_short. reflexivity. Qed.
Lemma rn_required a : is_required (ra a) = is_required a.
Proof. reflexivity. Qed.
Lemma rn_describe a : describe (ra a) = describe a.
Proof. unfold describe, value_part. rewrite rn_option, rn_long, rn_short, rn_value_name. reflexivity. Qed.
Lemma rn_about k a : error_about k (ra a) = error_about k a.
Proof. unfold error_about. rewrite rn_describe. reflexivity. Qed.
Lemma rn_value_error a p v : value_error (ra a) p v = value_error a p v.
Proof. reflexivity. Qed.
Lemma rn_occ_error a p v : occ_error (ra a) p v = occ_error a p v.
Proof.
  unfold occ_error. rewrite rn_option, rn_describe, rn_value_error. reflexivity.
Qed.
Lemma rn_field_value a vals : field_value (ra a) vals = field_value a vals.
Proof. reflexivity. Qed.
Lemma rn_usage a : usage_of (ra a) = usage_of a.
Proof.
  unfold usage_of, usage_form, value_part. rewrite rn_option, rn_long, rn_short, rn_describe, rn_value_name. reflexivity.
Qed.
Lemma rn_entry a : entry (ra a) = entry a.
Proof. unfold entry. rewrite rn_option, rn_short, rn_describe. reflexivity. Qed.
End Args.

Lemma rn_positionals c d : positionals (rn c d) = map (rn_arg c) (positionals d).
Proof.
  unfold positionals. rewrite rn_own. rewrite (filter_map_comm _ (fun a => negb (is_option a))); [|intros a; rewrite rn_option; reflexivity].
  cbn zeta. rewrite map_app. f_equal; apply filter_map_comm; intros a; reflexivity.
Qed.
Lemma rn_checked c d : checked (rn c d) = map (rn_arg c) (checked d).
Proof.
  unfold checked. rewrite rn_own, rn_positionals, map_app. f_equal. apply filter_map_comm. apply rn_option.
Qed.

(** ** Scopes *)

Lemma rn_length stk : length (rn_stack stk) = length stk.
Proof. induction stk as [|s stk IH]; [reflexivity|]. cbn [rn_stack length]. rewrite IH. reflexivity. Qed.
Lemma ctx_at_top big inner s stk : big = inner ++ s :: stk -> ctx_at big (length stk) = ctx_of (s :: stk).
Proof.
  revert big. induction inner as [|x inner IH]; intros big ->.
  - cbn [app ctx_at]. rewrite Nat.eqb_refl. reflexivity.
  - cbn [app ctx_at]. rewrite app_length. cbn [length]. destruct (Nat.eqb_spec (length stk) (length inner + S (length stk))) as [E|_]; [lia|].
    apply IH. reflexivity.
Qed.
Lemma rn_scope_args big inner s stk : big = inner ++ s :: stk ->
  scope_args (length stk) (Scope (rn (ctx_of (s :: stk)) (sc_decl s)) (sc_ident s) (sc_unit s)) = map (rn_pair big) (scope_args (length stk) s).
Proof.
  intros E. unfold scope_args. cbn [sc_decl]. rewrite rn_reach, !map_map. apply map_ext. intros [p a]. cbn [fst snd].
  unfold rn_pair, rn_addr, arg_ctx. cbn [fst snd ad_level ad_path]. rewrite (ctx_at_top big inner s stk E). reflexivity.
Qed.
Lemma rn_stack_args stk : forall big inner, big = inner ++ stk -> stack_args (rn_stack stk) = map (rn_pair big) (stack_args stk).
Proof.
  induction stk as [|s stk IH]; intros big inner E; [reflexivity|]. cbn [rn_stack stack_args].
  rewrite rn_length, map_app, (IH big (inner ++ [s])), (rn_scope_args big inner s stk E); [reflexivity|]. rewrite <- app_assoc. exact E.
Qed.
Lemma rn_in_scope stk big inner : big = inner ++ stk -> in_scope (rn_stack stk) = map (rn_pair big) (in_scope stk).
Proof.
  intros E. destruct stk as [|s stk]; [reflexivity|]. cbn [rn_stack in_scope].
  rewrite rn_length, (rn_stack_args stk big (inner ++ [s])), map_app, (rn_scope_args big inner s stk E); [|rewrite <- app_assoc; exact E].
  f_equal. apply filter_map_comm. intros x. reflexivity.
Qed.
Lemma rn_resolve stk n big inner : big = inner ++ stk -> resolve (rn_stack stk) n = option_map (rn_pair big) (resolve stk n).
Proof. intros E. unfold resolve. rewrite (rn_in_scope stk big inner E). apply find_map_comm. intros x. apply rn_has. Qed.
Lemma rn_has_subcommand stk : has_subcommand (rn_stack stk) = has_subcommand stk.
Proof. destruct stk as [|s stk]; [reflexivity|]. cbn [rn_stack has_subcommand sc_decl]. rewrite rn_subcommand. destruct (subcommand (sc_decl s)); reflexivity. Qed.
Lemma rn_sub_variants stk : sub_variants (rn_stack stk) = map (rn_variant (ctx_of stk)) (sub_variants stk).
Proof.
  destruct stk as [|s stk]; [reflexivity|]. cbn [rn_stack sub_variants sc_decl]. rewrite rn_subcommand.
  destruct (subcommand (sc_decl s)) as [[[id o] vs]|]; reflexivity.
Qed.
Lemma rn_first_named c vs tok : first_named (map (rn_variant c) vs) tok = option_map (rn_variant c) (first_named vs tok).
Proof. unfold first_named. apply find_map_comm. intros v. rewrite rn_sub_name. reflexivity. Qed.
Lemma rn_after_sep stk rem : after_sep (rn_stack stk) (map (rn_arg (ctx_of stk)) rem) = map (rn_arg (ctx_of stk)) (after_sep stk rem).
Proof.
  destruct stk as [|s stk]; [reflexivity|]. cbn [rn_stack after_sep sc_decl]. rewrite rn_positionals.
  rewrite (filter_map_comm _ is_last); [|reflexivity]. destruct (filter is_last (positionals (sc_decl s))); reflexivity.
Qed.

(** ** Reading *)

Lemma ctx_at_zero stk : ctx_at stk 0 = [].
Proof.
  induction stk as [|s stk IH]; [reflexivity|]. cbn [ctx_at]. destruct stk as [|s2 stk]; [reflexivity|]. cbn [length Nat.eqb]. exact IH.
Qed.
Lemma ctx_at_inner big inner stk : big = inner ++ stk -> ctx_at big (length stk - 1) = ctx_of stk.
Proof.
  intros E. destruct stk as [|s stk]; [apply ctx_at_zero|]. cbn [length]. replace (S (length stk) - 1) with (length stk) by lia.
  exact (ctx_at_top big inner s stk E).
Qed.
Lemma ctx_at_below big inner stk l : big = inner ++ stk -> l < length stk -> ctx_at big l = ctx_at stk l.
Proof.
  revert big. induction inner as [|x inner IH]; intros big -> Hl; [reflexivity|]. cbn [app ctx_at]. rewrite app_length.
  destruct (Nat.eqb_spec l (length inner + length stk)) as [E|_]; [lia|]. apply IH; [reflexivity|exact Hl].
Qed.
Lemma rn_pair_below big inner stk ad a : big = inner ++ stk -> ad_level ad < length stk ->
  rn_addr big ad = rn_addr stk ad /\ rn_arg (arg_ctx big ad) a = rn_arg (arg_ctx stk ad) a.
Proof. intros E Hl. unfold rn_addr, arg_ctx. rewrite (ctx_at_below big inner stk _ E Hl). split; reflexivity. Qed.
Lemma stack_args_level stk : forall ad a, In (ad, a) (stack_args stk) -> ad_level ad < length stk.
Proof.
  induction stk as [|s stk IH]; intros ad a H; [contradiction|]. cbn [stack_args] in H. apply in_app_or in H. cbn [length]. destruct H as [H|H].
  - unfold scope_args in H. apply in_map_iff in H. destruct H as ([p b] & E & _). injection E as <- _. cbn [ad_level]. lia.
  - apply IH in H. lia.
Qed.
Lemma resolve_level stk n ad a : resolve stk n = Some (ad, a) -> ad_level ad < length stk.
Proof.
  unfold resolve. intros H. apply find_some in H. destruct H as [H _]. apply (stack_args_level stk ad a).
  destruct stk as [|s stk]; [contradiction|]. cbn [in_scope] in H. cbn [stack_args]. apply in_app_or in H. apply in_or_app.
  destruct H as [H|H]; [left; exact H|right]. apply filter_In in H. apply H.
Qed.

Definition suffix (stk big : list scope) : Prop := exists inner, big = inner ++ stk.
Definition good (st : state) : Prop :=
  match st with Await stk _ ad _ => ad_level ad < length stk | _ => True end.
Definition out_sim (x y : outcome V) : Prop :=
  match x, y with
  | Go st, Go st' => st' = rn_state st /\ good st
  | Stop (SErr e), Stop (SErr e') => e' = e
  | Stop (SHelp stk), Stop (SHelp stk') => stk' = rn_stack stk
  | _, _ => False
  end.
Definition sim (big : list scope) (x y : list occ * outcome V) : Prop :=
  fst y = map (rn_occ big) (fst x) /\ out_sim (snd x) (snd y).

Section Step.
Variables (stk big : list scope).
Hypothesis Hbig : suffix stk big.
Local Notation c := (ctx_of stk).

Lemma pair_big ad a : ad_level ad < length stk -> rn_addr big ad = rn_addr stk ad /\ rn_arg (arg_ctx big ad) a = rn_arg (arg_ctx stk ad) a.
Proof. destruct Hbig as [inner E]. apply (rn_pair_below big inner). exact E. Qed.
Lemma resolve_big n : resolve (rn_stack stk) n = option_map (rn_pair stk) (resolve stk n).
Proof. exact (rn_resolve stk n stk [] eq_refl). Qed.
Lemma occ_big ad a v : ad_level ad < length stk -> rn_occ big (Occ ad a v) = Occ (rn_addr stk ad) (rn_arg (arg_ctx stk ad) a) v.
Proof. intros H. unfold rn_occ. cbn [oc_addr oc_arg oc_val]. destruct (pair_big ad a H) as [-> ->]. reflexivity. Qed.
Lemma word_big p v : rn_occ big (Occ (Addr (length stk - 1) [sa_id p]) p v) = Occ (Addr (length stk - 1) [sa_id (rn_arg c p)]) (rn_arg c p) v.
Proof.
  destruct Hbig as [inner E]. unfold rn_occ, rn_addr, arg_ctx. cbn [oc_addr oc_arg oc_val ad_level ad_path removelast rn_path].
  rewrite (ctx_at_inner big inner stk E), app_nil_r. reflexivity.
Qed.

Lemma bare_sim rem ad a : ad_level ad < length stk ->
  sim big (bare stk rem ad a) (bare (rn_stack stk) (map (rn_arg c) rem) (rn_addr stk ad) (rn_arg (arg_ctx stk ad) a)).
Proof.
  intros Hl. unfold bare. change (takes_value (rn_arg (arg_ctx stk ad) a)) with (takes_value a). change (needs_equals (rn_arg (arg_ctx stk ad) a)) with (needs_equals a).
  destruct (takes_value a); [destruct (needs_equals a)|].
  - split; [reflexivity|]. cbn [snd out_sim]. apply rn_about.
  - split; [reflexivity|]. cbn [snd out_sim]. split; [reflexivity|exact Hl].
  - split; [|split; [reflexivity|exact I]]. cbn [fst map]. rewrite (occ_big ad a None Hl). reflexivity.
Qed.
Lemma long_sim rem s v : sim big (read_long stk rem s v) (read_long (rn_stack stk) (map (rn_arg c) rem) s v).
Proof.
  unfold read_long. rewrite resolve_big. destruct (resolve stk (Long s)) as [[ad a]|] eqn:E; cbn [option_map rn_pair fst snd].
  - apply resolve_level in E. destruct v as [v|]; [|apply bare_sim; exact E]. split; [|split; [reflexivity|exact I]].
    cbn [fst map]. rewrite (occ_big ad a (Some v) E). reflexivity.
  - unfold unknown_long. split; [reflexivity|]. destruct (beqb s (bs "help")); reflexivity.
Qed.
Lemma bundle_sim rem cs junk : sim big (read_bundle stk rem cs junk) (read_bundle (rn_stack stk) (map (rn_arg c) rem) cs junk).
Proof.
  revert junk. induction cs as [|x cs IH]; intros junk.
  - cbn [read_bundle]. destruct junk; (split; [reflexivity|]); [split; [reflexivity|exact I]|reflexivity].
  - cbn [read_bundle]. rewrite resolve_big. destruct (resolve stk (Short x)) as [[ad a]|] eqn:E; cbn [option_map rn_pair fst snd].
    2:{ unfold unknown_short. split; [reflexivity|]. destruct (x =? b2n "h")%N; reflexivity. }
    apply resolve_level in E. destruct (IH junk) as [H1 H2].
    destruct (read_bundle stk rem cs junk) as [os out]. destruct (read_bundle (rn_stack stk) (map (rn_arg c) rem) cs junk) as [os' out'].
    cbn [fst snd] in H1, H2. subst os'.
    destruct (encode_all cs ++ junk) as [|b v]; [apply bare_sim; exact E|].
    change (takes_value (rn_arg (arg_ctx stk ad) a)) with (takes_value a). change (needs_equals (rn_arg (arg_ctx stk ad) a)) with (needs_equals a).
    set (ad' := rn_addr stk ad). set (a' := rn_arg (arg_ctx stk ad) a).
    assert (E1 : forall w, sim big (Occ ad a w :: os, out) (Occ ad' a' w :: map (rn_occ big) os, out')).
    { intros w. split; [|exact H2]. cbn [fst map]. rewrite (occ_big ad a w E). reflexivity. }
    assert (E2 : forall w, sim big ([Occ ad a w], Go (Normal stk rem)) ([Occ ad' a' w], Go (Normal (rn_stack stk) (map (rn_arg c) rem)))).
    { intros w. split; [|split; [reflexivity|exact I]]. cbn [fst map]. rewrite (occ_big ad a w E). reflexivity. }
    assert (E3 : forall k, sim big ([], Stop (SErr (error_about k a))) ([], Stop (SErr (error_about k a')))).
    { intros k. split; [reflexivity|]. cbn [snd out_sim]. apply rn_about. }
    destruct b; destruct (takes_value a); destruct (needs_equals a); auto.
Qed.
Lemma word_sim sep rem tok : sim big (take_word sep stk rem tok) (take_word sep (rn_stack stk) (map (rn_arg c) rem) tok).
Proof.
  unfold take_word. rewrite rn_has_subcommand, rn_length. destruct rem as [|p rem]; cbn [map]; [split; reflexivity|].
  change (is_last (rn_arg c p)) with (is_last p). change (many (rn_arg c p)) with (many p). change (greedy (rn_arg c p)) with (greedy p).
  destruct (sep || negb (is_last p)); [|split; reflexivity]. split.
  - cbn [fst map]. rewrite word_big. reflexivity.
  - cbn [snd]. destruct (greedy p); [split; [reflexivity|exact I]|]. destruct sep, (many p); (split; [reflexivity|exact I]).
Qed.
End Step.

Lemma suffix_refl stk : suffix stk stk.
Proof. exists []. reflexivity. Qed.
Lemma suffix_trans s1 s2 s3 : suffix s1 s2 -> suffix s2 s3 -> suffix s1 s3.
Proof. intros [i ->] [j ->]. exists (j ++ i). rewrite app_assoc. reflexivity. Qed.
Lemma step_sim st tok big : good st -> suffix (state_stack st) big ->
  sim big (step first_named st tok) (step first_named (rn_state st) tok).
Proof.
  destruct st as [stk rem|stk rem ad a|stk rem|stk p]; cbn [rn_state step good state_stack]; intros Hg Hb.
  - destruct (form_of tok) as [|s v|b|].
    + rewrite rn_after_sep. split; [reflexivity|]. split; [reflexivity|exact I].
    + apply long_sim. exact Hb.
    + destruct (utf8_prefix b) as [cs junk]. apply bundle_sim. exact Hb.
    + rewrite rn_sub_variants, rn_first_named. destruct (first_named (sub_variants stk) tok) as [v|] eqn:Ev; cbn [option_map].
      * split; [reflexivity|]. cbn [snd out_sim]. split; [|exact I]. cbn [rn_state rn_stack]. rewrite rn_variant_scope. cbn [sc_decl]. rewrite rn_positionals.
        destruct stk as [|s2 stk]; [discriminate|]. reflexivity.
      * apply word_sim. exact Hb.
  - change (may_follow (rn_arg (arg_ctx stk ad) a) tok) with (may_follow a tok). destruct (may_follow a tok).
    + split; [|split; [reflexivity|exact I]]. cbn [fst map]. rewrite (occ_big stk big Hb ad a (Some tok) Hg). reflexivity.
    + split; [reflexivity|]. cbn [snd out_sim]. apply rn_about.
  - apply word_sim. exact Hb.
  - split; [|split; [reflexivity|exact I]]. cbn [fst map]. rewrite (word_big stk big Hb). rewrite rn_length. reflexivity.
Qed.
Lemma step_suffix st tok os st' : step first_named st tok = (os, Go st') -> suffix (state_stack st) (state_stack st').
Proof.
  intros E. destruct (step_stack _ _ _ _ _ E) as [->|(v & Hv & ->)]; [apply suffix_refl|]. exists [variant_scope v]. reflexivity.
Qed.
Lemma read_sim toks : forall st, good st ->
  exists big, suffix (state_stack st) big /\ sim big (read first_named st toks) (read first_named (rn_state st) toks) /\
    match snd (read first_named st toks) with Go st' => suffix (state_stack st') big | _ => True end.
Proof.
  induction toks as [|tok toks IH]; intros st Hg.
  { exists (state_stack st). split; [apply suffix_refl|]. split; [split; [reflexivity|split; [reflexivity|exact Hg]]|apply suffix_refl]. }
  cbn [read].
  destruct (step first_named st tok) as [os out] eqn:Es. destruct out as [st1|sp].
  - assert (Hsuf : suffix (state_stack st) (state_stack st1)) by (eapply step_suffix; exact Es).
    assert (Hg1 : good st1).
    { destruct (step_sim st tok _ Hg Hsuf) as [_ H]. rewrite Es in H. cbn [snd out_sim] in H.
      destruct (snd (step first_named (rn_state st) tok)) as [st2|sp]; [apply H|contradiction]. }
    destruct (IH st1 Hg1) as (big & Hb & [G1 G2] & G3).
    exists big. split; [exact (suffix_trans _ _ _ Hsuf Hb)|].
    destruct (step_sim st tok big Hg (suffix_trans _ _ _ Hsuf Hb)) as [H1 H2]. rewrite Es in H1, H2.
    destruct (step first_named (rn_state st) tok) as [os' out']. cbn [fst snd] in H1, H2. subst os'.
    destruct out' as [st2|sp']; [|contradiction]. cbn [out_sim] in H2. destruct H2 as [-> _].
    destruct (read first_named st1 toks) as [os1 out1]. destruct (read first_named (rn_state st1) toks) as [os2 out2]. cbn [fst snd] in *. subst os2.
    split; [|exact G3]. split; [cbn [fst]; rewrite map_app; reflexivity|exact G2].
  - exists (state_stack st). split; [apply suffix_refl|].
    destruct (step_sim st tok _ Hg (suffix_refl _)) as [H1 H2]. rewrite Es in H1, H2. destruct (step first_named (rn_state st) tok) as [os' out'].
    cbn [fst snd] in H1, H2. subst os'. destruct out' as [st2|sp']; [destruct sp; contradiction|]. split; [|exact I]. split; [reflexivity|exact H2].
Qed.
Lemma start_sim d : start (rn [] d) = rn_state (start d).
Proof. unfold start. cbn [rn_state rn_stack ctx_of sc_decl sc_ident sc_unit]. rewrite rn_positionals. reflexivity. Qed.

(** ** Values and constraints *)

Lemma rn_path_eqb p : forall c q, path_eqb (rn_path c p) (rn_path c q) = path_eqb p q.
Proof.
  induction p as [|x p IH]; intros c [|y q]; try reflexivity. cbn [rn_path path_eqb]. rewrite r_inj. destruct (beqb x y) eqn:E; [|reflexivity].
  apply beqb_eq in E. subst y. cbn [andb]. apply IH.
Qed.
Lemma rn_path_app p : forall c q, rn_path c (p ++ q) = rn_path c p ++ rn_path (c ++ p) q.
Proof.
  induction p as [|x p IH]; intros c q; [rewrite app_nil_r; reflexivity|]. cbn [app rn_path]. rewrite IH, <- app_assoc. reflexivity.
Qed.

Section Finish.
Variable big : list scope.
Variable os : list occ.
Local Notation os' := (map (rn_occ big) os).

Lemma rn_addr_eqb x y : addr_eqb (rn_addr big x) (rn_addr big y) = addr_eqb x y.
Proof.
  unfold addr_eqb, rn_addr. cbn [ad_level ad_path]. destruct (Nat.eqb_spec (ad_level x) (ad_level y)) as [E|_]; [|reflexivity]. rewrite E. apply rn_path_eqb.
Qed.
Lemma rn_values l ad : values_of (map (rn_occ big) l) (rn_addr big ad) = values_of l ad.
Proof.
  unfold values_of. rewrite (filter_map_comm _ (fun o => addr_eqb ad (oc_addr o))); [|intros o; apply rn_addr_eqb]. rewrite map_map. reflexivity.
Qed.
Lemma rn_given l ad : given (map (rn_occ big) l) (rn_addr big ad) = given l ad.
Proof. unfold given. rewrite rn_values. reflexivity. Qed.
Lemma bad_sim l : forall b, first_bad (map (rn_occ big) b) (map (rn_occ big) l) = first_bad b l.
Proof.
  induction l as [|o l IH]; intros b; [reflexivity|]. cbn [map first_bad]. cbn [rn_occ oc_arg oc_addr oc_val]. rewrite rn_given, rn_occ_error.
  destruct (occ_error (oc_arg o) (given b (oc_addr o)) (oc_val o)) as [e|]; [reflexivity|]. specialize (IH (b ++ [o])). rewrite map_app in IH. exact IH.
Qed.

Section Struct.
Variable level : nat.
Variable path : list ident.
Local Notation c0 := (ctx_at big level).
Local Notation c := (c0 ++ path).
Local Notation path' := (rn_path c0 path).

Lemma at_field_rn id : at_field level path' (r c id) = rn_addr big (at_field level path id).
Proof. unfold at_field, rn_addr. cbn [ad_level ad_path]. rewrite rn_path_app. reflexivity. Qed.
Lemma rn_is_given id : is_given os' level path' (r c id) = is_given os level path id.
Proof. unfold is_given. rewrite at_field_rn. apply rn_given. Qed.
Lemma about_id_sim k d id : error_about_id k (rn c d) (r c id) = error_about_id k d id.
Proof.
  unfold error_about_id. rewrite rn_own. rewrite (find_map_comm _ (fun b => beqb id (sa_id b))).
  - destruct (find (fun b => beqb id (sa_id b)) (own_args d)) as [b|]; [apply rn_about|reflexivity].
  - intros b. apply r_inj.
Qed.
Lemma violation_sim d sub a : violation os' level path' (rn c d) sub (rn_arg c a) = violation os level path d sub a.
Proof.
  unfold violation. cbn zeta. cbn [rn_arg sa_id sa_meta rename_meta am_exclusive am_requires am_conflicts_with]. rewrite rn_is_given.
  destruct (is_given os level path (sa_id a)); [|reflexivity]. rewrite rn_own.
  rewrite (existsb_map_comm _ (fun b => negb (beqb (sa_id b) (sa_id a)) && is_given os level path (sa_id b)));
    [|intros b; cbn [rn_arg sa_id]; rewrite rn_is_given, r_inj; reflexivity].
  match goal with |- context [if ?x then _ else _] => destruct x end; [f_equal; exact (rn_about c ConstraintExclusive a)|].
  rewrite (find_map_comm _ (fun id => negb (is_given os level path id))); [|intros id; rewrite rn_is_given; reflexivity].
  destruct (find (fun id => negb (is_given os level path id)) (am_requires (sa_meta a))) as [id|]; cbn [option_map].
  - rewrite about_id_sim. reflexivity.
  - rewrite (find_map_comm _ (is_given os level path)); [|apply rn_is_given].
    destruct (find (is_given os level path) (am_conflicts_with (sa_meta a))); cbn [option_map]; [f_equal; exact (rn_about c ConstraintConflict a)|reflexivity].
Qed.
Lemma first_violation_sim d sub l :
  first_violation os' level path' (rn c d) sub (map (rn_arg c) l) = first_violation os level path d sub l.
Proof.
  induction l as [|a l IH]; [reflexivity|]. cbn [map first_violation]. rewrite violation_sim, IH. reflexivity.
Qed.
Lemma absent_sim l : check_absent os' level path' (map (rn_arg c) l) = check_absent os level path l.
Proof.
  induction l as [|a l IH]; [reflexivity|]. cbn [map check_absent]. rewrite rn_about. cbn [rn_arg sa_id]. rewrite rn_is_given, IH. reflexivity.
Qed.
Lemma rn_direct d : direct_values os' level path' (rn c d) = map (fun x => (r c (fst x), snd x)) (direct_values os level path d).
Proof.
  unfold direct_values. rewrite rn_checked, flat_map_map'. induction (checked d) as [|a l IH]; [reflexivity|]. cbn [flat_map]. rewrite map_app, <- IH. f_equal.
  change (sa_id (rn_arg c a)) with (r c (sa_id a)). rewrite at_field_rn, rn_values, rn_field_value. destruct (field_value a _); reflexivity.
Qed.
End Struct.

Definition rn_subval (c : list ident) (s : subval V) : subval V :=
  let '(SubV v p) := s in SubV v (option_map (rename_out r (c ++ [v])) p).
Definition rn_res {A} (f : A -> A) (x : res A) : res A := match x with Ok a => Ok (f a) | Err e => Err e | Panic p => Panic p end.
Definition rn_outs (c : list ident) : list (ident * outval V) -> list (ident * outval V) :=
  map (fun x => (r c (fst x), rename_out r (c ++ [fst x]) (snd x))).
Lemma rename_out_eq c direct flat sub : rename_out r c (Out direct flat sub) =
  Out (map (fun x => (r c (fst x), snd x)) direct) (rn_outs c flat)
    (option_map (fun x => (r c (fst x), option_map (rn_subval c) (snd x))) sub).
Proof.
  cbn [rename_out]. f_equal.
  - apply map_ext. intros [id o]. reflexivity.
  - destruct sub as [[id [[v [o|]]|]]|]; reflexivity.
Qed.
Lemma is_some_map {A B} (f : A -> B) x : is_some (option_map f x) = is_some x.
Proof. destruct x; reflexivity. Qed.
Lemma struct_sim level path d flats sub : let c := ctx_at big level ++ path in
  finish_struct os' level (rn_path (ctx_at big level) path) (rn c d) (rn_outs c flats) (option_map (rn_subval c) sub)
  = rn_res (rename_out r c) (finish_struct os level path d flats sub).
Proof.
  intros c. unfold finish_struct. rewrite is_some_map, rn_checked. unfold c at 1 2. rewrite first_violation_sim.
  destruct (first_violation os level path d (is_some sub) (checked d)); [reflexivity|].
  unfold c at 1. rewrite absent_sim. destruct (check_absent os level path (checked d)) as [u|e|q]; [|reflexivity|reflexivity]. cbn [bind].
  pose proof (rn_direct level path d) as Ed. fold c in Ed. rewrite Ed, rn_subcommand.
  destruct (subcommand d) as [[[id [|]] vs]|]; cbn [option_map rn_sub fst snd].
  - cbn [rn_res]. rewrite rename_out_eq. reflexivity.
  - destruct sub as [s|]; [|reflexivity]. cbn [rn_res option_map]. rewrite rename_out_eq. reflexivity.
  - cbn [rn_res]. rewrite rename_out_eq. reflexivity.
Qed.
Lemma args_sim level d : forall path sub, let c := ctx_at big level ++ path in
  finish_args os' level (rn_path (ctx_at big level) path) (rn c d) (option_map (rn_subval c) sub)
  = rn_res (rename_out r c) (finish_args os level path d sub).
Proof.
  induction d as [d IH _] using decl_induction. intros path sub c. rewrite !finish_args_eq, rn_flattened.
  assert (Hall : forall fx, In fx (flattened d) -> forall path,
    finish_args os' level (rn_path (ctx_at big level) path) (rn (ctx_at big level ++ path) (snd fx)) None
    = rn_res (rename_out r (ctx_at big level ++ path)) (finish_args os level path (snd fx) None)).
  { intros [id x] Hi p. apply (IH id x (proj1 (in_flattened d id x) Hi) p None). }
  assert (E : forall l acc, (forall fx, In fx l -> In fx (flattened d)) ->
    finish_flats os' level (rn_path (ctx_at big level) path) (map (rn_flat c) l) (rn_res (rn_outs c) acc)
    = rn_res (rn_outs c) (finish_flats os level path l acc)).
  { induction l as [|fx l IHl]; intros acc Hl; [reflexivity|]. unfold finish_flats in *. cbn [map fold_left]. rewrite <- IHl; [|intros fy Hy; apply Hl; right; exact Hy].
    f_equal. destruct acc as [outs|e|q]; [|reflexivity|reflexivity]. cbn [rn_res bind rn_flat fst snd].
    pose proof (Hall fx (Hl fx (or_introl eq_refl)) (path ++ [fst fx])) as H. rewrite rn_path_app in H. cbn [rn_path] in H. fold c in H.
    rewrite app_assoc in H. fold c in H. rewrite H.
    destruct (finish_args os level (path ++ [fst fx]) (snd fx) None) as [o|e|q]; [|reflexivity|reflexivity]. cbn [rn_res bind]. unfold rn_outs.
    rewrite map_app. reflexivity. }
  change (Ok []) with (rn_res (rn_outs c) (Ok [])) at 1. rewrite E; [|auto].
  destruct (finish_flats os level path (flattened d) (Ok [])) as [outs|e|q]; [|reflexivity|reflexivity]. cbn [rn_res bind]. apply struct_sim.
Qed.
Lemma stack_sim stk : suffix stk big -> forall sub,
  finish_stack os' (rn_stack stk) (option_map (rn_subval (ctx_of stk)) sub) = rn_res (rename_out r []) (finish_stack os stk sub).
Proof.
  induction stk as [|s stk IH]; intros [inner Hb] sub; [reflexivity|]. cbn [rn_stack finish_stack]. rewrite rn_length. cbn [sc_decl sc_ident sc_unit].
  pose proof (args_sim (length stk) (sc_decl s) [] sub) as H. cbn zeta in H. cbn [rn_path] in H. rewrite app_nil_r, (ctx_at_top big inner s stk Hb) in H. rewrite H. clear H.
  destruct (finish_args os (length stk) [] (sc_decl s) sub) as [o|e|q]; [|reflexivity|reflexivity]. cbn [rn_res bind].
  destruct stk as [|s2 stk]; [reflexivity|]. rewrite <- IH.
  - cbn [rn_stack]. f_equal. cbn [option_map rn_subval]. do 2 f_equal. destruct (sc_unit s); reflexivity.
  - exists (inner ++ [s]). rewrite <- app_assoc. exact Hb.
Qed.
End Finish.

(** ** Help *)

Lemma rn_command_names stk : command_names (rn_stack stk) = command_names stk.
Proof.
  induction stk as [|s [|s2 stk] IH]; [reflexivity|reflexivity|]. cbn [rn_stack command_names] in *. rewrite IH. reflexivity.
Qed.
Lemma flat_same {B} (f : sarg -> list B) (l : list (list ident * sarg)) c :
  (forall c a, f (rn_arg c a) = f a) ->
  flat_map f (filter is_option (filter shown (map snd (map (fun pa => (rn_path c (fst pa), rn_arg (c ++ removelast (fst pa)) (snd pa))) l))))
  = flat_map f (filter is_option (filter shown (map snd l))).
Proof.
  intros Hf. induction l as [|[p a] l IH]; [reflexivity|]. cbn [map snd fst filter].
  change (shown (rn_arg (c ++ removelast p) a)) with (shown a). destruct (shown a); [|exact IH]. cbn [filter]. rewrite rn_option.
  destruct (is_option a); [|exact IH]. cbn [flat_map]. rewrite Hf, IH. reflexivity.
Qed.
Lemma exists_same (f : sarg -> bool) (l : list (list ident * sarg)) c :
  (forall c a, f (rn_arg c a) = f a) ->
  existsb f (filter is_option (filter shown (map snd (map (fun pa => (rn_path c (fst pa), rn_arg (c ++ removelast (fst pa)) (snd pa))) l))))
  = existsb f (filter is_option (filter shown (map snd l))).
Proof.
  intros Hf. induction l as [|[p a] l IH]; [reflexivity|]. cbn [map snd fst filter].
  change (shown (rn_arg (c ++ removelast p) a)) with (shown a). destruct (shown a); [|exact IH]. cbn [filter]. rewrite rn_option.
  destruct (is_option a); [|exact IH]. cbn [existsb]. rewrite Hf, IH. reflexivity.
Qed.
Lemma pos_same {B} (f : sarg -> list B) (l : list sarg) c : (forall c a, f (rn_arg c a) = f a) ->
  flat_map f (filter shown (map (rn_arg c) l)) = flat_map f (filter shown l).
Proof.
  intros Hf. rewrite (filter_map_comm _ shown); [|reflexivity]. rewrite flat_map_map'. apply flat_map_ext. apply Hf.
Qed.
Lemma rn_help argv0 stk : help_text argv0 (rn_stack stk) = help_text argv0 stk.
Proof.
  unfold help_text. rewrite rn_command_names. destruct stk as [|s stk]; [reflexivity|]. cbn [rn_stack sc_decl].
  set (c := ctx_of (s :: stk)). rewrite rn_attrs, rn_reach, rn_positionals, rn_subcommand. cbn zeta.
  rewrite !(flat_same usage_of _ c rn_usage), !(flat_same entry _ c rn_entry), !(pos_same usage_of _ c rn_usage), !(pos_same entry _ c rn_entry).
  rewrite (exists_same (fun a => negb (is_required a)) _ c (fun c a => eq_refl)).
  destruct (subcommand (sc_decl s)) as [[[id o] vs]|]; cbn [option_map rn_sub fst snd]; [|reflexivity].
  rewrite map_map. rewrite (map_ext (fun v => length (sub_name (rn_variant c v))) (fun v => length (sub_name v)));
    [|intros v; rewrite rn_sub_name; reflexivity].
  rewrite flat_map_map'. rewrite (flat_map_ext _ (command_line (fold_right Nat.max 0 (map (fun v => length (sub_name v)) vs)))); [reflexivity|].
  intros v. unfold command_line, variant_about. rewrite rn_sub_name, rn_variant_scope. cbn [sc_decl]. rewrite rn_attrs. reflexivity.
Qed.
Lemma rn_state_stack st : state_stack (rn_state st) = rn_stack (state_stack st).
Proof. destruct st; reflexivity. Qed.
Theorem rename_parse d argv : spec_parse (rn [] d) argv = rn_res (rename_out r []) (spec_parse d argv).
Proof.
  unfold spec_parse, spec_parse_with. destruct argv as [|argv0 toks]; [reflexivity|]. rewrite start_sim.
  destruct (read_sim toks (start d) I) as (big & _ & [H1 H2] & H3).
  destruct (read first_named (start d) toks) as [os out]. destruct (read first_named (rn_state (start d)) toks) as [os' out']. cbn [fst snd] in H1, H2, H3. subst os'.
  change (first_bad [] (map (rn_occ big) os)) with (first_bad (map (rn_occ big) []) (map (rn_occ big) os)). rewrite bad_sim.
  destruct (first_bad [] os); [reflexivity|]. destruct out as [st|[e|stk]], out' as [st'|[e'|stk']]; try contradiction.
  - cbn [out_sim] in H2. destruct H2 as [-> _]. pose proof (stack_sim big os (state_stack st) H3 None) as G. rewrite <- rn_state_stack in G.
    destruct st; cbn [rn_state state_stack option_map] in *; try exact G. cbn [rn_res]. rewrite rn_about. reflexivity.
  - cbn [out_sim] in H2. subst e'. reflexivity.
  - cbn [out_sim] in H2. subst stk'. cbn [rn_res]. rewrite rn_help. reflexivity.
Qed.

(** ** The rules *)

Lemma rn_has_name c a n : has_name (rn_arg c a) n <-> has_name a n.
Proof. unfold has_name. rewrite rn_option, rn_long, rn_short. reflexivity. Qed.
Lemma rn_names c a : names (rn_arg c a) = names a.
Proof. unfold names. rewrite rn_long, rn_short. reflexivity. Qed.
Lemma legal_rn c a : legal_arg a -> legal_arg (rn_arg c a).
Proof.
  intros [H1 H2 H3 H4 H5 H6 H7 H8 H9 H10 H11 H12 H13 H14]. destruct (Hr c) as (_ & Hid & _). constructor.
  - exact (Hid _ H1).
  - exact H2.
  - exact H3.
  - exact H4.
  - rewrite rn_option. exact H5.
  - rewrite rn_value_name. exact H6.
  - rewrite rn_option. exact H7.
  - exact H8.
  - exact H9.
  - intros H. destruct (H10 H) as (G1 & G2 & e & G3 & G4 & G5). split; [exact G1|]. split; [exact G2|]. exists e. split; [|split; [exact G4|exact G5]].
    destruct G3 as [e E|E Es|v E Es Ev]; [exact (default_explicit (rn_arg c a) e E)|exact (default_false (rn_arg c a) E Es)|exact (default_default (rn_arg c a) v E Es Ev)].
  - intros n H. apply H11. apply (rn_has_name c). exact H.
  - rewrite rn_option. exact H12.
  - rewrite rn_option. exact H13.
  - exact H14.
Qed.
Lemma rn_fields_fst c d : map fst (fields_of (rn c d)) = map (r c) (map fst (fields_of d)).
Proof. rewrite rn_fields, !map_map. apply map_ext. intros [id f]. reflexivity. Qed.
Lemma rnv_fst c v : fst (rn_variant c v) = fst v.
Proof. destruct v as [id vd]. reflexivity. Qed.
Lemma NoDup_inj {A B} (f : A -> B) l : (forall x y, f x = f y -> x = y) -> NoDup l -> NoDup (map f l).
Proof.
  intros Hf H. induction H as [|x l Hx _ IH]; [constructor|]. cbn [map]. constructor; [|exact IH]. intros Hi. apply in_map_iff in Hi.
  destruct Hi as (y & E & Hy). apply Hf in E. subst. contradiction.
Qed.
Lemma struct_rn c d : legal_struct d -> legal_struct (rn c d).
Proof.
  intros [H1 H2 H3 H4 H5 H6 H7 H8 H9 H10 H11 H12]. destruct (Hr c) as (Hinj & Hid & _). constructor.
  - rewrite rn_fields, map_length. exact H1.
  - rewrite rn_fields_fst. apply NoDup_inj; [exact Hinj|exact H2].
  - intros id f Hi. rewrite rn_fields in Hi. apply in_map_iff in Hi. destruct Hi as ([id' f'] & E & Hi). injection E as <- _. exact (Hid _ (H3 _ _ Hi)).
  - intros a Ha. rewrite rn_own in Ha. apply in_map_iff in Ha. destruct Ha as (b & <- & Hb). apply legal_rn. exact (H4 b Hb).
  - rewrite rn_own, (filter_map_comm _ is_option); [|apply rn_option]. rewrite flat_map_map'. rewrite (flat_map_ext _ names); [exact H5|]. apply rn_names.
  - unfold plain_positionals. rewrite rn_own, (filter_map_comm _ (fun a => negb (is_option a) && negb (is_last a))); [|intros a; rewrite rn_option; reflexivity].
    intros l a t E Hm. apply map_eq_app in E. destruct E as (l1 & l2 & E & El & Er). symmetry in Er. destruct l2 as [|b l2]; [discriminate|].
    cbn [map] in Er. injection Er as Ea Et. subst a. rewrite (H6 l1 b l2 E Hm) in Et. exact Et.
  - unfold last_positionals. rewrite rn_own, (filter_map_comm _ (fun a => negb (is_option a) && is_last a)); [|intros a; rewrite rn_option; reflexivity].
    rewrite map_length. exact H7.
  - unfold subcommands. rewrite rn_subs, map_length. exact H8.
  - intros a id Ha Hi. rewrite rn_own in Ha |- *. apply in_map_iff in Ha. destruct Ha as (b & <- & Hb).
    cbn [rn_arg sa_meta rename_meta am_requires am_conflicts_with] in Hi. rewrite !in_map_iff in Hi.
    assert (K : exists x, r c x = id /\ (In x (am_requires (sa_meta b)) \/ In x (am_conflicts_with (sa_meta b)))).
    { destruct Hi as [(x & E & Hx)|(x & E & Hx)]; exists x; auto. }
    destruct K as (x & <- & Hx). destruct (H9 b x Hb Hx) as (b' & Hb' & <-). exists (rn_arg c b'). split; [apply in_map; exact Hb'|reflexivity].
  - intros a Ha He. rewrite rn_own in Ha. apply in_map_iff in Ha. destruct Ha as (b & <- & Hb). rewrite rn_flattened, (H10 b Hb He). reflexivity.
  - intros id x Hi. rewrite rn_flattened in Hi. apply in_map_iff in Hi. destruct Hi as ([id' y] & E & Hi). unfold rn_flat in E. cbn [fst snd] in E. injection E as <- <-.
    destruct (H11 id' y Hi) as [G1 G2]. split.
    + intros a Ha. rewrite rn_own in Ha. apply in_map_iff in Ha. destruct Ha as (b & <- & Hb). rewrite rn_option. exact (G1 b Hb).
    + unfold subcommands in *. rewrite rn_subs, G2. reflexivity.
  - intros id o vs Hi. unfold subcommands in Hi. rewrite rn_subs in Hi. apply in_map_iff in Hi. destruct Hi as ([[id' o'] ws] & E & Hi).
    unfold rn_sub in E. cbn [fst snd] in E. injection E as <- <- <-. destruct (H12 id' o' ws Hi) as [G1 G2]. split.
    + rewrite map_map. rewrite (map_ext _ fst); [exact G1|]. apply rnv_fst.
    + intros v Hv. apply in_map_iff in Hv. destruct Hv as (w & <- & Hw). specialize (G2 w Hw). unfold legal_variant in *. rewrite rnv_fst.
      destruct w as [vid [at_|at_ x|x]]; exact G2.
Qed.
Lemma well_formed_rn d : forall c, well_formed d -> well_formed (rn c d).
Proof.
  induction d as [d IHf IHs] using decl_induction. intros c H. inversion H as [d' G1 G2 G3 E]; subst d'. constructor.
  - apply struct_rn. exact G1.
  - intros id x Hi. rewrite rn_flattened in Hi. apply in_map_iff in Hi. destruct Hi as ([id' y] & E & Hi). unfold rn_flat in E. cbn [fst snd] in E. injection E as _ <-.
    apply (IHf id' y (proj1 (in_flattened d id' y) Hi)). exact (G2 id' y Hi).
  - intros id o vs v Hi Hvi. unfold subcommands in Hi. rewrite rn_subs in Hi. apply in_map_iff in Hi. destruct Hi as ([[id' o'] ws] & E & Hi).
    unfold rn_sub in E. cbn [fst snd] in E. injection E as <- <- <-. apply in_map_iff in Hvi. destruct Hvi as (w & <- & Hw).
    rewrite rn_variant_scope. cbn [sc_decl]. apply (IHs id' o' ws w); [|exact Hw|exact (G3 id' o' ws w Hi Hw)].
    apply in_flat_map in Hi. destruct Hi as ([id2 f] & Hi & Hf). unfold sub_field in Hf. cbn [fst snd] in Hf.
    destruct f as [m t|x|o2 [ws2]]; try contradiction. destruct Hf as [Hf|[]]. injection Hf as <- <- <-. exact Hi.
Qed.
Theorem renamed d : valid d -> valid (rn [] d) /\ forall argv,
  try_parse_from (rn [] d) argv =
  match try_parse_from d argv with
  | Ok o => Ok (rename_out r [] o)
  | Err e => Err e
  | Panic p => Panic p
  end.
Proof.
  intros Hd. assert (H : valid (rn [] d)).
  { destruct Hd as [H1 H2]. split; [|rewrite rn_distinct; exact H2]. apply accepted_well_formed, well_formed_rn, accepted_well_formed. exact H1. }
  split; [exact H|]. intros argv. rewrite (refines d argv Hd), (refines _ argv H). apply rename_parse.
Qed.
End Rename.
