(** Subcommands that are not named on the command line. *)
From Verif Require Import Bytes BytesFacts Utf8 Utf8Facts Attrs AttrFacts Refl Error Values SortFacts
  Places Help Runtime Heck Decl Spec Derive Generated Observe CompileFacts InfoFacts TableFacts PlaceFacts
  ScopeFacts NamedFacts WordFacts FinishFacts ReadFacts SimFacts HelpFacts Refine ContextFacts WellFormed WellFormedFacts
  Wording WordingFacts Extend.

Section Keep.
Context {V : Type}.
Local Notation args_decl := (args_decl V).
Local Notation sarg := (sarg V).
Local Notation scope := (scope V).
Local Notation occ := (occ V).
Local Notation state := (state V).
Local Notation variant := (ident * variant_decl V)%type.
Variable keep : bytes -> bool.
Local Notation kp := (@keeping V keep).

Definition kp_variant (v : variant) : variant :=
  let '(vid, vd) := v in
  (vid, match vd with
        | VDUnit at_ => VDUnit at_
        | VDNewtype at_ x => VDNewtype at_ (kp x)
        | VDStruct x => VDStruct (kp x)
        end).
Definition kp_variants (vs : list variant) : list variant := map kp_variant (filter (fun v => keep (sub_name v)) vs).
Definition kp_field (f : ident * field_decl V) : ident * field_decl V :=
  let '(id, fd) := f in
  (id, match fd with
       | FArg m t => FArg m t
       | FFlatten x => FFlatten (kp x)
       | FSub o (MkSubDecl vs) => FSub o (MkSubDecl (kp_variants vs))
       end).
Definition kp_scope (s : scope) : scope := Scope (kp (sc_decl s)) (sc_ident s) (sc_unit s).
Definition kp_stack : list scope -> list scope := map kp_scope.
Definition kp_state (st : state) : state :=
  match st with
  | Normal stk rem => Normal (kp_stack stk) rem
  | Await stk rem ad a => Await (kp_stack stk) rem ad a
  | Verbatim stk rem => Verbatim (kp_stack stk) rem
  | Drain stk p => Drain (kp_stack stk) p
  end.

(** ** Declarations *)

Lemma kp_variants_eq vs :
  flat_map (fun v : variant =>
    let '(vid, vd) := v in
    if keep (sub_name v)
    then [(vid, match vd with
                | VDUnit at_ => VDUnit at_
                | VDNewtype at_ x => VDNewtype at_ (kp x)
                | VDStruct x => VDStruct (kp x)
                end)]
    else []) vs = kp_variants vs.
Proof.
  unfold kp_variants. induction vs as [|[vid vd] vs IH]; [reflexivity|]. cbn [flat_map filter]. rewrite IH.
  destruct (keep (sub_name (vid, vd))); reflexivity.
Qed.
Lemma kp_fields d : fields_of (kp d) = map kp_field (fields_of d).
Proof.
  destruct d as [at_ fs]. cbn [keeping fields_of]. apply map_ext. intros [id [m t|x|o [vs]]]; [reflexivity|reflexivity|].
  cbn [kp_field]. rewrite kp_variants_eq. reflexivity.
Qed.
Lemma kp_attrs d : attrs_of (kp d) = attrs_of d.
Proof. destruct d as [at_ fs]. reflexivity. Qed.
Lemma kp_own d : own_args (kp d) = own_args d.
Proof.
  unfold own_args. rewrite kp_fields. induction (fields_of d) as [|[id f] fs IH]; [reflexivity|].
  cbn [map flat_map]. rewrite IH. f_equal. destruct f as [m t|x|o [vs]]; reflexivity.
Qed.
Lemma kp_flattened d : flattened (kp d) = map (fun fx => (fst fx, kp (snd fx))) (flattened d).
Proof.
  unfold flattened. rewrite kp_fields. induction (fields_of d) as [|[id f] fs IH]; [reflexivity|].
  cbn [map flat_map]. rewrite map_app, <- IH. f_equal. destruct f as [m t|x|o [vs]]; reflexivity.
Qed.
Definition kp_sub (x : ident * bool * list variant) := (fst x, kp_variants (snd x)).
Lemma kp_subs d : subcommands (kp d) = map kp_sub (subcommands d).
Proof.
  unfold subcommands. rewrite kp_fields. induction (fields_of d) as [|[id f] fs IH]; [reflexivity|].
  cbn [map flat_map]. rewrite map_app, <- IH. f_equal. destruct f as [m t|x|o [vs]]; reflexivity.
Qed.
Lemma kp_subcommand d : subcommand (kp d) = option_map kp_sub (subcommand d).
Proof. unfold subcommand. fold (subcommands (kp d)) (subcommands d). rewrite kp_subs. destruct (subcommands d); reflexivity. Qed.
Lemma kp_variant_scope v : variant_scope (kp_variant v) = kp_scope (variant_scope v).
Proof. destruct v as [id [at_|at_ x|x]]; reflexivity. Qed.
Lemma kp_sub_name v : sub_name (kp_variant v) = sub_name v.
Proof. destruct v as [id vd]. reflexivity. Qed.
Lemma kp_reach d : reach (kp d) = reach d.
Proof.
  induction d as [d IH _] using decl_induction. rewrite !reach_eq, kp_own, kp_flattened. f_equal. rewrite flat_map_map'.
  assert (Hall : forall fx, In fx (flattened d) -> reach (kp (snd fx)) = reach (snd fx)).
  { intros [id x] Hi. apply (IH id x). apply in_flattened. exact Hi. }
  induction (flattened d) as [|fx l IHl]; [reflexivity|]. cbn [flat_map]. rewrite IHl.
  - cbn [fst snd]. rewrite (Hall fx (or_introl eq_refl)). reflexivity.
  - intros fy Hy. apply Hall. right. exact Hy.
Qed.
Lemma kp_positionals d : positionals (kp d) = positionals d.
Proof. unfold positionals. rewrite kp_own. reflexivity. Qed.
Lemma kp_checked d : checked (kp d) = checked d.
Proof. unfold checked. rewrite kp_own, kp_positionals. reflexivity. Qed.

(** ** Validity *)

Lemma kp_names_sub vs n : In n (map sub_name (kp_variants vs)) -> In n (map sub_name vs).
Proof.
  unfold kp_variants. rewrite map_map, !in_map_iff. intros (v & E & Hv). apply filter_In in Hv. exists v.
  rewrite kp_sub_name in E. tauto.
Qed.
Lemma kp_all_distinct vs : all_distinct (map sub_name vs) = true -> all_distinct (map sub_name (kp_variants vs)) = true.
Proof.
  induction vs as [|v vs IH]; [reflexivity|]. cbn [map all_distinct]. rewrite andb_true_iff, negb_true_iff. intros [H1 H2].
  unfold kp_variants. cbn [filter]. destruct (keep (sub_name v)); [|exact (IH H2)]. cbn [map all_distinct].
  fold (kp_variants vs). rewrite (IH H2), andb_true_r, negb_true_iff. rewrite kp_sub_name.
  destruct (existsb (beqb (sub_name v)) (map sub_name (kp_variants vs))) eqn:E; [|reflexivity].
  apply existsb_exists in E. destruct E as (n & Hn & En). rewrite <- H1. symmetry. apply existsb_exists. exists n.
  split; [apply kp_names_sub; exact Hn|exact En].
Qed.
Lemma kp_distinct d : distinct_subcommands d = true -> distinct_subcommands (kp d) = true.
Proof.
  induction d as [d _ IH] using decl_induction. destruct d as [at_ fs]. cbn [keeping distinct_subcommands].
  cbn [fields_of] in IH. rewrite !forallb_forall. intros H [id f] Hi. apply in_map_iff in Hi. destruct Hi as ([id' f'] & E & Hi).
  specialize (H _ Hi). cbn beta iota in H. destruct f' as [m t|x|o [vs]]; inversion E; subst; try reflexivity.
  rewrite kp_variants_eq. apply andb_true_iff in H. destruct H as [H1 H2]. rewrite (kp_all_distinct _ H1). cbn [andb].
  rewrite forallb_forall in *. intros v Hv. unfold kp_variants in Hv. apply in_map_iff in Hv. destruct Hv as (w & Ew & Hw). apply filter_In in Hw.
  destruct Hw as [Hw _]. specialize (H2 w Hw). specialize (IH id o vs w Hi Hw). destruct w as [wid wd]. subst v. cbn [kp_variant].
  destruct wd; [reflexivity| |]; exact (IH H2).
Qed.
Lemma kp_legal_variant v : legal_variant v -> legal_variant (kp_variant v).
Proof. destruct v as [id [at_|at_ x|x]]; intros H; exact H. Qed.
Lemma kp_fields_fst d : map fst (fields_of (kp d)) = map fst (fields_of d).
Proof. rewrite kp_fields, map_map. apply map_ext. intros [id f]. reflexivity. Qed.
Lemma kp_in_flat d id x : In (id, x) (flattened (kp d)) -> exists y, In (id, y) (flattened d) /\ x = kp y.
Proof.
  rewrite kp_flattened, in_map_iff. intros ([id' y] & E & Hi). cbn [fst snd] in E. inversion E; subst. exists y. split; [exact Hi|reflexivity].
Qed.
Lemma kp_in_sub d id o vs : In (id, o, vs) (subcommands (kp d)) -> exists ws, In (id, o, ws) (subcommands d) /\ vs = kp_variants ws.
Proof.
  rewrite kp_subs, in_map_iff. intros ([[id' o'] ws] & E & Hi). unfold kp_sub in E. cbn [fst snd] in E. inversion E; subst. exists ws.
  split; [exact Hi|reflexivity].
Qed.
Lemma kp_in_variants vs v : In v (kp_variants vs) -> exists w, In w vs /\ v = kp_variant w.
Proof. unfold kp_variants. rewrite in_map_iff. intros (w & E & Hw). apply filter_In in Hw. exists w. split; [apply Hw|symmetry; exact E]. Qed.
Lemma kp_variants_fst vs : NoDup (map fst vs) -> NoDup (map fst (kp_variants vs)).
Proof.
  induction vs as [|v vs IH]; [intros H; exact H|]. cbn [map]. intros H. inversion H as [|x l Hn Hd]; subst. unfold kp_variants. cbn [filter].
  destruct (keep (sub_name v)); [|exact (IH Hd)]. cbn [map]. constructor; [|exact (IH Hd)].
  intros Hi. apply Hn. apply in_map_iff in Hi. destruct Hi as (w & E & Hw). apply kp_in_variants in Hw. destruct Hw as (u & Hu & ->).
  apply in_map_iff. exists u. split; [|exact Hu]. destruct u, v. exact E.
Qed.
Lemma kp_legal d : legal_struct d -> legal_struct (kp d).
Proof.
  intros [H1 H2 H3 H4 H5 H6 H7 H8 H9 H10 H11 H12]. constructor.
  - rewrite kp_fields, map_length. exact H1.
  - rewrite kp_fields_fst. exact H2.
  - intros id f Hi. apply (in_map fst) in Hi. rewrite kp_fields_fst in Hi. apply in_map_iff in Hi. destruct Hi as ([id' f'] & E & Hi).
    cbn [fst] in E. subst id'. exact (H3 id f' Hi).
  - rewrite kp_own. exact H4.
  - rewrite kp_own. exact H5.
  - unfold plain_positionals in *. rewrite kp_own. exact H6.
  - unfold last_positionals in *. rewrite kp_own. exact H7.
  - rewrite kp_subs, map_length. exact H8.
  - rewrite kp_own. exact H9.
  - rewrite kp_own. intros a Ha He. rewrite kp_flattened, (H10 a Ha He). reflexivity.
  - intros id x Hi. apply kp_in_flat in Hi. destruct Hi as (y & Hi & ->). rewrite kp_own, kp_subs. destruct (H11 id y Hi) as [G1 G2].
    rewrite G2. split; [exact G1|reflexivity].
  - intros id o vs Hi. apply kp_in_sub in Hi. destruct Hi as (ws & Hi & ->). destruct (H12 id o ws Hi) as [G1 G2].
    split; [apply kp_variants_fst; exact G1|]. intros v Hv. apply kp_in_variants in Hv. destruct Hv as (w & Hw & ->).
    apply kp_legal_variant. exact (G2 w Hw).
Qed.
Lemma kp_well_formed d : well_formed d -> well_formed (kp d).
Proof.
  induction d as [d IHf IHs] using decl_induction. intros H. inversion H as [d' G1 G2 G3 E]; subst d'. constructor.
  - exact (kp_legal d G1).
  - intros id x Hi. apply kp_in_flat in Hi. destruct Hi as (y & Hi & ->). apply (IHf id y (proj1 (in_flattened d id y) Hi)). exact (G2 id y Hi).
  - intros id o vs v Hi Hv. apply kp_in_sub in Hi. destruct Hi as (ws & Hi & ->). apply kp_in_variants in Hv. destruct Hv as (w & Hw & ->).
    rewrite kp_variant_scope. cbn [kp_scope sc_decl]. apply (IHs id o ws w); [|exact Hw|exact (G3 id o ws w Hi Hw)].
    unfold subcommands in Hi. apply in_flat_map in Hi. destruct Hi as ([id' f] & Hi & Hf). unfold sub_field in Hf. cbn [fst snd] in Hf.
    destruct f as [m t|x|o' [us]]; try contradiction. destruct Hf as [Hf|[]]. inversion Hf; subst. exact Hi.
Qed.
Lemma kp_valid d : valid d -> valid (kp d).
Proof.
  intros [H1 H2]. split; [|exact (kp_distinct d H2)]. apply accepted_well_formed. apply kp_well_formed. apply accepted_well_formed. exact H1.
Qed.

(** ** Scopes *)

Lemma kp_scope_args n s : scope_args n (kp_scope s) = scope_args n s.
Proof. unfold scope_args. cbn [kp_scope sc_decl]. rewrite kp_reach. reflexivity. Qed.
Lemma kp_length stk : length (kp_stack stk) = length stk.
Proof. apply map_length. Qed.
Lemma kp_stack_args stk : stack_args (kp_stack stk) = stack_args stk.
Proof.
  induction stk as [|s stk IH]; [reflexivity|]. cbn [kp_stack map stack_args]. fold (kp_stack stk).
  rewrite kp_length, kp_scope_args, IH. reflexivity.
Qed.
Lemma kp_in_scope stk : in_scope (kp_stack stk) = in_scope stk.
Proof.
  destruct stk as [|s stk]; [reflexivity|]. cbn [kp_stack map in_scope]. fold (kp_stack stk).
  rewrite kp_length, kp_scope_args, kp_stack_args. reflexivity.
Qed.
Lemma kp_resolve stk n : resolve (kp_stack stk) n = resolve stk n.
Proof. unfold resolve. rewrite kp_in_scope. reflexivity. Qed.
Lemma kp_has_subcommand stk : has_subcommand (kp_stack stk) = has_subcommand stk.
Proof. destruct stk as [|s stk]; [reflexivity|]. cbn [kp_stack map has_subcommand kp_scope sc_decl]. rewrite kp_subcommand. destruct (subcommand (sc_decl s)); reflexivity. Qed.
Lemma kp_sub_variants stk : sub_variants (kp_stack stk) = kp_variants (sub_variants stk).
Proof.
  destruct stk as [|s stk]; [reflexivity|]. cbn [kp_stack map sub_variants kp_scope sc_decl]. rewrite kp_subcommand.
  destruct (subcommand (sc_decl s)) as [[[id o] vs]|]; reflexivity.
Qed.
Lemma kp_first_named vs tok : keep tok = true -> first_named (kp_variants vs) tok = option_map kp_variant (first_named vs tok).
Proof.
  intros Hk. unfold first_named, kp_variants. induction vs as [|v vs IH]; [reflexivity|]. cbn [filter find].
  destruct (beqb (sub_name v) tok) eqn:E.
  - apply beqb_eq in E. rewrite <- E in Hk. rewrite Hk. cbn [map find]. rewrite kp_sub_name, E.
    assert (R : beqb tok tok = true) by (apply beqb_eq; reflexivity). rewrite R. reflexivity.
  - destruct (keep (sub_name v)); [|exact IH]. cbn [map find]. rewrite kp_sub_name, E. exact IH.
Qed.
Lemma kp_after_sep stk rem : after_sep (kp_stack stk) rem = after_sep stk rem.
Proof. destruct stk as [|s stk]; [reflexivity|]. cbn [kp_stack map after_sep kp_scope sc_decl]. rewrite kp_positionals. reflexivity. Qed.

(** ** Reading *)

Definition kp_out (out : outcome V) : outcome V :=
  match out with
  | Go st => Go (kp_state st)
  | Stop (SErr e) => Stop (SErr e)
  | Stop (SHelp stk) => Stop (SHelp (kp_stack stk))
  end.
Definition kp_both (x : list occ * outcome V) : list occ * outcome V := (fst x, kp_out (snd x)).

Lemma kp_bare stk rem ad a : bare (kp_stack stk) rem ad a = kp_both (bare stk rem ad a).
Proof. unfold bare. destruct (takes_value a); [destruct (needs_equals a)|]; reflexivity. Qed.
Lemma kp_long stk rem s v : read_long (kp_stack stk) rem s v = kp_both (read_long stk rem s v).
Proof.
  unfold read_long. rewrite kp_resolve. destruct (resolve stk (Long s)) as [[ad a]|].
  - destruct v; [reflexivity|apply kp_bare].
  - unfold unknown_long. destruct (beqb s (bs "help")); reflexivity.
Qed.
Lemma kp_bundle stk rem cs junk : read_bundle (kp_stack stk) rem cs junk = kp_both (read_bundle stk rem cs junk).
Proof.
  revert junk. induction cs as [|c cs IH]; intros junk; cbn [read_bundle].
  - destruct junk; reflexivity.
  - rewrite kp_resolve. destruct (resolve stk (Short c)) as [[ad a]|].
    2:{ unfold unknown_short. destruct (c =? b2n "h")%N; reflexivity. }
    rewrite IH. destruct (read_bundle stk rem cs junk) as [os out]. cbn [kp_both fst snd].
    destruct (encode_all cs ++ junk) as [|b v]; [apply kp_bare|].
    destruct b; destruct (takes_value a); destruct (needs_equals a); reflexivity.
Qed.
Lemma kp_word sep stk rem tok : take_word sep (kp_stack stk) rem tok = kp_both (take_word sep stk rem tok).
Proof.
  unfold take_word. rewrite kp_has_subcommand, kp_length. destruct rem as [|p rem]; [reflexivity|].
  destruct (sep || negb (is_last p)); [|reflexivity]. unfold kp_both. cbn [fst snd]. f_equal.
  destruct (greedy p); [reflexivity|]. destruct sep, (many p); reflexivity.
Qed.
Lemma kp_step st tok : keep tok = true -> step first_named (kp_state st) tok = kp_both (step first_named st tok).
Proof.
  intros Hk. destruct st as [stk rem|stk rem ad a|stk rem|stk p]; cbn [kp_state step].
  - destruct (form_of tok) as [|s v|b|].
    + rewrite kp_after_sep. reflexivity.
    + apply kp_long.
    + destruct (utf8_prefix b) as [cs junk]. apply kp_bundle.
    + rewrite kp_sub_variants, (kp_first_named _ _ Hk). destruct (first_named (sub_variants stk) tok) as [v|]; cbn [option_map].
      * rewrite kp_variant_scope. cbn [kp_scope sc_decl]. rewrite kp_positionals. reflexivity.
      * apply kp_word.
  - destruct (may_follow a tok); reflexivity.
  - apply kp_word.
  - rewrite kp_length. reflexivity.
Qed.
Lemma kp_read toks : Forall (fun tok => keep tok = true) toks ->
  forall st, read first_named (kp_state st) toks = kp_both (read first_named st toks).
Proof.
  induction 1 as [|tok toks Hk Hall IH]; intros st; [reflexivity|]. cbn [read]. rewrite (kp_step _ _ Hk).
  destruct (step first_named st tok) as [os [st1|[e|stk]]]; cbn [kp_both kp_out fst snd]; try reflexivity.
  rewrite IH. destruct (read first_named st1 toks) as [os1 out1]. reflexivity.
Qed.
Lemma kp_start d : start (kp d) = kp_state (start d).
Proof. unfold start. cbn [kp_state kp_stack map kp_scope sc_decl sc_ident sc_unit]. rewrite kp_positionals. reflexivity. Qed.

(** ** The end *)

Lemma kp_violation os level path d sub a : violation os level path (kp d) sub a = violation os level path d sub a.
Proof. unfold violation, error_about_id. rewrite kp_own. reflexivity. Qed.
Lemma kp_first_violation os level path d sub l : first_violation os level path (kp d) sub l = first_violation os level path d sub l.
Proof. induction l as [|a l IH]; [reflexivity|]. cbn [first_violation]. rewrite kp_violation, IH. reflexivity. Qed.
Lemma kp_direct os level path d : direct_values os level path (kp d) = direct_values os level path d.
Proof. unfold direct_values. rewrite kp_checked. reflexivity. Qed.
Lemma kp_struct os level path d flats sub : finish_struct os level path (kp d) flats sub = finish_struct os level path d flats sub.
Proof.
  unfold finish_struct. rewrite kp_checked, kp_direct, kp_first_violation, kp_subcommand.
  destruct (subcommand d) as [[[id o] vs]|]; reflexivity.
Qed.
Lemma kp_args os level d : forall path sub, finish_args os level path (kp d) sub = finish_args os level path d sub.
Proof.
  induction d as [d IH _] using decl_induction. intros path sub. rewrite !finish_args_eq, kp_flattened.
  assert (Hall : forall fx, In fx (flattened d) -> forall path sub, finish_args os level path (kp (snd fx)) sub = finish_args os level path (snd fx) sub).
  { intros [id x] Hi. apply (IH id x). apply in_flattened. exact Hi. }
  assert (E : forall l acc, (forall fx, In fx l -> In fx (flattened d)) ->
    finish_flats os level path (map (fun fx => (fst fx, kp (snd fx))) l) acc = finish_flats os level path l acc).
  { induction l as [|fx l IHl]; intros acc Hl; [reflexivity|]. unfold finish_flats in *. cbn [map fold_left fst snd].
    rewrite (Hall fx (Hl fx (or_introl eq_refl))). apply IHl. intros fy Hy. apply Hl. right. exact Hy. }
  rewrite (E (flattened d) (Ok []) (fun _ H => H)). destruct (finish_flats os level path (flattened d) (Ok [])); [|reflexivity|reflexivity].
  cbn [bind]. apply kp_struct.
Qed.
Lemma kp_finish os stk : forall sub, finish_stack os (kp_stack stk) sub = finish_stack os stk sub.
Proof.
  induction stk as [|s stk IH]; intros sub; [reflexivity|]. cbn [kp_stack map finish_stack]. fold (kp_stack stk).
  rewrite kp_length. cbn [kp_scope sc_decl sc_ident sc_unit]. rewrite kp_args.
  destruct (finish_args os (length stk) [] (sc_decl s) sub); [|reflexivity|reflexivity]. cbn [bind].
  destruct stk as [|s2 stk]; [reflexivity|]. apply IH.
Qed.

Lemma same_refl {A} (r : res A) : same_but_help r r.
Proof. destruct r; cbn [same_but_help]; tauto. Qed.
Theorem kp_parse d argv : valid d -> Forall (fun tok => keep tok = true) (tl argv) ->
  valid (kp d) /\ same_but_help (try_parse_from d argv) (try_parse_from (kp d) argv).
Proof.
  intros Hd Hk. split; [exact (kp_valid d Hd)|]. rewrite (refines d argv Hd), (refines (kp d) argv (kp_valid d Hd)).
  unfold spec_parse, spec_parse_with. destruct argv as [|argv0 toks]; [apply same_refl|]. cbn [tl] in Hk. rewrite kp_start, (kp_read toks Hk).
  destruct (read first_named (start d) toks) as [os out]. cbn [kp_both fst snd].
  destruct (first_bad [] os); [apply same_refl|]. destruct out as [st|[e|stk]]; cbn [kp_out].
  - destruct st; cbn [kp_state state_stack]; rewrite ?kp_finish; apply same_refl.
  - apply same_refl.
  - cbn [same_but_help]. repeat split.
Qed.
End Keep.

Theorem unnamed_parse {V : Type} (d : args_decl V) argv : valid d ->
  valid (named_in argv d) /\ same_but_help (try_parse_from d argv) (try_parse_from (named_in argv d) argv).
Proof.
  intros Hd. apply kp_parse; [exact Hd|]. apply Forall_forall. intros tok Hi. apply existsb_exists. exists tok.
  split; [exact Hi|apply beqb_eq; reflexivity].
Qed.
Theorem versions_parse {V : Type} (keep : bytes -> bool) (d d' : args_decl V) argv :
  keeping keep d = keeping keep d' -> valid d -> valid d' -> Forall (fun tok => keep tok = true) (tl argv) ->
  same_but_help (try_parse_from d argv) (try_parse_from d' argv).
Proof.
  intros E Hd Hd' Hk. pose proof (proj2 (kp_parse keep d argv Hd Hk)) as H. pose proof (proj2 (kp_parse keep d' argv Hd' Hk)) as H'.
  rewrite <- E in H'. destruct (try_parse_from d argv), (try_parse_from d' argv), (try_parse_from (keeping keep d) argv);
    cbn [same_but_help] in *; try contradiction; try congruence. intuition congruence.
Qed.
