(** Fields written in place of a flattened struct: proofs. *)
From Coq Require Import Permutation.
From Verif Require Import Bytes BytesFacts Utf8 Utf8Facts Attrs AttrFacts Refl Error Values SortFacts
  Places Help Runtime Heck Decl Spec Derive Generated CompileFacts InfoFacts TableFacts PlaceFacts UnwindFacts
  ScopeFacts NamedFacts WordFacts FinishFacts ReadFacts SimFacts HelpFacts Refine Observe ContextFacts GrammarFacts SafeFacts EnumDerive Parts
  WellFormed WellFormedFacts FieldFacts BlameFacts Order OrderFacts ExtendFacts Spread.

Section Facts.
Context {V : Type}.
Local Notation args_decl := (args_decl V).
Local Notation sarg := (sarg V).
Local Notation scope := (scope V).
Local Notation occ := (occ V).
Local Notation field := (ident * field_decl V)%type.
Local Notation variant := (ident * variant_decl V)%type.
Implicit Types (d : args_decl) (a : sarg) (s : scope) (stk : list scope) (os : list occ) (fs : list field).

(** ** The parts of the declaration *)

Definition spread_variant (v : variant) : variant :=
  (fst v, match snd v with
          | VDUnit at_ => VDUnit at_
          | VDNewtype at_ x => VDNewtype at_ (spread x)
          | VDStruct x => VDStruct (spread x)
          end).
Definition spread_field (f : field) : list field :=
  match snd f with
  | FArg m t => [f]
  | FFlatten x => fields_of (spread x)
  | FSub o (MkSubDecl vs) => [(fst f, FSub o (MkSubDecl (map spread_variant vs)))]
  end.
Lemma spread_fields d : fields_of (spread d) = flat_map spread_field (fields_of d).
Proof.
  destruct d as [at_ fs]. cbn [spread fields_of]. apply flat_map_ext. intros [id [m t|x|o [vs]]]; [reflexivity|reflexivity|].
  cbn [spread_field fst snd]. do 4 f_equal. apply map_ext. intros [n vd]. reflexivity.
Qed.
Lemma flat_map_flat_map {A B C} (f : A -> list B) (g : B -> list C) l : flat_map g (flat_map f l) = flat_map (fun x => flat_map g (f x)) l.
Proof. induction l as [|x l IH]; [reflexivity|]. cbn [flat_map]. rewrite flat_map_app, IH. reflexivity. Qed.
Lemma flat_map_nil' {A B} (f : A -> list B) l : (forall x, In x l -> f x = []) -> flat_map f l = [].
Proof. induction l as [|x l IH]; intros H; [reflexivity|]. cbn [flat_map]. rewrite (H x (or_introl eq_refl)). apply IH. intros y Hy. apply H. right. exact Hy. Qed.
Lemma flat_map_ext_in' {A B} (f g : A -> list B) l : (forall x, In x l -> f x = g x) -> flat_map f l = flat_map g l.
Proof. induction l as [|x l IH]; intros H; [reflexivity|]. cbn [flat_map]. rewrite (H x (or_introl eq_refl)), IH; [reflexivity|]. intros y Hy. apply H. right. exact Hy. Qed.

Lemma spread_flattened d : flattened (spread d) = [].
Proof.
  induction d as [d IH _] using decl_induction. unfold flattened. rewrite spread_fields, flat_map_flat_map. apply flat_map_nil'.
  intros [id [m t|x|o [vs]]] Hf; [reflexivity| |reflexivity]. cbn [spread_field snd]. exact (IH id x Hf).
Qed.
Lemma spread_reach d : reach (spread d) = map (fun a => ([sa_id a], a)) (own_args (spread d)).
Proof. rewrite reach_eq, spread_flattened. apply app_nil_r. Qed.
Lemma spread_own d : Permutation (own_args (spread d)) (map snd (reach d)).
Proof.
  induction d as [d IH _] using decl_induction. rewrite reach_eq, map_app, map_map, map_id. unfold own_args at 1 2, flattened.
  rewrite spread_fields, flat_map_flat_map.
  assert (G : forall fs, (forall id x, In (id, FFlatten x) fs -> Permutation (own_args (spread x)) (map snd (reach x))) ->
    Permutation (flat_map (fun f => flat_map own_arg (spread_field f)) fs)
      (flat_map own_arg fs ++ map snd (flat_map (fun fa => map (fun pa => (fst fa :: fst pa, snd pa)) (reach (snd fa))) (flat_map flat_field fs)))).
  { clear. induction fs as [|[id [m t|x|o [vs]]] fs IHl]; intros H; [constructor| | |].
    - cbn [flat_map spread_field own_arg flat_field fst snd app]. constructor. apply IHl. intros i x Hx. apply (H i x). right. exact Hx.
    - cbn [flat_map spread_field own_arg flat_field fst snd app]. rewrite map_app, map_map. cbn [snd].
      assert (E : map (fun pa : list ident * sarg => snd pa) (reach x) = map snd (reach x)) by reflexivity. rewrite E.
      eapply Permutation_trans; [apply Permutation_app; [exact (H id x (or_introl eq_refl))|apply IHl; intros i y Hy; apply (H i y); right; exact Hy]|].
      rewrite !app_assoc. apply Permutation_app_tail. apply Permutation_app_comm.
    - cbn [flat_map spread_field own_arg flat_field fst snd app]. apply IHl. intros i x Hx. apply (H i x). right. exact Hx. }
  apply G. intros id x Hx. exact (IH id x Hx).
Qed.
Definition spread_sub (x : ident * bool * list variant) : ident * bool * list variant := (fst x, map spread_variant (snd x)).
Lemma spread_subs d : well_formed d -> subcommands (spread d) = map spread_sub (subcommands d).
Proof.
  induction d as [d IH _] using decl_induction. intros W. inversion W as [d0 L W1 _]; subst d0.
  unfold subcommands. rewrite spread_fields, flat_map_flat_map.
  assert (G : forall fs, (forall f, In f fs -> In f (fields_of d)) -> flat_map (fun f => flat_map sub_field (spread_field f)) fs = map spread_sub (flat_map sub_field fs)).
  { intros fs. induction fs as [|[id fd] fs IHl]; intros H; [reflexivity|]. cbn [flat_map]. rewrite map_app.
    rewrite IHl by (intros f Hf; apply H; right; exact Hf). f_equal. specialize (H _ (or_introl eq_refl)).
    destruct fd as [m t|x|o [vs]]; [reflexivity| |reflexivity]. cbn [spread_field sub_field snd map].
    assert (Hx : In (id, x) (flattened d)) by (apply in_flattened; exact H).
    change (subcommands (spread x) = []). rewrite (IH id x H (W1 _ _ Hx)), (proj2 (ls_flat d L id x Hx)). reflexivity. }
  apply G. auto.
Qed.
Lemma spread_subcommand d : well_formed d -> subcommand (spread d) = option_map spread_sub (subcommand d).
Proof. intros W. unfold subcommand. fold (subcommands (spread d)) (subcommands d). rewrite (spread_subs d W). destruct (subcommands d); reflexivity. Qed.
Lemma spread_words d : well_formed d -> filter (fun a => negb (is_option a)) (own_args (spread d)) = filter (fun a => negb (is_option a)) (own_args d).
Proof.
  induction d as [d IH _] using decl_induction. intros W. inversion W as [d0 L W1 _]; subst d0.
  unfold own_args. rewrite spread_fields, flat_map_flat_map.
  assert (G : forall fs, (forall f, In f fs -> In f (fields_of d)) ->
    filter (fun a => negb (is_option a)) (flat_map (fun f => flat_map own_arg (spread_field f)) fs) = filter (fun a => negb (is_option a)) (flat_map own_arg fs)).
  { intros fs. induction fs as [|[id fd] fs IHl]; intros H; [reflexivity|]. cbn [flat_map]. rewrite !filter_app.
    rewrite IHl by (intros f Hf; apply H; right; exact Hf). f_equal. specialize (H _ (or_introl eq_refl)).
    destruct fd as [m t|x|o [vs]]; [reflexivity| |reflexivity]. cbn [spread_field own_arg snd filter].
    assert (Hx : In (id, x) (flattened d)) by (apply in_flattened; exact H).
    change (filter (fun a => negb (is_option a)) (own_args (spread x)) = []). rewrite (IH id x H (W1 _ _ Hx)).
    pose proof (proj1 (ls_flat d L id x Hx)) as K. induction (own_args x) as [|a l IHa]; [reflexivity|]. cbn [filter].
    rewrite (K a (or_introl eq_refl)). apply IHa. intros b Hb. apply K. right. exact Hb. }
  apply G. auto.
Qed.
Lemma spread_positionals d : well_formed d -> positionals (spread d) = positionals d.
Proof. intros W. unfold positionals. rewrite (spread_words d W). reflexivity. Qed.

Definition spread_scope s : scope := Scope (spread (sc_decl s)) (sc_ident s) (sc_unit s).
Lemma spread_variant_scope (v : variant) : variant_scope (spread_variant v) = spread_scope (variant_scope v).
Proof. destruct v as [n [at_|at_ x|x]]; reflexivity. Qed.

(** A declaration and its spread one that both compile. *)
Definition unexclusive : sarg -> bool := fun a => negb (am_exclusive (sa_meta a)).
Definition flats_plain d : Prop := forall id x, In (id, x) (flattened d) -> every_arg unexclusive x = true.
Lemma flat_unexclusive_flats d : flat_unexclusive d = true -> flats_plain d.
Proof.
  intros H id x Hx. apply in_flattened in Hx. destruct d as [at_ fs]. cbn [flat_unexclusive fields_of] in *.
  rewrite forallb_forall in H. exact (H _ Hx).
Qed.
Lemma flat_unexclusive_variant d id o vs v : flat_unexclusive d = true -> subcommand d = Some (id, o, vs) -> In v vs ->
  flat_unexclusive (sc_decl (variant_scope v)) = true.
Proof.
  intros H Hs Hv. apply subcommand_in in Hs. destruct d as [at_ fs]. cbn [flat_unexclusive fields_of] in *.
  rewrite forallb_forall in H. specialize (H _ Hs). cbn in H. rewrite forallb_forall in H. specialize (H v Hv).
  destruct v as [w [a|a x|x]]; [reflexivity|exact H|exact H].
Qed.
Record good d : Prop := {
  gd_wf : well_formed d;
  gd_spread : well_formed (spread d);
  gd_flat : flat_unexclusive d = true;
  gd_read : every_arg default_readable d = true
}.
Lemma good_variant d id o vs v : good d -> subcommand d = Some (id, o, vs) -> In v vs -> good (sc_decl (variant_scope v)).
Proof.
  intros [W W' F R] E Hv.
  split; [exact (wf_subcommand d id o vs v W E Hv)| |exact (flat_unexclusive_variant d id o vs v F E Hv)|exact (every_variant default_readable d id o vs v R E Hv)].
  assert (E' : subcommand (spread d) = Some (id, o, map spread_variant vs)) by (rewrite (spread_subcommand d W), E; reflexivity).
  pose proof (wf_subcommand (spread d) id o _ (spread_variant v) W' E' (in_map _ _ _ Hv)) as H. rewrite spread_variant_scope in H. exact H.
Qed.
Lemma good_ids d : good d -> NoDup (map sa_id (map snd (reach d))).
Proof.
  intros [_ W' _ _]. apply (Permutation_NoDup (Permutation_map sa_id (spread_own d))). apply own_args_ids.
  inversion W' as [d0 L _ _]; subst. exact (ls_fields _ L).
Qed.
Lemma NoDup_map_inj' {A B} (f : A -> B) l x y : NoDup (map f l) -> In x l -> In y l -> f x = f y -> x = y.
Proof.
  induction l as [|z l IH]; [intros _ []|]. cbn [map]. intros N Hx Hy E. inversion N as [|? ? Hn N']; subst.
  destruct Hx as [->|Hx], Hy as [->|Hy]; [reflexivity| | |exact (IH N' Hx Hy E)].
  - elim Hn. rewrite E. apply in_map. exact Hy.
  - elim Hn. rewrite <- E. apply in_map. exact Hx.
Qed.
Lemma good_path d p q a b : good d -> In (p, a) (reach d) -> In (q, b) (reach d) -> sa_id a = sa_id b -> p = q.
Proof.
  intros G Ha Hb E. pose proof (good_ids d G) as N. rewrite map_map in N.
  pose proof (NoDup_map_inj' (fun pa : list ident * sarg => sa_id (snd pa)) (reach d) (p, a) (q, b) N Ha Hb E) as H. congruence.
Qed.

(** ** Reading *)

Definition flat_ad (ad : addr) a : addr := Addr (ad_level ad) [sa_id a].
Definition flat_arg (x : addr * sarg) : addr * sarg := (flat_ad (fst x) (snd x), snd x).
Definition flat_occ (o : occ) : occ := Occ (flat_ad (oc_addr o) (oc_arg o)) (oc_arg o) (oc_val o).
Definition flat_stack stk := map spread_scope stk.
Definition flat_state (st : state V) : state V :=
  match st with
  | Normal stk rem => Normal (flat_stack stk) rem
  | Await stk rem ad a => Await (flat_stack stk) rem (flat_ad ad a) a
  | Verbatim stk rem => Verbatim (flat_stack stk) rem
  | Drain stk p => Drain (flat_stack stk) p
  end.
Definition flat_out (out : outcome V) : outcome V :=
  match out with
  | Go st => Go (flat_state st)
  | Stop (SErr e) => Stop (SErr e)
  | Stop (SHelp stk) => Stop (SHelp (flat_stack stk))
  end.
Definition flat_read (x : list occ * outcome V) : list occ * outcome V := (map flat_occ (fst x), flat_out (snd x)).
Definition good_stack stk : Prop := Forall (fun s => good (sc_decl s)) stk.

Lemma find_scope (q : sarg -> bool) n level s : good (sc_decl s) -> (forall a, q a = true -> has_nameb a n = true) ->
  find (fun x : addr * sarg => q (snd x)) (scope_args level (spread_scope s)) = option_map flat_arg (find (fun x => q (snd x)) (scope_args level s)).
Proof.
  intros [_ W' _ _] Hq. unfold scope_args, spread_scope. cbn [sc_decl]. rewrite spread_reach, map_map. rewrite !find_map'. cbn [snd fst].
  rewrite (find_perm _ _ _ (spread_own (sc_decl s))).
  - rewrite find_map'. destruct (find (fun x : list ident * sarg => q (snd x)) (reach (sc_decl s))) as [[p a]|]; reflexivity.
  - intros a b Ha Hb E1 E2. apply (own_name_unique (spread (sc_decl s)) a b n); [apply accepted_well_formed; exact W'|exact Ha|exact Hb| |];
      apply has_nameb_spec; apply Hq; assumption.
Qed.
Lemma find_stack (q : sarg -> bool) n stk : good_stack stk -> (forall a, q a = true -> has_nameb a n = true) ->
  find (fun x : addr * sarg => q (snd x)) (stack_args (flat_stack stk)) = option_map flat_arg (find (fun x => q (snd x)) (stack_args stk)).
Proof.
  intros G Hq. induction G as [|s stk Gs G IH]; [reflexivity|]. cbn [flat_stack map stack_args]. fold (flat_stack stk).
  rewrite !find_app', IH. unfold flat_stack. rewrite map_length. rewrite (find_scope q n (length stk) s Gs Hq).
  destruct (find (fun x : addr * sarg => q (snd x)) (scope_args (length stk) s)); reflexivity.
Qed.
Lemma flat_resolve stk n : good_stack stk -> resolve (flat_stack stk) n = option_map flat_arg (resolve stk n).
Proof.
  intros G. unfold resolve. destruct G as [|s stk Gs G]; [reflexivity|]. cbn [flat_stack map in_scope]. fold (flat_stack stk).
  unfold flat_stack at 1. rewrite map_length, !find_app'.
  rewrite (find_scope (fun a => has_nameb a n) n (length stk) s Gs (fun a H => H)).
  destruct (find (fun x : addr * sarg => has_nameb (snd x) n) (scope_args (length stk) s)); [reflexivity|]. cbn [option_map].
  rewrite !find_filter. apply (find_stack (fun a => is_global a && has_nameb a n) n stk G).
  intros a H. apply andb_true_iff in H. apply H.
Qed.

Lemma flat_bare stk rem ad a : bare (flat_stack stk) rem (flat_ad ad a) a = flat_read (bare stk rem ad a).
Proof. unfold bare. destruct (takes_value a); [destruct (needs_equals a)|]; reflexivity. Qed.
Lemma flat_long stk rem (s : bytes) v : good_stack stk -> read_long (flat_stack stk) rem s v = flat_read (read_long stk rem s v).
Proof.
  intros Hn. unfold read_long. rewrite (flat_resolve stk (Long s) Hn). destruct (resolve stk (Long s)) as [[ad a]|]; cbn [option_map flat_arg fst snd].
  - destruct v; [reflexivity|apply flat_bare].
  - unfold unknown_long. destruct (beqb s (bs "help")); reflexivity.
Qed.
Lemma flat_bundle stk rem junk cs : good_stack stk -> read_bundle (flat_stack stk) rem cs junk = flat_read (read_bundle stk rem cs junk).
Proof.
  intros Hn. induction cs as [|c cs IH]; cbn [read_bundle]; [destruct junk; reflexivity|].
  rewrite (flat_resolve stk (Short c) Hn). destruct (resolve stk (Short c)) as [[ad a]|]; cbn [option_map flat_arg fst snd].
  - rewrite IH. assert (K : forall o, (let '(os, out) := flat_read (read_bundle stk rem cs junk) in (flat_occ o :: os, out)) =
                                     flat_read (let '(os, out) := read_bundle stk rem cs junk in (o :: os, out))).
    { intros o. destruct (read_bundle stk rem cs junk). reflexivity. }
    destruct (encode_all cs ++ junk) as [|x v]; [apply flat_bare|].
    assert (N : (if needs_equals a then ([], Stop (SErr (error_about MissingEq a)))
                 else if takes_value a then ([Occ (flat_ad ad a) a (Some (x :: v))], Go (Normal (flat_stack stk) rem))
                 else let '(os, out) := flat_read (read_bundle stk rem cs junk) in (Occ (flat_ad ad a) a None :: os, out))
                = flat_read (if needs_equals a then ([], Stop (SErr (error_about MissingEq a)))
                   else if takes_value a then ([Occ ad a (Some (x :: v))], Go (Normal stk rem))
                   else let '(os, out) := read_bundle stk rem cs junk in (Occ ad a None :: os, out))).
    { destruct (needs_equals a); [reflexivity|]. destruct (takes_value a); [reflexivity|]. apply (K (Occ ad a None)). }
    destruct x; try exact N. destruct (takes_value a); [reflexivity|]. apply (K (Occ ad a (Some v))).
  - unfold unknown_short. destruct (c =? b2n "h")%N; reflexivity.
Qed.
Lemma flat_sub stk : good_stack stk -> sub_variants (flat_stack stk) = map spread_variant (sub_variants stk) /\
  has_subcommand (flat_stack stk) = has_subcommand stk /\ forall rem, after_sep (flat_stack stk) rem = after_sep stk rem.
Proof.
  intros G. destruct G as [|s stk Gs G]; [repeat split|]. cbn [flat_stack map sub_variants has_subcommand after_sep spread_scope sc_decl].
  rewrite (spread_subcommand _ (gd_wf _ Gs)), (spread_positionals _ (gd_wf _ Gs)).
  destruct (subcommand (sc_decl s)) as [[[id o] vs]|]; repeat split.
Qed.
Lemma flat_word sep stk rem tok : good_stack stk -> take_word sep (flat_stack stk) rem tok = flat_read (take_word sep stk rem tok).
Proof.
  intros Hn. unfold take_word. destruct (flat_sub stk Hn) as (_ & -> & _). unfold flat_stack at 1. rewrite map_length.
  destruct rem as [|p rem]; [reflexivity|]. destruct (sep || negb (is_last p)); [|reflexivity].
  unfold flat_read. cbn [fst snd map flat_out]. f_equal. f_equal. destruct (greedy p); [reflexivity|]. destruct sep; reflexivity.
Qed.
Lemma flat_named vs tok : first_named (map spread_variant vs) tok = option_map spread_variant (first_named vs tok).
Proof. unfold first_named. rewrite find_map'. reflexivity. Qed.
Lemma named_good stk tok v : good_stack stk -> first_named (sub_variants stk) tok = Some v -> good (sc_decl (variant_scope v)).
Proof.
  intros G Hf. apply find_some in Hf. destruct Hf as [Hf _]. destruct G as [|s stk Gs G]; [destruct Hf|]. cbn [sub_variants] in Hf.
  destruct (subcommand (sc_decl s)) as [[[id o] vs]|] eqn:E; [|destruct Hf]. exact (good_variant _ _ _ _ _ Gs E Hf).
Qed.
Lemma flat_step st tok : good_stack (state_stack st) -> step first_named (flat_state st) tok = flat_read (step first_named st tok).
Proof.
  destruct st as [stk rem|stk rem ad a|stk rem|stk p]; cbn [state_stack flat_state step]; intros Hn.
  - destruct (flat_sub stk Hn) as (Ev & _ & Es). destruct (form_of tok) as [|s v|b|].
    + rewrite Es. reflexivity.
    + apply flat_long. exact Hn.
    + destruct (utf8_prefix b) as [cs junk]. apply flat_bundle. exact Hn.
    + rewrite Ev, flat_named. destruct (first_named (sub_variants stk) tok) as [v|] eqn:Ef; cbn [option_map]; [|apply flat_word; exact Hn].
      unfold flat_read. cbn [fst snd map flat_out flat_state flat_stack]. rewrite spread_variant_scope.
      cbn [spread_scope sc_decl]. rewrite (spread_positionals _ (gd_wf _ (named_good _ _ _ Hn Ef))). reflexivity.
  - destruct (may_follow a tok); reflexivity.
  - apply flat_word. exact Hn.
  - unfold flat_stack. rewrite map_length. reflexivity.
Qed.
Lemma step_good st tok os st' : good_stack (state_stack st) -> step first_named st tok = (os, Go st') -> good_stack (state_stack st').
Proof.
  intros G E. destruct (step_stack _ _ _ _ _ E) as [->|(v & Hv & ->)]; [exact G|]. constructor; [exact (named_good _ _ _ G Hv)|exact G].
Qed.
Lemma flat_reading toks : forall st, good_stack (state_stack st) -> read first_named (flat_state st) toks = flat_read (read first_named st toks).
Proof.
  induction toks as [|tok toks IH]; intros st Hn; [reflexivity|]. cbn [read]. rewrite flat_step by exact Hn.
  destruct (step first_named st tok) as [os out] eqn:E. unfold flat_read at 1. cbn [fst snd]. destruct out as [st1|[e|stk]]; cbn [flat_out]; [|reflexivity|reflexivity].
  rewrite IH by exact (step_good _ _ _ _ Hn E).
  destruct (read first_named st1 toks) as [os1 out1]. unfold flat_read. cbn [fst snd]. rewrite map_app. reflexivity.
Qed.

(** The occurrences belong to commands that are good, in all cases. *)
Lemma read_good toks : forall st : state V, state_ok st -> good_stack (state_stack st) -> exists inner, good_stack (inner ++ state_stack st) /\
  Forall (known (inner ++ state_stack st)) (fst (read first_named st toks)) /\
  forall st', snd (read first_named st toks) = Go st' -> state_stack st' = inner ++ state_stack st.
Proof.
  induction toks as [|t toks IH]; intros st Hok Hg.
  { exists []. split; [exact Hg|]. split; [constructor|]. intros st' E. injection E as <-. reflexivity. }
  rewrite read_cons.
  pose proof (step_ok first_named first_named_in st t Hok) as [Hk Hs].
  destruct (step first_named st t) as [os1 [st1|sp]] eqn:E; unfold then_read; cbn [fst snd] in *.
  - destruct Hs as [Hok1 [i1 E1]]. destruct (IH st1 Hok1 (step_good _ _ _ _ Hg E)) as (i2 & Hs2 & Hk2 & Hl). rewrite E1, app_assoc in Hs2, Hk2, Hl.
    exists (i2 ++ i1). split; [exact Hs2|]. destruct (read first_named st1 toks) as [os2 out2]. cbn [fst snd] in *. split; [|exact Hl]. apply Forall_app.
    split; [|exact Hk2]. eapply Forall_impl; [|exact Hk]. intros o Ho. unfold known in *. apply stack_args_app. exact Ho.
  - exists []. split; [exact Hg|]. split; [exact Hk|]. discriminate.
Qed.

(** ** Occurrences *)

Lemma stack_level' inner s outer p a : In (Addr (length outer) p, a) (stack_args (inner ++ s :: outer)) -> In (p, a) (reach (sc_decl s)).
Proof.
  induction inner as [|s1 inner IH]; cbn [app stack_args]; rewrite in_app_iff; intros [K|K].
  - unfold scope_args in K. apply in_map_iff in K. destruct K as ([q b] & E1 & Ha). injection E1 as -> ->. exact Ha.
  - apply stack_args_level in K. cbn [ad_level] in K. lia.
  - unfold scope_args in K. apply in_map_iff in K. destruct K as ([q b] & E1 & Ha). injection E1 as E1 _. rewrite app_length in E1. cbn [length] in E1. lia.
  - exact (IH K).
Qed.

Section Known.
Variable stk : list scope.
Hypothesis Hg : good_stack stk.

Lemma flat_inj ad a ad' a' : In (ad, a) (stack_args stk) -> In (ad', a') (stack_args stk) -> flat_ad ad a = flat_ad ad' a' -> ad = ad'.
Proof.
  intros H H' E. apply stack_split in H. destruct H as (pre & s & outer & q & -> & -> & Hq). unfold flat_ad in E. cbn [ad_level] in E.
  injection E as El Ei. destruct ad' as [l' q']. cbn [ad_level] in El. subst l'. apply stack_level' in H'. f_equal.
  apply (good_path (sc_decl s) q q' a a'); try assumption. unfold good_stack in Hg. rewrite Forall_forall in Hg. apply Hg. apply in_app_iff. right. left. reflexivity.
Qed.
Lemma flat_eqb ad a ad' a' : In (ad, a) (stack_args stk) -> In (ad', a') (stack_args stk) ->
  (ad = ad' -> sa_id a = sa_id a') -> addr_eqb (flat_ad ad a) (flat_ad ad' a') = addr_eqb ad ad'.
Proof.
  intros H H' K. destruct (addr_eqb ad ad') eqn:E.
  - apply addr_eqb_eq in E. apply addr_eqb_eq. unfold flat_ad. rewrite E, (K E). reflexivity.
  - destruct (addr_eqb (flat_ad ad a) (flat_ad ad' a')) eqn:E'; [|reflexivity]. apply addr_eqb_eq in E'.
    rewrite (flat_inj _ _ _ _ H H' E') in E. rewrite (proj2 (addr_eqb_eq _ _) eq_refl) in E. discriminate E.
Qed.
Lemma same_ad_id ad a a' : In (ad, a) (stack_args stk) -> In (ad, a') (stack_args stk) -> sa_id a = sa_id a'.
Proof.
  intros H H'. apply stack_split in H. destruct H as (pre & s & outer & q & -> & -> & Hq). apply stack_level' in H'.
  apply reach_unit in Hq, H'. destruct Hq as (u & _ & _ & E), H' as (u' & _ & _ & E'). rewrite E in E'. apply app_inj_tail in E'. apply E'.
Qed.
Lemma values_flat os ad a : Forall (known stk) os -> In (ad, a) (stack_args stk) -> values_of (map flat_occ os) (flat_ad ad a) = values_of os ad.
Proof.
  intros K Ha. unfold values_of. induction K as [|o os Ho K IH]; [reflexivity|]. cbn [map filter]. unfold flat_occ at 1. cbn [oc_addr].
  rewrite (flat_eqb _ _ _ _ Ha Ho). 2: { intros ->. exact (same_ad_id _ _ _ Ha Ho). }
  destruct (addr_eqb ad (oc_addr o)); cbn [map]; rewrite IH; reflexivity.
Qed.
Lemma bad_flat os : forall before, Forall (known stk) before -> Forall (known stk) os -> first_bad (map flat_occ before) (map flat_occ os) = first_bad before os.
Proof.
  induction os as [|o os IH]; intros before Kb K; [reflexivity|]. inversion K as [|? ? Ko K']; subst. cbn [map first_bad]. cbn [flat_occ oc_arg oc_addr oc_val].
  unfold given at 1. rewrite (values_flat _ _ _ Kb Ko). fold (given before (oc_addr o)).
  destruct (occ_error (oc_arg o) (given before (oc_addr o)) (oc_val o)); [reflexivity|].
  rewrite <- IH; [rewrite map_app; reflexivity| |exact K']. apply Forall_app. split; [exact Kb|constructor; [exact Ko|constructor]].
Qed.
End Known.

(** ** Values *)

(** All that can be wrong with one argument when the tokens are read. *)
Definition fine os level path d sub a : bool :=
  absent_ok os level path a && match violation os level path d sub a with None => true | Some _ => false end.
Definition unit_fine os level sub (u : list ident * args_decl) : bool := forallb (fine os level (fst u) (snd u) sub) (own_args (snd u)).
Definition arg_value os level path a : list (ident * fval V) :=
  match field_value a (values_of os (at_field level path (sa_id a))) with Some v => [(sa_id a, v)] | None => [] end.
Definition unit_values os level (u : list ident * args_decl) : list (ident * fval V) := flat_map (arg_value os level (fst u)) (own_args (snd u)).
Definition missing_sub d (sub : option (subval V)) : bool :=
  match subcommand d, sub with Some (_, false, _), None => true | _, _ => false end.
Definition sub_value d (sub : option (subval V)) : option (ident * option (subval V)) :=
  option_map (fun x : ident * bool * list variant => (fst (fst x), sub)) (subcommand d).

Lemma struct_cases os level path d flats sub : (forall a, In a (own_args d) -> default_readable a = true) ->
  if unit_fine os level (is_some sub) (path, d)
  then if missing_sub d sub then finish_struct os level path d flats sub = Err (err_new MissingRequiredSubcommand)
       else exists l, finish_struct os level path d flats sub = Ok (Out l flats (sub_value d sub)) /\ Permutation l (unit_values os level (path, d))
  else exists e, finish_struct os level path d flats sub = Err e /\ about_presence (e_kind e) = true.
Proof.
  intros Rd. unfold unit_fine. cbn [fst snd]. rewrite <- (forallb_perm _ _ _ (checked_perm d)). unfold finish_struct.
  assert (Rd' : forall a, In a (checked d) -> default_readable a = true) by (intros a Ha; apply Rd, in_checked', Ha).
  pose proof (check_absent_cases os level path (checked d) Rd') as A.
  pose proof (first_violation_presence os level path d (is_some sub) (checked d)) as P.
  destruct (forallb (fine os level path d (is_some sub)) (checked d)) eqn:F.
  - rewrite forallb_forall in F.
    assert (F1 : forallb (absent_ok os level path) (checked d) = true).
    { apply forallb_forall. intros a Ha. specialize (F a Ha). apply andb_true_iff in F. apply F. }
    assert (F2 : first_violation os level path d (is_some sub) (checked d) = None).
    { apply first_violation_None. intros a Ha. specialize (F a Ha). apply andb_true_iff in F. destruct F as [_ F].
      destruct (violation os level path d (is_some sub) a); [discriminate|reflexivity]. }
    rewrite F1 in A. rewrite F2, A. cbn [bind]. unfold missing_sub, sub_value.
    assert (D : Permutation (direct_values os level path d) (unit_values os level (path, d))) by (apply Permutation_flat_map, checked_perm).
    destruct (subcommand d) as [[[id o] vs]|]; [|eexists; split; [reflexivity|exact D]].
    destruct o, sub; try reflexivity; eexists; (split; [reflexivity|exact D]).
  - destruct (first_violation os level path d (is_some sub) (checked d)) as [e|] eqn:E; [exists e; split; [reflexivity|exact P]|].
    destruct (forallb (absent_ok os level path) (checked d)) eqn:F1.
    + exfalso. assert (X : forallb (fine os level path d (is_some sub)) (checked d) = true); [|rewrite X in F; discriminate F].
      apply forallb_forall. intros a Ha. unfold fine. rewrite forallb_forall in F1. rewrite (F1 a Ha). rewrite first_violation_None in E. rewrite (E a Ha). reflexivity.
    + destruct A as (e & -> & Pe). exists e. split; [reflexivity|exact Pe].
Qed.
Lemma forallb_ext_in' {A} (f g : A -> bool) l : (forall x, In x l -> f x = g x) -> forallb f l = forallb g l.
Proof. induction l as [|x l IH]; intros H; [reflexivity|]. cbn [forallb]. rewrite (H x (or_introl eq_refl)), IH; [reflexivity|]. intros y Hy. apply H. right. exact Hy. Qed.
Lemma existsb_ext_in' {A} (f g : A -> bool) l : (forall x, In x l -> f x = g x) -> existsb f l = existsb g l.
Proof. induction l as [|x l IH]; intros H; [reflexivity|]. cbn [existsb]. rewrite (H x (or_introl eq_refl)), IH; [reflexivity|]. intros y Hy. apply H. right. exact Hy. Qed.
Lemma find_ext_in' {A} (f g : A -> bool) l : (forall x, In x l -> f x = g x) -> find f l = find g l.
Proof. induction l as [|x l IH]; intros H; [reflexivity|]. cbn [find]. rewrite (H x (or_introl eq_refl)), IH; [reflexivity|]. intros y Hy. apply H. right. exact Hy. Qed.
Lemma forallb_flat_map' {A B} (f : A -> list B) (p : B -> bool) l : forallb p (flat_map f l) = forallb (fun x => forallb p (f x)) l.
Proof. induction l as [|x l IH]; [reflexivity|]. cbn [flat_map forallb]. rewrite forallb_app, IH. reflexivity. Qed.
Lemma unit_fine_sub os level b b' u : (forall a, In a (own_args (snd u)) -> am_exclusive (sa_meta a) = false) -> unit_fine os level b u = unit_fine os level b' u.
Proof.
  intros H. unfold unit_fine. apply forallb_ext_in'. intros a Ha. unfold fine. f_equal. unfold violation. cbn zeta. rewrite (H a Ha). reflexivity.
Qed.

Lemma units_every (p : sarg -> bool) d : forall path u, every_arg p d = true -> In u (units path d) -> every_arg p (snd u) = true.
Proof.
  induction d as [d IH _] using decl_induction. intros path u H Hu. rewrite units_eq in Hu. destruct Hu as [<-|Hu]; [exact H|].
  apply in_flat_map in Hu. destruct Hu as ([id x] & Hx & Hu). cbn [fst snd] in Hu. apply (IH id x (proj1 (in_flattened d id x) Hx) (path ++ [id]) u); [|exact Hu].
  exact (every_flat p d id x H Hx).
Qed.
Lemma unit_fine_none os level b d path u : every_arg unexclusive d = true -> In u (units path d) -> unit_fine os level b u = unit_fine os level false u.
Proof.
  intros H Hu. apply unit_fine_sub. intros a Ha. pose proof (every_own unexclusive _ a (units_every _ _ _ _ H Hu) Ha) as K. apply negb_true_iff in K. exact K.
Qed.
Lemma in_units path d : In (path, d) (units path d).
Proof. rewrite units_eq. left. reflexivity. Qed.

(** The conclusion about a struct with what is flattened into it. *)
Definition decided (r : res (outval V)) os level path d (sub : option (subval V)) : Prop :=
  if forallb (unit_fine os level (is_some sub)) (units path d)
  then if missing_sub d sub then r = Err (err_new MissingRequiredSubcommand)
       else exists l flats, r = Ok (Out l flats (sub_value d sub)) /\
              Permutation (leaves (Out l flats (sub_value d sub))) (flat_map (unit_values os level) (units path d))
  else exists e, r = Err e /\ about_presence (e_kind e) = true.

Lemma args_cases os level d : forall path sub, well_formed d -> every_arg default_readable d = true ->
  flats_plain d -> decided (finish_args os level path d sub) os level path d sub.
Proof.
  induction d as [d IHf _] using decl_induction. intros path sub W Hr Hx. rewrite finish_args_eq. inversion W as [d0 L W1 _]; subst d0.
  set (FU := fun l : list (ident * args_decl) => flat_map (fun fa => units (path ++ [fst fa]) (snd fa)) l).
  set (LV := fun flats : list (ident * outval V) => flat_map (fun f : ident * outval V => let '(_, x) := f in leaves x) flats).
  assert (E : forall l acc, (forall fx, In fx l -> In fx (flattened d)) ->
    if forallb (unit_fine os level false) (FU l)
    then exists flats, finish_flats os level path l (Ok acc) = Ok (acc ++ flats) /\ Permutation (LV flats) (flat_map (unit_values os level) (FU l)) 
    else exists e, finish_flats os level path l (Ok acc) = Err e /\ about_presence (e_kind e) = true).
  { intros l. induction l as [|[id x] l IHl]; intros acc Hl.
    { exists []. rewrite app_nil_r. split; [reflexivity|constructor]. }
    unfold FU in *. cbn [flat_map fst snd]. rewrite forallb_app. assert (Hi : In (id, x) (flattened d)) by (apply Hl; left; reflexivity).
    destruct (accepted_flat d id x (proj2 (accepted_well_formed d) W) Hi) as (_ & _ & Hs).
    pose proof (IHf id x (proj1 (in_flattened d id x) Hi) (path ++ [id]) None (W1 _ _ Hi) (every_flat default_readable _ _ _ Hr Hi)
                  (fun i y Hy => every_flat unexclusive _ _ _ (Hx _ _ Hi) Hy)) as D.
    unfold decided in D. cbn [is_some] in D. unfold finish_flats in *. cbn [fold_left fst snd bind]. unfold missing_sub in D. rewrite Hs in D.
    destruct (forallb (unit_fine os level false) (units (path ++ [id]) x)).
    - destruct D as (l1 & f1 & E1 & P1). rewrite E1. cbn [bind andb].
      specialize (IHl (acc ++ [(id, Out l1 f1 (sub_value x None))]) (fun z Hz => Hl z (or_intror Hz))).
      destruct (forallb (unit_fine os level false) (flat_map (fun fa => units (path ++ [fst fa]) (snd fa)) l)); [|exact IHl].
      destruct IHl as (flats & E2 & P2). exists ((id, Out l1 f1 (sub_value x None)) :: flats).
      split; [rewrite E2, <- app_assoc; reflexivity|].
      unfold LV in *. cbn [flat_map]. rewrite flat_map_app. apply Permutation_app; [exact P1|exact P2].
    - destruct D as (e & E1 & Pe). rewrite E1. cbn [bind andb]. exists e. split; [|exact Pe].
      clear. induction l as [|fx l IHl]; [reflexivity|]. cbn [fold_left bind]. exact IHl. }
  specialize (E (flattened d) [] (fun _ H => H)).
  assert (Hq : forallb (unit_fine os level (is_some sub)) (FU (flattened d)) = forallb (unit_fine os level false) (FU (flattened d))).
  { apply forallb_ext_in'. intros u Hu. apply in_flat_map in Hu. destruct Hu as ([id x] & Hi & Hu). exact (unit_fine_none _ _ _ _ _ _ (Hx id x Hi) Hu). }
  unfold decided. rewrite units_eq. cbn [forallb flat_map]. fold (FU (flattened d)). rewrite Hq.
  destruct (forallb (unit_fine os level false) (FU (flattened d))).
  - destruct E as (flats & -> & P). cbn [bind app]. rewrite andb_true_r.
    pose proof (struct_cases os level path d flats sub (fun a Ha => every_own default_readable d a Hr Ha)) as S.
    destruct (unit_fine os level (is_some sub) (path, d)); [|exact S]. destruct (missing_sub d sub); [exact S|].
    destruct S as (l & -> & Pl). exists l, flats. split; [reflexivity|].
    cbn [leaves]. apply Permutation_app; [exact Pl|exact P].
  - destruct E as (e & -> & Pe). cbn [bind]. rewrite andb_false_r. exists e. split; [reflexivity|exact Pe].
Qed.

(** ** The same in both declarations *)

Lemma reach_args d : map snd (reach d) = flat_map (fun u => own_args (snd u)) (units [] d).
Proof.
  pose proof (f_equal (map snd) (reach_units 0 [] d)) as E. rewrite map_map in E. cbn [snd] in E. change (fun x : list ident * sarg => snd x) with (@snd (list ident) sarg) in E.
  rewrite E. clear E. induction (units [] d) as [|u l IH]; [reflexivity|]. cbn [flat_map]. rewrite map_app, IH. f_equal. unfold unit_args. rewrite map_map. apply map_id.
Qed.

Section Same.
Variables (pre : list scope) (s : scope) (outer : list scope) (os : list occ).
Hypothesis Hg : good_stack (pre ++ s :: outer).
Hypothesis Hk : Forall (known (pre ++ s :: outer)) os.
Local Notation d := (sc_decl s).
Local Notation level := (length outer).

Lemma good_here : good d.
Proof. unfold good_stack in Hg. rewrite Forall_forall in Hg. apply Hg. apply in_app_iff. right. left. reflexivity. Qed.
Lemma Hp : flats_plain d.
Proof. exact (flat_unexclusive_flats d (gd_flat _ good_here)). Qed.
Lemma values_same u b : In u (units [] d) -> In b (own_args (snd u)) ->
  values_of (map flat_occ os) (at_field level [] (sa_id b)) = values_of os (at_field level (fst u) (sa_id b)).
Proof.
  intros Hu Hb. apply (values_flat _ Hg os (at_field level (fst u) (sa_id b)) b Hk). apply in_stack_args. apply reach_unit. exists u. auto.
Qed.
Lemma given_same u b : In u (units [] d) -> In b (own_args (snd u)) ->
  is_given (map flat_occ os) level [] (sa_id b) = is_given os level (fst u) (sa_id b).
Proof. intros Hu Hb. unfold is_given, given. rewrite (values_same u b Hu Hb). reflexivity. Qed.
Lemma unit_legal u : In u (units [] d) -> legal_struct (snd u).
Proof.
  intros Hu. pose proof (units_accepted [] d u (proj2 (accepted_well_formed d) (gd_wf _ good_here)) Hu) as A. apply accepted_well_formed in A.
  inversion A; assumption.
Qed.
Lemma unit_exclusive u a : In u (units [] d) -> In a (own_args (snd u)) -> am_exclusive (sa_meta a) = true -> flattened d = [] /\ u = ([], d).
Proof.
  intros Hu Ha He. rewrite units_eq in Hu. destruct Hu as [<-|Hu].
  - cbn [snd] in Ha. split; [|reflexivity]. pose proof (unit_legal ([], d) (in_units [] d)) as L. exact (ls_exclusive _ L a Ha He).
  - apply in_flat_map in Hu. destruct Hu as ([id x] & Hx & Hu). cbn [fst snd] in Hu.
    pose proof (every_own unexclusive _ a (units_every _ _ _ _ (Hp id x Hx) Hu) Ha) as K. unfold unexclusive in K. rewrite He in K. discriminate K.
Qed.
Lemma fine_same sub u a : In u (units [] d) -> In a (own_args (snd u)) ->
  fine (map flat_occ os) level [] (spread d) sub a = fine os level (fst u) (snd u) sub a.
Proof.
  intros Hu Ha. pose proof (unit_legal u Hu) as L. unfold fine, absent_ok. rewrite (given_same u a Hu Ha). f_equal.
  unfold violation. cbn zeta. rewrite (given_same u a Hu Ha). destruct (is_given os level (fst u) (sa_id a)); [|reflexivity].
  assert (Ex : am_exclusive (sa_meta a) &&
      (existsb (fun b => negb (beqb (sa_id b) (sa_id a)) && is_given (map flat_occ os) level [] (sa_id b)) (own_args (spread d)) || sub)
    = am_exclusive (sa_meta a) && (existsb (fun b => negb (beqb (sa_id b) (sa_id a)) && is_given os level (fst u) (sa_id b)) (own_args (snd u)) || sub)).
  { destruct (am_exclusive (sa_meta a)) eqn:He; [|reflexivity]. destruct (unit_exclusive u a Hu Ha He) as [E0 ->]. cbn [fst snd andb] in *. f_equal.
    rewrite (existsb_perm _ _ _ (spread_own d)), reach_args, units_eq, E0. cbn [flat_map snd]. rewrite app_nil_r. apply existsb_ext_in'.
    intros b Hb. rewrite (given_same ([], d) b (in_units [] d) Hb). reflexivity. }
  rewrite Ex. match goal with |- context [if ?c then _ else _] => destruct c; [reflexivity|] end.
  assert (R : forall id, In id (am_requires (sa_meta a)) \/ In id (am_conflicts_with (sa_meta a)) -> is_given (map flat_occ os) level [] id = is_given os level (fst u) id).
  { intros id Hid. destruct (ls_refs _ L a id Ha Hid) as (b & Hb & <-). exact (given_same u b Hu Hb). }
  rewrite (find_ext_in' (fun id => negb (is_given (map flat_occ os) level [] id)) (fun id => negb (is_given os level (fst u) id)) (am_requires (sa_meta a)))
    by (intros id Hid; rewrite R by (left; exact Hid); reflexivity).
  destruct (find (fun id => negb (is_given os level (fst u) id)) (am_requires (sa_meta a))); [reflexivity|].
  rewrite (find_ext_in' (is_given (map flat_occ os) level []) (is_given os level (fst u)) (am_conflicts_with (sa_meta a))) by (intros id Hid; apply R; right; exact Hid).
  destruct (find (is_given os level (fst u)) (am_conflicts_with (sa_meta a))); reflexivity.
Qed.
Lemma spread_units : units [] (spread d) = [([], spread d)].
Proof. rewrite units_eq, spread_flattened. reflexivity. Qed.
Lemma fine_all sub : forallb (unit_fine (map flat_occ os) level sub) (units [] (spread d)) = forallb (unit_fine os level sub) (units [] d).
Proof.
  rewrite spread_units. cbn [forallb]. rewrite andb_true_r. unfold unit_fine at 1. cbn [fst snd].
  rewrite (forallb_perm _ _ _ (spread_own d)), reach_args, forallb_flat_map'. apply forallb_ext_in'. intros u Hu. unfold unit_fine.
  apply forallb_ext_in'. intros a Ha. exact (fine_same sub u a Hu Ha).
Qed.
Lemma values_all : Permutation (flat_map (unit_values (map flat_occ os) level) (units [] (spread d))) (flat_map (unit_values os level) (units [] d)).
Proof.
  rewrite spread_units. cbn [flat_map]. rewrite app_nil_r. unfold unit_values at 1. cbn [fst snd].
  eapply Permutation_trans; [apply Permutation_flat_map, spread_own|]. rewrite reach_args, flat_map_flat_map.
  rewrite (flat_map_ext_in' _ (unit_values os level)); [apply Permutation_refl|]. intros u Hu. unfold unit_values. apply flat_map_ext_in'. intros a Ha.
  unfold arg_value. rewrite (values_same u a Hu Ha). reflexivity.
Qed.

Definition res_rel' (r r' : res (outval V)) : Prop :=
  match r, r' with
  | Ok o, Ok o' => ungrouped o o'
  | Err e, Err e' => e = e' \/ about_presence (e_kind e) = true /\ about_presence (e_kind e') = true
  | _, _ => False
  end.
Lemma args_same sub sub' : opt_rel ungrouped_subval sub sub' ->
  res_rel' (finish_args os level [] d sub) (finish_args (map flat_occ os) level [] (spread d) sub').
Proof.
  intros Hs. destruct good_here as [W W' _ Hr].
  pose proof (args_cases os level d [] sub W Hr Hp) as D. unfold decided in D.
  assert (Rd : forall a, In a (own_args (spread d)) -> default_readable a = true).
  { intros a Ha. apply (Permutation_in _ (spread_own d)) in Ha. apply in_map_iff in Ha. destruct Ha as ([q b] & <- & Hb). exact (every_reach default_readable d Hr (q, b) Hb). }
  pose proof (struct_cases (map flat_occ os) level [] (spread d) [] sub' Rd) as D'.
  rewrite (finish_args_eq (map flat_occ os)), spread_flattened. unfold finish_flats. cbn [fold_left bind].
  assert (Es : is_some sub' = is_some sub) by (destruct Hs; reflexivity).
  pose proof (fine_all (is_some sub)) as F. rewrite spread_units in F. cbn [forallb] in F. rewrite andb_true_r in F. rewrite Es, F in D'.
  destruct (forallb (unit_fine os level (is_some sub)) (units [] d)).
  2: { destruct D as (e & -> & Pe), D' as (e' & -> & Pe'). right. split; assumption. }
  assert (Em : missing_sub (spread d) sub' = missing_sub d sub).
  { unfold missing_sub. rewrite (spread_subcommand d W). destruct (subcommand d) as [[[id [|]] vs]|]; destruct Hs; reflexivity. }
  rewrite Em in D'. destruct (missing_sub d sub); [rewrite D, D'; left; reflexivity|].
  destruct D as (l & flats & -> & P), D' as (l' & -> & P'). cbn [res_rel']. constructor.
  - eapply Permutation_trans; [exact P|]. pose proof values_all as Q. rewrite spread_units in Q. cbn [flat_map] in Q. rewrite app_nil_r in Q.
    eapply Permutation_trans; [apply Permutation_sym, Q|]. apply Permutation_sym. exact P'.
  - unfold sub_value. rewrite (spread_subcommand d W). destruct (subcommand d) as [[[id o] vs]|]; [|constructor]. cbn [option_map spread_sub fst snd].
    destruct Hs; constructor. assumption.
Qed.
End Same.

Lemma stack_same full os : good_stack full -> Forall (known full) os -> forall stk pre, full = pre ++ stk -> stk <> [] ->
  forall sub sub', opt_rel ungrouped_subval sub sub' -> res_rel' (finish_stack os stk sub) (finish_stack (map flat_occ os) (flat_stack stk) sub').
Proof.
  intros G K stk. induction stk as [|s outer IH]; intros pre E Hn sub sub' Hs; [contradiction|]. subst full.
  cbn [flat_stack map finish_stack]. rewrite map_length.
  pose proof (args_same pre s outer os G K sub sub' Hs) as H. cbn [spread_scope sc_decl sc_ident sc_unit].
  destruct (finish_args os (length outer) [] (sc_decl s) sub), (finish_args (map flat_occ os) (length outer) [] (spread (sc_decl s)) sub'); try contradiction; [|exact H].
  cbn [bind]. cbn [res_rel'] in H. destruct outer as [|s2 outer]; [exact H|]. cbn [map].
  apply (IH (pre ++ [s])); [rewrite <- app_assoc; reflexivity|discriminate|]. constructor. destruct (sc_unit s); constructor. exact H.
Qed.

(** ** The result *)

Theorem spread_parse d argv : good d -> same_but_groups (spec_parse d argv) (spec_parse (spread d) argv).
Proof.
  intros G. unfold spec_parse, spec_parse_with. destruct argv as [|argv0 toks]; [left; reflexivity|].
  assert (Es : start (spread d) = flat_state (start d)).
  { unfold start. rewrite (spread_positionals d (gd_wf _ G)). reflexivity. }
  assert (Gs : good_stack (state_stack (start d))) by (constructor; [exact G|constructor]).
  rewrite Es, (flat_reading toks (start d) Gs).
  destruct (read_good toks (start d) (start_ok d (proj2 (accepted_well_formed d) (gd_wf _ G))) Gs) as (inner & Gi & Ki & Si).
  destruct (read first_named (start d) toks) as [os out] eqn:E. unfold flat_read. cbn [fst snd] in *.
  pose proof (bad_flat _ Gi os [] (Forall_nil _) Ki) as B. cbn [map] in B. rewrite B.
  destruct (first_bad [] os); [left; reflexivity|].
  destruct out as [st|[e|stk]]; cbn [flat_out]; [|left; reflexivity|right; left; split; reflexivity].
  specialize (Si st eq_refl).
  assert (F : same_but_groups (finish_stack os (state_stack st) None) (finish_stack (map flat_occ os) (flat_stack (state_stack st)) None)).
  { pose proof (stack_same _ os Gi Ki (state_stack st) []) as F. rewrite <- Si in F.
    specialize (F eq_refl (read_nonempty toks (start d) os st ltac:(discriminate) E) None None (opt_none _)).
    destruct (finish_stack os (state_stack st) None), (finish_stack (map flat_occ os) (flat_stack (state_stack st)) None); try contradiction; [exact F|].
    destruct F as [F|F]; [left; exact F|right; right; exact F]. }
  destruct st; cbn [flat_state state_stack] in *; try exact F. left. reflexivity.
Qed.
Theorem spread_result d argv : valid d -> valid (spread d) -> flat_unexclusive d = true -> defaults_readable d = true ->
  same_but_groups (try_parse_from d argv) (try_parse_from (spread d) argv).
Proof.
  intros H H' F R. rewrite (refines d argv H), (refines (spread d) argv H'). apply spread_parse. destruct H as [A _], H' as [A' _].
  split; [apply accepted_well_formed; exact A|apply accepted_well_formed; exact A'|exact F|exact R].
Qed.
End Facts.
