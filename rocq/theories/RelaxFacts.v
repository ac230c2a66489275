(** Declarations that ask for less: proofs. *)
From Verif Require Import Bytes BytesFacts Utf8 Utf8Facts Attrs AttrFacts Refl Error Values SortFacts
  Places Help Runtime Heck Decl Spec Derive Generated CompileFacts InfoFacts TableFacts PlaceFacts UnwindFacts
  ScopeFacts NamedFacts WordFacts FinishFacts ReadFacts SimFacts HelpFacts Refine Observe ContextFacts SafeFacts
  EnumDerive Parts WellFormed WellFormedFacts OrderFacts FieldFacts ResultFacts ValueFacts BlameFacts Extend ExtendFacts Relax.

Section Facts.
Context {V : Type}.
Local Notation args_decl := (args_decl V).
Local Notation sarg := (sarg V).
Local Notation scope := (scope V).
Local Notation occ := (occ V).
Local Notation field := (ident * field_decl V)%type.
Local Notation variant := (ident * variant_decl V)%type.
Implicit Types (d : args_decl) (a b : sarg) (s : scope) (stk : list scope) (os : list occ) (fs : list field).
Variables new_name raised : name -> Prop.
Local Notation relaxed := (relaxed new_name raised).
Local Notation eased := (eased new_name raised).

Definition flat_rel (x y : ident * args_decl) : Prop := fst x = fst y /\ eased (snd x) (snd y).
Definition variant_rel (v w : variant) : Prop := fst v = fst w /\ eased_variant new_name raised (snd v) (snd w).
Definition sub_rel (x y : option (ident * bool * list variant)) : Prop :=
  match x, y with
  | None, None => True
  | Some (i, o, vs), Some (i', o', vs') => i = i' /\ (o = true -> o' = true) /\ Forall2 variant_rel vs vs'
  | _, _ => False
  end.
Record rview d d' : Prop := {
  r_own : Forall2 relaxed (own_args d) (own_args d');
  r_flat : Forall2 flat_rel (flattened d) (flattened d');
  r_sub : sub_rel (subcommand d) (subcommand d')
}.
Lemma eased_view d d' : eased d d' -> rview d d'.
Proof.
  intros [at_ at_' fs fs' H].
  assert (G : Forall2 relaxed (flat_map own_arg fs) (flat_map own_arg fs') /\ Forall2 flat_rel (flat_map flat_field fs) (flat_map flat_field fs') /\
    sub_rel (hd_error (flat_map sub_field fs)) (hd_error (flat_map sub_field fs'))).
  { induction H as [|id fd fd' l l' Hf Hl (E1 & E2 & E3)]; [repeat split; constructor|]. cbn [flat_map].
    inversion Hf as [i m t m' t' Hr|i x x' Hx|i o o' vs vs' Ho Hv]; subst; cbn [own_arg flat_field sub_field fst snd app hd_error]; repeat split; try assumption.
    - constructor; assumption.
    - constructor; [split; [reflexivity|exact Hx]|exact E2].
    - clear - Hv. induction Hv as [|id vd vd' l l' H1 H2 IH]; constructor; [split; [reflexivity|exact H1]|exact IH]. }
  destruct G as (G1 & G2 & G3). split; assumption.
Qed.

(** ** Arguments *)

Section Args.
Variables a b : sarg.
Hypothesis R : relaxed a b.
Lemma rel_takes : takes_value b = takes_value a.
Proof. pose proof (rx_shape _ _ _ _ R) as H. unfold takes_value. destruct (shape_a a), (shape_a b); cbn in H; try discriminate H; reflexivity. Qed.
Lemma rel_many : many a = true -> many b = true.
Proof. pose proof (rx_shape _ _ _ _ R) as H. unfold many. destruct (shape_a a), (shape_a b); cbn in H; try discriminate H; try discriminate; reflexivity. Qed.
Lemma rel_equals : needs_equals a = false -> needs_equals b = false.
Proof. intros E. destruct (needs_equals b) eqn:E'; [|reflexivity]. rewrite (rx_equals _ _ _ _ R E') in E. discriminate. Qed.
Lemma rel_follow tok : may_follow a tok = true -> may_follow b tok = true.
Proof.
  assert (G : forall t : bytes, am_allow_hyphen_values (sa_meta a) || (am_allow_negative_numbers (sa_meta a) && forallb is_ascii_digit t) = true ->
    am_allow_hyphen_values (sa_meta b) || (am_allow_negative_numbers (sa_meta b) && forallb is_ascii_digit t) = true).
  { intros t H. apply orb_true_iff in H. destruct H as [H|H]; [rewrite (rx_hyphen _ _ _ _ R H); reflexivity|]. apply andb_true_iff in H. destruct H as [H1 ->].
    destruct (rx_negative _ _ _ _ R H1) as [-> | ->]; [apply orb_true_r|reflexivity]. }
  unfold may_follow. destruct tok as [|x t]; [reflexivity|]. intros H. destruct x; try reflexivity. destruct t as [|y t]; [reflexivity|]. exact (G _ H).
Qed.
Lemma rel_name n : ~ new_name n -> has_nameb b n = has_nameb a n.
Proof.
  intros Hn. destruct (has_nameb a n) eqn:E.
  - apply has_nameb_spec. apply (rx_names _ _ _ _ R). apply has_nameb_spec. exact E.
  - destruct (has_nameb b n) eqn:E'; [|reflexivity]. apply has_nameb_spec in E'. destruct (rx_new _ _ _ _ R n E') as [K|K]; [|contradiction].
    apply has_nameb_spec in K. congruence.
Qed.
Lemma rel_folded v : folded b v = folded a v.
Proof. unfold folded. rewrite (rx_case _ _ _ _ R). reflexivity. Qed.
Lemma rel_pieces t : arg_facts a -> pieces b t = pieces a t.
Proof.
  intros Ha. unfold pieces. rewrite (rx_delimiter _ _ _ _ R). destruct (am_value_delimiter (sa_meta a)) eqn:E; [|reflexivity].
  assert (Hm : many a = true) by (apply (ar_delim a Ha); congruence). rewrite Hm, (rel_many Hm). reflexivity.
Qed.
Lemma rel_error prior v : arg_facts a -> value_error a prior v = None -> value_error b prior v = None.
Proof.
  intros Ha. pose proof (rel_pieces (match v with Some t => t | None => [] end) Ha) as P.
  assert (S : many a = false -> pieces a (match v with Some t => t | None => [] end) = [match v with Some t => t | None => [] end]) by (apply pieces_single; exact Ha).
  pose proof (rx_shape _ _ _ _ R) as H. unfold value_error. rewrite (rx_type _ _ _ _ R). rewrite P. unfold many in S.
  destruct (shape_a a), (shape_a b); cbn in H; try discriminate H; try tauto; destruct prior; try discriminate; rewrite S by reflexivity; tauto.
Qed.
Lemma rel_occ prior v : arg_facts a -> occ_error a prior v = None -> occ_error b prior v = None.
Proof.
  intros Ha. unfold occ_error. rewrite rel_folded. destruct (value_error a prior (folded a v)) eqn:E; [discriminate|]. rewrite (rel_error _ _ Ha E). reflexivity.
Qed.
Lemma rel_parsed t : arg_facts a -> parsed b t = parsed a t.
Proof. intros Ha. unfold parsed. rewrite (rel_pieces t Ha), (rx_type _ _ _ _ R). reflexivity. Qed.
Lemma rel_all vals : arg_facts a -> all_parsed b vals = all_parsed a vals.
Proof. intros Ha. unfold all_parsed. apply flat_map_ext. intros v. apply rel_parsed. exact Ha. Qed.
Lemma rel_content vals v : arg_facts a -> vals_ok a vals -> content a vals = Some v -> exists w, content b vals = Some w /\ widened v w.
Proof.
  intros Ha Hok. rewrite !content_eq, (rel_all vals Ha). pose proof (rx_shape _ _ _ _ R) as H.
  assert (S : (shape_a a = ShOne \/ shape_a a = ShOpt) -> vals = [] \/ exists x y, vals = [y] /\ all_parsed a vals = [x]).
  { intros Hs. destruct vals as [|y vals]; [left; reflexivity|right]. pose proof (vals_ok_hd _ _ _ Hok) as Hh.
    assert (Hm : many a = false) by (unfold many; destruct Hs as [-> | ->]; reflexivity).
    assert (E : vals = []).
    { destruct vals as [|z vals]; [reflexivity|]. specialize (Hok [y] z vals eq_refl). unfold value_error in Hok. destruct Hs as [Hs|Hs]; rewrite Hs in Hok; discriminate. }
    subst vals. assert (He : first_error (value_of_ty (sa_ty a)) [PlaceFacts.text y] = None) by (unfold value_error in Hh; destruct Hs as [Hs|Hs]; rewrite Hs in Hh; exact Hh).
    destruct (first_error_one _ _ He) as (x & _ & Ex). exists x, y. split; [reflexivity|]. unfold all_parsed. cbn [flat_map]. rewrite app_nil_r, parsed_good, (pieces_single a _ Ha Hm). exact Ex. }
  destruct (shape_a a), (shape_a b); cbn in H; try discriminate H; try (intros E; eexists; split; [exact E|apply widened_same]).
  - destruct (S (or_introl eq_refl)) as [->|(x & y & -> & ->)]; [discriminate|]. intros E. injection E as <-. eexists. split; [reflexivity|constructor].
  - destruct (S (or_introl eq_refl)) as [->|(x & y & -> & ->)]; [discriminate|]. intros E. injection E as <-. eexists. split; [reflexivity|constructor].
  - destruct (S (or_introl eq_refl)) as [->|(x & y & -> & ->)]; [discriminate|]. intros E. injection E as <-. eexists. split; [reflexivity|constructor].
  - destruct (S (or_intror eq_refl)) as [->|(x & y & -> & ->)]; intros E; injection E as <-; eexists; (split; [reflexivity|]); [exact (widened_opt_many None)|exact (widened_opt_many (Some x))].
  - destruct (S (or_intror eq_refl)) as [->|(x & y & -> & ->)]; intros E; injection E as <-; eexists; (split; [reflexivity|]); [exact (widened_opt_optmany None)|exact (widened_opt_optmany (Some x))].
  - intros E. injection E as <-. exists (FvOptionOption (match vals with [] => None | None :: _ => Some None | Some t :: _ => Some (hd_error (parsed a t)) end)).
    split; [|apply widened_same]. destruct vals as [|[t|] vals]; [reflexivity| |reflexivity]. rewrite (rel_parsed t Ha). reflexivity.
  - intros E. injection E as <-. eexists. split; [reflexivity|]. destruct vals; constructor.
  - intros E. injection E as <-. eexists. split; [reflexivity|]. destruct vals; constructor.
Qed.
Lemma rel_default : am_default_value (sa_meta b) = am_default_value (sa_meta a) -> am_default_value_t (sa_meta b) = am_default_value_t (sa_meta a) ->
  (am_default_value_t (sa_meta a) = None \/ sa_ty b = sa_ty a) -> default_of b = default_of a.
Proof.
  intros E1 E2 E3. unfold default_of. rewrite E1, E2. destruct E3 as [->| E3]; [reflexivity|]. unfold shape_a. rewrite E3. reflexivity.
Qed.
Lemma rel_readable : arg_facts a -> is_required a = false -> default_readable a = true -> default_readable b = true.
Proof.
  intros Ha Hr Hd. destruct (rx_default _ _ _ _ R) as [[K _]|(E1 & E2 & E3)]; [congruence|]. unfold default_readable in *. rewrite (rel_default E1 E2 E3).
  destruct (default_of a) as [|t|x]; [reflexivity| |reflexivity]. destruct (value_error a false (Some t)) eqn:E; [discriminate|]. rewrite (rel_error _ _ Ha E). reflexivity.
Qed.
Lemma rel_value vals v : arg_facts a -> vals_ok a (map (folded a) vals) -> (vals = [] -> is_required a = false /\ default_readable a = true) ->
  field_value a vals = Some v -> exists w, field_value b vals = Some w /\ widened v w.
Proof.
  intros Ha Hok Hd. unfold field_value. destruct vals as [|x vals].
  - destruct (Hd eq_refl) as [Hr Hre]. destruct (rx_default _ _ _ _ R) as [[K _]|(E1 & E2 & E3)]; [congruence|]. rewrite (rel_default E1 E2 E3). unfold default_readable in Hre.
    destruct (default_of a) as [|t|x] eqn:Ed.
    + apply rel_content; [exact Ha|apply vals_ok_nil].
    + destruct (value_error a false (Some t)) eqn:E; [discriminate|]. apply rel_content; [exact Ha|]. apply (vals_ok_snoc a []); [apply vals_ok_nil|exact E].
    + intros E. exists v. split; [|constructor]. unfold default_content in *. destruct E3 as [E3|E3]; [|unfold shape_a in *; rewrite E3; exact E].
      unfold default_of in Ed. rewrite E3 in Ed. destruct (am_default_value (sa_meta a)); discriminate.
  - replace (map (folded b) (x :: vals)) with (map (folded a) (x :: vals)) by (apply map_ext; intros y; symmetry; apply rel_folded).
    apply rel_content; assumption.
Qed.
End Args.

(** ** Names *)

Lemma Forall2_app' {A B} (Q : A -> B -> Prop) l l' m m' : Forall2 Q l l' -> Forall2 Q m m' -> Forall2 Q (l ++ m) (l' ++ m').
Proof. apply Forall2_app. Qed.
Lemma filter_rel {A B} (Q : A -> B -> Prop) (f : A -> bool) (g : B -> bool) l l' : (forall x y, Q x y -> g y = f x) -> Forall2 Q l l' -> Forall2 Q (filter f l) (filter g l').
Proof.
  intros Hf. induction 1 as [|x y l l' H _ IH]; [constructor|]. cbn [filter]. rewrite (Hf x y H). destruct (f x); [constructor; assumption|exact IH].
Qed.
Lemma find_rel {A B} (Q : A -> B -> Prop) (f : A -> bool) (g : B -> bool) l l' x : (forall x y, Q x y -> g y = f x) -> Forall2 Q l l' -> find f l = Some x ->
  exists y, find g l' = Some y /\ Q x y.
Proof.
  intros Hf. induction 1 as [|z y l l' H _ IH]; [discriminate|]. cbn [find]. rewrite (Hf z y H). destruct (f z); [|exact IH].
  intros E. injection E as <-. exists y. split; [reflexivity|exact H].
Qed.
Definition place_rel {A} (x y : A * sarg) : Prop := fst x = fst y /\ relaxed (snd x) (snd y).
Lemma reach_rel d : forall d', eased d d' -> Forall2 place_rel (reach d) (reach d').
Proof.
  induction d as [d IHf _] using decl_induction. intros d' R. pose proof (eased_view _ _ R) as Hv. rewrite !reach_eq. apply Forall2_app'.
  - pose proof (r_own _ _ Hv) as F. induction F as [|a b l l' H F IH]; [constructor|]. cbn [map]. constructor; [|exact IH]. split; [cbn [fst]; rewrite (rx_id _ _ _ _ H); reflexivity|exact H].
  - assert (IH : forall fx, In fx (flattened d) -> forall x', eased (snd fx) x' -> Forall2 place_rel (reach (snd fx)) (reach x')).
    { intros [id x] Hi x' Rx. apply (IHf id x); [apply in_flattened; exact Hi|exact Rx]. }
    pose proof (r_flat _ _ Hv) as F. revert IH. clear - F. induction F as [|x y l l' [E Rx] F IHl]; intros IH; [constructor|]. cbn [flat_map]. apply Forall2_app'.
    + pose proof (IH x (or_introl eq_refl) _ Rx) as G. rewrite E. clear - G. induction G as [|u v l l' [E H] _ IH]; [constructor|]. cbn [map]. constructor; [|exact IH].
      split; [cbn [fst]; rewrite E; reflexivity|exact H].
    + apply IHl. intros fx Hx. apply IH. right. exact Hx.
Qed.
Definition scope_rel s s' : Prop :=
  eased (sc_decl s) (sc_decl s') /\ sc_ident s = sc_ident s' /\ sc_unit s = sc_unit s' /\ well_formed (sc_decl s) /\ well_formed (sc_decl s').
Definition stack_rel stk stk' : Prop := Forall2 scope_rel stk stk'.
Lemma scope_args_rel n s s' : scope_rel s s' -> Forall2 place_rel (scope_args n s) (scope_args n s').
Proof.
  intros [R _]. unfold scope_args. pose proof (reach_rel _ _ R) as G. induction G as [|u v l l' [E H] _ IH]; [constructor|]. cbn [map]. constructor; [|exact IH].
  split; [cbn [fst]; rewrite E; reflexivity|exact H].
Qed.
Lemma stack_args_rel stk stk' : stack_rel stk stk' -> Forall2 place_rel (stack_args stk) (stack_args stk').
Proof.
  induction 1 as [|s s' stk stk' Rs R IH]; [constructor|]. cbn [stack_args]. apply Forall2_app'; [|exact IH].
  rewrite (OrderFacts.Forall2_length R). apply scope_args_rel. exact Rs.
Qed.
Definition new_names stk : Prop :=
  (forall n, new_name n -> stack_every (fun b => negb (has_nameb b n)) stk) /\
  (forall n, raised n -> stack_every (fun b => negb (is_global b && has_nameb b n)) stk).
Lemma find_filter {A} (f g : A -> bool) l : find f (filter g l) = find (fun x => g x && f x) l.
Proof. induction l as [|x l IH]; [reflexivity|]. cbn [filter find]. destruct (g x); cbn [find andb]; [destruct (f x); [reflexivity|exact IH]|exact IH]. Qed.
Lemma find_rel_none {A B} (Q : A -> B -> Prop) (f : A -> bool) (g : B -> bool) l l' : (forall x y, Q x y -> g y = f x) -> Forall2 Q l l' ->
  find f l = None -> find g l' = None.
Proof. intros Hf. induction 1 as [|z y l l' H _ IH]; [reflexivity|]. cbn [find]. rewrite (Hf z y H). destruct (f z); [discriminate|exact IH]. Qed.
Lemma find_app {A} (f : A -> bool) l m : find f (l ++ m) = match find f l with Some x => Some x | None => find f m end.
Proof. induction l as [|x l IH]; [reflexivity|]. cbn [find app]. destruct (f x); [reflexivity|exact IH]. Qed.
Lemma resolve_rel stk stk' n ad a : new_names stk -> stack_rel stk stk' -> resolve stk n = Some (ad, a) ->
  exists b, resolve stk' n = Some (ad, b) /\ relaxed a b.
Proof.
  intros [Hn Hg] R E. assert (N : ~ new_name n).
  { intros C. unfold resolve in E. apply find_some in E. destruct E as [Hi Hx]. apply in_scope_args in Hi.
    pose proof (every_stack_args _ stk (Hn n C) _ Hi) as K. cbn beta in K. rewrite Hx in K. discriminate. }
  assert (G : exists x, find (fun x => has_nameb (snd x) n) (in_scope stk') = Some x /\ place_rel (ad, a) x).
  2: { destruct G as ([ad' b] & E' & [H1 H2]). cbn [fst snd] in *. subst ad'. exists b. split; assumption. }
  unfold resolve in E. destruct R as [|s s' stk stk' Rs R]; [discriminate|]. cbn [in_scope] in *. rewrite find_app in *.
  assert (F : Forall2 place_rel (scope_args (length stk) s) (scope_args (length stk') s')) by (rewrite (OrderFacts.Forall2_length R); apply scope_args_rel; exact Rs).
  destruct (find (fun x => has_nameb (snd x) n) (scope_args (length stk) s)) as [x|] eqn:E1.
  - injection E as ->. destruct (find_rel place_rel _ (fun x => has_nameb (snd x) n) _ _ _ (fun x y H => rel_name _ _ (proj2 H) n N) F E1) as (y & E2 & H). rewrite E2.
    exists y. split; [reflexivity|exact H].
  - rewrite (find_rel_none place_rel _ (fun x => has_nameb (snd x) n) _ _ (fun x y H => rel_name _ _ (proj2 H) n N) F E1). rewrite find_filter in *.
    assert (U : ~ raised n).
    { intros C. apply find_some in E. destruct E as [Hi Hx]. cbn [snd] in Hx. pose proof (Hg n C) as K. inversion K as [|s0 l0 K1 K2]; subst.
      pose proof (every_stack_args _ stk K2 _ Hi) as Z. cbn [snd] in Z. rewrite Hx in Z. discriminate. }
    eapply find_rel; [|exact (stack_args_rel _ _ R)|exact E]. intros x y [_ H]. cbn beta. rewrite (rel_name _ _ H n N).
    destruct (has_nameb (snd x) n) eqn:Ex; [|rewrite !andb_false_r; reflexivity]. rewrite !andb_true_r.
    destruct (is_global (snd x)) eqn:Gx; [exact (rx_global _ _ _ _ H Gx)|]. destruct (is_global (snd y)) eqn:Gy; [|reflexivity]. exfalso.
    destruct (rx_raised _ _ _ _ H Gy) as [C|C]; [rewrite C in Gx; discriminate|]. apply U, C. apply has_nameb_spec. exact Ex.
Qed.

(** ** Reading *)

Definition plains stk : list sarg := match stk with s :: _ => filter plain (own_args (sc_decl s)) | [] => [] end.
Definition rem_rel stk stk' (rem rem' : list sarg) : Prop :=
  exists pl, rem = pl ++ lasts stk /\ (forall p, In p pl -> is_last p = false) /\
    (pl = [] \/ exists pl' pre, rem' = pl' ++ lasts stk' /\ Forall2 relaxed pl pl' /\ plains stk' = pre ++ pl').
Definition verb_rel stk' (rem rem' : list sarg) : Prop :=
  rem = [] \/ Forall2 relaxed rem rem' /\ ((exists pre, plains stk' = pre ++ rem') \/ forall p, In p rem -> many p = true).
Lemma rel_closing a b : relaxed a b -> closing b = closing a.
Proof. intros R. unfold closing. rewrite (rx_option _ _ _ _ R), (rx_last _ _ _ _ R). reflexivity. Qed.
Lemma rel_plain a b : relaxed a b -> plain b = plain a.
Proof. intros R. unfold plain. rewrite (rx_option _ _ _ _ R), (rx_last _ _ _ _ R). reflexivity. Qed.
Lemma lasts_rel stk stk' : stack_rel stk stk' -> Forall2 relaxed (lasts stk) (lasts stk').
Proof.
  intros R. destruct R as [|s s' stk stk' [R _] _]; [constructor|]. cbn [lasts]. apply filter_rel; [exact rel_closing|]. exact (r_own _ _ (eased_view _ _ R)).
Qed.
Lemma lasts_last stk p : In p (lasts stk) -> is_last p = true.
Proof.
  destruct stk as [|s stk]; [intros []|]. cbn [lasts]. intros H. apply filter_In in H. destruct H as [_ H]. apply andb_true_iff in H. exact (proj2 H).
Qed.
Lemma rem_start s s' stk stk' : scope_rel s s' -> rem_rel (s :: stk) (s' :: stk') (positionals (sc_decl s)) (positionals (sc_decl s')).
Proof.
  intros [R _]. exists (filter plain (own_args (sc_decl s))). rewrite !positionals_split. split; [reflexivity|]. split.
  - intros p Hp. apply filter_In in Hp. destruct Hp as [_ Hp]. apply andb_true_iff in Hp. apply negb_true_iff. exact (proj2 Hp).
  - right. exists (filter plain (own_args (sc_decl s'))), []. split; [reflexivity|]. split; [|reflexivity].
    apply filter_rel; [exact rel_plain|]. exact (r_own _ _ (eased_view _ _ R)).
Qed.

Definition occ_rel (o o' : occ) : Prop := oc_addr o' = oc_addr o /\ oc_val o' = oc_val o /\ relaxed (oc_arg o) (oc_arg o').
Definition state_rel (st st' : state V) : Prop :=
  match st, st' with
  | Normal stk rem, Normal stk' rem' => stack_rel stk stk' /\ rem_rel stk stk' rem rem'
  | Await stk rem ad a, Await stk' rem' ad' a' => stack_rel stk stk' /\ rem_rel stk stk' rem rem' /\ ad = ad' /\ relaxed a a'
  | Verbatim stk rem, Verbatim stk' rem' => stack_rel stk stk' /\ verb_rel stk' rem rem'
  | Drain stk p, Drain stk' p' => stack_rel stk stk' /\ relaxed p p'
  | _, _ => False
  end.
Definition follows (x y : list occ * outcome V) : Prop :=
  match snd x with
  | Go st => Forall2 occ_rel (fst x) (fst y) /\ exists st', snd y = Go st' /\ state_rel st st'
  | Stop _ => True
  end.

Section Stacks.
Variables (stk stk' : list scope).
Hypothesis Hn : new_names stk.
Hypothesis R : stack_rel stk stk'.

Lemma one_occ ad a b v : relaxed a b -> Forall2 occ_rel [Occ ad a v] [Occ ad b v].
Proof. intros H. constructor; [|constructor]. split; [reflexivity|split; [reflexivity|exact H]]. Qed.

Section Rest.
Variables (rem rem' : list sarg).
Hypothesis Hrem : rem_rel stk stk' rem rem'.
Lemma go_normal os os' : Forall2 occ_rel os os' -> follows (os, Go (Normal stk rem)) (os', Go (Normal stk' rem')).
Proof. intros H. split; [exact H|]. eexists. split; [reflexivity|]. split; [exact R|exact Hrem]. Qed.
Lemma bare_rel ad a b : relaxed a b -> follows (bare stk rem ad a) (bare stk' rem' ad b).
Proof.
  intros H. unfold bare. rewrite (rel_takes _ _ H). destruct (takes_value a); [|apply go_normal; apply one_occ; exact H].
  destruct (needs_equals a) eqn:E; [exact I|]. rewrite (rel_equals _ _ H E). split; [constructor|]. eexists. split; [reflexivity|]. split; [exact R|split; [exact Hrem|split; [reflexivity|exact H]]].
Qed.
Lemma long_rel (s : bytes) v : follows (read_long stk rem s v) (read_long stk' rem' s v).
Proof.
  unfold read_long. destruct (resolve stk (Long s)) as [[ad a]|] eqn:E; [|exact I]. destruct (resolve_rel stk stk' _ _ _ Hn R E) as (b & -> & H).
  destruct v; [apply go_normal; apply one_occ; exact H|apply bare_rel; exact H].
Qed.
Lemma bundle_rel junk cs : follows (read_bundle stk rem cs junk) (read_bundle stk' rem' cs junk).
Proof.
  induction cs as [|c cs IH]; cbn [read_bundle]; [destruct junk; [apply go_normal; constructor|exact I]|].
  destruct (resolve stk (Short c)) as [[ad a]|] eqn:E; [|exact I]. destruct (resolve_rel stk stk' _ _ _ Hn R E) as (b & -> & H).
  assert (K : forall v, follows (let '(os, out) := read_bundle stk rem cs junk in (Occ ad a v :: os, out)) (let '(os, out) := read_bundle stk' rem' cs junk in (Occ ad b v :: os, out))).
  { intros v. unfold follows in *. destruct (read_bundle stk rem cs junk) as [os [st|sp]], (read_bundle stk' rem' cs junk) as [os' out']; cbn [fst snd] in *; [|exact I].
    destruct IH as (Ho & st' & -> & Rs). split; [constructor; [split; [reflexivity|split; [reflexivity|exact H]]|exact Ho]|]. exists st'. split; [reflexivity|exact Rs]. }
  destruct (encode_all cs ++ junk) as [|x v]; [apply bare_rel; exact H|].
  assert (N : follows (if needs_equals a then ([], Stop (SErr (error_about MissingEq a)))
                       else if takes_value a then ([Occ ad a (Some (x :: v))], Go (Normal stk rem))
                       else let '(os, out) := read_bundle stk rem cs junk in (Occ ad a None :: os, out))
                      (if needs_equals b then ([], Stop (SErr (error_about MissingEq b)))
                       else if takes_value b then ([Occ ad b (Some (x :: v))], Go (Normal stk' rem'))
                       else let '(os, out) := read_bundle stk' rem' cs junk in (Occ ad b None :: os, out))).
  { destruct (needs_equals a) eqn:En; [exact I|]. rewrite (rel_equals _ _ H En), (rel_takes _ _ H). destruct (takes_value a); [apply go_normal; apply one_occ; exact H|apply K]. }
  destruct x; try exact N. rewrite (rel_takes _ _ H). destruct (takes_value a); [apply go_normal; apply one_occ; exact H|apply K].
Qed.
Lemma word_rel tok : follows (take_word false stk rem tok) (take_word false stk' rem' tok).
Proof.
  unfold take_word. destruct Hrem as (pl & -> & Hl & Hr). destruct pl as [|p pl]; cbn [app orb].
  - destruct (lasts stk) as [|p ls] eqn:E; [exact I|]. rewrite (lasts_last stk p) by (rewrite E; left; reflexivity). exact I.
  - destruct Hr as [Hr|(pl' & pre & -> & F & Ep)]; [discriminate|]. inversion F as [|q p' l l' Hp Fl]; subst. cbn [app].
    rewrite (rx_last _ _ _ _ Hp), (Hl p (or_introl eq_refl)). cbn [negb]. rewrite (OrderFacts.Forall2_length R), (rx_id _ _ _ _ Hp), (rx_greedy _ _ _ _ Hp). split; [apply one_occ; exact Hp|]. cbn [snd].
    eexists. split; [reflexivity|]. destruct (greedy p); [split; [exact R|exact Hp]|]. split; [exact R|].
    destruct (many p) eqn:Em.
    + rewrite (rel_many _ _ Hp Em). exact Hrem.
    + exists pl. split; [reflexivity|]. split; [intros q Hq; apply Hl; right; exact Hq|]. destruct (many p') eqn:Em'.
      * left. destruct R as [|s s' k k' (_ & _ & _ & _ & W') _]; [destruct pre; discriminate|]. cbn [plains] in Ep. inversion W' as [d0 L _ _]; subst d0.
        rewrite (ls_many _ L _ _ _ Ep Em') in Fl. inversion Fl. reflexivity.
      * right. exists l', (pre ++ [p']). split; [reflexivity|]. split; [exact Fl|]. rewrite Ep, <- app_assoc. reflexivity.
Qed.
Lemma sep_rel : verb_rel stk' (after_sep stk rem) (after_sep stk' rem').
Proof.
  clear Hn. assert (Plain : lasts stk = [] -> verb_rel stk' rem rem').
  { intros E. pose proof (lasts_rel _ _ R) as F. rewrite E in F. assert (E' : lasts stk' = []) by (inversion F; reflexivity). destruct Hrem as (pl & -> & Hl & Hr). rewrite E, app_nil_r.
    destruct Hr as [->|(pl' & pre & -> & Fp & Ep)]; [left; reflexivity|right]. rewrite E', app_nil_r. split; [exact Fp|left; exists pre; exact Ep]. }
  unfold after_sep. pose proof (lasts_rel _ _ R) as F. destruct R as [|s s' l l' (Rd & _ & _ & W & W') _]; [apply Plain; reflexivity|].
  rewrite !last_split. change (filter closing (own_args (sc_decl s))) with (lasts (s :: l)). change (filter closing (own_args (sc_decl s'))) with (lasts (s' :: l')).
  destruct (lasts (s :: l)) as [|p ls] eqn:E; destruct (lasts (s' :: l')) as [|p' ls'] eqn:E'; inversion F as [|q q' k k' Hp Fl]; [apply Plain; reflexivity|]. subst.
  right. split; [constructor; assumption|right]. intros q' Hq. assert (Hc : In q' (lasts (s :: l))) by (rewrite E; exact Hq). cbn [lasts] in Hc.
  pose proof (lasts_last (s :: l) q' Hc) as Hla. apply filter_In in Hc. inversion W as [d0 L _ _]; subst d0. exact (la_last _ (ls_args _ L q' (proj1 Hc)) Hla).
Qed.
End Rest.
Lemma verbatim_rel rem rem' tok : verb_rel stk' rem rem' -> follows (take_word true stk rem tok) (take_word true stk' rem' tok).
Proof.
  unfold take_word. intros [->|[F Hs]]; [exact I|]. destruct F as [|p p' rem rem' Hp F]; [exact I|]. cbn [orb].
  rewrite (OrderFacts.Forall2_length R), (rx_id _ _ _ _ Hp), (rx_greedy _ _ _ _ Hp). split; [apply one_occ; exact Hp|]. cbn [snd].
  eexists. split; [reflexivity|]. destruct (greedy p); [split; [exact R|exact Hp]|]. split; [exact R|]. destruct (many p) eqn:Em.
  - rewrite (rel_many _ _ Hp Em). right. split; [constructor; assumption|exact Hs].
  - destruct Hs as [[pre Ep]|Hs]; [|rewrite (Hs p (or_introl eq_refl)) in Em; discriminate]. destruct (many p') eqn:Em'.
    + left. destruct R as [|s s' k k' (_ & _ & _ & _ & W') _]; [destruct pre; discriminate|]. cbn [plains] in Ep. inversion W' as [d0 L _ _]; subst d0.
      rewrite (ls_many _ L _ _ _ Ep Em') in F. inversion F. reflexivity.
    + right. split; [exact F|]. left. exists (pre ++ [p']). rewrite Ep, <- app_assoc. reflexivity.
Qed.
Lemma variant_scope_rel v w : variant_rel v w -> well_formed (sc_decl (variant_scope v)) -> well_formed (sc_decl (variant_scope w)) -> scope_rel (variant_scope v) (variant_scope w).
Proof.
  destruct v as [id vd], w as [id' vd']. intros [H1 H2]. cbn [fst snd] in *. subst id'. unfold scope_rel, variant_scope. cbn [fst snd].
  inversion H2 as [at_ at_'|at_ at_' x x' Hx|x x' Hx]; subst; cbn [sc_decl sc_ident sc_unit]; intros W W'; (split; [try exact Hx; constructor; constructor|]); (split; [reflexivity|]); (split; [reflexivity|]); split; assumption.
Qed.
Lemma named_rel tok :
  match first_named (sub_variants stk) tok, first_named (sub_variants stk') tok with
  | None, None => True
  | Some v, Some w => scope_rel (variant_scope v) (variant_scope w)
  | _, _ => False
  end.
Proof.
  clear Hn. unfold sub_variants. destruct R as [|s s' l l' (Rd & _ & _ & W & W') _]; [exact I|]. pose proof (r_sub _ _ (eased_view _ _ Rd)) as H.
  destruct (subcommand (sc_decl s)) as [[[i o] vs]|] eqn:E, (subcommand (sc_decl s')) as [[[i' o'] vs']|] eqn:E'; cbn [sub_rel] in H; try contradiction; [|exact I].
  destruct H as (_ & _ & H).
  assert (G : match first_named vs tok, first_named vs' tok with None, None => True | Some v, Some w => variant_rel v w /\ In v vs /\ In w vs' | _, _ => False end).
  { clear - H. unfold first_named. induction H as [|v w m m' Rv F IH]; [exact I|]. cbn [find].
    replace (sub_name w) with (sub_name v) by (unfold sub_name; rewrite (proj1 Rv); reflexivity).
    destruct (beqb (sub_name v) tok); [split; [exact Rv|]; split; left; reflexivity|].
    destruct (find (fun v => beqb (sub_name v) tok) m), (find (fun v => beqb (sub_name v) tok) m'); try exact IH.
    destruct IH as (H1 & H2 & H3). split; [exact H1|]. split; right; assumption. }
  destruct (first_named vs tok) as [v|], (first_named vs' tok) as [w|]; try exact G. destruct G as (G1 & G2 & G3).
  apply variant_scope_rel; [exact G1|exact (wf_subcommand _ _ _ _ _ W E G2)|exact (wf_subcommand _ _ _ _ _ W' E' G3)].
Qed.
End Stacks.

Lemma step_rel st st' tok : new_names (state_stack st) -> state_rel st st' -> follows (step first_named st tok) (step first_named st' tok).
Proof.
  destruct st as [stk rem|stk rem ad a|stk rem|stk p], st' as [stk' rem'|stk' rem' ad' a'|stk' rem'|stk' p']; cbn [state_rel state_stack step]; try contradiction; intros Hn.
  - intros [R Hr]. destruct (form_of tok) as [|s v|b|].
    + split; [constructor|]. eexists. split; [reflexivity|]. split; [exact R|]. apply sep_rel; assumption.
    + apply long_rel; assumption.
    + destruct (utf8_prefix b) as [cs junk]. apply bundle_rel; assumption.
    + pose proof (named_rel stk stk' R tok) as H.
      destruct (first_named (sub_variants stk) tok) as [v|], (first_named (sub_variants stk') tok) as [w|]; try contradiction; [|apply word_rel; assumption].
      split; [constructor|]. eexists. split; [reflexivity|]. split; [constructor; [exact H|exact R]|]. apply rem_start. exact H.
  - intros (R & Hr & <- & Ha). destruct (may_follow a tok) eqn:E; [|exact I]. rewrite (rel_follow _ _ Ha tok E). apply go_normal; [assumption|assumption|apply one_occ; exact Ha].
  - intros [R Hr]. apply verbatim_rel; assumption.
  - intros [R Hp]. rewrite (OrderFacts.Forall2_length R), (rx_id _ _ _ _ Hp). split; [apply one_occ; exact Hp|]. eexists. split; [reflexivity|]. split; [exact R|exact Hp].
Qed.
Lemma read_rel toks : forall st st', new_names (state_stack st) -> state_rel st st' -> follows (read first_named st toks) (read first_named st' toks).
Proof.
  induction toks as [|tok toks IH]; intros st st' Hn R; [split; [constructor|]; eexists; split; [reflexivity|exact R]|]. cbn [read].
  pose proof (step_rel st st' tok Hn R) as H. destruct (step first_named st tok) as [os out] eqn:E. unfold follows in H. cbn [fst snd] in H.
  destruct out as [st1|sp]; [|exact I]. destruct H as (H1 & st1' & H2 & R1). destruct (step first_named st' tok) as [os' out']. cbn [fst snd] in H1, H2. subst.
  assert (Hn1 : new_names (state_stack st1)).
  { assert (K : forall p, stack_every p (state_stack st) -> stack_every p (state_stack st1)).
    { intros p Hp. apply (read_every p first_named) with (toks := [tok]) (st := st) (os := os ++ []).
      - intros vs t v Hf. apply find_some in Hf. exact (proj1 Hf).
      - exact Hp.
      - cbn [read]. rewrite E. reflexivity. }
    destruct Hn as [Hn Hg]. split; intros n Hna; apply K; [exact (Hn n Hna)|exact (Hg n Hna)]. }
  pose proof (IH st1 st1' Hn1 R1) as G. unfold follows in *. destruct (read first_named st1 toks) as [os1 [st2|sp]]; cbn [fst snd] in *; [|exact I].
  destruct G as (G1 & st2' & G2 & R2). destruct (read first_named st1' toks) as [os1' out1']. cbn [fst snd] in *. subst. split; [apply Forall2_app'; assumption|].
  exists st2'. split; [reflexivity|exact R2].
Qed.

(** ** Values *)

Lemma values_rel os os' ad : Forall2 occ_rel os os' -> values_of os' ad = values_of os ad.
Proof.
  unfold values_of. induction 1 as [|o o' os os' (H1 & H2 & _) _ IH]; [reflexivity|]. cbn [filter]. rewrite H1. destruct (addr_eqb ad (oc_addr o)); [|exact IH].
  cbn [map]. rewrite H2, IH. reflexivity.
Qed.
Lemma given_rel os os' ad : Forall2 occ_rel os os' -> given os' ad = given os ad.
Proof. intros F. unfold given. rewrite (values_rel _ _ ad F). reflexivity. Qed.
Lemma bad_rel os os' : Forall2 occ_rel os os' -> (forall o, In o os -> arg_facts (oc_arg o)) -> forall before before', Forall2 occ_rel before before' ->
  first_bad before os = None -> first_bad before' os' = None.
Proof.
  induction 1 as [|o o' os os' Ho F IH]; intros Ha before before' Fb; [reflexivity|]. cbn [first_bad]. destruct Ho as (H1 & H2 & H3) eqn:EH.
  rewrite H1, H2, (given_rel _ _ _ Fb). destruct (occ_error (oc_arg o) (given before (oc_addr o)) (oc_val o)) eqn:E; [discriminate|].
  rewrite (rel_occ _ _ H3 _ _ (Ha o (or_introl eq_refl)) E). apply IH; [intros x Hx; apply Ha; right; exact Hx|]. apply Forall2_app'; [exact Fb|]. constructor; [split; [exact H1|split; assumption]|constructor].
Qed.

Definition vals_in os level path d : Prop :=
  forall p a, In (p, a) (reach d) -> vals_ok a (map (folded a) (values_of os (Addr level (path ++ p)))).
Lemma vals_flat os level path d id x : In (id, x) (flattened d) -> vals_in os level path d -> vals_in os level (path ++ [id]) x.
Proof.
  intros Hx H p a Hp. rewrite <- app_assoc. apply (H (id :: p)). rewrite reach_eq. apply in_app_iff. right. apply in_flat_map. exists (id, x). split; [exact Hx|].
  cbn [fst snd]. apply in_map_iff. exists (p, a). split; [reflexivity|exact Hp].
Qed.
Lemma vals_own os level path d a : In a (own_args d) -> vals_in os level path d -> vals_ok a (map (folded a) (values_of os (at_field level path (sa_id a)))).
Proof.
  intros Ha H. apply (H [sa_id a]). rewrite reach_eq. apply in_app_iff. left. apply in_map_iff. exists a. split; [reflexivity|exact Ha].
Qed.
Definition sub_wide (s s' : option (subval V)) : Prop :=
  match s, s' with None, None => True | Some x, Some y => widened_subval x y | _, _ => False end.

Lemma checked_rel d d' : rview d d' -> Forall2 relaxed (checked d) (checked d').
Proof.
  intros Hv. unfold checked. apply Forall2_app'.
  - apply filter_rel; [intros a b H; exact (rx_option _ _ _ _ H)|exact (r_own _ _ Hv)].
  - rewrite !positionals_split. apply Forall2_app'; (apply filter_rel; [|exact (r_own _ _ Hv)]); [exact rel_plain|exact rel_closing].
Qed.
Lemma struct_rel os os' level path d d' flats flats' sub sub' o : Forall2 occ_rel os os' -> eased d d' -> accepted d -> vals_in os level path d ->
  widened_flats flats flats' -> sub_wide sub sub' -> finish_struct os level path d flats sub = Ok o ->
  exists o', finish_struct os' level path d' flats' sub' = Ok o' /\ widened_values o o'.
Proof.
  intros F R Acc Hvs Hf Hs H. pose proof (eased_view _ _ R) as Hv. apply finish_struct_Ok in H. destruct H as ((H1 & H2 & H3) & H4 & ->).
  assert (Es : is_some sub' = is_some sub) by (destruct sub, sub'; try contradiction; reflexivity).
  assert (G : forall id, is_given os' level path id = is_given os level path id) by (intros id; apply given_rel; exact F).
  assert (Ev : first_violation os' level path d' (is_some sub') (checked d') = None).
  { apply FieldFacts.first_violation_None. intros b Hb. apply in_checked in Hb. destruct (Forall2_in_r _ _ _ _ (r_own _ _ Hv) Hb) as (a & Ha & Rab).
    apply violation_None. rewrite G, Es, (rx_id _ _ _ _ Rab). intros Hg. destruct (H2 a Ha Hg) as (C1 & C2 & C3). split; [|split].
    - intros id Hi. rewrite G. apply C1. exact (rx_conflicts _ _ _ _ Rab id Hi).
    - intros id Hi. rewrite G. apply C2. exact (rx_requires _ _ _ _ Rab id Hi).
    - intros E. destruct (C3 (rx_exclusive _ _ _ _ Rab E)) as [C4 C5]. split; [exact C4|]. intros c Hc Hne. destruct (Forall2_in_r _ _ _ _ (r_own _ _ Hv) Hc) as (c0 & Hc0 & Rc).
      rewrite G. rewrite (rx_id _ _ _ _ Rc) in *. apply C5; assumption. }
  assert (Ea : check_absent os' level path (checked d') = Ok tt).
  { apply check_absent_Ok. intros b Hb. apply in_checked in Hb. destruct (Forall2_in_r _ _ _ _ (r_own _ _ Hv) Hb) as (a & Ha & Rab). rewrite G, (rx_id _ _ _ _ Rab). intros Hg.
    destruct (H4 a Ha Hg) as [K1 K2]. split; [|exact (rel_readable _ _ Rab (accepted_arg d a Acc Ha) K1 K2)].
    destruct (is_required b) eqn:E; [|reflexivity]. rewrite (rx_required _ _ _ _ Rab E) in K1. discriminate. }
  assert (D : Forall2 (fun x y => fst x = fst y /\ widened (snd x) (snd y)) (direct_values os level path d) (direct_values os' level path d')).
  { clear Ev Ea. unfold direct_values. assert (Hin : forall a, In a (checked d) -> In a (own_args d)) by (intros a; apply in_checked). pose proof (checked_rel _ _ Hv) as Fc. revert Hin.
    induction Fc as [|a b l l' Rab Fl IH]; intros Hin; [constructor|]. cbn [flat_map]. assert (Ha : In a (own_args d)) by (apply Hin; left; reflexivity).
    pose proof (accepted_arg d a Acc Ha) as Fa. apply Forall2_app'; [|exact (IH (fun c Hc => Hin c (or_intror Hc)))].
    rewrite (rx_id _ _ _ _ Rab), (values_rel _ _ _ F). set (vals := values_of os (at_field level path (sa_id a))).
    assert (Hab : vals = [] -> is_required a = false /\ default_readable a = true).
    { intros E. apply (H4 a Ha). unfold is_given, given. fold vals. rewrite E. reflexivity. }
    pose proof (vals_own _ _ _ _ _ Ha Hvs) as Hok. fold vals in Hok.
    destruct (field_value a vals) as [v|] eqn:E.
    - destruct (rel_value _ _ Rab vals v Fa Hok Hab E) as (w & -> & Hw). constructor; [split; [reflexivity|exact Hw]|constructor].
    - exfalso. destruct vals as [|x vals'] eqn:Evs.
      + destruct (Hab eq_refl) as [K1 K2]. exact (default_some a Fa K1 K2 E).
      + unfold field_value in E. refine (content_some a _ Fa Hok _ E). discriminate. }
  unfold finish_struct. rewrite Ev, Ea. cbn [bind]. pose proof (r_sub _ _ Hv) as S.
  destruct (subcommand d) as [[[id o] vs]|], (subcommand d') as [[[id' o'] vs']|]; cbn [sub_rel] in S; try contradiction.
  - destruct S as (<- & So & _). destruct o'.
    + eexists. split; [reflexivity|]. constructor; [exact D|exact Hf|]. destruct sub, sub'; try contradiction; constructor. exact Hs.
    + assert (Eo : o = false) by (destruct o; [discriminate (So eq_refl)|reflexivity]). subst o. pose proof (H3 id vs eq_refl) as K.
      destruct sub, sub'; try contradiction; try discriminate. eexists. split; [reflexivity|]. constructor; [exact D|exact Hf|]. constructor. exact Hs.
  - eexists. split; [reflexivity|]. constructor; [exact D|exact Hf|constructor].
Qed.
Lemma wide_flats_app l l' m m' : widened_flats (V:=V) l l' -> widened_flats m m' -> widened_flats (l ++ m) (l' ++ m').
Proof. intros H. induction H as [|id o o' l l' Ho Hl IH]; intros K; [exact K|]; cbn [app]; constructor; try exact Ho; apply IH; exact K. Qed.
Lemma args_rel os os' level d : Forall2 occ_rel os os' -> forall d' path sub sub' o, well_formed d -> eased d d' -> vals_in os level path d ->
  sub_wide sub sub' -> finish_args os level path d sub = Ok o -> exists o', finish_args os' level path d' sub' = Ok o' /\ widened_values o o'.
Proof.
  intros Fo. induction d as [d IHf _] using decl_induction. intros d' path sub sub' o W R Hvs Hs. rewrite !finish_args_eq. pose proof (eased_view _ _ R) as Hv.
  inversion W as [d0 L W1 _]; subst d0.
  assert (E : forall l l' acc acc' outs, Forall2 flat_rel l l' -> (forall fx, In fx l -> In fx (flattened d)) ->
    widened_flats acc acc' -> finish_flats os level path l (Ok acc) = Ok outs ->
    exists outs', finish_flats os' level path l' (Ok acc') = Ok outs' /\ widened_flats outs outs').
  { intros l l' acc acc' outs F. revert acc acc'. induction F as [|fx fy l l' [Ei Rx] F IHl]; intros acc acc' Hl Ha E.
    - injection E as <-. exists acc'. split; [reflexivity|exact Ha].
    - unfold finish_flats in *. cbn [fold_left bind] in *. destruct fx as [id x], fy as [id' y]. cbn [fst snd] in *. subst id'.
      assert (Hi : In (id, x) (flattened d)) by (apply Hl; left; reflexivity).
      destruct (finish_args os level (path ++ [id]) x None) as [ox|e|p] eqn:Ex; cbn [bind] in E.
      + destruct (IHf id x (proj1 (in_flattened d id x) Hi) y (path ++ [id]) None None ox (W1 _ _ Hi) Rx) as (oy & Ey & M); [exact (vals_flat _ _ _ _ _ _ Hi Hvs)|exact I|exact Ex|].
        rewrite Ey. cbn [bind]. apply (IHl (acc ++ [(id, ox)])); [intros z Hz; apply Hl; right; exact Hz| |exact E].
        apply wide_flats_app; [exact Ha|]. constructor; [exact M|constructor].
      + fold (finish_flats os level path l (Err (A:=list (ident * outval V)) e)) in E. rewrite finish_flats_Err in E. discriminate.
      + fold (finish_flats os level path l (Panic (A:=list (ident * outval V)) p)) in E. rewrite finish_flats_Panic in E. discriminate. }
  destruct (finish_flats os level path (flattened d) (Ok [])) as [outs|e|p] eqn:Ef; cbn [bind]; [|discriminate|discriminate].
  destruct (E _ _ [] [] outs (r_flat _ _ Hv) (fun _ H => H) widened_nil Ef) as (outs' & Ef' & M). rewrite Ef'. cbn [bind].
  apply struct_rel; try assumption. apply accepted_well_formed. exact W.
Qed.
Lemma stack_fin_rel os os' stk stk' : Forall2 occ_rel os os' -> stack_rel stk stk' -> forall inner sub sub' o,
  Inv (inner ++ stk) os -> sub_wide sub sub' -> finish_stack os stk sub = Ok o -> exists o', finish_stack os' stk' sub' = Ok o' /\ widened_values o o'.
Proof.
  intros Fo R. induction R as [|s s' stk stk' (Rd & Ei & Eu & W & W') R IH]; intros inner sub sub' o HI Hs E; [discriminate|]. cbn [finish_stack] in *.
  rewrite <- (OrderFacts.Forall2_length R). destruct (finish_args os (length stk) [] (sc_decl s) sub) as [x|e|p] eqn:Ea; cbn [bind] in E; [|discriminate|discriminate].
  assert (Hvs : vals_in os (length stk) [] (sc_decl s)) by (intros p a Hp; apply (inv_vals _ _ HI); apply in_stack_args; exact Hp).
  destruct (args_rel os os' (length stk) _ Fo _ [] sub sub' x W Rd Hvs Hs Ea) as (y & Ey & M). rewrite Ey. cbn [bind].
  destruct R as [|s2 s2' stk stk' R2 R]; [injection E as <-; exists y; split; [reflexivity|exact M]|].
  eapply (IH (inner ++ [s])); [rewrite <- app_assoc; exact HI| |exact E]. cbn [sub_wide]. rewrite <- Ei, <- Eu. destruct (sc_unit s); constructor. exact M.
Qed.

(** ** The result *)

Lemma state_rel_stack st st' : state_rel st st' -> stack_rel (state_stack st) (state_stack st').
Proof. destruct st, st'; cbn [state_rel state_stack]; tauto. Qed.
Theorem eased_parse d d' argv o : valid d -> valid d' -> eased d d' -> new_in new_name d -> free_in raised d ->
  try_parse_from d argv = Ok o -> exists o', try_parse_from d' argv = Ok o' /\ widened_values o o'.
Proof.
  intros Hv Hv' R Hn Hg. destruct argv as [|argv0 toks]; [rewrite (refines d _ Hv); discriminate|]. rewrite (parse_conclude d argv0 toks Hv), (parse_conclude d' argv0 toks Hv').
  assert (Rs : state_rel (start d) (start d')).
  { unfold start. assert (Rd : scope_rel (Scope d [] false) (Scope d' [] false)) by (split; [exact R|]; split; [reflexivity|]; split; [reflexivity|]; split; apply accepted_well_formed; [apply Hv|apply Hv']).
    split; [|exact (rem_start _ _ [] [] Rd)]. constructor; [exact Rd|constructor]. }
  assert (Ns : new_names (state_stack (start d))) by (split; intros n Hna; (constructor; [first [exact (Hn n Hna)|exact (Hg n Hna)]|constructor])).
  pose proof (read_rel toks _ _ Ns Rs) as H. destruct (read first_named (start d) toks) as [os out] eqn:E.
  destruct (read first_named (start d') toks) as [os' out'] eqn:E'. unfold follows in H. cbn [fst snd] in H.
  intros C. destruct (conclude_Ok _ _ _ _ C) as (Hb & st & -> & Hc & Hf). destruct H as (Fo & st' & -> & Rst).
  assert (Hr : reads d toks os (state_stack st)) by (exists st; auto). pose proof (reads_inv d toks os _ Hv Hr Hb) as HI. destruct (reads_ok d toks os _ Hv Hr) as (_ & Hok & K).
  rewrite conclude_complete.
  - exact (stack_fin_rel os os' _ _ Fo (state_rel_stack _ _ Rst) [] None None o HI I Hf).
  - apply (bad_rel os os' Fo) with (before := []); [|constructor|exact Hb]. intros x Hx. rewrite Forall_forall in K. specialize (K x Hx). unfold known in K.
    exact (arg_in_stack _ _ _ Hok K).
  - destruct st, st'; try contradiction; exact I.
Qed.
End Facts.
