(** The order of the fields of a declaration: proofs. *)
From Coq Require Import Permutation.
From Verif Require Import Bytes BytesFacts Utf8 Utf8Facts Attrs AttrFacts Refl Error Values SortFacts
  Places Help Runtime Heck Decl Spec Derive Generated CompileFacts InfoFacts TableFacts PlaceFacts UnwindFacts
  ScopeFacts FinishFacts Refine Observe SafeFacts EnumDerive Parts WellFormed WellFormedFacts Order.

Section Facts.
Context {V : Type}.
Local Notation args_decl := (args_decl V).
Local Notation sarg := (sarg V).
Local Notation scope := (scope V).
Local Notation occ := (occ V).
Local Notation field := (ident * field_decl V)%type.
Local Notation variant := (ident * variant_decl V)%type.
Implicit Types (d : args_decl) (a : sarg) (s : scope) (stk : list scope) (os : list occ) (fs : list field).

(** ** What the relation says about the parts *)

Definition flat_rel (x y : ident * args_decl) : Prop := fst x = fst y /\ reordered (snd x) (snd y).
Definition variant_rel (v w : variant) : Prop := fst v = fst w /\ reordered_variant (snd v) (snd w).
Definition sub_rel (x y : ident * bool * list variant) : Prop := fst x = fst y /\ exists l, Forall2 variant_rel (snd x) l /\ Permutation l (snd y).

Lemma inside_cases fs : forall fs1, reordered_inside fs fs1 ->
  map fst fs = map fst fs1 /\
  flat_map own_arg fs = flat_map own_arg fs1 /\
  Forall2 flat_rel (flat_map flat_field fs) (flat_map flat_field fs1) /\
  Forall2 sub_rel (flat_map sub_field fs) (flat_map sub_field fs1).
Proof.
  induction fs as [|f fs IH]; intros fs1 H; inversion H as [|id fd fd' l l' Hf Hl]; subst.
  - repeat split; constructor.
  - destruct (IH l' Hl) as (E1 & E2 & E3 & E4). cbn [map flat_map fst]. rewrite E1, E2.
    inversion Hf as [m t|x x' Hx|o vs vs1 vs2 Hv Hp]; subst; cbn [own_arg flat_field sub_field fst snd app]; repeat split; try assumption.
    + constructor; [split; [reflexivity|exact Hx]|assumption].
    + constructor; [|assumption]. split; [reflexivity|]. cbn [snd]. exists vs1. split; [|exact Hp]. clear - Hv.
      induction Hv as [|id vd vd' l l' H1 H2 IH]; constructor; [split; [reflexivity|exact H1]|exact IH].
Qed.

Lemma own_positional fs : filter (fun a => negb (is_option a)) (flat_map own_arg fs) = flat_map own_arg (filter positional_field fs).
Proof.
  induction fs as [|[id fd] fs IH]; [reflexivity|]. cbn [flat_map filter]. rewrite filter_app, IH.
  destruct fd as [m t|x|o s]; cbn [own_arg positional_field fst snd filter app]; try reflexivity.
  destruct (negb (is_option (Arg id m t))); reflexivity.
Qed.
Lemma only_flat fs : flat_map flat_field fs = flat_map flat_field (filter flattened_field fs).
Proof.
  induction fs as [|[id fd] fs IH]; [reflexivity|]. cbn [flat_map filter]. rewrite IH.
  destruct fd as [m t|x|o s]; cbn [flat_field flattened_field fst snd]; reflexivity.
Qed.

Record view d d' : Prop := {
  v_attrs : attrs_of d = attrs_of d';
  v_ids : Permutation (map fst (fields_of d)) (map fst (fields_of d'));
  v_own : Permutation (own_args d) (own_args d');
  v_pos : filter (fun a => negb (is_option a)) (own_args d) = filter (fun a => negb (is_option a)) (own_args d');
  v_flat : Forall2 flat_rel (flattened d) (flattened d');
  v_subs : exists l, Forall2 sub_rel (subcommands d) l /\ Permutation l (subcommands d')
}.
Lemma reordered_view d d' : reordered d d' -> view d d'.
Proof.
  intros H. inversion H as [at_ fs fs1 fs2 H1 H2 H3 H4]; subst. destruct (inside_cases _ _ H1) as (E1 & E2 & E3 & E4).
  split; unfold own_args, flattened, subcommands; cbn [attrs_of fields_of].
  - reflexivity.
  - rewrite E1. apply Permutation_map. exact H2.
  - rewrite E2. apply Permutation_flat_map. exact H2.
  - rewrite E2, !own_positional, H3. reflexivity.
  - rewrite (only_flat fs2), <- H4, <- only_flat. exact E3.
  - eexists. split; [exact E4|]. apply Permutation_flat_map. exact H2.
Qed.

Definition scope_rel s s' : Prop :=
  reordered (sc_decl s) (sc_decl s') /\ sc_ident s = sc_ident s' /\ sc_unit s = sc_unit s'.
Lemma reordered_empty at_ : reordered (V:=V) (MkArgsDecl at_ []) (MkArgsDecl at_ []).
Proof. apply (reordered_struct at_ [] [] []); [constructor|apply perm_nil|reflexivity|reflexivity]. Qed.
Lemma variant_scope_rel v w : variant_rel v w -> scope_rel (variant_scope v) (variant_scope w).
Proof.
  destruct v as [id vd], w as [id' vd']. intros [H1 H2]. cbn [fst snd] in *. subst id'. unfold scope_rel, variant_scope. cbn [fst snd].
  inversion H2 as [at_|at_ x x' Hx|x x' Hx]; subst; cbn [sc_decl sc_ident sc_unit]; repeat split; try assumption. apply reordered_empty.
Qed.

(** ** The rules *)

Lemma Forall2_length {A B} {R : A -> B -> Prop} {l l'} : Forall2 R l l' -> length l = length l'.
Proof. induction 1 as [|x y l l' _ _ IH]; [reflexivity|]. cbn [length]. rewrite IH. reflexivity. Qed.
Lemma Forall2_in_r {A B} (R : A -> B -> Prop) l l' y : Forall2 R l l' -> In y l' -> exists x, In x l /\ R x y.
Proof.
  induction 1 as [|x y' l l' H1 H2 IH]; [intros []|]. intros [<-|Hy]; [exists x; split; [left; reflexivity|exact H1]|].
  destruct (IH Hy) as (x' & Hx & H). exists x'. split; [right; exact Hx|exact H].
Qed.
Lemma Forall2_in_l {A B} (R : A -> B -> Prop) l l' x : Forall2 R l l' -> In x l -> exists y, In y l' /\ R x y.
Proof.
  induction 1 as [|x' y l l' H1 H2 IH]; [intros []|]. intros [<-|Hy]; [exists y; split; [left; reflexivity|exact H1]|].
  destruct (IH Hy) as (y' & Hx & H). exists y'. split; [right; exact Hx|exact H].
Qed.
Lemma Permutation_filter {A} (p : A -> bool) l l' : Permutation l l' -> Permutation (filter p l) (filter p l').
Proof.
  induction 1 as [|x l l' H IH|x y l|l l' l'' H1 IH1 H2 IH2]; cbn [filter].
  - constructor.
  - destruct (p x); [constructor; exact IH|exact IH].
  - destruct (p x), (p y); try apply Permutation_refl. apply perm_swap.
  - eapply Permutation_trans; eauto.
Qed.
Lemma filter_filter {A} (p q : A -> bool) l : filter p (filter q l) = filter (fun x => q x && p x) l.
Proof.
  induction l as [|x l IH]; [reflexivity|]. cbn [filter]. destruct (q x); cbn [filter andb]; rewrite IH; reflexivity.
Qed.

Section View.
Variables (d d' : args_decl).
Hypothesis Hv : view d d'.

Lemma own_iff a : In a (own_args d) <-> In a (own_args d').
Proof. split; apply Permutation_in; [|apply Permutation_sym]; exact (v_own _ _ Hv). Qed.
Lemma plain_same : plain_positionals d = plain_positionals d'.
Proof. unfold plain_positionals. rewrite <- !filter_filter, (v_pos _ _ Hv). reflexivity. Qed.
Lemma last_same : last_positionals d = last_positionals d'.
Proof. unfold last_positionals. rewrite <- !filter_filter, (v_pos _ _ Hv). reflexivity. Qed.
Lemma positionals_same : positionals d = positionals d'.
Proof. unfold positionals. rewrite (v_pos _ _ Hv). reflexivity. Qed.
Lemma sub_in id o vs' : In (id, o, vs') (subcommands d') -> exists vs, In (id, o, vs) (subcommands d) /\ exists l, Forall2 variant_rel vs l /\ Permutation l vs'.
Proof.
  intros H. destruct (v_subs _ _ Hv) as (l & H1 & H2). apply (Permutation_in _ (Permutation_sym H2)) in H.
  destruct (Forall2_in_r _ _ _ _ H1 H) as ([k vs] & Hx & E1 & E2). cbn [fst snd] in *. subst k. eauto.
Qed.
Lemma sub_length : length (subcommands d) = length (subcommands d').
Proof. destruct (v_subs _ _ Hv) as (l & H1 & H2). rewrite (Forall2_length H1). apply Permutation_length. exact H2. Qed.
Lemma flat_in id x' : In (id, x') (flattened d') -> exists x, In (id, x) (flattened d) /\ reordered x x'.
Proof.
  intros H. destruct (Forall2_in_r _ _ _ _ (v_flat _ _ Hv) H) as ([k x] & Hx & E1 & E2). cbn [fst snd] in *. subst k. eauto.
Qed.

Lemma legal_reordered : legal_struct d -> legal_struct d'.
Proof.
  intros L. split.
  - rewrite <- (map_length fst), <- (Permutation_length (v_ids _ _ Hv)), map_length. exact (ls_count _ L).
  - apply (Permutation_NoDup (v_ids _ _ Hv)). exact (ls_fields _ L).
  - intros id f Hf. apply (in_map fst) in Hf. apply (Permutation_in _ (Permutation_sym (v_ids _ _ Hv))) in Hf.
    apply in_map_iff in Hf. destruct Hf as ([id' f'] & E & Hf). cbn [fst] in E. subst id'. exact (ls_idents _ L _ _ Hf).
  - intros a Ha. apply (ls_args _ L). apply own_iff. exact Ha.
  - apply (Permutation_NoDup (Permutation_flat_map names (Permutation_filter is_option _ _ (v_own _ _ Hv)))). exact (ls_names _ L).
  - rewrite <- plain_same. exact (ls_many _ L).
  - rewrite <- last_same. exact (ls_last _ L).
  - rewrite <- sub_length. exact (ls_subcommand _ L).
  - intros a id Ha Hid. apply own_iff in Ha. destruct (ls_refs _ L a id Ha Hid) as (b & Hb & E). exists b. split; [apply own_iff; exact Hb|exact E].
  - intros a Ha He. apply own_iff in Ha. pose proof (ls_exclusive _ L a Ha He) as E. pose proof (v_flat _ _ Hv) as F. rewrite E in F. inversion F. reflexivity.
  - intros id x' Hx. destruct (flat_in id x' Hx) as (x & Hi & R). destruct (ls_flat _ L id x Hi) as [H1 H2].
    pose proof (reordered_view _ _ R) as W. split.
    + intros a Ha. apply H1. apply (Permutation_in _ (Permutation_sym (v_own _ _ W))). exact Ha.
    + destruct (v_subs _ _ W) as (l & F & P). rewrite H2 in F. inversion F; subst. apply Permutation_nil. exact P.
  - intros id o vs' Hs. destruct (sub_in id o vs' Hs) as (vs & Hi & l & F & P). destruct (ls_variants _ L id o vs Hi) as [H1 H2]. split.
    + apply (Permutation_NoDup (Permutation_map fst P)). replace (map fst l) with (map fst vs); [exact H1|]. clear - F. induction F as [|v w l l' [E _] F IH]; [reflexivity|]. cbn [map]. congruence.
    + intros w Hw. apply (Permutation_in _ (Permutation_sym P)) in Hw. destruct (Forall2_in_r _ _ _ _ F Hw) as (v & Hi' & E & R). destruct (H2 v Hi') as [K1 K2].
      split; [rewrite <- E; exact K1|]. inversion R as [at_ E1 E2|at_ x x' Hx E1 E2|x x' Hx E1 E2]; [exact I| |exact I]. rewrite <- E1 in K2. exact K2.
Qed.
End View.

Lemma well_formed_reordered d : forall d', well_formed d -> reordered d d' -> well_formed d'.
Proof.
  induction d as [d IHf IHs] using decl_induction. intros d' W R. pose proof (reordered_view _ _ R) as Hv.
  inversion W as [d0 L W1 W2]; subst d0. constructor.
  - exact (legal_reordered _ _ Hv L).
  - intros id x' Hx. destruct (flat_in _ _ Hv id x' Hx) as (x & Hi & Rx). apply (IHf id x); [apply in_flattened; exact Hi|eapply W1; eauto|exact Rx].
  - intros id o vs' v' Hs Hv'. destruct (sub_in _ _ Hv id o vs' Hs) as (vs & Hi & l & F & P).
    apply (Permutation_in _ (Permutation_sym P)) in Hv'. destruct (Forall2_in_r _ _ _ _ F Hv') as (v & Hvs & Rv). destruct (variant_scope_rel _ _ Rv) as (Rd & _ & _).
    apply (IHs id o vs v); [|exact Hvs|eapply W2; eauto|exact Rd].
    unfold subcommands in Hi. apply in_flat_map in Hi. destruct Hi as ([k fd] & Hf & Hi). unfold sub_field in Hi. cbn [fst snd] in Hi.
    destruct fd as [m t|x|o' [ws]]; [contradiction|contradiction|]. destruct Hi as [E|[]]. injection E as -> -> ->. exact Hf.
Qed.

Scheme reordered_mind := Minimality for reordered Sort Prop
  with reordered_inside_mind := Minimality for reordered_inside Sort Prop
  with reordered_field_mind := Minimality for reordered_field Sort Prop
  with reordered_variants_mind := Minimality for reordered_variants Sort Prop
  with reordered_variant_mind := Minimality for reordered_variant Sort Prop.

Lemma forallb_perm {A} (p : A -> bool) l l' : Permutation l l' -> forallb p l = forallb p l'.
Proof.
  induction 1 as [|x l l' H IH|x y l|l l' l'' H1 IH1 H2 IH2]; cbn [forallb]; [reflexivity|rewrite IH; reflexivity| |congruence].
  destruct (p x), (p y); reflexivity.
Qed.

(** A test of all the fields, in all structs. *)
Section Tests.
Variable p : sarg -> bool.

Definition test_field (f : field) : bool := every_arg p (MkArgsDecl (mkCmdAttrs [] false None None) [f]).
Definition test_variant (v : variant) : bool :=
  let '(_, vd) := v in match vd with VDUnit _ => true | VDNewtype _ x | VDStruct x => every_arg p x end.
Lemma every_eq at_ fs : every_arg p (MkArgsDecl at_ fs) = forallb test_field fs.
Proof.
  unfold test_field. cbn [every_arg forallb]. induction fs as [|f fs IH]; [reflexivity|]. cbn [forallb]. rewrite IH, andb_true_r. reflexivity.
Qed.
Lemma every_reordered d d' : reordered d d' -> every_arg p d = every_arg p d'.
Proof.
  revert d d'.
  apply (reordered_mind V (fun d d' => every_arg p d = every_arg p d') (fun fs fs' => forallb test_field fs = forallb test_field fs')
           (fun fd fd' => forall id, test_field (id, fd) = test_field (id, fd'))
           (fun vs vs' => forallb test_variant vs = forallb test_variant vs')
           (fun vd vd' => forall id, test_variant (id, vd) = test_variant (id, vd'))).
  - intros at_ fs fs1 fs2 _ IH P _ _. rewrite !every_eq, IH. apply forallb_perm. exact P.
  - reflexivity.
  - intros id fd fd' l l' _ IH1 _ IH2. cbn [forallb]. rewrite IH1, IH2. reflexivity.
  - reflexivity.
  - intros x x' _ IH id. unfold test_field. cbn [every_arg forallb]. rewrite IH. reflexivity.
  - intros o vs vs1 vs2 _ IH P id. unfold test_field. cbn [every_arg forallb]. f_equal. etransitivity; [exact IH|]. apply forallb_perm. exact P.
  - reflexivity.
  - intros id vd vd' l l' _ IH1 _ IH2. cbn [forallb]. rewrite IH1, IH2. reflexivity.
  - reflexivity.
  - intros at_ x x' _ IH id. exact IH.
  - intros x x' _ IH id. exact IH.
Qed.
End Tests.

Definition dist_field (f : field) : bool := distinct_subcommands (MkArgsDecl (mkCmdAttrs [] false None None) [f]).
Definition dist_variant (v : variant) : bool :=
  let '(_, vd) := v in match vd with VDUnit _ => true | VDNewtype _ x | VDStruct x => distinct_subcommands x end.
Lemma dist_eq at_ fs : distinct_subcommands (MkArgsDecl at_ fs) = forallb dist_field fs.
Proof.
  unfold dist_field. cbn [distinct_subcommands forallb]. induction fs as [|f fs IH]; [reflexivity|]. cbn [forallb]. rewrite IH, andb_true_r. reflexivity.
Qed.
Lemma distinct_reordered d d' : reordered d d' -> distinct_subcommands d = distinct_subcommands d'.
Proof.
  revert d d'.
  apply (reordered_mind V (fun d d' => distinct_subcommands d = distinct_subcommands d') (fun fs fs' => forallb dist_field fs = forallb dist_field fs')
           (fun fd fd' => forall id, dist_field (id, fd) = dist_field (id, fd'))
           (fun vs vs' => map sub_name vs = map sub_name vs' /\ forallb dist_variant vs = forallb dist_variant vs')
           (fun vd vd' => forall id, dist_variant (id, vd) = dist_variant (id, vd'))).
  - intros at_ fs fs1 fs2 _ IH P _ _. rewrite !dist_eq, IH. apply forallb_perm. exact P.
  - reflexivity.
  - intros id fd fd' l l' _ IH1 _ IH2. cbn [forallb]. rewrite IH1, IH2. reflexivity.
  - reflexivity.
  - reflexivity.
  - intros o vs vs1 vs2 _ [IH1 IH2] P id. unfold dist_field. cbn [distinct_subcommands forallb]. f_equal. rewrite IH1. f_equal.
    + apply eq_true_iff_eq. rewrite !all_distinct_NoDup. split; apply Permutation_NoDup; [|apply Permutation_sym]; apply Permutation_map; exact P.
    + etransitivity; [exact IH2|]. apply forallb_perm. exact P.
  - split; reflexivity.
  - intros id vd vd' l l' _ IH1 _ [IH2 IH3]. cbn [forallb map]. rewrite IH1, IH2, IH3. split; reflexivity.
  - reflexivity.
  - intros at_ x x' _ IH id. exact IH.
  - intros x x' _ IH id. exact IH.
Qed.

(** ** Names *)

Lemma find_perm {A} (p : A -> bool) l l' :
  Permutation l l' -> (forall x y, In x l -> In y l -> p x = true -> p y = true -> x = y) -> find p l = find p l'.
Proof.
  intros P U. destruct (find p l) as [x|] eqn:E.
  - apply find_some in E. destruct E as [Hx Px]. destruct (find p l') as [y|] eqn:E'.
    + apply find_some in E'. destruct E' as [Hy Py]. f_equal. apply U; auto. apply (Permutation_in _ (Permutation_sym P)). exact Hy.
    + apply (Permutation_in _ P) in Hx. apply (find_none _ _ E') in Hx. congruence.
  - destruct (find p l') as [y|] eqn:E'; [|reflexivity]. apply find_some in E'. destruct E' as [Hy Py].
    apply (Permutation_in _ (Permutation_sym P)) in Hy. apply (find_none _ _ E) in Hy. congruence.
Qed.
Lemma find_app' {A} (p : A -> bool) l r : find p (l ++ r) = match find p l with Some x => Some x | None => find p r end.
Proof. induction l as [|x l IH]; [reflexivity|]. cbn [find app]. destruct (p x); [reflexivity|exact IH]. Qed.
Lemma find_map' {A B} (f : A -> B) (p : B -> bool) l : find p (map f l) = option_map f (find (fun x => p (f x)) l).
Proof. induction l as [|x l IH]; [reflexivity|]. cbn [find map]. destruct (p (f x)); [reflexivity|exact IH]. Qed.

Lemma reach_reordered n (q : sarg -> bool) d :
  (forall a, q a = true -> has_nameb a n = true) ->
  forall d', well_formed d -> reordered d d' ->
  find (fun x : list ident * sarg => q (snd x)) (reach d) = find (fun x => q (snd x)) (reach d').
Proof.
  intros Hq. induction d as [d IHf _] using decl_induction. intros d' W R. pose proof (reordered_view _ _ R) as Hv.
  rewrite !reach_eq, !find_app', !find_map'. cbn [snd].
  rewrite (find_perm (fun x => q x) (own_args d) (own_args d')).
  2: { exact (v_own _ _ Hv). }
  2: { intros a b Ha Hb Qa Qb. apply (own_name_unique d a b n); auto.
       - apply accepted_well_formed. exact W.
       - apply has_nameb_spec. auto.
       - apply has_nameb_spec. auto. }
  match goal with |- match ?x with _ => _ end = _ => destruct x; [reflexivity|] end.
  inversion W as [d0 _ W1 _]; subst d0.
  assert (IH : forall fx, In fx (flattened d) -> forall x', reordered (snd fx) x' ->
    find (fun x : list ident * sarg => q (snd x)) (reach (snd fx)) = find (fun x => q (snd x)) (reach x')).
  { intros [id x] Hi x' Rx. apply (IHf id x); [apply in_flattened; exact Hi|eapply W1; eauto|exact Rx]. }
  pose proof (v_flat _ _ Hv) as F. revert IH. clear - F.
  induction F as [|x y l l' [E Rx] F IHl]; intros IH; [reflexivity|]. cbn [flat_map]. rewrite !find_app', !find_map'. cbn [snd].
  rewrite (IH x (or_introl eq_refl) _ Rx), E. rewrite IHl; [reflexivity|]. intros fx Hx. apply IH. right. exact Hx.
Qed.

Definition stack_wf stk : Prop := Forall (fun s => well_formed (sc_decl s) /\ distinct_subcommands (sc_decl s) = true) stk.
Definition stack_rel stk stk' : Prop := Forall2 scope_rel stk stk'.

Lemma stack_reordered n (q : sarg -> bool) stk stk' :
  (forall a, q a = true -> has_nameb a n = true) -> stack_wf stk -> stack_rel stk stk' ->
  find (fun x : addr * sarg => q (snd x)) (stack_args stk) = find (fun x => q (snd x)) (stack_args stk').
Proof.
  intros Hq W R. induction R as [|s s' stk stk' [Rd _] R IH]; [reflexivity|]. inversion W as [|? ? [W1 _] W2]; subst.
  cbn [stack_args]. rewrite !find_app'. unfold scope_args. rewrite !find_map'. cbn [snd].
  rewrite (reach_reordered n q _ Hq _ W1 Rd), (Forall2_length R), IH; [reflexivity|exact W2].
Qed.
Lemma find_filter {A} (p q : A -> bool) l : find p (filter q l) = find (fun x => q x && p x) l.
Proof.
  induction l as [|x l IH]; [reflexivity|]. cbn [filter find]. destruct (q x); cbn [find andb]; [destruct (p x); [reflexivity|exact IH]|exact IH].
Qed.
Lemma resolve_reordered stk stk' n : stack_wf stk -> stack_rel stk stk' -> resolve stk n = resolve stk' n.
Proof.
  intros W R. unfold resolve. destruct R as [|s s' stk stk' [Rd _] R]; [reflexivity|]. inversion W as [|? ? [W1 _] W2]; subst. cbn [in_scope].
  rewrite !find_app', !find_filter. unfold scope_args. rewrite !find_map'. cbn [snd].
  rewrite (reach_reordered n (fun a => has_nameb a n) _ (fun a H => H) _ W1 Rd), (Forall2_length R).
  rewrite (stack_reordered n (fun a => is_global a && has_nameb a n) stk stk' (fun a H => proj2 (andb_prop _ _ H)) W2 R). reflexivity.
Qed.

(** ** Reading *)

Definition state_rel (st st' : state V) : Prop :=
  match st, st' with
  | Normal stk rem, Normal stk' rem' => stack_rel stk stk' /\ rem = rem'
  | Await stk rem ad a, Await stk' rem' ad' a' => stack_rel stk stk' /\ rem = rem' /\ ad = ad' /\ a = a'
  | Verbatim stk rem, Verbatim stk' rem' => stack_rel stk stk' /\ rem = rem'
  | Drain stk p, Drain stk' p' => stack_rel stk stk' /\ p = p'
  | _, _ => False
  end.
Definition out_rel (out out' : outcome V) : Prop :=
  match out, out' with
  | Go st, Go st' => state_rel st st' /\ stack_wf (state_stack st)
  | Stop (SErr e), Stop (SErr e') => e = e'
  | Stop (SHelp _), Stop (SHelp _) => True
  | _, _ => False
  end.
Definition sim (x y : list occ * outcome V) : Prop := fst x = fst y /\ out_rel (snd x) (snd y).

Lemma subcommand_rel d d' : view d d' -> length (subcommands d) <= 1 ->
  match subcommand d, subcommand d' with
  | None, None => True
  | Some x, Some y => sub_rel x y
  | _, _ => False
  end.
Proof.
  intros Hv Hl. destruct (v_subs _ _ Hv) as (l & F & P). change (subcommand d) with (hd_error (subcommands d)).
  change (subcommand d') with (hd_error (subcommands d')).
  destruct F as [|x y xs ys Rx F]; [apply Permutation_nil in P; rewrite P; exact I|].
  assert (E : xs = []) by (destruct xs; [reflexivity|cbn [length] in Hl; lia]). subst xs. inversion F; subst.
  apply Permutation_length_1_inv in P. rewrite P. exact Rx.
Qed.
Lemma wf_sub_count d : well_formed d -> length (subcommands d) <= 1.
Proof. intros W. inversion W as [d0 L _ _]; subst. exact (ls_subcommand _ L). Qed.
Lemma wf_subcommand d id o vs v : well_formed d -> subcommand d = Some (id, o, vs) -> In v vs -> well_formed (sc_decl (variant_scope v)).
Proof.
  intros W E Hv. inversion W as [d0 _ _ W2]; subst. apply (W2 id o vs); [|exact Hv]. change (subcommand d) with (hd_error (subcommands d)) in E.
  destruct (subcommands d); [discriminate E|]. injection E as ->. left. reflexivity.
Qed.

Section Stacks.
Variables (stk stk' : list scope).
Hypothesis W : stack_wf stk.
Hypothesis R : stack_rel stk stk'.

Lemma has_sub_rel : has_subcommand stk = has_subcommand stk'.
Proof.
  unfold has_subcommand. destruct R as [|s s' l l' [Rd _] _]; [reflexivity|]. inversion W as [|? ? [W1 _] _]; subst.
  pose proof (subcommand_rel _ _ (reordered_view _ _ Rd) (wf_sub_count _ W1)) as H.
  destruct (subcommand (sc_decl s)), (subcommand (sc_decl s')); try contradiction; reflexivity.
Qed.
Lemma variants_rel : exists l, Forall2 variant_rel (sub_variants stk) l /\ Permutation l (sub_variants stk').
Proof.
  unfold sub_variants. destruct R as [|s s' l l' [Rd _] _]; [exists []; split; constructor|]. inversion W as [|? ? [W1 _] _]; subst.
  pose proof (subcommand_rel _ _ (reordered_view _ _ Rd) (wf_sub_count _ W1)) as H.
  destruct (subcommand (sc_decl s)) as [[[i o] vs]|], (subcommand (sc_decl s')) as [[[i' o'] vs']|]; try contradiction;
    [exact (proj2 H)|exists []; split; constructor].
Qed.
Lemma variants_wf v : In v (sub_variants stk) ->
  well_formed (sc_decl (variant_scope v)) /\ distinct_subcommands (sc_decl (variant_scope v)) = true.
Proof.
  unfold sub_variants. destruct stk as [|s l]; [intros []|]. inversion W as [|? ? [W1 W2] _]; subst.
  destruct (subcommand (sc_decl s)) as [[[i o] vs]|] eqn:E; [|intros []]. intros Hv.
  split; [apply (wf_subcommand (sc_decl s) i o vs); assumption|]. apply (distinct_sub (sc_decl s) i o vs W2 E). exact Hv.
Qed.
Lemma variants_distinct : NoDup (map sub_name (sub_variants stk)).
Proof.
  unfold sub_variants. destruct stk as [|s l]; [constructor|]. inversion W as [|? ? [W1 W2] _]; subst.
  destruct (subcommand (sc_decl s)) as [[[i o] vs]|] eqn:E; [|constructor]. apply (distinct_sub (sc_decl s) i o vs W2 E).
Qed.
Lemma named_rel tok :
  match first_named (sub_variants stk) tok, first_named (sub_variants stk') tok with
  | None, None => True
  | Some v, Some w => variant_rel v w /\ In v (sub_variants stk)
  | _, _ => False
  end.
Proof.
  unfold first_named. destruct variants_rel as (vs & F & P). pose proof variants_distinct as N.
  assert (En : map sub_name (sub_variants stk) = map sub_name vs).
  { clear - F. induction F as [|v w l l' [E _] F IH]; [reflexivity|]. cbn [map]. unfold sub_name at 1 3. rewrite E, IH. reflexivity. }
  rewrite En in N. rewrite <- (find_perm _ _ _ P).
  2: { intros v w Hv Hw E1 E2. apply beqb_eq in E1, E2. apply (NoDup_flat_map (fun v => [sub_name v]) vs v w tok); [|exact Hv|exact Hw| |].
       - replace (flat_map (fun v => [sub_name v]) vs) with (map sub_name vs); [exact N|]. clear. induction vs as [|v vs IH]; [reflexivity|]. cbn [map flat_map app]. rewrite IH. reflexivity.
       - left. exact E1.
       - left. exact E2. }
  clear N En P. induction F as [|v w l l' Rv F IH]; [exact I|]. cbn [find].
  replace (sub_name w) with (sub_name v) by (unfold sub_name; rewrite (proj1 Rv); reflexivity).
  destruct (beqb (sub_name v) tok); [split; [exact Rv|left; reflexivity]|].
  destruct (find (fun v => beqb (sub_name v) tok) l), (find (fun v => beqb (sub_name v) tok) l'); try contradiction; [|exact I].
  destruct IH as [H1 H2]. split; [exact H1|right; exact H2].
Qed.
Lemma after_sep_rel rem : after_sep stk rem = after_sep stk' rem.
Proof.
  unfold after_sep. destruct R as [|s s' l l' [Rd _] _]; [reflexivity|]. rewrite (positionals_same _ _ (reordered_view _ _ Rd)). reflexivity.
Qed.

Lemma bare_rel rem ad a : sim (bare stk rem ad a) (bare stk' rem ad a).
Proof.
  unfold bare. destruct (takes_value a); [destruct (needs_equals a)|]; split; cbn [fst snd out_rel state_rel state_stack]; auto.
Qed.
Lemma long_rel rem (s : bytes) v : sim (read_long stk rem s v) (read_long stk' rem s v).
Proof.
  unfold read_long. rewrite <- (resolve_reordered stk stk' (Long s) W R). destruct (resolve stk (Long s)) as [[ad a]|].
  - destruct v; [split; cbn [fst snd out_rel state_rel state_stack]; auto|apply bare_rel].
  - split; [reflexivity|]. unfold unknown_long. cbn [snd out_rel]. destruct (beqb s (bs "help")); [exact I|reflexivity].
Qed.
Lemma bundle_rel rem junk cs : sim (read_bundle stk rem cs junk) (read_bundle stk' rem cs junk).
Proof.
  assert (G : forall os, sim (os, Go (Normal stk rem)) (os, Go (Normal stk' rem))) by (intros os; split; cbn [fst snd out_rel state_rel state_stack]; auto).
  induction cs as [|c cs IH]; cbn [read_bundle].
  - destruct junk; [apply G|split; reflexivity].
  - rewrite <- (resolve_reordered stk stk' (Short c) W R). destruct (resolve stk (Short c)) as [[ad a]|].
    + assert (K : forall o, sim (let '(os, out) := read_bundle stk rem cs junk in (o :: os, out)) (let '(os, out) := read_bundle stk' rem cs junk in (o :: os, out))).
      { intros o. destruct IH as [H1 H2]. destruct (read_bundle stk rem cs junk), (read_bundle stk' rem cs junk). cbn [fst snd] in *. subst. split; [reflexivity|exact H2]. }
      destruct (encode_all cs ++ junk) as [|x v]; [apply bare_rel|].
      assert (N : sim (if needs_equals a then ([], Stop (SErr (error_about MissingEq a)))
                       else if takes_value a then ([Occ ad a (Some (x :: v))], Go (Normal stk rem))
                       else let '(os, out) := read_bundle stk rem cs junk in (Occ ad a None :: os, out))
                      (if needs_equals a then ([], Stop (SErr (error_about MissingEq a)))
                       else if takes_value a then ([Occ ad a (Some (x :: v))], Go (Normal stk' rem))
                       else let '(os, out) := read_bundle stk' rem cs junk in (Occ ad a None :: os, out))).
      { destruct (needs_equals a); [split; reflexivity|]. destruct (takes_value a); [apply G|apply K]. }
      destruct x; try exact N. destruct (takes_value a); [apply G|apply K].
    + split; [reflexivity|]. unfold unknown_short. cbn [snd out_rel]. destruct (c =? b2n "h")%N; [exact I|reflexivity].
Qed.
Lemma word_rel sep rem tok : sim (take_word sep stk rem tok) (take_word sep stk' rem tok).
Proof.
  unfold take_word. rewrite <- has_sub_rel, <- (Forall2_length R). destruct rem as [|p rem]; [split; reflexivity|].
  destruct (sep || negb (is_last p)); [|split; reflexivity]. split; [reflexivity|]. cbn [snd].
  destruct (greedy p); [cbn [out_rel state_rel state_stack]; auto|]. destruct sep; cbn [out_rel state_rel state_stack]; auto.
Qed.
End Stacks.

Lemma step_rel st st' tok : state_rel st st' -> stack_wf (state_stack st) -> sim (step first_named st tok) (step first_named st' tok).
Proof.
  destruct st as [stk rem|stk rem ad a|stk rem|stk p], st' as [stk' rem'|stk' rem' ad' a'|stk' rem'|stk' p']; cbn [state_rel state_stack step]; try contradiction.
  - intros [R <-] W. destruct (form_of tok) as [|s v|b|].
    + rewrite <- (after_sep_rel stk stk' W R). split; cbn [fst snd out_rel state_rel state_stack]; auto.
    + apply long_rel; assumption.
    + destruct (utf8_prefix b) as [cs junk]. apply bundle_rel; assumption.
    + pose proof (named_rel stk stk' W R tok) as H.
      destruct (first_named (sub_variants stk) tok) as [v|], (first_named (sub_variants stk') tok) as [w|]; try contradiction; [|apply word_rel; assumption].
      destruct H as [Rv Hi]. pose proof (variant_scope_rel _ _ Rv) as Rs. split; [reflexivity|]. cbn [snd out_rel state_rel state_stack].
      rewrite (positionals_same _ _ (reordered_view _ _ (proj1 Rs))). split; [split; [constructor; [exact Rs|exact R]|reflexivity]|].
      constructor; [apply (variants_wf stk stk' W R); exact Hi|exact W].
  - intros (R & <- & <- & <-) W. destruct (may_follow a tok); split; cbn [fst snd out_rel state_rel state_stack]; auto.
  - intros [R <-] W. apply word_rel; assumption.
  - intros [R <-] W. rewrite (Forall2_length R). split; cbn [fst snd out_rel state_rel state_stack]; auto.
Qed.
Lemma read_rel toks : forall st st', state_rel st st' -> stack_wf (state_stack st) -> sim (read first_named st toks) (read first_named st' toks).
Proof.
  induction toks as [|tok toks IH]; intros st st' R W; [split; cbn [read fst snd out_rel]; auto|]. cbn [read].
  destruct (step_rel st st' tok R W) as [H1 H2]. destruct (step first_named st tok) as [os out], (step first_named st' tok) as [os' out'].
  cbn [fst snd] in H1, H2. subst os'. destruct out as [st1|sp], out' as [st2|sp'].
  - destruct H2 as [R1 W1]. destruct (IH st1 st2 R1 W1) as [G1 G2].
    destruct (read first_named st1 toks), (read first_named st2 toks). cbn [fst snd] in G1, G2. subst. split; [reflexivity|exact G2].
  - contradiction.
  - destruct sp; contradiction.
  - split; [reflexivity|exact H2].
Qed.

(** ** Values *)

Definition presence (o : option error) : Prop := match o with Some e => about_presence (e_kind e) = true | None => True end.
Lemma violation_presence os level path d sub a : presence (violation os level path d sub a).
Proof.
  unfold violation. cbn zeta. destruct (is_given os level path (sa_id a)); [|exact I].
  match goal with |- context [if ?c then _ else _] => destruct c; [reflexivity|] end.
  destruct (find (fun id => negb (is_given os level path id)) (am_requires (sa_meta a))) as [id|].
  - cbn [presence]. unfold error_about_id. destruct (find (fun b => beqb id (sa_id b)) (own_args d)); reflexivity.
  - destruct (find (is_given os level path) (am_conflicts_with (sa_meta a))); reflexivity.
Qed.
Lemma first_violation_presence os level path d sub l : presence (first_violation os level path d sub l).
Proof.
  induction l as [|a l IH]; [exact I|]. cbn [first_violation]. pose proof (violation_presence os level path d sub a) as H.
  destruct (violation os level path d sub a); [exact H|exact IH].
Qed.
Lemma first_violation_None os level path d sub l :
  first_violation os level path d sub l = None <-> forall a, In a l -> violation os level path d sub a = None.
Proof.
  induction l as [|a l IH]; [split; [intros _ a []|reflexivity]|]. cbn [first_violation]. split.
  - destruct (violation os level path d sub a) eqn:E; [discriminate|]. intros H b [<-|Hb]; [exact E|]. apply IH; assumption.
  - intros H. rewrite (H a (or_introl eq_refl)). apply IH. intros b Hb. apply H. right. exact Hb.
Qed.
Lemma existsb_perm {A} (p : A -> bool) l l' : Permutation l l' -> existsb p l = existsb p l'.
Proof.
  induction 1 as [|x l l' H IH|x y l|l l' l'' H1 IH1 H2 IH2]; cbn [existsb]; [reflexivity|rewrite IH; reflexivity| |congruence].
  destruct (p x), (p y); reflexivity.
Qed.
Lemma violation_reordered os level path d d' sub a : view d d' ->
  violation os level path d sub a = None -> violation os level path d' sub a = None.
Proof.
  intros Hv. unfold violation. cbn zeta. destruct (is_given os level path (sa_id a)); [|reflexivity].
  rewrite (existsb_perm _ _ _ (v_own _ _ Hv)). match goal with |- context [if ?c then _ else _] => destruct c; [discriminate|] end.
  destruct (find (fun id => negb (is_given os level path id)) (am_requires (sa_meta a))); [discriminate|].
  destruct (find (is_given os level path) (am_conflicts_with (sa_meta a))); [discriminate|reflexivity].
Qed.
Lemma view_checked d d' : view d d' -> Permutation (checked d) (checked d').
Proof.
  intros Hv. unfold checked. rewrite (positionals_same _ _ Hv). apply Permutation_app_tail, Permutation_filter. exact (v_own _ _ Hv).
Qed.
Lemma view_sym_violation os level path d d' sub : view d d' ->
  first_violation os level path d sub (checked d) = None <-> first_violation os level path d' sub (checked d') = None.
Proof.
  intros Hv. rewrite !first_violation_None. pose proof (view_checked _ _ Hv) as P.
  assert (S : forall a, violation os level path d sub a = None <-> violation os level path d' sub a = None).
  { intros a. split; [apply violation_reordered; exact Hv|]. unfold violation. cbn zeta. destruct (is_given os level path (sa_id a)); [|reflexivity].
    rewrite (existsb_perm _ _ _ (v_own _ _ Hv)). match goal with |- context [if ?c then _ else _] => destruct c; [discriminate|] end.
    destruct (find (fun id => negb (is_given os level path id)) (am_requires (sa_meta a))); [discriminate|].
    destruct (find (is_given os level path) (am_conflicts_with (sa_meta a))); [discriminate|reflexivity]. }
  split; intros H a Ha; apply S, H; [apply (Permutation_in _ (Permutation_sym P))|apply (Permutation_in _ P)]; exact Ha.
Qed.

Definition absent_ok os level path (a : sarg) : bool := is_given os level path (sa_id a) || negb (is_required a).
Lemma check_absent_cases os level path l : (forall a, In a l -> default_readable a = true) ->
  if forallb (absent_ok os level path) l then check_absent os level path l = Ok tt
  else exists e, check_absent os level path l = Err e /\ about_presence (e_kind e) = true.
Proof.
  induction l as [|a l IH]; intros H; [reflexivity|]. cbn [forallb check_absent]. unfold absent_ok at 1.
  pose proof (IH (fun b Hb => H b (or_intror Hb))) as G. rewrite (H a (or_introl eq_refl)).
  destruct (is_given os level path (sa_id a)); cbn [orb andb]; [exact G|]. destruct (is_required a); cbn [negb andb]; [|exact G].
  eexists. split; [reflexivity|reflexivity].
Qed.

Definition res_rel {A} (R : A -> A -> Prop) (r r' : res A) : Prop :=
  match r, r' with
  | Ok x, Ok y => R x y
  | Err e, Err e' => e = e' \/ about_presence (e_kind e) = true /\ about_presence (e_kind e') = true
  | _, _ => False
  end.
Inductive opt_rel {A} (R : A -> A -> Prop) : option A -> option A -> Prop :=
| opt_none : opt_rel R None None
| opt_some x y : R x y -> opt_rel R (Some x) (Some y).

Lemma in_checked' d a : In a (checked d) -> In a (own_args d).
Proof.
  unfold checked, positionals. rewrite in_app_iff. intros [H|H]; [apply filter_In in H; exact (proj1 H)|]. apply in_app_iff in H.
  destruct H as [H|H]; apply filter_In in H; destruct H as [H _]; apply filter_In in H; exact (proj1 H).
Qed.

Lemma struct_rel os level path d d' flats flats' sub sub' :
  view d d' -> length (subcommands d) <= 1 -> every_arg default_readable d = true -> same_flats flats flats' -> opt_rel same_subval sub sub' ->
  res_rel same_values (finish_struct os level path d flats sub) (finish_struct os level path d' flats' sub').
Proof.
  intros Hv Hl Hr Hf Hs. unfold finish_struct.
  assert (Es : is_some sub = is_some sub') by (destruct Hs; reflexivity). rewrite <- Es.
  pose proof (view_sym_violation os level path d d' (is_some sub) Hv) as H.
  pose proof (first_violation_presence os level path d (is_some sub) (checked d)) as P.
  pose proof (first_violation_presence os level path d' (is_some sub) (checked d')) as P'.
  destruct (first_violation os level path d (is_some sub) (checked d)), (first_violation os level path d' (is_some sub) (checked d')).
  1: { right. split; assumption. }
  1: { destruct H as [_ H]. discriminate (H eq_refl). }
  1: { destruct H as [H _]. discriminate (H eq_refl). }
  pose proof (view_checked _ _ Hv) as C.
  assert (Rd : forall a, In a (checked d) -> default_readable a = true).
  { intros a Ha. apply (every_own default_readable d a Hr). apply in_checked'. exact Ha. }
  pose proof (check_absent_cases os level path (checked d) Rd) as A.
  assert (Rd' : forall a, In a (checked d') -> default_readable a = true).
  { intros a Ha. apply Rd. apply (Permutation_in _ (Permutation_sym C)). exact Ha. }
  pose proof (check_absent_cases os level path (checked d') Rd') as A'.
  rewrite <- (forallb_perm _ _ _ C) in A'. destruct (forallb (absent_ok os level path) (checked d)).
  2: { destruct A as (e & -> & Pe), A' as (e' & -> & Pe'). right. split; assumption. }
  rewrite A, A'. cbn [bind].
  assert (D : Permutation (direct_values os level path d) (direct_values os level path d')) by (apply Permutation_flat_map; exact C).
  pose proof (subcommand_rel d d' Hv Hl) as S.
  destruct (subcommand d) as [[[id o] vs]|], (subcommand d') as [[[id' o'] vs']|]; try contradiction.
  - destruct S as [E _]. cbn [fst] in E. injection E as <- <-. destruct o, Hs as [|x y Hxy]; cbn [res_rel]; try (left; reflexivity).
    all: constructor; try assumption; constructor; assumption.
  - cbn [res_rel]. constructor; [exact D|exact Hf|constructor].
Qed.

Lemma same_flats_app l l' m m' : same_flats (V:=V) l l' -> same_flats m m' -> same_flats (l ++ m) (l' ++ m').
Proof. intros H. induction H as [|id o o' l l' Ho Hl IH]; intros K; [exact K|]. cbn [app]. constructor; [exact Ho|apply IH; exact K]. Qed.

Lemma args_rel os level d : forall d' path sub sub', well_formed d -> every_arg default_readable d = true -> reordered d d' ->
  opt_rel same_subval sub sub' -> res_rel same_values (finish_args os level path d sub) (finish_args os level path d' sub').
Proof.
  induction d as [d IHf _] using decl_induction. intros d' path sub sub' W Hr R Hs. rewrite !finish_args_eq. pose proof (reordered_view _ _ R) as Hv.
  inversion W as [d0 L W1 _]; subst d0.
  assert (E : forall l l' acc acc', Forall2 flat_rel l l' -> (forall fx, In fx l -> In fx (flattened d)) -> res_rel same_flats acc acc' ->
    res_rel same_flats (finish_flats os level path l acc) (finish_flats os level path l' acc')).
  { intros l l' acc acc' F. revert acc acc'. induction F as [|fx fy l l' [Ei Rx] F IHl]; intros acc acc' Hl Ha; [exact Ha|].
    unfold finish_flats in *. cbn [fold_left]. apply IHl; [intros z Hz; apply Hl; right; exact Hz|].
    destruct acc as [outs|e|p], acc' as [outs'|e'|p']; try contradiction; [|exact Ha]. cbn [res_rel] in Ha. cbn [bind]. rewrite <- Ei.
    destruct fx as [id x]. cbn [fst snd] in *. assert (Hi : In (id, x) (flattened d)) by (apply Hl; left; reflexivity).
    pose proof (IHf id x (proj1 (in_flattened d id x) Hi) (snd fy) (path ++ [id]) None None (W1 _ _ Hi) (every_flat default_readable _ _ _ Hr Hi) Rx (opt_none _)) as H.
    destruct (finish_args os level (path ++ [id]) x None), (finish_args os level (path ++ [id]) (snd fy) None); try contradiction; [|exact H].
    cbn [bind res_rel]. apply same_flats_app; [exact Ha|]. constructor; [exact H|constructor]. }
  pose proof (E _ _ (Ok []) (Ok []) (v_flat _ _ Hv) (fun _ H => H) (flats_nil (V:=V))) as H.
  destruct (finish_flats os level path (flattened d) (Ok [])), (finish_flats os level path (flattened d') (Ok [])); try contradiction; [|exact H].
  cbn [bind]. apply struct_rel; try assumption. exact (ls_subcommand _ L).
Qed.
Lemma finish_stack_rel os stk stk' : stack_rel stk stk' -> stk <> [] -> stack_wf stk -> Forall (fun s => every_arg default_readable (sc_decl s) = true) stk ->
  forall sub sub', opt_rel same_subval sub sub' -> res_rel same_values (finish_stack os stk sub) (finish_stack os stk' sub').
Proof.
  intros R. induction R as [|s s' stk stk' [Rd [Ei Eu]] R IH]; intros Hn W Hr sub sub' Hs; [contradiction|].
  inversion W as [|? ? [W1 _] W2]; subst. inversion Hr as [|? ? Hr1 Hr2]; subst. cbn [finish_stack].
  rewrite <- (Forall2_length R). pose proof (args_rel os (length stk) _ _ [] sub sub' W1 Hr1 Rd Hs) as H.
  destruct (finish_args os (length stk) [] (sc_decl s) sub), (finish_args os (length stk) [] (sc_decl s') sub'); try contradiction; [|exact H].
  cbn [bind]. cbn [res_rel] in H. destruct R as [|s2 s2' stk stk' R2 R]; [exact H|].
  apply IH; [discriminate|exact W2|exact Hr2|]. constructor. rewrite <- Ei, <- Eu. destruct (sc_unit s); constructor. exact H.
Qed.

(** ** The result *)

Lemma read_nonempty toks : forall st os st', state_stack st <> [] -> read first_named st toks = (os, Go st') -> state_stack (V:=V) st' <> [].
Proof.
  induction toks as [|t toks IH]; intros st os st' Hn H; cbn [read] in H.
  - injection H as _ <-. exact Hn.
  - destruct (step first_named st t) as [o1 out] eqn:E1. destruct out as [st1|]; [|discriminate].
    destruct (read first_named st1 toks) as [o2 out2] eqn:E2. injection H as _ ->. eapply IH; [|exact E2].
    destruct (step_stack _ _ _ _ _ E1) as [->|(v & Hv & ->)]; [exact Hn|discriminate].
Qed.
Lemma state_rel_stack st st' : state_rel st st' -> stack_rel (state_stack st) (state_stack st').
Proof. destruct st, st'; cbn [state_rel state_stack]; tauto. Qed.
Theorem reorder_parse d d' argv : well_formed d -> distinct_subcommands d = true -> every_arg default_readable d = true -> reordered d d' ->
  same_but_order (spec_parse d argv) (spec_parse d' argv).
Proof.
  intros W Hd Hr R. unfold spec_parse, spec_parse_with. destruct argv as [|argv0 toks]; [left; reflexivity|].
  assert (Rs : state_rel (start d) (start d')).
  { unfold start. rewrite (positionals_same _ _ (reordered_view _ _ R)). split; [|reflexivity]. constructor; [|constructor]. repeat split. exact R. }
  destruct (read_rel toks (start d) (start d') Rs) as [H1 H2]; [constructor; [split; [exact W|exact Hd]|constructor]|].
  destruct (read first_named (start d) toks) as [os out] eqn:E. destruct (read first_named (start d') toks) as [os' out']. cbn [fst snd] in H1, H2. subst os'.
  destruct (first_bad [] os); [left; reflexivity|].
  destruct out as [st|[e|stk]], out' as [st'|[e'|stk']]; try contradiction.
  - destruct H2 as [Rst Wst].
    assert (F : res_rel same_values (finish_stack os (state_stack st) None) (finish_stack os (state_stack st') None)).
    { apply finish_stack_rel; [apply state_rel_stack; exact Rst| |exact Wst| |constructor].
      - apply (read_nonempty toks (start d) os st); [discriminate|exact E].
      - apply (read_every default_readable first_named) with (toks := toks) (st := start d) (os := os); [|constructor; [exact Hr|constructor]|exact E].
        intros vs tok v Hf. apply find_some in Hf. exact (proj1 Hf). }
    assert (G : same_but_order (finish_stack os (state_stack st) None) (finish_stack os (state_stack st') None)).
    { destruct (finish_stack os (state_stack st) None), (finish_stack os (state_stack st') None); try contradiction; [exact F|].
      destruct F as [F|F]; [left; exact F|right; right; exact F]. }
    destruct st, st'; try contradiction; try exact G. cbn [state_rel] in Rst. destruct Rst as (_ & _ & _ & <-). left. reflexivity.
  - left. exact H2.
  - right. left. split; reflexivity.
Qed.
Theorem reorder_result d d' : valid d -> defaults_readable d = true -> reordered d d' ->
  valid d' /\ forall argv, same_but_order (try_parse_from d argv) (try_parse_from d' argv).
Proof.
  intros [A D] Hr R. assert (W : well_formed d) by (apply accepted_well_formed; exact A).
  assert (Hv : valid d').
  { split; [apply accepted_well_formed; apply (well_formed_reordered d); assumption|]. rewrite <- (distinct_reordered d d' R). exact D. }
  split; [exact Hv|]. intros argv. rewrite (refines d argv (conj A D)), (refines d' argv Hv). apply reorder_parse; assumption.
Qed.
End Facts.
