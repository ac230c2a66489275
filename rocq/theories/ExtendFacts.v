(** Declarations with more arguments: proofs. *)
From Verif Require Import Bytes BytesFacts Utf8 Utf8Facts Attrs AttrFacts Refl Error Values SortFacts
  Places Help Runtime Heck Decl Spec Derive Generated CompileFacts InfoFacts TableFacts PlaceFacts UnwindFacts
  ScopeFacts NamedFacts WordFacts FinishFacts ReadFacts SimFacts HelpFacts Refine Observe ContextFacts SafeFacts
  EnumDerive Parts WellFormed WellFormedFacts OrderFacts FieldFacts BlameFacts Extend.

Section Facts.
Context {V : Type}.
Local Notation args_decl := (args_decl V).
Local Notation sarg := (sarg V).
Local Notation scope := (scope V).
Local Notation occ := (occ V).
Local Notation field := (ident * field_decl V)%type.
Local Notation variant := (ident * variant_decl V)%type.
Implicit Types (d : args_decl) (a : sarg) (s : scope) (stk : list scope) (os : list occ) (fs : list field).
Variable added : sarg -> Prop.
Variable fresh : bytes -> Prop.
Local Notation extended := (extended added fresh).
Local Notation extended_fields := (extended_fields added fresh).

Inductive inserted : list sarg -> list sarg -> Prop :=
| ins_nil : inserted [] []
| ins_keep a l l' : inserted l l' -> inserted (a :: l) (a :: l')
| ins_add a l l' : added a -> is_option a = true \/ (forall b, In b l -> is_option b = true \/ is_last b = true) ->
    inserted l l' -> inserted l (a :: l').

Definition flat_ext (x y : ident * args_decl) : Prop := fst x = fst y /\ extended (snd x) (snd y).
Inductive merged (old : ident -> Prop) : list (ident * args_decl) -> list (ident * args_decl) -> Prop :=
| merged_nil : merged old [] []
| merged_keep x y l l' : flat_ext x y -> merged old l l' -> merged old (x :: l) (y :: l')
| merged_new id x l l' : ~ old id -> (forall pa, In pa (reach x) -> added (snd pa)) -> merged old l l' -> merged old l ((id, x) :: l').
Definition variant_ext (v w : variant) : Prop := fst v = fst w /\ extended_variant added fresh (snd v) (snd w).
Inductive merged_variants : list variant -> list variant -> Prop :=
| variants_nil : merged_variants [] []
| variants_keep v w l l' : variant_ext v w -> merged_variants l l' -> merged_variants (v :: l) (w :: l')
| variants_new v l l' : fresh (sub_name v) -> merged_variants l l' -> merged_variants l (v :: l').
Definition sub_ext (x y : ident * bool * list variant) : Prop := fst x = fst y /\ merged_variants (snd x) (snd y).
Definition sub_view (x y : option (ident * bool * list variant)) : Prop :=
  match x, y with
  | None, None => True
  | None, Some (_, o, vs) => o = true /\ forall v, In v vs -> fresh (sub_name v)
  | Some x, Some y => sub_ext x y
  | Some _, None => False
  end.
Definition scope_ext s s' : Prop := extended (sc_decl s) (sc_decl s') /\ sc_ident s = sc_ident s' /\ sc_unit s = sc_unit s'.

Lemma fields_cases fs fs' : extended_fields fs fs' ->
  inserted (flat_map own_arg fs) (flat_map own_arg fs') /\
  merged (fun _ => False) (flat_map flat_field fs) (flat_map flat_field fs') /\
  sub_view (hd_error (flat_map sub_field fs)) (hd_error (flat_map sub_field fs')).
Proof.
  induction 1 as [|id fd fd' l l' Hf Hl (E1 & E2 & E3)|id m t l l' Ha Hp Hl (E1 & E2 & E3)|id x l l' Hx Hl (E1 & E2 & E3)|id vs l l' Hv Hs Hl (E1 & E2 & E3)];
    [repeat split; constructor| | | |]; cbn [flat_map].
  - inversion Hf as [m t|x x' Hx|o vs vs' Hv]; subst; cbn [own_arg flat_field sub_field fst snd app]; repeat split; try assumption.
    + constructor. assumption.
    + constructor; [split; [reflexivity|exact Hx]|assumption].
    + cbn [snd]. clear - Hv.
      induction Hv as [|id vd vd' l l' H1 H2 IH|v l l' Hn H IH]; constructor; try assumption. split; [reflexivity|exact H1].
  - cbn [own_arg flat_field sub_field fst snd app]. repeat split; [apply ins_add; assumption|assumption|assumption].
  - cbn [own_arg flat_field sub_field fst snd app]. repeat split; [assumption| |assumption]. apply merged_new; [intros []|exact Hx|exact E2].
  - cbn [own_arg flat_field sub_field fst snd app hd_error]. repeat split; [assumption|assumption|]. rewrite Hs. split; [reflexivity|exact Hv].
Qed.

Record eview d d' : Prop := {
  e_own : inserted (own_args d) (own_args d');
  e_flat : merged (fun _ => False) (flattened d) (flattened d');
  e_sub : sub_view (subcommand d) (subcommand d')
}.
Lemma extended_view d d' : extended d d' -> eview d d'.
Proof.
  intros [at_ fs fs' H]. destruct (fields_cases _ _ H) as (E1 & E2 & E3). split; assumption.
Qed.
Lemma variant_scope_ext v w : variant_ext v w -> scope_ext (variant_scope v) (variant_scope w).
Proof.
  destruct v as [id vd], w as [id' vd']. intros [H1 H2]. cbn [fst snd] in *. subst id'. unfold scope_ext, variant_scope. cbn [fst snd].
  inversion H2 as [at_|at_ x x' Hx|x x' Hx]; subst; cbn [sc_decl sc_ident sc_unit]; repeat split; try assumption. constructor.
Qed.

(** ** Names *)

Lemma find_inserted (q : sarg -> bool) l l' : (forall a, added a -> q a = false) -> inserted l l' -> find q l = find q l'.
Proof.
  intros Hq. induction 1 as [|a l l' H IH|a l l' Ha Hp H IH]; [reflexivity| |]; cbn [find]; [rewrite IH; reflexivity|]. rewrite (Hq a Ha). exact IH.
Qed.
Lemma reach_ext (q : sarg -> bool) d : (forall a, added a -> q a = false) -> forall d', extended d d' ->
  find (fun x : list ident * sarg => q (snd x)) (reach d) = find (fun x => q (snd x)) (reach d').
Proof.
  intros Hq. induction d as [d IHf _] using decl_induction. intros d' R. pose proof (extended_view _ _ R) as Hv.
  rewrite !reach_eq, !find_app', !find_map'. cbn [snd]. rewrite (find_inserted (fun x => q x) _ _ Hq (e_own _ _ Hv)).
  match goal with |- match ?x with _ => _ end = _ => destruct x; [reflexivity|] end.
  assert (IH : forall fx, In fx (flattened d) -> forall x', extended (snd fx) x' ->
    find (fun x : list ident * sarg => q (snd x)) (reach (snd fx)) = find (fun x => q (snd x)) (reach x')).
  { intros [id x] Hi x' Rx. apply (IHf id x); [apply in_flattened; exact Hi|exact Rx]. }
  pose proof (e_flat _ _ Hv) as F. revert IH. clear - F Hq.
  induction F as [|x y l l' [E Rx] F IHl|id x l l' _ Hx F IHl]; intros IH; [reflexivity| |]; cbn [flat_map].
  - rewrite !find_app', !find_map'. cbn [snd].
    rewrite (IH x (or_introl eq_refl) _ Rx), E. rewrite IHl; [reflexivity|]. intros fx Hx. apply IH. right. exact Hx.
  - rewrite find_app', find_map'. cbn [fst snd].
    replace (find (fun x0 : list ident * sarg => q (snd x0)) (reach x)) with (@None (list ident * sarg)); [apply IHl; exact IH|].
    symmetry. apply find_None_iff. intros pa Hi. apply Hq. exact (Hx pa Hi).
Qed.
Definition stack_ext stk stk' : Prop := Forall2 scope_ext stk stk'.
Lemma stack_args_ext (q : sarg -> bool) stk stk' : (forall a, added a -> q a = false) -> stack_ext stk stk' ->
  find (fun x : addr * sarg => q (snd x)) (stack_args stk) = find (fun x => q (snd x)) (stack_args stk').
Proof.
  intros Hq R. induction R as [|s s' stk stk' [Rd _] R IH]; [reflexivity|].
  cbn [stack_args]. rewrite !find_app'. unfold scope_args. rewrite !find_map'. cbn [snd].
  rewrite (reach_ext q _ Hq _ Rd), (OrderFacts.Forall2_length R), IH. reflexivity.
Qed.
Lemma resolve_ext stk stk' n : (forall a, added a -> has_nameb a n = false) -> stack_ext stk stk' -> resolve stk n = resolve stk' n.
Proof.
  intros Hq R. unfold resolve. destruct R as [|s s' stk stk' [Rd _] R]; [reflexivity|]. cbn [in_scope].
  rewrite !find_app', !find_filter. unfold scope_args. rewrite !find_map'. cbn [snd].
  rewrite (reach_ext (fun a => has_nameb a n) _ Hq _ Rd), (OrderFacts.Forall2_length R).
  rewrite (stack_args_ext (fun a => is_global a && has_nameb a n) stk stk'); [reflexivity| |exact R].
  intros a Ha. rewrite (Hq a Ha). apply andb_false_r.
Qed.

(** No name of an added argument is known. *)
Definition new_names stk : Prop :=
  forall a n, added a -> has_name a n -> stack_every (fun b => negb (has_nameb b n)) stk.
Lemma every_reach (p : sarg -> bool) d : every_arg p d = true -> forall pa, In pa (reach d) -> p (snd pa) = true.
Proof.
  induction d as [d IH _] using decl_induction. intros H pa. rewrite reach_eq, in_app_iff. intros [Hi|Hi].
  - apply in_map_iff in Hi. destruct Hi as (a & <- & Ha). exact (every_own p d a H Ha).
  - apply in_flat_map in Hi. destruct Hi as ([id x] & Hx & Hi). apply in_map_iff in Hi. destruct Hi as (pb & <- & Hb). cbn [fst snd] in *.
    apply (IH id x); [apply in_flattened; exact Hx|exact (every_flat p _ _ _ H Hx)|exact Hb].
Qed.
Lemma every_stack_args (p : sarg -> bool) stk : stack_every p stk -> forall x, In x (stack_args stk) -> p (snd x) = true.
Proof.
  induction 1 as [|s stk Hs H IH]; intros x; [intros []|]. cbn [stack_args]. rewrite in_app_iff. intros [Hx|Hx]; [|exact (IH x Hx)].
  unfold scope_args in Hx. apply in_map_iff in Hx. destruct Hx as (pa & <- & Hp). exact (every_reach p _ Hs pa Hp).
Qed.
Lemma in_scope_args stk x : In x (in_scope stk) -> In x (stack_args (V:=V) stk).
Proof.
  destruct stk as [|s stk]; [intros []|]. cbn [in_scope stack_args]. rewrite !in_app_iff. intros [H|H]; [left; exact H|right].
  apply filter_In in H. exact (proj1 H).
Qed.
Lemma resolve_kept stk stk' n x : new_names stk -> stack_ext stk stk' -> resolve stk n = Some x -> resolve stk' n = Some x.
Proof.
  intros Hn R E. rewrite <- (resolve_ext stk stk' n); [exact E| |exact R]. intros a Ha. destruct (has_nameb a n) eqn:N; [|reflexivity].
  apply find_some in E. destruct E as [Hi Hx]. apply in_scope_args in Hi.
  pose proof (every_stack_args _ stk (Hn a n Ha (proj1 (has_nameb_spec a n) N)) x Hi) as C. cbn beta in C. rewrite Hx in C. discriminate.
Qed.

(** ** Reading *)

Hypothesis Hopt : forall a, added a -> is_last a = false /\ is_required a = false /\ default_readable a = true.

Definition plain a : bool := negb (is_option a) && negb (is_last a).
Definition closing a : bool := negb (is_option a) && is_last a.
Lemma filter_none {A} (f : A -> bool) l : (forall x, In x l -> f x = false) -> filter f l = [].
Proof.
  induction l as [|x l IH]; intros H; [reflexivity|]. cbn [filter]. rewrite (H x (or_introl eq_refl)). apply IH. intros y Hy. apply H. right. exact Hy.
Qed.
Lemma plain_inserted l l' : inserted l l' -> exists new, filter plain l' = filter plain l ++ new /\ Forall added new.
Proof.
  induction 1 as [|a l l' H (new & IH & Hw)|a l l' Ha Hp H (new & IH & Hw)]; [exists []; split; [reflexivity|constructor]| |].
  - exists new. cbn [filter]. rewrite IH. split; [destruct (plain a); reflexivity|exact Hw].
  - cbn [filter]. destruct (plain a) eqn:E; [|exists new; split; [exact IH|exact Hw]]. exists (a :: filter plain l'). destruct Hp as [Hp|Hp].
    + unfold plain in E. rewrite Hp in E. discriminate.
    + assert (N : filter plain l = []).
      { apply filter_none. intros b Hb. unfold plain. destruct (Hp b Hb) as [K|K]; rewrite K; [reflexivity|apply andb_false_r]. }
      rewrite N in *. cbn [app] in IH. rewrite IH. split; [reflexivity|]. constructor; assumption.
Qed.
Lemma closing_inserted l l' : inserted l l' -> filter closing l' = filter closing l.
Proof.
  induction 1 as [|a l l' H IH|a l l' Ha Hp H IH]; [reflexivity| |]; cbn [filter]; [rewrite IH; reflexivity|].
  unfold closing at 1. rewrite (proj1 (Hopt a Ha)), andb_false_r. exact IH.
Qed.
Lemma filter_filter' {A} (f g : A -> bool) l : filter f (filter g l) = filter (fun x => g x && f x) l.
Proof. induction l as [|x l IH]; [reflexivity|]. cbn [filter]. destruct (g x); cbn [filter andb]; rewrite IH; reflexivity. Qed.
Lemma positionals_split d : positionals d = filter plain (own_args d) ++ filter closing (own_args d).
Proof. unfold positionals. cbn zeta. rewrite !filter_filter'. reflexivity. Qed.
Lemma last_split d : filter is_last (positionals d) = filter closing (own_args d).
Proof.
  rewrite positionals_split, filter_app, !filter_filter'. rewrite (filter_none (fun x => plain x && is_last x)).
  - cbn [app]. apply filter_ext. intros a. unfold closing. destruct (is_option a), (is_last a); reflexivity.
  - intros a _. unfold plain. destruct (is_option a), (is_last a); reflexivity.
Qed.

(** What is left to fill: more words, before the [last] argument. *)
Definition lasts stk : list sarg := match stk with s :: _ => filter closing (own_args (sc_decl s)) | [] => [] end.
Definition rem_ext stk (rem rem' : list sarg) : Prop :=
  exists pl new, rem = pl ++ lasts stk /\ rem' = pl ++ new ++ lasts stk /\ Forall added new /\ forall p, In p pl -> is_last p = false.
Lemma rem_start s s' stk : scope_ext s s' -> rem_ext (s :: stk) (positionals (sc_decl s)) (positionals (sc_decl s')).
Proof.
  intros [R _]. pose proof (e_own _ _ (extended_view _ _ R)) as H. destruct (plain_inserted _ _ H) as (new & E & Hw).
  exists (filter plain (own_args (sc_decl s))), new. cbn [lasts]. rewrite !positionals_split, E, (closing_inserted _ _ H), app_assoc.
  split; [reflexivity|]. split; [reflexivity|]. split; [exact Hw|]. intros p Hp. apply filter_In in Hp. destruct Hp as [_ Hp]. apply andb_true_iff in Hp.
  apply negb_true_iff. exact (proj2 Hp).
Qed.

Definition state_ext (st st' : state V) : Prop :=
  match st, st' with
  | Normal stk rem, Normal stk' rem' => stack_ext stk stk' /\ rem_ext stk rem rem'
  | Await stk rem ad a, Await stk' rem' ad' a' => stack_ext stk stk' /\ rem_ext stk rem rem' /\ ad = ad' /\ a = a'
  | Verbatim stk rem, Verbatim stk' rem' => stack_ext stk stk' /\ exists new, rem' = rem ++ new /\ Forall added new
  | Drain stk p, Drain stk' p' => stack_ext stk stk' /\ p = p'
  | _, _ => False
  end.
(** The second reader goes on if the first does. *)
Definition follows (x y : list occ * outcome V) : Prop :=
  match snd x with
  | Go st => fst y = fst x /\ exists st', snd y = Go st' /\ state_ext st st'
  | Stop _ => True
  end.

Section Stacks.
Variables (stk stk' : list scope).
Hypothesis Hn : new_names stk.
Hypothesis R : stack_ext stk stk'.

Section Rest.
Variables (rem rem' : list sarg).
Hypothesis Hrem : rem_ext stk rem rem'.
Lemma go_normal os : follows (os, Go (Normal stk rem)) (os, Go (Normal stk' rem')).
Proof. split; [reflexivity|]. eexists. split; [reflexivity|]. split; [exact R|exact Hrem]. Qed.
Lemma bare_ext ad a : follows (bare stk rem ad a) (bare stk' rem' ad a).
Proof.
  unfold bare. destruct (takes_value a); [destruct (needs_equals a)|]; [exact I| |apply go_normal].
  split; [reflexivity|]. eexists. split; [reflexivity|]. repeat split; [exact R|exact Hrem].
Qed.
Lemma long_ext (s : bytes) v : follows (read_long stk rem s v) (read_long stk' rem' s v).
Proof.
  unfold read_long. destruct (resolve stk (Long s)) as [[ad a]|] eqn:E; [|exact I]. rewrite (resolve_kept stk stk' _ _ Hn R E).
  destruct v; [apply go_normal|apply bare_ext].
Qed.
Lemma bundle_ext junk cs : follows (read_bundle stk rem cs junk) (read_bundle stk' rem' cs junk).
Proof.
  induction cs as [|c cs IH]; cbn [read_bundle]; [destruct junk; [apply go_normal|exact I]|].
  destruct (resolve stk (Short c)) as [[ad a]|] eqn:E; [|exact I]. rewrite (resolve_kept stk stk' _ _ Hn R E).
  assert (K : forall o, follows (let '(os, out) := read_bundle stk rem cs junk in (o :: os, out)) (let '(os, out) := read_bundle stk' rem' cs junk in (o :: os, out))).
  { intros o. unfold follows in *. destruct (read_bundle stk rem cs junk) as [os [st|sp]], (read_bundle stk' rem' cs junk) as [os' out']; cbn [fst snd] in *; [|exact I].
    destruct IH as (-> & st' & -> & Rs). split; [reflexivity|]. exists st'. split; [reflexivity|exact Rs]. }
  destruct (encode_all cs ++ junk) as [|x v]; [apply bare_ext|].
  assert (N : follows (if needs_equals a then ([], Stop (SErr (error_about MissingEq a)))
                       else if takes_value a then ([Occ ad a (Some (x :: v))], Go (Normal stk rem))
                       else let '(os, out) := read_bundle stk rem cs junk in (Occ ad a None :: os, out))
                      (if needs_equals a then ([], Stop (SErr (error_about MissingEq a)))
                       else if takes_value a then ([Occ ad a (Some (x :: v))], Go (Normal stk' rem'))
                       else let '(os, out) := read_bundle stk' rem' cs junk in (Occ ad a None :: os, out))).
  { destruct (needs_equals a); [exact I|]. destruct (takes_value a); [apply go_normal|apply K]. }
  destruct x; try exact N. destruct (takes_value a); [apply go_normal|apply K].
Qed.
Lemma word_ext tok : follows (take_word false stk rem tok) (take_word false stk' rem' tok).
Proof.
  unfold take_word. destruct Hrem as (pl & new & -> & -> & Hw & Hl). destruct pl as [|p pl]; cbn [app orb].
  - destruct (lasts stk) as [|p ls] eqn:E; [exact I|].
    assert (Hp : is_last p = true).
    { unfold lasts in E. destruct stk as [|s l]; [discriminate|]. assert (K : In p (filter closing (own_args (sc_decl s)))) by (rewrite E; left; reflexivity).
      apply filter_In in K. destruct K as [_ K]. apply andb_true_iff in K. exact (proj2 K). }
    rewrite Hp. exact I.
  - rewrite (Hl p (or_introl eq_refl)). cbn [negb]. rewrite (OrderFacts.Forall2_length R). split; [reflexivity|]. cbn [snd].
    eexists. split; [reflexivity|]. destruct (greedy p); [split; [exact R|reflexivity]|]. split; [exact R|].
    destruct (many p); [exact Hrem|]. exists pl, new. repeat split; [exact Hw|]. intros q Hq. apply Hl. right. exact Hq.
Qed.
Lemma sep_ext : exists new, after_sep stk' rem' = after_sep stk rem ++ new /\ Forall added new.
Proof.
  clear Hn. unfold after_sep. destruct Hrem as (pl & new & -> & -> & Hw & _). unfold lasts. destruct R as [|s s' l l' [Rd _] _]; [exists new; rewrite !app_nil_r; split; [reflexivity|exact Hw]|].
  rewrite !last_split, (closing_inserted _ _ (e_own _ _ (extended_view _ _ Rd))).
  destruct (filter closing (own_args (sc_decl s))); [exists new; rewrite !app_nil_r; split; [reflexivity|exact Hw]|exists []; rewrite app_nil_r; split; [reflexivity|constructor]].
Qed.
End Rest.
Lemma verbatim_ext rem new tok : Forall added new -> follows (take_word true stk rem tok) (take_word true stk' (rem ++ new) tok).
Proof.
  intros Hw. unfold take_word. destruct rem as [|p rem]; [exact I|]. cbn [app orb]. rewrite (OrderFacts.Forall2_length R). split; [reflexivity|]. cbn [snd].
  eexists. split; [reflexivity|]. destruct (greedy p); [split; [exact R|reflexivity]|]. split; [exact R|]. exists new. split; [destruct (many p); reflexivity|exact Hw].
Qed.
Lemma named_ext tok : ~ fresh tok ->
  match first_named (sub_variants stk) tok, first_named (sub_variants stk') tok with
  | None, None => True
  | Some v, Some w => variant_ext v w
  | _, _ => False
  end.
Proof.
  clear Hn. intros Ht. unfold first_named, sub_variants. destruct R as [|s s' l l' [Rd _] _]; [exact I|]. pose proof (e_sub _ _ (extended_view _ _ Rd)) as H.
  destruct (subcommand (sc_decl s)) as [[[i o] vs]|], (subcommand (sc_decl s')) as [[[i' o'] vs']|]; cbn [sub_view] in H; try contradiction; [| |exact I].
  - destruct H as [_ H]. cbn [snd] in H. induction H as [|v w m m' Rv F IH|v m m' Hv F IH]; [exact I| |]; cbn [find].
    + replace (sub_name w) with (sub_name v) by (unfold sub_name; rewrite (proj1 Rv); reflexivity).
      destruct (beqb (sub_name v) tok); [exact Rv|exact IH].
    + destruct (beqb (sub_name v) tok) eqn:E; [|exact IH]. apply beqb_eq in E. rewrite E in Hv. contradiction.
  - destruct H as [_ H]. cbn [find]. destruct (find (fun v => beqb (sub_name v) tok) vs') as [v|] eqn:E; [|exact I]. apply find_some in E.
    destruct E as [Hi E]. apply beqb_eq in E. apply Ht. rewrite <- E. exact (H v Hi).
Qed.
End Stacks.

Lemma step_ext st st' tok : ~ fresh tok -> new_names (state_stack st) -> state_ext st st' -> follows (step first_named st tok) (step first_named st' tok).
Proof.
  intros Ht. destruct st as [stk rem|stk rem ad a|stk rem|stk p], st' as [stk' rem'|stk' rem' ad' a'|stk' rem'|stk' p']; cbn [state_ext state_stack step]; try contradiction; intros Hn.
  - intros [R Hr]. destruct (form_of tok) as [|s v|b|].
    + destruct (sep_ext stk stk' R rem rem' Hr) as (new & E & Hw). split; [reflexivity|]. eexists. split; [reflexivity|]. split; [exact R|]. exists new. split; assumption.
    + apply long_ext; assumption.
    + destruct (utf8_prefix b) as [cs junk]. apply bundle_ext; assumption.
    + pose proof (named_ext stk stk' R tok Ht) as H.
      destruct (first_named (sub_variants stk) tok) as [v|], (first_named (sub_variants stk') tok) as [w|]; try contradiction; [|apply word_ext; assumption].
      pose proof (variant_scope_ext _ _ H) as Rs.
      split; [reflexivity|]. eexists. split; [reflexivity|]. split; [constructor; [exact Rs|exact R]|]. apply rem_start. exact Rs.
  - intros (R & Hr & <- & <-). destruct (may_follow a tok); [apply go_normal; assumption|exact I].
  - intros (R & new & -> & Hw). apply verbatim_ext; assumption.
  - intros [R <-]. rewrite (OrderFacts.Forall2_length R). split; [reflexivity|]. eexists. split; [reflexivity|]. split; [exact R|reflexivity].
Qed.
Lemma read_ext toks : (forall tok, In tok toks -> ~ fresh tok) ->
  forall st st', new_names (state_stack st) -> state_ext st st' -> follows (read first_named st toks) (read first_named st' toks).
Proof.
  induction toks as [|tok toks IH]; intros Ht st st' Hn R; [split; [reflexivity|]; eexists; split; [reflexivity|exact R]|]. cbn [read].
  pose proof (step_ext st st' tok (Ht tok (or_introl eq_refl)) Hn R) as H. destruct (step first_named st tok) as [os out] eqn:E. unfold follows in H. cbn [fst snd] in H.
  destruct out as [st1|sp]; [|exact I]. destruct H as (H1 & st1' & H2 & R1). destruct (step first_named st' tok) as [os' out']. cbn [fst snd] in H1, H2. subst.
  assert (Hn1 : new_names (state_stack st1)).
  { intros a n Ha Hna. apply (read_every (fun b => negb (has_nameb b n)) first_named) with (toks := [tok]) (st := st) (os := os ++ []).
    - intros vs t v Hf. apply find_some in Hf. exact (proj1 Hf).
    - exact (Hn a n Ha Hna).
    - cbn [read]. rewrite E. reflexivity. }
  pose proof (IH (fun t H => Ht t (or_intror H)) st1 st1' Hn1 R1) as G. unfold follows in *. destruct (read first_named st1 toks) as [os1 [st2|sp]]; cbn [fst snd] in *; [|exact I].
  destruct G as (G1 & st2' & G2 & R2). destruct (read first_named st1' toks) as [os1' out1']. cbn [fst snd] in *. subst. split; [reflexivity|].
  exists st2'. split; [reflexivity|exact R2].
Qed.

(** The commands around another one have subcommands. *)
Definition outer_ok stk : Prop := Forall (fun s => subcommand (sc_decl s) <> None) (tl stk).
Lemma step_outer st tok os st' : outer_ok (state_stack st) -> step first_named st tok = (os, Go st') -> outer_ok (state_stack st').
Proof.
  intros H E. destruct (step_stack _ _ _ _ _ E) as [->|(v & Hv & ->)]; [exact H|]. unfold outer_ok. cbn [tl].
  destruct (state_stack st) as [|s stk]; [discriminate|]. constructor; [|exact H].
  unfold sub_variants in Hv. destruct (subcommand (sc_decl s)) as [[[i o] vs]|]; discriminate.
Qed.
Lemma read_outer toks : forall st os st', outer_ok (state_stack st) -> read first_named st toks = (os, Go st') -> outer_ok (state_stack st').
Proof.
  induction toks as [|tok toks IH]; intros st os st' H; [intros E; injection E as <- <-; exact H|]. cbn [read].
  destruct (step first_named st tok) as [os1 [st1|sp]] eqn:E1; [|discriminate]. destruct (read first_named st1 toks) as [os2 out] eqn:E2. intros E. injection E as <- ->.
  exact (IH _ _ _ (step_outer _ _ _ _ H E1) E2).
Qed.

(** ** Values *)

Lemma fields_ids fs fs' : extended_fields fs fs' -> incl (map fst fs) (map fst fs').
Proof.
  induction 1 as [|id fd fd' l l' Hf Hl IH|id m t l l' Ha Hp Hl IH|id x l l' Hx Hl IH|id vs l l' Hv Hs Hl IH]; cbn [map fst]; intros y Hy;
    [exact Hy| |right; apply IH; exact Hy|right; apply IH; exact Hy|right; apply IH; exact Hy].
  destruct Hy as [<-|Hy]; [left; reflexivity|right; apply IH; exact Hy].
Qed.
Lemma fields_new fs fs' : extended_fields fs fs' -> NoDup (map fst fs') -> forall a, In a (flat_map own_arg fs') ->
  In a (flat_map own_arg fs) \/ added a /\ ~ In (sa_id a) (map fst fs).
Proof.
  induction 1 as [|id fd fd' l l' Hf Hl IH|id m t l l' Ha Hp Hl IH|id x l l' Hx Hl IH|id vs l l' Hv Hs Hl IH]; cbn [map fst flat_map]; intros N a Hi; [destruct Hi| | | |];
    inversion N as [|y z N1 N2]; subst; rewrite in_app_iff in *.
  - assert (K : In a (flat_map own_arg l') -> (In a (own_arg (id, fd)) \/ In a (flat_map own_arg l)) \/ added a /\ ~ (id = sa_id a \/ In (sa_id a) (map fst l))).
    { intros Hj. destruct (IH N2 a Hj) as [H|[H1 H2]]; [left; right; exact H|]. right. split; [exact H1|]. intros [E|H]; [|exact (H2 H)].
      apply N1. rewrite E. apply in_flat_map in Hj. destruct Hj as ([i f] & Hf1 & Hf2). destruct f; cbn in Hf2; try contradiction.
      destruct Hf2 as [<-|[]]. apply (in_map fst) in Hf1. exact Hf1. }
    destruct Hi as [Hi|Hi]; [|exact (K Hi)]. left. left. destruct Hf; cbn [own_arg fst snd] in *; assumption.
  - destruct Hi as [[<-|[]]|Hi]; [|exact (IH N2 a Hi)]. right. split; [exact Ha|]. intros H. apply N1. exact (fields_ids _ _ Hl _ H).
  - destruct Hi as [[]|Hi]. exact (IH N2 a Hi).
  - destruct Hi as [[]|Hi]. exact (IH N2 a Hi).
Qed.
Lemma flats_merged fs fs' : extended_fields fs fs' -> NoDup (map fst fs') ->
  forall old : ident -> Prop, (forall i, old i -> In i (map fst fs) \/ ~ In i (map fst fs')) -> merged old (flat_map flat_field fs) (flat_map flat_field fs').
Proof.
  induction 1 as [|id fd fd' l l' Hf Hl IH|id m t l l' Ha Hp Hl IH|id x l l' Hx Hl IH|id vs l l' Hv Hs Hl IH]; cbn [map fst flat_map]; intros N old Ho;
    [constructor| | | |]; inversion N as [|y z N1 N2]; subst.
  2: { apply (IH N2). intros i Hi. destruct (Ho i Hi) as [K|K]; [left; exact K|right; intros C; apply K; right; exact C]. }
  3: { apply (IH N2). intros i Hi. destruct (Ho i Hi) as [K|K]; [left; exact K|right; intros C; apply K; right; exact C]. }
  - assert (K : merged old (flat_map flat_field l) (flat_map flat_field l')).
    { apply (IH N2). intros i Hi. destruct (Ho i Hi) as [[<-|K]|K]; [right; exact N1|left; exact K|right; intros C; apply K; right; exact C]. }
    destruct Hf as [m t|x x' Hx|o vs vs' Hv]; cbn [flat_field fst snd app]; [exact K| |exact K]. constructor; [split; [reflexivity|exact Hx]|exact K].
  - cbn [flat_field fst snd app]. apply merged_new; [|exact Hx|].
    + intros C. destruct (Ho id C) as [K|K]; [apply N1; exact (fields_ids _ _ Hl _ K)|apply K; left; reflexivity].
    + apply (IH N2). intros i Hi. destruct (Ho i Hi) as [K|K]; [left; exact K|right; intros C; apply K; right; exact C].
Qed.
Lemma inserted_incl l l' : inserted l l' -> incl l l'.
Proof.
  induction 1 as [|a l l' H IH|a l l' Ha Hp H IH]; intros x Hx; [exact Hx| |right; apply IH; exact Hx].
  destruct Hx as [<-|Hx]; [left; reflexivity|right; apply IH; exact Hx].
Qed.

(** The occurrences on a level below a path are of arguments of [d]. *)
Definition only_of os level path d : Prop :=
  forall p, p <> [] -> given os (Addr level (path ++ p)) = true -> exists a, In (p, a) (reach d).

Lemma in_own_field d a : In a (own_args d) -> In (sa_id a) (map fst (fields_of d)).
Proof. intros H. apply in_own_args in H. apply (in_map fst) in H. exact H. Qed.
Lemma only_flat os level path d id x : NoDup (map fst (fields_of d)) -> In (id, x) (flattened d) ->
  only_of os level path d -> only_of os level (path ++ [id]) x.
Proof.
  intros N Hx H p Hp Hg. destruct (H (id :: p)) as [a Ha]; [discriminate|rewrite <- app_assoc in Hg; exact Hg|].
  rewrite reach_eq, in_app_iff in Ha. destruct Ha as [Ha|Ha].
  - apply in_map_iff in Ha. destruct Ha as (b & E & _). injection E as _ E _. subst p. contradiction.
  - apply in_flat_map in Ha. destruct Ha as ([id' y] & Hy & Ha). apply in_map_iff in Ha. destruct Ha as ([q b] & E & Hb). cbn [fst snd] in E. injection E as -> -> ->.
    assert (E : (id, FFlatten y) = (id, FFlatten x)); [|injection E as ->; exists a; exact Hb].
    apply in_flattened in Hx, Hy. clear - N Hx Hy. induction (fields_of d) as [|[i f] l IH]; [destruct Hx|]. cbn [map fst] in N. inversion N as [|z w N1 N2]; subst.
    destruct Hx as [E|Hx], Hy as [E'|Hy]; [congruence| | |exact (IH N2 Hx Hy)].
    + injection E as -> _. exfalso. apply N1. apply (in_map fst) in Hy. exact Hy.
    + injection E' as -> _. exfalso. apply N1. apply (in_map fst) in Hx. exact Hx.
Qed.
Lemma only_own os level path d id : only_of os level path d -> is_given os level path id = true -> In id (map fst (fields_of d)).
Proof.
  intros H Hg. destruct (H [id]) as [a Ha]; [discriminate|exact Hg|]. rewrite reach_eq, in_app_iff in Ha. destruct Ha as [Ha|Ha].
  - apply in_map_iff in Ha. destruct Ha as (b & E & Hb). injection E as <- _. exact (in_own_field d b Hb).
  - apply in_flat_map in Ha. destruct Ha as ([id' y] & Hy & Ha). apply in_map_iff in Ha. destruct Ha as (q & E & Hb). injection E as -> _ _.
    apply in_flattened in Hy. apply (in_map fst) in Hy. exact Hy.
Qed.

Definition more_sub_opt (s s' : option (subval V)) : Prop :=
  match s, s' with None, None => True | Some x, Some y => more_subval x y | _, _ => False end.

Lemma struct_ext os level path d d' flats flats' sub sub' o : extended d d' -> NoDup (map fst (fields_of d')) -> only_of os level path d ->
  more_flats flats flats' -> more_sub_opt sub sub' -> (subcommand d = None -> sub = None) -> finish_struct os level path d flats sub = Ok o ->
  exists o', finish_struct os level path d' flats' sub' = Ok o' /\ more_values o o'.
Proof.
  intros R N Ho Hf Hs Hc H. pose proof (extended_view _ _ R) as Hv. apply finish_struct_Ok in H. destruct H as ((H1 & H2 & H3) & H4 & ->).
  assert (Es : is_some sub' = is_some sub) by (destruct sub, sub'; try contradiction; reflexivity).
  assert (New : forall a, In a (own_args d') -> In a (own_args d) \/ added a /\ is_given os level path (sa_id a) = false).
  { intros a Ha. destruct R as [at_ fs fs' Rf]. destruct (fields_new _ _ Rf N a Ha) as [K|[K1 K2]]; [left; exact K|right]. split; [exact K1|].
    destruct (is_given os level path (sa_id a)) eqn:G; [|reflexivity]. elim K2. exact (only_own _ _ _ _ _ Ho G). }
  assert (Ev : first_violation os level path d' (is_some sub') (checked d') = None).
  { apply FieldFacts.first_violation_None. intros a Ha. apply violation_None. apply in_checked in Ha. rewrite Es. intros Hg.
    destruct (New a Ha) as [K|[_ K]]; [|congruence]. destruct (H2 a K Hg) as (C1 & C2 & C3). split; [exact C1|]. split; [exact C2|].
    intros E. destruct (C3 E) as [C4 C5]. split; [exact C4|]. intros b Hb Hne. destruct (New b Hb) as [Kb|[_ Kb]]; [exact (C5 b Kb Hne)|exact Kb]. }
  assert (Ea : check_absent os level path (checked d') = Ok tt).
  { apply check_absent_Ok. intros a Ha Hg. apply in_checked in Ha. destruct (New a Ha) as [K|[K _]]; [exact (H4 a K Hg)|]. destruct (Hopt a K) as (_ & E1 & E2). split; assumption. }
  unfold finish_struct. rewrite Ev, Ea. cbn [bind].
  assert (D : incl (direct_values os level path d) (direct_values os level path d')).
  { intros x Hx. unfold direct_values in *. apply in_flat_map in Hx. destruct Hx as (a & Ha & Hx). apply in_flat_map. exists a. split; [|exact Hx].
    apply in_checked. apply (inserted_incl _ _ (e_own _ _ Hv)). apply in_checked. exact Ha. }
  pose proof (e_sub _ _ Hv) as S. destruct (subcommand d) as [[[id o] vs]|], (subcommand d') as [[[id' o'] vs']|]; cbn [sub_view] in S; try contradiction.
  - destruct S as [E _]. cbn [fst] in E. injection E as <- <-. destruct o.
    + eexists. split; [reflexivity|]. constructor; [exact D|exact Hf|]. destruct sub, sub'; try contradiction; constructor. exact Hs.
    + pose proof (H3 id vs eq_refl) as K. destruct sub, sub'; try contradiction; try discriminate. eexists. split; [reflexivity|]. constructor; [exact D|exact Hf|]. constructor. exact Hs.
  - destruct S as [-> _]. rewrite (Hc eq_refl) in Hs. destruct sub'; [contradiction|]. eexists. split; [reflexivity|]. constructor; [exact D|exact Hf|constructor].
  - eexists. split; [reflexivity|]. constructor; [exact D|exact Hf|constructor].
Qed.
Lemma more_flats_app l l' m m' : more_flats (V:=V) l l' -> more_flats m m' -> more_flats (l ++ m) (l' ++ m').
Proof. intros H. induction H as [|id o o' l l' Ho Hl IH|id o l l' Hl IH]; intros K; [exact K| |]; cbn [app]; constructor; try exact Ho; apply IH; exact K. Qed.

(** A struct of which nothing is given. *)
Lemma absent_args os level d : forall path, well_formed d -> subcommands d = [] -> (forall pa, In pa (reach d) -> added (snd pa)) ->
  (forall p, p <> [] -> given os (Addr level (path ++ p)) = false) -> exists o, finish_args os level path d None = Ok o.
Proof.
  induction d as [d IHf _] using decl_induction. intros path W Hc Ha Hg. rewrite finish_args_eq. inversion W as [d0 L W1 _]; subst d0.
  assert (E : forall l acc, (forall fx, In fx l -> In fx (flattened d)) -> exists outs, finish_flats os level path l (Ok acc) = Ok outs).
  { induction l as [|[id x] l IHl]; intros acc Hl; [exists acc; reflexivity|]. unfold finish_flats in *. cbn [fold_left bind fst snd].
    assert (Hi : In (id, x) (flattened d)) by (apply Hl; left; reflexivity).
    destruct (IHf id x (proj1 (in_flattened d id x) Hi) (path ++ [id]) (W1 _ _ Hi) (proj2 (ls_flat _ L id x Hi))) as [o Eo].
    - intros pa Hp. rewrite reach_eq in Ha. specialize (Ha (id :: fst pa, snd pa)). apply Ha. apply in_app_iff. right. apply in_flat_map. exists (id, x).
      split; [exact Hi|]. cbn [fst snd]. apply in_map_iff. exists pa. split; [reflexivity|exact Hp].
    - intros p Hp. rewrite <- app_assoc. apply Hg. discriminate.
    - rewrite Eo. cbn [bind]. apply IHl. intros fy Hy. apply Hl. right. exact Hy. }
  destruct (E (flattened d) [] (fun _ H => H)) as [outs ->]. cbn [bind].
  assert (Own : forall a, In a (own_args d) -> added a).
  { intros a Hi. rewrite reach_eq in Ha. apply (Ha ([sa_id a], a)). apply in_app_iff. left. apply in_map_iff. exists a. split; [reflexivity|exact Hi]. }
  assert (Gv : forall id, is_given os level path id = false) by (intros id; apply Hg; discriminate).
  apply finish_struct_sat; [intros a Hi; apply (Hopt a (Own a Hi))|]. split; [|split].
  - intros a Hi Hr. destruct (Hopt a (Own a Hi)) as (_ & K & _). congruence.
  - intros a Hi C. rewrite Gv in C. discriminate.
  - intros id vs C. unfold subcommand in C. fold (subcommands d) in C. rewrite Hc in C. discriminate.
Qed.

Lemma args_ext os level d : forall d' path sub sub' o, well_formed d -> well_formed d' -> extended d d' -> only_of os level path d ->
  more_sub_opt sub sub' -> (subcommand d = None -> sub = None) -> finish_args os level path d sub = Ok o ->
  exists o', finish_args os level path d' sub' = Ok o' /\ more_values o o'.
Proof.
  induction d as [d IHf _] using decl_induction. intros d' path sub sub' o W W' R Ho Hs Hc. rewrite !finish_args_eq. pose proof (extended_view _ _ R) as Hv.
  inversion W as [d0 L W1 _]; subst d0. inversion W' as [d0' L' W1' _]; subst d0'.
  assert (Fm : merged (fun i => In i (map fst (fields_of d))) (flattened d) (flattened d')).
  { destruct R as [at_ fs fs' Rf]. apply (flats_merged _ _ Rf (ls_fields _ L')). intros i Hi. left. exact Hi. }
  assert (E : forall l l' acc acc' outs, merged (fun i => In i (map fst (fields_of d))) l l' -> (forall fx, In fx l -> In fx (flattened d)) -> (forall fx, In fx l' -> In fx (flattened d')) ->
    more_flats acc acc' -> finish_flats os level path l (Ok acc) = Ok outs ->
    exists outs', finish_flats os level path l' (Ok acc') = Ok outs' /\ more_flats outs outs').
  { intros l l' acc acc' outs F. revert acc acc'. induction F as [|fx fy l l' [Ei Rx] F IHl|id x l l' Hid Hx F IHl]; intros acc acc' Hl Hl' Ha E.
    - injection E as <-. exists acc'. split; [reflexivity|exact Ha].
    - unfold finish_flats in *. cbn [fold_left bind] in *. destruct fx as [id x], fy as [id' y]. cbn [fst snd] in *. subst id'.
      assert (Hi : In (id, x) (flattened d)) by (apply Hl; left; reflexivity). assert (Hi' : In (id, y) (flattened d')) by (apply Hl'; left; reflexivity).
      destruct (finish_args os level (path ++ [id]) x None) as [ox|e|p] eqn:Ex; cbn [bind] in E.
      + destruct (IHf id x (proj1 (in_flattened d id x) Hi) y (path ++ [id]) None None ox (W1 _ _ Hi) (W1' _ _ Hi') Rx) as (oy & Ey & M);
          [exact (only_flat _ _ _ _ _ _ (ls_fields _ L) Hi Ho)|exact I|reflexivity|exact Ex|].
        rewrite Ey. cbn [bind]. apply (IHl (acc ++ [(id, ox)])); [intros z Hz; apply Hl; right; exact Hz|intros z Hz; apply Hl'; right; exact Hz| |exact E].
        apply more_flats_app; [exact Ha|]. constructor; [exact M|constructor].
      + fold (finish_flats os level path l (Err (A:=list (ident * outval V)) e)) in E. rewrite finish_flats_Err in E. discriminate.
      + fold (finish_flats os level path l (Panic (A:=list (ident * outval V)) p)) in E. rewrite finish_flats_Panic in E. discriminate.
    - assert (Hi' : In (id, x) (flattened d')) by (apply Hl'; left; reflexivity).
      destruct (absent_args os level x (path ++ [id]) (W1' _ _ Hi') (proj2 (ls_flat _ L' id x Hi')) Hx) as [ox Eox].
      { intros p Hp. rewrite <- app_assoc. destruct (given os (Addr level (path ++ [id] ++ p))) eqn:G; [|reflexivity]. elim Hid.
        destruct (Ho (id :: p) ltac:(discriminate) G) as [a Hr]. rewrite reach_eq, in_app_iff in Hr. destruct Hr as [Hr|Hr].
        - apply in_map_iff in Hr. destruct Hr as (b & Eb & Hb). injection Eb as <- _ _. exact (in_own_field d b Hb).
        - apply in_flat_map in Hr. destruct Hr as ([id' y] & Hy & Hr). apply in_map_iff in Hr. destruct Hr as (r & Er & _). cbn [fst snd] in Er. injection Er as -> _ _.
          apply in_flattened in Hy. apply (in_map fst) in Hy. exact Hy. }
      unfold finish_flats in *. cbn [fold_left bind fst snd]. rewrite Eox. cbn [bind]. apply (IHl acc (acc' ++ [(id, ox)])).
      + exact Hl.
      + intros z Hz. apply Hl'. right. exact Hz.
      + rewrite <- (app_nil_r acc). apply more_flats_app; [exact Ha|]. constructor. constructor.
      + exact E. }
  destruct (finish_flats os level path (flattened d) (Ok [])) as [outs|e|p] eqn:Ef; cbn [bind]; [|discriminate|discriminate].
  destruct (E _ _ [] [] outs Fm (fun _ H => H) (fun _ H => H) (more_nil (V:=V)) Ef) as (outs' & Ef' & M). rewrite Ef'. cbn [bind].
  apply struct_ext; try assumption. exact (ls_fields _ L').
Qed.

Lemma stack_level inner s outer p a : In (Addr (length outer) p, a) (stack_args (inner ++ s :: outer)) -> In (p, a) (reach (sc_decl s)).
Proof.
  induction inner as [|s1 inner IH]; cbn [app stack_args]; rewrite in_app_iff; intros [K|K].
  - unfold scope_args in K. apply in_map_iff in K. destruct K as ([q b] & E1 & Ha). injection E1 as -> ->. exact Ha.
  - apply stack_args_level in K. cbn [ad_level] in K. lia.
  - unfold scope_args in K. apply in_map_iff in K. destruct K as ([q b] & E1 & Ha). injection E1 as E1 _. rewrite app_length in E1. cbn [length] in E1. lia.
  - exact (IH K).
Qed.
Lemma stack_only os inner s outer : Forall (known (inner ++ s :: outer)) os -> only_of os (length outer) [] (sc_decl s).
Proof.
  intros K p _ Hg. cbn [app] in Hg. unfold given, values_of in Hg.
  destruct (filter (fun o => addr_eqb (Addr (length outer) p) (oc_addr o)) os) as [|o l] eqn:E; [discriminate|].
  assert (Ho : In o (filter (fun o => addr_eqb (Addr (length outer) p) (oc_addr o)) os)) by (rewrite E; left; reflexivity).
  apply filter_In in Ho. destruct Ho as [Ho Ea]. apply addr_eqb_eq in Ea. rewrite Forall_forall in K. specialize (K o Ho). unfold known in K. rewrite <- Ea in K.
  exists (oc_arg o). exact (stack_level _ _ _ _ _ K).
Qed.
Lemma stack_fin_ext os stk stk' : stack_ext stk stk' -> forall inner sub sub' o,
  Forall (fun s => well_formed (sc_decl s)) stk -> Forall (fun s => well_formed (sc_decl s)) stk' ->
  Forall (known (inner ++ stk)) os -> outer_ok stk -> more_sub_opt sub sub' ->
  (match stk with s :: _ => subcommand (sc_decl s) = None -> sub = None | [] => True end) -> finish_stack os stk sub = Ok o ->
  exists o', finish_stack os stk' sub' = Ok o' /\ more_values o o'.
Proof.
  intros R. induction R as [|s s' stk stk' [Rd [Ei Eu]] R IH]; intros inner sub sub' o W W' K Hu Hs Hc E; [discriminate|].
  inversion W as [|? ? W1 W2]; subst. inversion W' as [|? ? W1' W2']; subst. cbn [finish_stack] in *.
  rewrite <- (OrderFacts.Forall2_length R). destruct (finish_args os (length stk) [] (sc_decl s) sub) as [x|e|p] eqn:Ea; cbn [bind] in E; [|discriminate|discriminate].
  destruct (args_ext os (length stk) _ _ [] sub sub' x W1 W1' Rd (stack_only _ _ _ _ K) Hs Hc Ea) as (y & Ey & M). rewrite Ey. cbn [bind].
  destruct R as [|s2 s2' stk stk' R2 R]; [injection E as <-; exists y; split; [reflexivity|exact M]|].
  unfold outer_ok in Hu. cbn [tl] in Hu. inversion Hu as [|? ? U1 U2]; subst.
  eapply (IH (inner ++ [s])); [exact W2|exact W2'|rewrite <- app_assoc; exact K|exact U2| |intros C; contradiction|exact E]. cbn [more_sub_opt]. rewrite <- Ei, <- Eu. destruct (sc_unit s); constructor. exact M.
Qed.

(** ** The result *)

Lemma state_ext_stack st st' : state_ext st st' -> stack_ext (state_stack st) (state_stack st').
Proof. destruct st, st'; cbn [state_ext state_stack]; tauto. Qed.
Lemma read_wf d toks os st : valid d -> read first_named (start d) toks = (os, Go st) ->
  Forall (fun s => well_formed (sc_decl s)) (state_stack st) /\ Forall (known (state_stack st)) os.
Proof.
  intros [Hv _] E. destruct (ContextFacts.read_ok first_named first_named_in toks (start d) os st (start_ok d Hv) E) as ([H1 _] & H2 & _). split; [|exact H2].
  eapply Forall_impl; [|exact H1]. intros s [Hs _]. apply accepted_well_formed. exact Hs.
Qed.
Theorem extended_parse d d' argv o : valid d -> valid d' -> extended d d' ->
  (forall a, added a -> forall n, has_name a n -> every_arg (fun b => negb (has_nameb b n)) d = true) -> (forall tok, In tok (tl argv) -> ~ fresh tok) ->
  try_parse_from d argv = Ok o -> exists o', try_parse_from d' argv = Ok o' /\ more_values o o'.
Proof.
  intros Hv Hv' R Hn Ht. rewrite (refines d argv Hv), (refines d' argv Hv'). unfold spec_parse, spec_parse_with. destruct argv as [|argv0 toks]; [discriminate|]. cbn [tl] in Ht.
  assert (Rs : state_ext (start d) (start d')).
  { unfold start. assert (Rd : scope_ext (Scope d [] false) (Scope d' [] false)) by (repeat split; exact R).
    split; [|exact (rem_start _ _ [] Rd)]. constructor; [exact Rd|constructor]. }
  assert (Ns : new_names (state_stack (start d))).
  { intros a n Ha Hna. constructor; [|constructor]. exact (Hn a Ha n Hna). }
  pose proof (read_ext toks Ht _ _ Ns Rs) as H. destruct (read first_named (start d) toks) as [os out] eqn:E.
  destruct (read first_named (start d') toks) as [os' out'] eqn:E'. unfold follows in H. cbn [fst snd] in H.
  destruct (first_bad [] os) eqn:Eb; [discriminate|]. destruct out as [st|[e|stk]]; [|discriminate|discriminate].
  destruct H as (-> & st' & -> & Rst). rewrite Eb.
  destruct (read_wf d toks os st Hv E) as [W K]. destruct (read_wf d' toks os st' Hv' E') as [W' _].
  assert (G : finish_stack os (state_stack st) None = Ok o -> exists o', finish_stack os (state_stack st') None = Ok o' /\ more_values o o').
  { apply (stack_fin_ext os _ _ (state_ext_stack _ _ Rst) []); [exact W|exact W'|exact K| |exact I|destruct (state_stack st); [exact I|reflexivity]].
    apply (read_outer toks (start d) os st); [constructor|exact E]. }
  destruct st, st'; try contradiction; try exact G. discriminate.
Qed.

(** ** The converse *)

(** Where only the second reader goes on, it uses something new. *)
Definition uses (os : list occ) : Prop := exists o, In o os /\ added (oc_arg o).
Definition strays (x y : list occ * outcome V) : Prop :=
  match snd x with
  | Go _ => True
  | Stop _ => uses (fst y) \/ (exists sp, snd y = Stop sp) \/ exists stk rem ad a, snd y = Go (Await stk rem ad a) /\ added a
  end.

Lemma inserted_in l l' a : inserted l l' -> In a l' -> In a l \/ added a.
Proof.
  induction 1 as [|b l l' H IH|b l l' Hb Hp H IH]; intros Hi; [left; exact Hi| |]; destruct Hi as [<-|Hi].
  - left. left. reflexivity.
  - destruct (IH Hi) as [K|K]; [left; right; exact K|right; exact K].
  - right. exact Hb.
  - exact (IH Hi).
Qed.
Lemma reach_in d : forall d' x, extended d d' -> In x (reach d') -> In x (reach d) \/ added (snd x).
Proof.
  induction d as [d IHf _] using decl_induction. intros d' x R. pose proof (extended_view _ _ R) as Hv. rewrite !reach_eq, !in_app_iff. intros [Hi|Hi].
  - apply in_map_iff in Hi. destruct Hi as (a & <- & Ha). destruct (inserted_in _ _ _ (e_own _ _ Hv) Ha) as [K|K]; [|right; exact K].
    left. left. apply in_map_iff. exists a. split; [reflexivity|exact K].
  - apply in_flat_map in Hi. destruct Hi as ([id y] & Hy & Hi). apply in_map_iff in Hi. destruct Hi as (pa & <- & Hp). cbn [fst snd] in *.
    assert (G : forall l l', merged (fun _ => False) l l' -> (forall z, In z l -> In z (flattened d)) -> In (id, y) l' ->
      (exists z, In (id, z) l /\ extended z y) \/ forall pb, In pb (reach y) -> added (snd pb)).
    { clear. induction 1 as [|u w l l' [Ei Ru] F IH|i u l l' Hi Hu F IH]; intros Hl K; [destruct K| |]; destruct K as [K|K].
      - subst w. destruct u as [i u]. cbn [fst snd] in *. subst i. left. exists u. split; [left; reflexivity|exact Ru].
      - destruct IH as [(z & Hz & Rz)|Hz]; [intros z Hz; apply Hl; right; exact Hz|exact K|left; exists z; split; [right; exact Hz|exact Rz]|right; exact Hz].
      - injection K as -> ->. right. exact Hu.
      - exact (IH Hl K). }
    destruct (G _ _ (e_flat _ _ Hv) (fun z H => H) Hy) as [(z & Hz & Rz)|Hz]; [|right; exact (Hz pa Hp)].
    destruct (IHf id z (proj1 (in_flattened d id z) Hz) y pa Rz Hp) as [K|K]; [|right; exact K].
    left. right. apply in_flat_map. exists (id, z). split; [exact Hz|]. apply in_map_iff. exists pa. split; [reflexivity|exact K].
Qed.
Lemma scope_args_in stk stk' : stack_ext stk stk' -> forall x, In x (stack_args stk') -> In x (stack_args stk) \/ added (snd x).
Proof.
  intros R. induction R as [|s s' stk stk' [Rd _] R IH]; intros x; [intros []|]. cbn [stack_args]. rewrite !in_app_iff. intros [H|H].
  - unfold scope_args in *. rewrite <- (OrderFacts.Forall2_length R) in H. apply in_map_iff in H. destruct H as (pa & <- & Hp).
    destruct (reach_in _ _ pa Rd Hp) as [K|K]; [|right; exact K]. left. left. apply in_map_iff. exists pa. split; [reflexivity|exact K].
  - destruct (IH x H) as [K|K]; [left; right; exact K|right; exact K].
Qed.
Lemma in_scope_in stk stk' : stack_ext stk stk' -> forall x, In x (in_scope stk') -> In x (in_scope stk) \/ added (snd x).
Proof.
  intros R x. destruct R as [|s s' stk stk' [Rd _] R]; [intros []|]. cbn [in_scope]. rewrite !in_app_iff. intros [H|H].
  - unfold scope_args in *. rewrite <- (OrderFacts.Forall2_length R) in H. apply in_map_iff in H. destruct H as (pa & <- & Hp).
    destruct (reach_in _ _ pa Rd Hp) as [K|K]; [|right; exact K]. left. left. apply in_map_iff. exists pa. split; [reflexivity|exact K].
  - apply filter_In in H. destruct H as [H Hf]. destruct (scope_args_in _ _ R x H) as [K|K]; [|right; exact K].
    left. right. apply filter_In. split; assumption.
Qed.
Lemma resolve_new stk stk' n ad a : stack_ext stk stk' -> resolve stk n = None -> resolve stk' n = Some (ad, a) -> added a.
Proof.
  intros R E E'. unfold resolve in E, E'. apply find_some in E'. destruct E' as [Hi Hx]. destruct (in_scope_in _ _ R _ Hi) as [K|K]; [|exact K].
  apply (find_none _ _ E) in K. congruence.
Qed.

Section Strays.
Variables (stk stk' : list scope).
Hypothesis Hn : new_names stk.
Hypothesis R : stack_ext stk stk'.

Lemma uses_head ad a v os out : added a -> uses (fst (Occ ad a v :: os, out : outcome V)).
Proof. intros Ha. exists (Occ ad a v). split; [left; reflexivity|exact Ha]. Qed.
Lemma bare_new (x : list occ * outcome V) rem' ad a : added a -> strays x (bare stk' rem' ad a).
Proof.
  intros Ha. unfold strays. destruct (snd x); [exact I|]. unfold bare. destruct (takes_value a); [destruct (needs_equals a)|].
  - right. left. eexists. reflexivity.
  - right. right. repeat eexists. exact Ha.
  - left. apply uses_head. exact Ha.
Qed.
Lemma bare_strays rem rem' ad a : strays (bare stk rem ad a) (bare stk' rem' ad a).
Proof.
  unfold bare. destruct (takes_value a); [destruct (needs_equals a)|]; [|exact I|exact I]. right. left. eexists. reflexivity.
Qed.
Lemma long_strays rem rem' (s : bytes) v : strays (read_long stk rem s v) (read_long stk' rem' s v).
Proof.
  unfold read_long. destruct (resolve stk (Long s)) as [[ad a]|] eqn:E.
  - rewrite (resolve_kept stk stk' _ _ Hn R E). destruct v; [exact I|apply bare_strays].
  - destruct (resolve stk' (Long s)) as [[ad a]|] eqn:E'; [|right; left; eexists; reflexivity].
    pose proof (resolve_new _ _ _ _ _ R E E') as Ha. destruct v; [|apply bare_new; exact Ha].
    unfold strays. destruct (snd _); [exact I|]. left. apply uses_head. exact Ha.
Qed.
Lemma bundle_strays rem rem' junk cs : strays (read_bundle stk rem cs junk) (read_bundle stk' rem' cs junk).
Proof.
  induction cs as [|c cs IH]; cbn [read_bundle]; [destruct junk; [exact I|right; left; eexists; reflexivity]|].
  destruct (resolve stk (Short c)) as [[ad a]|] eqn:E.
  - rewrite (resolve_kept stk stk' _ _ Hn R E).
    assert (K : forall o, strays (let '(os, out) := read_bundle stk rem cs junk in (o :: os, out)) (let '(os, out) := read_bundle stk' rem' cs junk in (o :: os, out))).
    { intros o. unfold strays in *. destruct (read_bundle stk rem cs junk) as [os [st|sp]], (read_bundle stk' rem' cs junk) as [os' out']; cbn [fst snd] in *; [exact I|].
      destruct IH as [(x & Hx & Ha)|IH]; [left; exists x; split; [right; exact Hx|exact Ha]|right; exact IH]. }
    destruct (encode_all cs ++ junk) as [|x v]; [apply bare_strays|].
    assert (N : strays (if needs_equals a then ([], Stop (SErr (error_about MissingEq a)))
                         else if takes_value a then ([Occ ad a (Some (x :: v))], Go (Normal stk rem))
                         else let '(os, out) := read_bundle stk rem cs junk in (Occ ad a None :: os, out))
                        (if needs_equals a then ([], Stop (SErr (error_about MissingEq a)))
                         else if takes_value a then ([Occ ad a (Some (x :: v))], Go (Normal stk' rem'))
                         else let '(os, out) := read_bundle stk' rem' cs junk in (Occ ad a None :: os, out))).
    { destruct (needs_equals a); [right; left; eexists; reflexivity|]. destruct (takes_value a); [exact I|apply K]. }
    destruct x; try exact N. destruct (takes_value a); [exact I|apply K].
  - destruct (resolve stk' (Short c)) as [[ad a]|] eqn:E'; [|right; left; eexists; reflexivity].
    pose proof (resolve_new _ _ _ _ _ R E E') as Ha. set (x := ([], Stop (unknown_short stk c)) : list occ * outcome V).
    assert (K : forall v, strays x (let '(os, out) := read_bundle stk' rem' cs junk in (Occ ad a v :: os, out))).
    { intros v. left. destruct (read_bundle stk' rem' cs junk) as [os out]. apply uses_head. exact Ha. }
    assert (U : forall v, strays x ([Occ ad a v], Go (Normal stk' rem'))) by (intros v; left; apply uses_head; exact Ha).
    destruct (encode_all cs ++ junk) as [|y v]; [apply bare_new; exact Ha|].
    assert (N : strays x (if needs_equals a then ([], Stop (SErr (error_about MissingEq a)))
                         else if takes_value a then ([Occ ad a (Some (y :: v))], Go (Normal stk' rem'))
                         else let '(os, out) := read_bundle stk' rem' cs junk in (Occ ad a None :: os, out))).
    { destruct (needs_equals a); [right; left; eexists; reflexivity|]. destruct (takes_value a); [apply U|apply K]. }
    destruct y; try exact N. destruct (takes_value a); [apply U|apply K].
Qed.
Lemma word_strays rem rem' tok : rem_ext stk rem rem' -> strays (take_word false stk rem tok) (take_word false stk' rem' tok).
Proof.
  intros (pl & new & -> & -> & Hw & Hl). unfold take_word. destruct pl as [|p pl]; cbn [app orb]; [|rewrite (Hl p (or_introl eq_refl)); exact I].
  assert (L : forall p ls, lasts stk = p :: ls -> is_last p = true).
  { intros p ls E. unfold lasts in E. destruct stk as [|s l]; [discriminate|]. assert (K : In p (filter closing (own_args (sc_decl s)))) by (rewrite E; left; reflexivity).
    apply filter_In in K. destruct K as [_ K]. apply andb_true_iff in K. exact (proj2 K). }
  assert (G : strays ([], Stop (SErr (error_on (if has_subcommand stk then UnknownSubcommand else ExtraPositionalArgument) tok))) (take_word false stk' (new ++ lasts stk) tok)).
  { unfold take_word. destruct new as [|p new]; cbn [app orb].
    - destruct (lasts stk) as [|p ls] eqn:E; [right; left; eexists; reflexivity|]. rewrite (L p ls eq_refl). right. left. eexists. reflexivity.
    - inversion Hw as [|? ? Hp _]; subst. destruct (negb (is_last p)); [|right; left; eexists; reflexivity]. left. apply uses_head. exact Hp. }
  destruct (lasts stk) as [|p ls] eqn:E; [exact G|]. rewrite (L p ls eq_refl). exact G.
Qed.
Lemma verbatim_strays rem new tok : Forall added new -> strays (take_word true stk rem tok) (take_word true stk' (rem ++ new) tok).
Proof.
  intros Hw. unfold take_word. destruct rem as [|p rem]; [|exact I]. cbn [app orb]. destruct new as [|p new]; [right; left; eexists; reflexivity|].
  inversion Hw as [|? ? Hp _]; subst. left. apply uses_head. exact Hp.
Qed.
End Strays.

Lemma step_strays st st' tok : ~ fresh tok -> new_names (state_stack st) -> state_ext st st' -> strays (step first_named st tok) (step first_named st' tok).
Proof.
  intros Ht. destruct st as [stk rem|stk rem ad a|stk rem|stk p], st' as [stk' rem'|stk' rem' ad' a'|stk' rem'|stk' p']; cbn [state_ext state_stack step]; try contradiction; intros Hn.
  - intros [R Hr]. destruct (form_of tok) as [|s v|b|].
    + exact I.
    + apply long_strays; assumption.
    + destruct (utf8_prefix b) as [cs junk]. apply bundle_strays; assumption.
    + pose proof (named_ext stk stk' R tok Ht) as H.
      destruct (first_named (sub_variants stk) tok) as [v|], (first_named (sub_variants stk') tok) as [w|]; try contradiction; [exact I|apply word_strays; assumption].
  - intros (R & Hr & <- & <-). destruct (may_follow a tok); [exact I|right; left; eexists; reflexivity].
  - intros (R & new & -> & Hw). apply verbatim_strays; assumption.
  - intros [R <-]. exact I.
Qed.
Lemma await_strays stk rem ad a toks : added a -> let y := read first_named (Await stk rem ad a) toks in
  uses (fst y) \/ (exists sp, snd y = Stop sp) \/ exists stk rem ad a, snd y = Go (Await stk rem ad a) /\ added a.
Proof.
  intros Ha. destruct toks as [|tok toks]; cbn [read].
  - right. right. repeat eexists. exact Ha.
  - cbn [step]. destruct (may_follow a tok).
    + destruct (read first_named (Normal stk rem) toks) as [os out]. left. apply uses_head. exact Ha.
    + right. left. eexists. reflexivity.
Qed.
Lemma read_strays toks : (forall tok, In tok toks -> ~ fresh tok) ->
  forall st st', new_names (state_stack st) -> state_ext st st' -> strays (read first_named st toks) (read first_named st' toks).
Proof.
  induction toks as [|tok toks IH]; intros Ht st st' Hn R; [exact I|]. cbn [read].
  pose proof (step_ext st st' tok (Ht tok (or_introl eq_refl)) Hn R) as H.
  pose proof (step_strays st st' tok (Ht tok (or_introl eq_refl)) Hn R) as G.
  destruct (step first_named st tok) as [os out] eqn:E. unfold follows in H. unfold strays in G. cbn [fst snd] in H, G.
  destruct (step first_named st' tok) as [os' out']. cbn [fst snd] in H, G. destruct out as [st1|sp].
  - destruct H as (-> & st1' & -> & R1).
    assert (Hn1 : new_names (state_stack st1)).
    { intros a n Ha Hna. apply (read_every (fun b => negb (has_nameb b n)) first_named) with (toks := [tok]) (st := st) (os := os ++ []).
      - intros vs t v Hf. apply find_some in Hf. exact (proj1 Hf).
      - exact (Hn a n Ha Hna).
      - cbn [read]. rewrite E. reflexivity. }
    pose proof (IH (fun t H => Ht t (or_intror H)) st1 st1' Hn1 R1) as K. unfold strays in *. destruct (read first_named st1 toks) as [os1 [st2|sp]]; cbn [fst snd] in *; [exact I|].
    destruct (read first_named st1' toks) as [os1' out1']. cbn [fst snd] in *. destruct K as [(x & Hx & Ha)|K]; [|right; exact K].
    left. exists x. split; [apply in_or_app; right; exact Hx|exact Ha].
  - unfold strays. cbn [snd]. destruct G as [(x & Hx & Ha)|[[sp' ->]|(stk1 & rem1 & ad & a & -> & Ha)]].
    + left. exists x. destruct out' as [st1'|sp']; [|split; [exact Hx|exact Ha]]. destruct (read first_named st1' toks) as [os1' out1'].
      split; [apply in_or_app; left; exact Hx|exact Ha].
    + right. left. eexists. reflexivity.
    + pose proof (await_strays stk1 rem1 ad a toks Ha) as K. cbn zeta in K. destruct (read first_named (Await stk1 rem1 ad a) toks) as [os1' out1']. cbn [fst snd] in *.
      destruct K as [(x & Hx & Hxa)|K]; [|right; exact K]. left. exists x. split; [apply in_or_app; right; exact Hx|exact Hxa].
Qed.

(** The first declaration asks for no more than the second. *)
Lemma struct_back os level path d d' flats flats' (sub sub' : option (subval V)) o' : extended d d' -> is_some sub = is_some sub' ->
  finish_struct os level path d' flats' sub' = Ok o' -> exists o, finish_struct os level path d flats sub = Ok o.
Proof.
  intros R Hs H. pose proof (extended_view _ _ R) as Hv. apply finish_struct_Ok in H. destruct H as ((H1 & H2 & H3) & H4 & _).
  pose proof (inserted_incl _ _ (e_own _ _ Hv)) as I.
  assert (Ev : first_violation os level path d (is_some sub) (checked d) = None).
  { apply FieldFacts.first_violation_None. intros a Ha. apply violation_None. apply in_checked in Ha. rewrite Hs. intros Hg.
    destruct (H2 a (I a Ha) Hg) as (C1 & C2 & C3). split; [exact C1|]. split; [exact C2|].
    intros E. destruct (C3 E) as [C4 C5]. split; [exact C4|]. intros b Hb Hne. exact (C5 b (I b Hb) Hne). }
  assert (Ea : check_absent os level path (checked d) = Ok tt).
  { apply check_absent_Ok. intros a Ha Hg. apply in_checked in Ha. exact (H4 a (I a Ha) Hg). }
  unfold finish_struct. rewrite Ev, Ea. cbn [bind].
  pose proof (e_sub _ _ Hv) as S. destruct (subcommand d) as [[[id [|]] vs]|], (subcommand d') as [[[id' o1] vs']|]; cbn [sub_view] in S; try contradiction; try (eexists; reflexivity).
  destruct S as [E _]. cbn [fst] in E. injection E as <- <-. pose proof (H3 id vs' eq_refl) as K. rewrite <- Hs in K. destruct sub; [|discriminate]. eexists. reflexivity.
Qed.
Lemma args_back os level d : forall d' path (sub sub' : option (subval V)) o', extended d d' -> is_some sub = is_some sub' ->
  finish_args os level path d' sub' = Ok o' -> exists o, finish_args os level path d sub = Ok o.
Proof.
  induction d as [d IHf _] using decl_induction. intros d' path sub sub' o' R Hs. rewrite !finish_args_eq. pose proof (extended_view _ _ R) as Hv.
  assert (E : forall l l' acc acc' outs', merged (fun _ => False) l l' -> (forall fx, In fx l -> In fx (flattened d)) ->
    finish_flats os level path l' (Ok acc') = Ok outs' -> exists outs, finish_flats os level path l (Ok acc) = Ok outs).
  { intros l l' acc acc' outs' F. revert acc acc'. induction F as [|fx fy l l' [Ei Rx] F IHl|id x l l' Hid Hx F IHl]; intros acc acc' Hl E.
    - exists acc. reflexivity.
    - unfold finish_flats in *. cbn [fold_left bind] in *. destruct fx as [id x], fy as [id' y]. cbn [fst snd] in *. subst id'.
      assert (Hi : In (id, x) (flattened d)) by (apply Hl; left; reflexivity).
      destruct (finish_args os level (path ++ [id]) y None) as [oy|e|p] eqn:Ey; cbn [bind] in E.
      + destruct (IHf id x (proj1 (in_flattened d id x) Hi) y (path ++ [id]) None None oy Rx eq_refl Ey) as (ox & Ex).
        rewrite Ex. cbn [bind]. apply (IHl (acc ++ [(id, ox)]) (acc' ++ [(id, oy)])); [intros z Hz; apply Hl; right; exact Hz|exact E].
      + fold (finish_flats os level path l' (Err (A:=list (ident * outval V)) e)) in E. rewrite finish_flats_Err in E. discriminate.
      + fold (finish_flats os level path l' (Panic (A:=list (ident * outval V)) p)) in E. rewrite finish_flats_Panic in E. discriminate.
    - unfold finish_flats in E. cbn [fold_left bind fst snd] in E.
      destruct (finish_args os level (path ++ [id]) x None) as [ox|e|p] eqn:Ex; cbn [bind] in E.
      + exact (IHl acc (acc' ++ [(id, ox)]) Hl E).
      + fold (finish_flats os level path l' (Err (A:=list (ident * outval V)) e)) in E. rewrite finish_flats_Err in E. discriminate.
      + fold (finish_flats os level path l' (Panic (A:=list (ident * outval V)) p)) in E. rewrite finish_flats_Panic in E. discriminate. }
  destruct (finish_flats os level path (flattened d') (Ok [])) as [outs'|e|p] eqn:Ef; cbn [bind]; [|discriminate|discriminate].
  destruct (E _ _ [] [] outs' (e_flat _ _ Hv) (fun _ H => H) Ef) as (outs & Ef1). rewrite Ef1. cbn [bind].
  apply struct_back; assumption.
Qed.
Lemma stack_fin_back os stk stk' : stack_ext stk stk' -> forall (sub sub' : option (subval V)) o', is_some sub = is_some sub' ->
  finish_stack os stk' sub' = Ok o' -> exists o, finish_stack os stk sub = Ok o.
Proof.
  intros R. induction R as [|s s' stk stk' [Rd [Ei Eu]] R IH]; intros sub sub' o' Hs E; [discriminate|]. cbn [finish_stack] in *.
  rewrite <- (OrderFacts.Forall2_length R) in E. destruct (finish_args os (length stk) [] (sc_decl s') sub') as [y|e|p] eqn:Ea; cbn [bind] in E; [|discriminate|discriminate].
  destruct (args_back os (length stk) _ _ [] sub sub' y Rd Hs Ea) as (x & Ex). rewrite Ex. cbn [bind].
  destruct R as [|s2 s2' stk stk' R2 R]; [exists x; reflexivity|].
  eapply IH; [|exact E]. reflexivity.
Qed.
Theorem extended_back d d' argv0 toks o' : valid d -> valid d' -> extended d d' ->
  (forall a, added a -> forall n, has_name a n -> every_arg (fun b => negb (has_nameb b n)) d = true) -> (forall tok, In tok toks -> ~ fresh tok) ->
  (forall o, In o (fst (read first_named (start d') toks)) -> ~ added (oc_arg o)) ->
  try_parse_from d' (argv0 :: toks) = Ok o' -> exists o, try_parse_from d (argv0 :: toks) = Ok o.
Proof.
  intros Hv Hv' R Hn Ht Hu. rewrite (refines d _ Hv), (refines d' _ Hv'). unfold spec_parse, spec_parse_with.
  assert (Rs : state_ext (start d) (start d')).
  { unfold start. assert (Rd : scope_ext (Scope d [] false) (Scope d' [] false)) by (repeat split; exact R).
    split; [|exact (rem_start _ _ [] Rd)]. constructor; [exact Rd|constructor]. }
  assert (Ns : new_names (state_stack (start d))).
  { intros a n Ha Hna. constructor; [|constructor]. exact (Hn a Ha n Hna). }
  pose proof (read_ext toks Ht _ _ Ns Rs) as H. pose proof (read_strays toks Ht _ _ Ns Rs) as G.
  destruct (read first_named (start d) toks) as [os out] eqn:E.
  destruct (read first_named (start d') toks) as [os' out'] eqn:E'. unfold follows in H. unfold strays in G. cbn [fst snd] in H, G, Hu.
  destruct (first_bad [] os') eqn:Eb; [discriminate|]. destruct out as [st|sp].
  - destruct H as (-> & st' & -> & Rst). rewrite Eb.
    assert (K : finish_stack os (state_stack st') None = Ok o' -> exists o, finish_stack os (state_stack st) None = Ok o).
    { exact (stack_fin_back os _ _ (state_ext_stack _ _ Rst) None None o' eq_refl). }
    destruct st, st'; try contradiction; try exact K. discriminate.
  - destruct G as [(x & Hx & Ha)|[[sp' ->]|(stk1 & rem1 & ad & a & -> & _)]]; [elim (Hu x Hx Ha)|destruct sp'; discriminate|discriminate].
Qed.
End Facts.

Theorem option_added {V : Type} (added : sarg V -> Prop) (fresh : bytes -> Prop) (d d' : args_decl V) argv o :
  valid d -> valid d' -> extended added fresh d d' -> harmless added d -> (forall tok, In tok (tl argv) -> ~ fresh tok) ->
  try_parse_from d argv = Ok o -> exists o', try_parse_from d' argv = Ok o' /\ more_values o o'.
Proof.
  intros Hv Hv' R H. apply (extended_parse added fresh); try assumption.
  - intros a Ha. destruct (H a Ha) as (H1 & H2 & H3 & _). repeat split; assumption.
  - intros a Ha. apply (H a Ha).
Qed.

Theorem nothing_new_used {V : Type} (added : sarg V -> Prop) (fresh : bytes -> Prop) (d d' : args_decl V) argv0 toks o' os stk :
  valid d -> valid d' -> extended added fresh d d' -> harmless added d -> (forall tok, In tok toks -> ~ fresh tok) ->
  reads d' toks os stk -> (forall o, In o os -> ~ added (oc_arg o)) ->
  try_parse_from d' (argv0 :: toks) = Ok o' -> exists o, try_parse_from d (argv0 :: toks) = Ok o /\ more_values o o'.
Proof.
  intros Hv Hv' R H Ht (st & Er & _) Hu Ho.
  destruct (extended_back added fresh) with (d := d) (d' := d') (argv0 := argv0) (toks := toks) (o' := o') as [o Eo]; try assumption.
  - intros a Ha. destruct (H a Ha) as (H1 & H2 & H3 & _). repeat split; assumption.
  - intros a Ha. apply (H a Ha).
  - rewrite Er. exact Hu.
  - exists o. split; [exact Eo|].
    destruct (option_added added fresh d d' (argv0 :: toks) o Hv Hv' R H Ht Eo) as (o1 & E1 & M). rewrite Ho in E1. injection E1 as <-. exact M.
Qed.
