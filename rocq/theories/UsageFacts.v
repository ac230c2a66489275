(** Following the usage line. *)
From Coq Require Import Lia.
From Verif Require Import Bytes BytesFacts Utf8 Utf8Facts Attrs AttrFacts Refl Error Values SortFacts
  Places Help Runtime Heck Decl Spec Derive Generated Observe CompileFacts InfoFacts TableFacts PlaceFacts
  ScopeFacts NamedFacts WordFacts FinishFacts ReadFacts SimFacts HelpFacts Refine ContextFacts SafeFacts
  FieldFacts ResultFacts ValueFacts OptionFacts SameFacts WriteFacts UnsaidFacts.
From Verif Require Import Grammar Outcome PositionalFacts GrammarFacts ShowFacts PlainFacts Parts Blame Page PageFacts HelpFacts Usage.

Section UsageFacts.
Context {V : Type}.
Local Notation args_decl := (args_decl V).
Local Notation sarg := (sarg V).
Local Notation scope := (scope V).
Local Notation occ := (occ V).
Implicit Types (d : args_decl) (stk outer : list scope) (s : scope) (a p : sarg) (os : list occ) (ps : list sarg).

(** ** The tokens are read *)
Lemma meets_writes stk ad a toks o : meets stk ad a toks o -> exists v, o = Occ ad a v /\ writes stk toks ad a v.
Proof.
  intros [n Hn Hr Ht|n v Hn Hr Ht He Hf Hv|n v Hn Hr Ht He Hv]; eexists; (split; [reflexivity|]).
  - exact (writes_bare _ n ad a Hr Ht).
  - refine (writes_value _ n ad a v _ Hr Ht _). constructor; assumption.
  - refine (writes_value _ n ad a v _ Hr Ht _). constructor.
Qed.
Lemma meets_accounts stk l opts oo : meets_all stk l opts oo -> forall ps post os stk', accounts stk ps post os stk' ->
  accounts stk ps (opts ++ post) (oo ++ os) stk'.
Proof.
  induction 1 as [|ad a l toks o toks' oo Hm Hl IH]; intros ps post os stk' H; [exact H|].
  destruct (meets_writes _ _ _ _ _ Hm) as (v & -> & Hw). rewrite <- app_assoc. cbn [app].
  apply acc_option; [exact Hw|]. apply IH. exact H.
Qed.
Lemma puts_accounts stk ps ws wo ps' : puts stk ps ws wo ps' -> Forall (fun p => is_last p = false) ps ->
  forall lasts post os stk',
  (forall rem, rem = ps' ++ lasts \/ ps' = [] -> accounts stk rem post os stk') ->
  accounts stk (ps ++ lasts) (ws ++ post) (wo ++ os) stk'.
Proof.
  induction 1 as [ps|p ps w ws wo ps' Hr Hs Hm Hg (Hw & Hn & _) Hp IH|p w ws Hr Hs Hm Hg Hw]; intros Hl lasts post os stk' H.
  - apply H. auto.
  - inversion_clear Hl. cbn [app]. apply acc_word; try assumption. rewrite Hm. apply IH; assumption.
  - inversion_clear Hl as [|? ? Hp _]. cbn [app].
    assert (HH : forall us, Forall (good_word stk p) us -> accounts stk (p :: lasts) (us ++ post) (map (word_occ stk p) us ++ os) stk').
    { induction us as [|u us IH]; intros Hu; [apply H; auto|]. inversion_clear Hu as [|? ? (Hw1 & Hn1 & _) Hu']. cbn [app map].
      apply acc_word; try assumption. rewrite Hm. apply IH; assumption. }
    exact (HH (w :: ws) Hw).
Qed.
Lemma fills_all stk p : greedy p = true -> forall w ws, fills stk [p] (w :: ws) (map (word_occ stk p) (w :: ws)).
Proof. intros Hg w ws. apply fills_greedy. exact Hg. Qed.
Lemma last_greedy stk p : In p (last_args stk) -> greedy p = true.
Proof.
  destruct stk as [|s outer]; [contradiction|]. cbn [last_args]. intros H. apply filter_In in H. destruct H as [_ H].
  unfold is_last in H. unfold greedy. rewrite H, orb_true_r. reflexivity.
Qed.
Lemma closes_accounts s outer ps ws os : closes (s :: outer) ps ws os -> Forall (fun p => is_last p = false) ps ->
  forall lasts rem, rem = ps ++ lasts \/ ps = [] -> accounts (s :: outer) rem ws os (s :: outer).
Proof.
  intros [ps' Ho Hl|p w us Hr Hs Hm Hg Hl (Hw & Hn & _) Hu|ps' p w us Ho Hl Hr Hs Hu] Hnl lasts rem Hrem.
  - constructor.
  - destruct Hrem as [->|C]; [|discriminate]. inversion_clear Hnl. cbn [app]. apply acc_trailing; assumption.
  - apply acc_separator_last; rewrite Hl; [discriminate|]. apply fills_all. apply (last_greedy (s :: outer)). rewrite Hl. left. reflexivity.
Qed.
Lemma ordinary_not_last d : Forall (fun p => is_last p = false) (ordinary d).
Proof. apply Forall_forall. intros p Hp. apply in_ordinary in Hp. apply Hp. Qed.
Lemma puts_left stk ps ws wo ps' : puts stk ps ws wo ps' -> exists l, ps = l ++ ps'.
Proof.
  induction 1 as [ps|p ps w ws wo ps' Hr Hs Hm Hg Hw Hp [l ->]|p w ws Hr Hs Hm Hg Hw].
  - exists []. reflexivity.
  - exists (p :: l). reflexivity.
  - exists [p]. reflexivity.
Qed.

Lemma follows_head stk toks os stk' : follows stk toks os stk' -> exists s outer, stk = s :: outer.
Proof. intros []; eauto. Qed.
Lemma follows_accounts stk toks os stk' : follows stk toks os stk' -> forall s outer, stk = s :: outer ->
  accounts stk (positionals (sc_decl s)) toks os stk'.
Proof.
  induction 1 as [s outer l opts oo ws wo ps rest ro Hl Hm Hp Hc Hs|s outer l opts oo ws wo ps v rest os stk' Hl Hm Hp Ho Hla Hv Hf IH];
    intros s0 outer0 E; injection E as <- <-.
  - apply (meets_accounts _ _ _ _ Hm). rewrite positionals_split.
    apply (puts_accounts _ _ _ _ _ Hp); [apply ordinary_not_last|]. apply closes_accounts with (1 := Hc).
    destruct (puts_left _ _ _ _ _ Hp) as [l' El]. pose proof (ordinary_not_last (sc_decl s)) as H. rewrite El in H.
    apply Forall_app in H. apply H.
  - apply (meets_accounts _ _ _ _ Hm). rewrite positionals_split.
    apply (puts_accounts _ _ _ _ _ Hp); [apply ordinary_not_last|]. intros rem _. apply acc_subcommand; [exact Hv|].
    apply (IH (variant_scope v) (s :: outer) eq_refl).
Qed.

(** ** No occurrence is bad *)

(** Single-valued arguments are given once. *)
Definition apart (o o' : occ) : Prop := oc_addr o <> oc_addr o' \/ many (oc_arg o') = true.
Lemma pairs_app {A} (R : A -> A -> Prop) l : forall m, ForallOrdPairs R l -> ForallOrdPairs R m ->
  (forall x y, In x l -> In y m -> R x y) -> ForallOrdPairs R (l ++ m).
Proof.
  induction l as [|x l IH]; intros m Hl Hm H; [exact Hm|]. inversion_clear Hl as [|? ? Hx Hl']. cbn [app]. constructor.
  - apply Forall_app. split; [exact Hx|]. apply Forall_forall. intros y Hy. apply H; [left; reflexivity|exact Hy].
  - apply IH; [exact Hl'|exact Hm|]. intros y z Hy Hz. apply H; [right; exact Hy|exact Hz].
Qed.
Lemma given_false_iff os ad : given os ad = false <-> forall o, In o os -> oc_addr o <> ad.
Proof.
  unfold given, values_of. split.
  - intros H o Ho E. assert (In o (filter (fun o0 => addr_eqb ad (oc_addr o0)) os)).
    { apply filter_In. split; [exact Ho|]. rewrite E. apply addr_eqb_eq. reflexivity. }
    destruct (filter _ os); [contradiction|discriminate].
  - intros H. destruct (filter _ os) as [|o l] eqn:E; [reflexivity|]. exfalso.
    assert (Ho : In o (filter (fun o0 => addr_eqb ad (oc_addr o0)) os)) by (rewrite E; left; reflexivity).
    apply filter_In in Ho. destruct Ho as [Ho Ea]. apply addr_eqb_eq in Ea. exact (H o Ho (eq_sym Ea)).
Qed.
Lemma given_true_iff os ad : given os ad = true <-> exists o, In o os /\ oc_addr o = ad.
Proof.
  split.
  - intros H. unfold given, values_of in H. destruct (filter _ os) as [|o l] eqn:E; [discriminate|].
    assert (Ho : In o (filter (fun o0 => addr_eqb ad (oc_addr o0)) os)) by (rewrite E; left; reflexivity).
    apply filter_In in Ho. destruct Ho as [Ho Ea]. apply addr_eqb_eq in Ea. eauto.
  - intros (o & Ho & E). destruct (given os ad) eqn:G; [reflexivity|]. exfalso. exact (proj1 (given_false_iff os ad) G o Ho E).
Qed.
Lemma apart_good os : Forall (fun o => arg_facts (oc_arg o) /\ good_value (oc_arg o) (oc_val o)) os -> ForallOrdPairs apart os ->
  forall b, (forall o o', In o b -> In o' os -> apart o o') -> first_bad b os = None.
Proof.
  induction 1 as [|o os [Ha [fv Hv]] Hos IH]; intros Hp b Hb; [reflexivity|]. cbn [first_bad]. inversion_clear Hp as [|? ? Ho Hp'].
  destruct (denotes_value _ _ _ Ha Hv) as [E _].
  assert (E' : value_error (oc_arg o) (given b (oc_addr o)) (folded (oc_arg o) (oc_val o)) = None).
  { destruct (many (oc_arg o)) eqn:Hm.
    - revert E. unfold value_error. unfold many in Hm. destruct (shape_a (oc_arg o)); try discriminate; auto.
    - replace (given b (oc_addr o)) with false; [exact E|]. symmetry. apply given_false_iff. intros o' Ho' Ea.
      destruct (Hb o' o Ho' (or_introl eq_refl)) as [C|C]; [exact (C Ea)|congruence]. }
  unfold occ_error. rewrite E'. apply IH; [exact Hp'|]. intros x y Hx Hy. apply in_app_iff in Hx. destruct Hx as [Hx|[->|[]]].
  - apply Hb; [exact Hx|right; exact Hy].
  - rewrite Forall_forall in Ho. exact (Ho y Hy).
Qed.

(** ** The occurrences of one command *)
Section Here.
Variables (s : scope) (outer : list scope).
Hypothesis Hok : stack_ok (s :: outer).
Local Notation stk := (s :: outer).

Definition fair (o : occ) : Prop :=
  In (oc_addr o, oc_arg o) (stack_args stk) /\ ad_level (oc_addr o) = length outer /\
  is_required (oc_arg o) = true /\ good_value (oc_arg o) (oc_val o).

Lemma meets_fair l opts oo : meets_all stk l opts oo ->
  (forall x, In x l -> In x (scope_args (length outer) s) /\ is_option (snd x) = true /\ is_required (snd x) = true) ->
  Forall fair oo /\ Forall (fun o => is_option (oc_arg o) = true) oo /\ map (fun o => (oc_addr o, oc_arg o)) oo = l.
Proof.
  induction 1 as [|ad a l toks o toks' oo Hm Hl IH]; intros H; [split; [constructor|split; [constructor|reflexivity]]|].
  destruct IH as (IH1 & IH2 & IH3); [intros x Hx; apply H; right; exact Hx|].
  destruct (H (ad, a) (or_introl eq_refl)) as (Hin & Ho & Hr). cbn [snd] in Ho, Hr.
  assert (Hl' : ad_level ad = length outer).
  { unfold scope_args in Hin. apply in_map_iff in Hin. destruct Hin as ([q b] & E & _). injection E as <- _. reflexivity. }
  assert (Hs : In (ad, a) (stack_args stk)) by (cbn [stack_args]; apply in_app_iff; left; exact Hin).
  assert (Hg : exists v, o = Occ ad a v /\ good_value a v).
  { destruct Hm as [n Hn Hr' Ht|n v Hn Hr' Ht He Hf Hv|n v Hn Hr' Ht He Hv]; eexists; (split; [reflexivity|]); try assumption.
    unfold takes_value in Ht. destruct (shape_a a) eqn:Es; try discriminate.
    - exists (FvBool true). constructor. exact Es.
    - exists (FvOptionOption (Some None)). constructor. exact Es. }
  destruct Hg as (v & -> & Hg). split; [|split].
  - constructor; [|exact IH1]. repeat (split; [assumption|]). exact Hg.
  - constructor; [exact Ho|exact IH2].
  - cbn [map oc_addr oc_arg]. rewrite IH3. reflexivity.
Qed.
Lemma meets_apart l opts oo : meets_all stk l opts oo -> NoDup (map fst l) -> ForallOrdPairs apart oo.
Proof.
  induction 1 as [|ad a l toks o toks' oo Hm Hl IH]; intros Hn; [constructor|]. cbn [map fst] in Hn. inversion_clear Hn as [|? ? Hx Hn'].
  constructor; [|apply IH; exact Hn']. apply Forall_forall. intros o' Ho'. left. intros E. apply Hx.
  destruct (meets_writes _ _ _ _ _ Hm) as (v & -> & _). cbn [oc_addr] in E. rewrite E. clear -Hl Ho'.
  induction Hl as [|ad a l toks o toks' oo Hm Hl IH]; [contradiction|]. cbn [map fst]. destruct Ho' as [<-|Ho']; [|right; exact (IH Ho')].
  left. destruct (meets_writes _ _ _ _ _ Hm) as (v & -> & _). reflexivity.
Qed.

Definition for_word (ps : list sarg) (o : occ) : Prop :=
  exists p w, In p ps /\ o = word_occ stk p w /\ is_required p = true /\ good_value p (Some w).
Lemma for_word_fair ps o : (forall p, In p ps -> In p (positionals (sc_decl s))) -> for_word ps o ->
  fair o /\ is_option (oc_arg o) = false.
Proof.
  intros Hps (p & w & Hp & -> & Hr & Hg). apply Hps in Hp. unfold word_occ. cbn [length].
  replace (S (length outer) - 1) with (length outer) by lia. split.
  - split; [exact (pos_known s outer p Hp)|]. repeat (split; [first [reflexivity|assumption]|]). exact Hg.
  - cbn [oc_arg]. apply positional_not_option in Hp. apply Hp.
Qed.
Lemma words_same p l : many p = true -> (forall o, In o l -> oc_arg o = p) -> ForallOrdPairs apart l.
Proof.
  intros Hm. induction l as [|o l IH]; intros H; [constructor|]. constructor; [|apply IH; intros x Hx; apply H; right; exact Hx].
  apply Forall_forall. intros x Hx. right. rewrite (H x (or_intror Hx)). exact Hm.
Qed.
Lemma puts_facts ps ws wo ps' : puts stk ps ws wo ps' -> NoDup (map sa_id ps) ->
  Forall (for_word ps) wo /\ ForallOrdPairs apart wo /\
  (forall p, In p ps -> In p ps' \/ given wo (Addr (length outer) [sa_id p]) = true) /\
  (forall o p, In o wo -> In p ps' -> oc_addr o <> Addr (length outer) [sa_id p]).
Proof.
  induction 1 as [ps|p ps w ws wo ps' Hr Hs Hm Hg (Hw & Hn & Hv) Hp IH|p w ws Hr Hs Hm Hg Hw]; intros Hnd.
  - split; [constructor|split; [constructor|split; [auto|]]]. intros o p [].
  - cbn [map] in Hnd. inversion_clear Hnd as [|? ? Hnp Hnd']. destruct (IH Hnd') as (H1 & H2 & H3 & H4).
    assert (Ea : forall u, oc_addr (word_occ stk p u) = Addr (length outer) [sa_id p])
      by (intros u; unfold word_occ; cbn [oc_addr length]; f_equal; lia).
    split; [|split; [|split]].
    + constructor; [exists p, w; split; [left; reflexivity|auto]|]. apply Forall_impl with (2 := H1).
      intros o (q & u & Hq & H). exists q, u. split; [right; exact Hq|exact H].
    + constructor; [|exact H2]. rewrite Forall_forall in *. intros o Ho. destruct (H1 o Ho) as (q & u & Hq & -> & _). left. rewrite Ea.
      unfold word_occ. cbn [oc_addr]. intros E. injection E as _ E. apply Hnp. rewrite E. apply in_map. exact Hq.
    + intros q [<-|Hq].
      * right. apply given_true_iff. eexists. split; [left; reflexivity|apply Ea].
      * destruct (H3 q Hq) as [H|H]; [left; exact H|right]. apply given_true_iff in H. destruct H as (o & Ho & E).
        apply given_true_iff. exists o. split; [right; exact Ho|exact E].
    + intros o q [<-|Ho] Hq; [|exact (H4 o q Ho Hq)]. rewrite Ea. intros E. injection E as E. apply Hnp. rewrite E. apply in_map.
      destruct (puts_left _ _ _ _ _ Hp) as [l ->]. apply in_app_iff. right. exact Hq.
  - split; [|split; [|split]].
    + apply Forall_forall. intros o Ho. apply in_map_iff in Ho. destruct Ho as (u & <- & Hu). exists p, u.
      split; [left; reflexivity|]. rewrite Forall_forall in Hw. destruct (Hw u Hu) as (_ & _ & Hv). auto.
    + apply (words_same p); [exact Hm|]. intros o Ho. apply in_map_iff in Ho. destruct Ho as (u & <- & Hu). reflexivity.
    + intros q [<-|[]]. right. apply given_true_iff. eexists. split; [left; reflexivity|]. unfold word_occ. cbn [oc_addr length]. f_equal. lia.
    + intros o q _ [].
Qed.
Lemma closes_facts ps ws os : closes stk ps ws os -> (forall p, In p (last_args stk) -> many p = true) ->
  Forall (for_word (ps ++ last_args stk)) os /\ ForallOrdPairs apart os /\
  (forall p, In p (ps ++ last_args stk) -> is_required p = true -> given os (Addr (length outer) [sa_id p]) = true).
Proof.
  assert (Hmap : forall p us (qs : list sarg), In p qs -> is_required p = true -> Forall (fun u => good_value p (Some u)) us ->
    Forall (for_word qs) (map (word_occ stk p) us)).
  { intros p us qs Hp Hr Hu. apply Forall_forall. intros o Ho. apply in_map_iff in Ho. destruct Ho as (u & <- & Ho).
    rewrite Forall_forall in Hu. exists p, u. auto. }
  assert (Hsame : forall p us, many p = true -> ForallOrdPairs apart (map (word_occ stk p) us)).
  { intros p us Hm. apply (words_same p); [exact Hm|]. intros o Ho. apply in_map_iff in Ho. destruct Ho as (u & <- & Hu). reflexivity. }
  assert (Hgiv : forall p u us, given (map (word_occ stk p) (u :: us)) (Addr (length outer) [sa_id p]) = true).
  { intros p u us. apply given_true_iff. eexists. split; [left; reflexivity|]. unfold word_occ. cbn [oc_addr length]. f_equal. lia. }
  intros [ps' Ho Hl|p w us Hr Hs Hm Hg Hl (Hw & Hn & Hv) Hu|ps' p w us Ho Hl Hr Hs Hu] Hml.
  - split; [constructor|split; [constructor|]]. intros p Hp Hr. exfalso. apply in_app_iff in Hp. rewrite Forall_forall in Ho, Hl.
    destruct Hp as [Hp|Hp]; [specialize (Ho p Hp)|specialize (Hl p Hp)]; unfold optional in *; congruence.
  - split; [|split].
    + apply Hmap; [left; reflexivity|exact Hr|]. constructor; assumption.
    + apply Hsame. exact Hm.
    + intros q Hq Hrq. cbn [app] in Hq. destruct Hq as [<-|Hq]; [apply Hgiv|]. rewrite Forall_forall in Hl. specialize (Hl q Hq). unfold optional in Hl. congruence.
  - rewrite Hl in *. split; [|split].
    + apply Hmap; [apply in_app_iff; right; left; reflexivity|exact Hr|exact Hu].
    + apply Hsame. apply Hml. left. reflexivity.
    + intros q Hq Hrq. apply in_app_iff in Hq. destruct Hq as [Hq|[<-|[]]]; [|apply Hgiv]. rewrite Forall_forall in Ho. specialize (Ho q Hq).
      unfold optional in Ho. congruence.
Qed.
End Here.

(** ** All the commands *)
Lemma reach_positional d q a : accepted d -> In (q, a) (reach d) -> is_option a = false -> In a (positionals d) /\ q = [sa_id a].
Proof.
  intros Hd Hi Ho. rewrite reach_eq in Hi. apply in_app_iff in Hi. destruct Hi as [Hi|Hi].
  - apply in_map_iff in Hi. destruct Hi as (b & E & Hb). injection E as <- <-. split; [apply in_positionals; assumption|reflexivity].
  - exfalso. apply in_flat_map in Hi. destruct Hi as ([id x] & Hx & Hp). apply in_map_iff in Hp.
    destruct Hp as ([q' b] & E & Hq). injection E as _ ->. destruct (accepted_flat _ id x Hd Hx) as (Hax & Hpos & _).
    rewrite (reach_option x q' a Hax Hpos Hq) in Ho. discriminate.
Qed.
Lemma at_level inner s outer (p : list ident) a : In (Addr (length outer) p, a) (stack_args (inner ++ s :: outer)) -> In (p, a) (reach (sc_decl s)).
Proof.
  induction inner as [|s1 inner IH]; cbn [app stack_args]; rewrite in_app_iff; intros [K|K].
  - unfold scope_args in K. apply in_map_iff in K. destruct K as ([q b] & E1 & Ha). injection E1 as -> ->. exact Ha.
  - apply stack_args_level in K. cbn [ad_level] in K. lia.
  - unfold scope_args in K. apply in_map_iff in K. destruct K as ([q b] & E1 & Ha). injection E1 as E1 _. rewrite app_length in E1. cbn [length] in E1. lia.
  - exact (IH K).
Qed.

Definition found (stk' : list scope) (n : nat) (o : occ) : Prop :=
  In (oc_addr o, oc_arg o) (stack_args stk') /\ n <= ad_level (oc_addr o) /\
  is_required (oc_arg o) = true /\ good_value (oc_arg o) (oc_val o).

(** The occurrences [oo ++ wo ++ ro] of the command [s]. *)
Lemma here_facts s outer l opts oo ws wo ps rest ro : stack_ok (s :: outer) -> asked (s :: outer) l -> meets_all (s :: outer) l opts oo ->
  puts (s :: outer) (ordinary (sc_decl s)) ws wo ps -> closes (s :: outer) ps rest ro ->
  Forall (fair s outer) (oo ++ wo ++ ro) /\ ForallOrdPairs apart (oo ++ wo ++ ro) /\
  forall inner, simple_demands (inner ++ s :: outer) ->
  forall (p : list ident) a, In (Addr (length outer) p, a) (stack_args (inner ++ s :: outer)) -> is_required a = true ->
    given (oo ++ wo ++ ro) (Addr (length outer) p) = true.
Proof.
  intros Hok [Hn Hl] Hm Hp Hc. inversion Hok as [|? ? [Hd _] _]; subst.
  assert (Hl' : forall x, In x l -> In x (scope_args (length outer) s) /\ is_option (snd x) = true /\ is_required (snd x) = true).
  { intros x Hx. apply Hl in Hx. destruct Hx as (s' & outer' & E & Hx & Ho & Hr & _). injection E as <- <-. auto. }
  destruct (meets_fair s outer l opts oo Hm Hl') as (F1 & F1' & F1l).
  pose proof (meets_apart s outer l opts oo Hm Hn) as A1.
  destruct (puts_facts s outer _ _ _ _ Hp (ordinary_ids _ Hd)) as (F2 & A2 & C2 & X2).
  assert (Hml : forall p, In p (last_args (s :: outer)) -> many p = true).
  { intros p Hi. cbn [last_args] in Hi. apply filter_In in Hi. destruct Hi as [Hi El].
    pose proof (pos_known s outer p Hi) as Hk. pose proof (arg_in_stack _ _ _ Hok Hk) as Ha.
    apply positional_not_option in Hi. destruct (ar_pos _ Ha (proj1 Hi)) as (_ & _ & _ & _ & _ & H). exact (H El). }
  destruct (closes_facts s outer _ _ _ Hc Hml) as (F3 & A3 & C3).
  destruct (puts_left _ _ _ _ _ Hp) as [l0 El0].
  pose proof (positionals_split (sc_decl s)) as Esp.
  assert (I2 : forall p, In p (ordinary (sc_decl s)) -> In p (positionals (sc_decl s)))
    by (intros p Hi; rewrite Esp; apply in_app_iff; left; exact Hi).
  assert (I3 : forall p, In p (ps ++ last_args (s :: outer)) -> In p (positionals (sc_decl s))).
  { intros p Hi. rewrite Esp. apply in_app_iff in Hi. apply in_app_iff. destruct Hi as [Hi|Hi]; [left|right; exact Hi].
    rewrite El0. apply in_app_iff. right. exact Hi. }
  assert (G2 : Forall (fun o => fair s outer o /\ is_option (oc_arg o) = false) wo)
    by (apply Forall_impl with (2 := F2); intros o; apply for_word_fair; exact I2).
  assert (G3 : Forall (fun o => fair s outer o /\ is_option (oc_arg o) = false) ro)
    by (apply Forall_impl with (2 := F3); intros o; apply for_word_fair; exact I3).
  rewrite Forall_forall in G2, G3.
  split; [|split].
  - apply Forall_app. split; [exact F1|]. apply Forall_app. split; apply Forall_forall; intros o Ho; [apply G2|apply G3]; exact Ho.
  - apply pairs_app; [exact A1| |].
    + apply pairs_app; [exact A2|exact A3|]. intros x y Hx Hy. rewrite Forall_forall in F3. destruct (F3 y Hy) as (p & u & Hi & -> & _ & _).
      apply in_app_iff in Hi. destruct Hi as [Hi|Hi]; [|right; apply Hml; exact Hi]. left.
      unfold word_occ. cbn [oc_addr length]. replace (S (length outer) - 1) with (length outer) by lia. exact (X2 x p Hx Hi).
    + intros x y Hx Hy. left. intros E.
      assert (Hy' : fair s outer y /\ is_option (oc_arg y) = false) by (apply in_app_iff in Hy; destruct Hy as [Hy|Hy]; [apply G2|apply G3]; exact Hy).
      destruct Hy' as [(Hy1 & _) Hy2]. rewrite Forall_forall in F1, F1'. destruct (F1 x Hx) as (Hx1 & _). specialize (F1' x Hx). cbn beta in F1'.
      rewrite E in Hx1. rewrite (stack_args_unique _ _ _ _ Hok Hx1 Hy1) in F1'. congruence.
  - intros inner Hsd p a Hin Hr. destruct (Hsd _ _ Hin Hr) as (Hsh & _). apply at_level in Hin.
    destruct (is_option a) eqn:Eo.
    + assert (Hx : In (Addr (length outer) p, a) l).
      { apply Hl. exists s, outer. split; [reflexivity|]. cbn [snd]. repeat (split; [|assumption]). split; [|auto]. unfold scope_args. apply in_map_iff. exists (p, a). auto. }
      rewrite <- F1l in Hx. apply in_map_iff in Hx. destruct Hx as (o & E & Ho). injection E as E _.
      apply given_true_iff. exists o. split; [apply in_app_iff; left; exact Ho|exact E].
    + destruct (reach_positional _ _ _ Hd Hin Eo) as [Hpa ->]. rewrite Esp in Hpa.
      assert (Hpa' : given wo (Addr (length outer) [sa_id a]) = true \/ given ro (Addr (length outer) [sa_id a]) = true).
      { apply in_app_iff in Hpa. destruct Hpa as [Hpa|Hpa].
        - destruct (C2 a Hpa) as [H|H]; [right|left; exact H]. apply C3; [|exact Hr]. apply in_app_iff. left. exact H.
        - right. apply C3; [|exact Hr]. apply in_app_iff. right. exact Hpa. }
      destruct Hpa' as [H|H]; apply given_true_iff in H; destruct H as (o & Ho & E); apply given_true_iff; exists o;
        (split; [|exact E]); apply in_app_iff; right; apply in_app_iff; auto.
Qed.

Lemma follows_facts stk toks os stk' : follows stk toks os stk' -> forall s outer, stk = s :: outer -> stack_ok stk ->
  stack_ok stk' /\ (exists inner, stk' = inner ++ s :: outer) /\
  Forall (found stk' (length outer)) os /\ ForallOrdPairs apart os /\
  (simple_demands stk' -> forall ad a, In (ad, a) (stack_args stk') -> length outer <= ad_level ad -> is_required a = true -> given os ad = true) /\
  (forall s' outer' id vs, stk' = s' :: outer' -> subcommand (sc_decl s') <> Some (id, false, vs)).
Proof.
  assert (Hfair : forall s1 outer1 inner (ol : list occ), Forall (fair s1 outer1) ol -> Forall (found (inner ++ s1 :: outer1) (length outer1)) ol).
  { intros s1 outer1 inner ol H. apply Forall_impl with (2 := H). intros o (H1 & H2 & H3 & H4). split; [apply stack_args_app; exact H1|].
    split; [lia|auto]. }
  induction 1 as [s outer l opts oo ws wo ps rest ro Hl Hm Hp Hc Hs|s outer l opts oo ws wo ps v rest os stk' Hl Hm Hp Ho Hla Hv Hf IH];
    intros s0 outer0 E Hok; injection E as <- <-.
  - destruct (here_facts _ _ _ _ _ _ _ _ _ _ Hok Hl Hm Hp Hc) as (F & A & C).
    split; [exact Hok|]. split; [exists []; reflexivity|]. split; [exact (Hfair s outer [] _ F)|]. split; [exact A|]. split.
    + intros Hsd [n p] a Hin Hn Hr. cbn [ad_level] in Hn.
      assert (n = length outer) as -> by (apply stack_args_level in Hin; cbn [ad_level length] in Hin; lia).
      exact (C [] Hsd p a Hin Hr).
    + intros s' outer' id vs E. injection E as <- <-. apply Hs.
  - destruct (here_facts _ _ _ _ _ _ _ _ _ _ Hok Hl Hm Hp (closes_none _ _ Ho Hla)) as (F & A & C).
    rewrite !app_nil_r in F, A, C.
    destruct (IH _ _ eq_refl (variant_ok _ _ Hok Hv)) as (Hok' & [inner ->] & F' & A' & C' & S').
    replace (inner ++ variant_scope v :: s :: outer) with ((inner ++ [variant_scope v]) ++ s :: outer) in * by (rewrite <- app_assoc; reflexivity).
    set (big := inner ++ [variant_scope v]) in *.
    split; [exact Hok'|]. split; [exists big; reflexivity|]. rewrite app_assoc. split; [|split; [|split]].
    + apply Forall_app. split; [exact (Hfair s outer big _ F)|]. apply Forall_impl with (2 := F'). intros o (H1 & H2 & H3). split; [exact H1|].
      split; [cbn [length] in H2; lia|exact H3].
    + apply pairs_app; [exact A|exact A'|]. intros x y Hx Hy. left. intros E. rewrite Forall_forall in F, F'.
      destruct (F x Hx) as (_ & H1 & _). destruct (F' y Hy) as (_ & H2 & _). rewrite E in H1. cbn [length] in H2. lia.
    + intros Hsd [n p] a Hin Hn Hr. cbn [ad_level] in Hn.
      assert (K : n = length outer \/ length (s :: outer) <= n) by (cbn [length]; lia).
      assert (K' : given (oo ++ wo) (Addr n p) = true \/ given os (Addr n p) = true).
      { destruct K as [->|K]; [left; exact (C big Hsd p a Hin Hr)|right; exact (C' Hsd _ _ Hin K Hr)]. }
      destruct K' as [H|H]; apply given_true_iff in H; destruct H as (o & Hio & E); apply given_true_iff; exists o;
        (split; [|exact E]); apply in_app_iff; auto.
    + exact S'.
Qed.

Theorem followed d (argv0 : bytes) toks os stk : valid d -> defaults_readable d = true ->
  follows [Scope d [] false] toks os stk -> simple_demands stk ->
  exists o, try_parse_from d (argv0 :: toks) = Ok o /\ holds o os stk.
Proof.
  intros Hd Hdr Hf Hsd. pose proof (start_ok d (proj1 Hd)) as [Hok _]. cbn [state_stack start] in Hok.
  destruct (follows_facts _ _ _ _ Hf _ _ eq_refl Hok) as (Hok' & _ & F & A & C & S).
  assert (Hr : reads d toks os stk) by (apply accounts_iff; [exact Hd|]; exact (follows_accounts _ _ _ _ Hf _ _ eq_refl)).
  assert (Hg : no_error_in os).
  { apply apart_good; [|exact A|intros o o' []]. apply Forall_impl with (2 := F). intros o (H1 & _ & _ & H2). split; [|exact H2].
    exact (arg_in_stack _ _ _ Hok' H1). }
  assert (Hself : forall ad a, In (ad, a) (stack_args stk) -> given os ad = true ->
    am_requires (sa_meta a) = [] /\ am_conflicts_with (sa_meta a) = [] /\ am_exclusive (sa_meta a) = false).
  { intros ad a Hin Hgi. apply given_true_iff in Hgi. destruct Hgi as (o & Ho & <-). rewrite Forall_forall in F.
    destruct (F o Ho) as (H1 & _ & H2 & _). rewrite (stack_args_unique _ _ _ _ Hok' Hin H1) in *. apply (Hsd _ _ H1 H2). }
  assert (Hs : satisfied os stk).
  { constructor.
    - intros ad a Hin Hr'. exact (C Hsd ad a Hin (Nat.le_0_l _) Hr').
    - intros ad a id Hin Hgi Hc. destruct (Hself _ _ Hin Hgi) as (_ & E & _). rewrite E in Hc. contradiction.
    - intros ad a id Hin Hgi Hc. destruct (Hself _ _ Hin Hgi) as (E & _ & _). rewrite E in Hc. contradiction.
    - intros ad a ad' b Hin _ Hex Hgi. destruct (Hself _ _ Hin Hgi) as (_ & _ & E). congruence.
    - intros ad a Hin Hex Hgi. destruct (Hself _ _ Hin Hgi) as (_ & _ & E). congruence.
    - intros s outer id vs E. exact (S s outer id vs E). }
  destruct (proj2 (success_iff d argv0 toks Hd Hdr)) as [o Ho]; [exists os, stk; auto|].
  exists o. split; [exact Ho|]. pose proof (reads_shows d toks os stk Hd Hr argv0) as H. rewrite Hg, Ho in H. apply H.
Qed.

(** What is not in brackets is needed. *)
Theorem needed d (argv0 : bytes) toks o : valid d -> try_parse_from d (argv0 :: toks) = Ok o ->
  exists os stk, reads d toks os stk /\ entered o = tl (rev (map sc_ident stk)) /\
  forall ad a, In (ad, a) (stack_args stk) -> is_required a = true -> exists v, In (Occ ad a v) os.
Proof.
  intros Hd H. destruct (success d argv0 toks o Hd H) as (os & stk & Hr & _ & Hs & _ & He). exists os, stk.
  split; [exact Hr|]. split; [exact He|]. intros ad a Hin Hreq. pose proof (sat_required _ _ Hs ad a Hin Hreq) as Hg.
  apply given_true_iff in Hg. destruct Hg as ([ad' b v] & Ho & E). cbn [oc_addr] in E. subst ad'.
  destruct (reads_ok _ _ _ _ Hd Hr) as (_ & Hok & Hk). rewrite Forall_forall in Hk. pose proof (Hk _ Ho) as Hb. unfold known in Hb. cbn [oc_addr oc_arg] in Hb.
  rewrite (stack_args_unique _ _ _ _ Hok Hb Hin) in Ho. exists v. exact Ho.
Qed.

(** How the usage line shows an option. *)
Theorem usage_shows a n : is_option a = true -> called a = Some n ->
  exists pre part, usage_form a = pre ++ spell n ++ part /\
  (pre = [] \/ exists c l, n = Long l /\ (128 <= c)%N /\ short_name a = Some c /\ pre = spell (Short c) ++ bs ", ") /\
  (takes_value a = true -> needs_equals a = false -> part = bs " <" ++ value_name a ++ bs ">") /\
  (takes_value a = true -> needs_equals a = true -> part = bs "=<" ++ value_name a ++ bs ">") /\
  (takes_value a = false -> part = [] \/ part = bs "[=<" ++ value_name a ++ bs ">]").
Proof.
  intros Ho Hc.
  assert (Hpart : (takes_value a = true -> needs_equals a = false -> value_part a = bs " <" ++ value_name a ++ bs ">") /\
    (takes_value a = true -> needs_equals a = true -> value_part a = bs "=<" ++ value_name a ++ bs ">") /\
    (takes_value a = false -> value_part a = [] \/ value_part a = bs "[=<" ++ value_name a ++ bs ">]")).
  { unfold takes_value, value_part. destruct (shape_a a); split; try split; intros; try discriminate; auto;
      match goal with H : needs_equals a = _ |- _ => rewrite H end; reflexivity. }
  unfold called in Hc. unfold usage_form, describe. rewrite Ho. cbv iota.
  destruct (short_name a) as [c|] eqn:Es, (long_name a) as [l|] eqn:El; try discriminate; injection Hc as <-.
  - destruct (c <? 128)%N eqn:Ec.
    + exists [], (value_part a). cbn [spell app]. split; [rewrite <- app_assoc; reflexivity|]. split; [left; reflexivity|exact Hpart].
    + exists (spell (Short c) ++ bs ", "), (value_part a). split; [|split; [|exact Hpart]].
      * cbn [spell]. rewrite <- !app_assoc. reflexivity.
      * right. exists c, l. apply N.ltb_ge in Ec. auto.
  - exists [], (value_part a). cbn [spell app]. split; [reflexivity|]. split; [left; reflexivity|exact Hpart].
  - exists [], (value_part a). cbn [spell app]. split; [reflexivity|]. split; [left; reflexivity|exact Hpart].
Qed.

(** ** The usage line itself *)

Definition filled (ws : list bytes) : bool := match ws with [] => false | _ => true end.
Lemma concat_filled (l : list (list bytes)) : concat (filter filled l) = concat l.
Proof. induction l as [|[|w ws] l IH]; cbn [filter filled concat app]; [reflexivity|exact IH|rewrite IH; reflexivity]. Qed.
Lemma Forall2_In_l {A B} (R : A -> B -> Prop) l m x : Forall2 R l m -> In x l -> exists y, In y m /\ R x y.
Proof. induction 1 as [|a b l m H Hl IH]; intros []; [subst; exists b; cbn; auto|]. destruct (IH H0) as (y & Hy & Hr). exists y. cbn. auto. Qed.
Lemma Forall2_In_r {A B} (R : A -> B -> Prop) l m y : Forall2 R l m -> In y m -> exists x, In x l /\ R x y.
Proof. induction 1 as [|a b l m H Hl IH]; intros []; [subst; exists a; cbn; auto|]. destruct (IH H0) as (x & Hx & Hr). exists x. cbn. auto. Qed.
Lemma shown_opts_In d a : In a (shown_opts d) <-> exists path, In (path, a) (reach d) /\ is_option a = true /\ shown a = true.
Proof.
  unfold shown_opts, all_args. rewrite filter_In, filter_In, in_map_iff. split.
  - intros ((([path b] & E & Hi) & Hs) & Ho). cbn [snd] in E. subst b. eauto.
  - intros (path & Hi & Ho & Hs). repeat split; [|assumption|assumption]. exists (path, a). auto.
Qed.
Lemma positionals_of_In d a : In a (positionals_of d) <-> In a (own_args d) /\ is_option a = false /\ shown a = true.
Proof.
  unfold positionals_of, positionals. rewrite filter_In, in_app_iff, !filter_In. destruct (is_option a), (is_last a); cbn [negb]; intuition discriminate.
Qed.

Theorem usage_line argv0 s outer t : page argv0 (s :: outer) t ->
  exists prog intro items rest, program argv0 prog /\
  t = intro ++ bs "Usage:" ++ concat (map (fun w => bs " " ++ w) (to_string_lossy prog :: command_names (s :: outer) ++ concat items))
      ++ nl ++ nl ++ rest /\
  (forall i, demanded (sc_decl s) i -> In i items) /\
  (forall i, In i items -> demanded (sc_decl s) i \/ offered (sc_decl s) i).
Proof.
  intros Hp.
  inversion Hp as [s' outer' prog intro op wopts wposs command commands arguments options Hi Hpr Ho Hwo Hwp Hc Ha Hop [E1 E2] Et].
  clear Hp Hi Ha Hop. subst s' outer'. apply options_of_iff in Ho. subst op.
  set (mid := if existsb (fun a => negb (is_required a)) (shown_opts (sc_decl s)) then [bs "[OPTIONS]"] else []) in *.
  exists prog, intro, (filter filled (wopts ++ [mid] ++ wposs ++ [command])), (commands ++ arguments ++ options ++ after_help (attrs_of (sc_decl s))).
  split; [exact Hpr|]. split; [|split].
  - rewrite concat_filled, !concat_app. cbn [concat app]. rewrite !app_nil_r. reflexivity.
  - intros i Hd. apply filter_In. split; [|destruct Hd; reflexivity]. rewrite !in_app_iff. destruct Hd as [path a H1 H2 H3 H4|a H1 H2 H3 H4 H5|a H1 H2 H3 H4 H5|id vs H1].
    + left. destruct (Forall2_In_l _ _ _ a Hwo) as (y & Hy & Hm); [apply shown_opts_In; eauto|]. destruct Hm; try congruence; assumption.
    + right; right; left. destruct (Forall2_In_l _ _ _ a Hwp) as (y & Hy & Hm); [apply positionals_of_In; auto|]. destruct Hm; try congruence; assumption.
    + right; right; left. destruct (Forall2_In_l _ _ _ a Hwp) as (y & Hy & Hm); [apply positionals_of_In; auto|]. destruct Hm; try congruence; assumption.
    + right; right; right. left. destruct Hc as [Hn|id' o vs' w ls Hs]; [congruence|]. rewrite H1 in Hs. injection Hs as <- <- <-. reflexivity.
  - intros i Hin. apply filter_In in Hin. destruct Hin as [Hin Hf]. rewrite !in_app_iff in Hin. destruct Hin as [Hin|[[<-|[]]|[Hin|[<-|[]]]]].
    + destruct (Forall2_In_r _ _ _ i Hwo Hin) as (a & Hi & Hm). apply shown_opts_In in Hi. destruct Hi as (path & Hi & Ho & Hs).
      destruct Hm; try congruence; try discriminate. left. eapply demanded_option; eauto.
    + unfold mid in *. destruct (existsb _ (shown_opts (sc_decl s))) eqn:Ex; [|discriminate].
      apply existsb_exists in Ex. destruct Ex as (a & Hi & Hn). apply shown_opts_In in Hi. destruct Hi as (path & Hi & Ho & Hs).
      right. eapply offered_options; eauto. destruct (is_required a); [discriminate|reflexivity].
    + destruct (Forall2_In_r _ _ _ i Hwp Hin) as (a & Hi & Hm). apply positionals_of_In in Hi. destruct Hi as (Hi & Ho & Hs).
      destruct Hm as [a H1 H2|a H1 H2|a H1 H2 H3|a H1 H2 H3|a H1 H2 H3|a H1 H2 H3 H4]; try congruence; try discriminate.
      * left. apply demanded_last; assumption.
      * right. apply offered_last; assumption.
      * destruct (is_required a) eqn:Er; [left; apply demanded_positional; assumption|]. destruct H3 as [H3|H3]; [discriminate|].
        right. unfold describe. rewrite H1, Er, H3, <- !app_assoc. apply offered_positional; assumption.
    + destruct Hc as [Hn|id o vs w ls Hs]; [discriminate|]. destruct o; [right; eapply offered_command; eauto|left; eapply demanded_command; eauto].
Qed.

Theorem help_usage_line d (argv0 : bytes) toks e t : valid d -> try_parse_from d (argv0 :: toks) = Err e -> try_into_help e = Some t ->
  exists pre tok post os s outer rem, toks = pre ++ tok :: post /\ at_option d pre os (s :: outer) rem /\
  exists prog intro items rest, program argv0 prog /\
  t = intro ++ bs "Usage:" ++ concat (map (fun w => bs " " ++ w) (to_string_lossy prog :: command_names (s :: outer) ++ concat items))
      ++ nl ++ nl ++ rest /\
  (forall i, demanded (sc_decl s) i -> In i items) /\
  (forall i, In i items -> demanded (sc_decl s) i \/ offered (sc_decl s) i).
Proof.
  intros Hd He Ht. destruct (help_is_page d argv0 toks e t Hd He Ht) as (pre & tok & post & os & stk & rem & n & rest & E & Hat & _ & _ & _ & Hp).
  destruct (at_option_cons _ _ _ _ _ Hd Hat) as (s & outer & ->). exists pre, tok, post, os, s, outer, rem. split; [exact E|]. split; [exact Hat|].
  exact (usage_line argv0 s outer t Hp).
Qed.
End UsageFacts.
