(** The help page is as described. *)
From Verif Require Import Bytes Utf8 Error Values Heck Places Decl Spec Derive Generated Observe Grammar Parts Blame Page.
From Verif Require Import BytesFacts CompileFacts ScopeFacts InfoFacts ReadFacts ContextFacts Refine HelpFacts OptionFacts ResultFacts BlameFacts WellFormedFacts.
Local Open Scope list_scope.

(** *** The name of the program *)

Lemma cut_app x y acc : cut_slash (x ++ "/"%byte :: y) acc = cut_slash x acc ++ cut_slash y [].
Proof.
  revert acc. induction x as [|b x IH]; intros acc; cbn [app cut_slash].
  - rewrite byte_eqb_refl. reflexivity.
  - destruct (Byte.eqb b "/"); rewrite IH; reflexivity.
Qed.
Lemma cut_plain x acc : ~ In "/"%byte x -> cut_slash x acc = [rev acc ++ x].
Proof.
  revert acc. induction x as [|b x IH]; intros acc H; cbn [cut_slash].
  - rewrite app_nil_r. reflexivity.
  - destruct (Byte.eqb b "/") eqn:E; [apply byte_eqb_eq in E; subst; elim H; left; reflexivity|].
    rewrite IH by (intros C; apply H; right; exact C). cbn [rev]. rewrite <- app_assoc. reflexivity.
Qed.
Definition joined (l : list bytes) : bytes :=
  match l with [] => [] | c :: r => c ++ concat (map (cons "/"%byte) r) end.
Lemma cut_joined x acc : joined (cut_slash x acc) = rev acc ++ x /\ cut_slash x acc <> [].
Proof.
  revert acc. induction x as [|b x IH]; intros acc; cbn [cut_slash].
  - split; [reflexivity|discriminate].
  - destruct (Byte.eqb b "/") eqn:E.
    + apply byte_eqb_eq in E. subst b. split; [|discriminate]. destruct (IH []) as [H Hn].
      destruct (cut_slash x []) as [|c r]; [contradiction|]. cbn [joined map concat] in *. cbn [rev app] in H. rewrite <- H.
      reflexivity.
    + destruct (IH (b :: acc)) as [H Hn]. split; [|exact Hn]. rewrite H. cbn [rev]. rewrite <- app_assoc. reflexivity.
Qed.
Lemma cut_no_slash x acc : ~ In "/"%byte acc -> Forall (fun c => ~ In "/"%byte c) (cut_slash x acc).
Proof.
  revert acc. induction x as [|b x IH]; intros acc H; cbn [cut_slash].
  - constructor; [|constructor]. rewrite <- in_rev. exact H.
  - destruct (Byte.eqb b "/") eqn:E.
    + constructor; [rewrite <- in_rev; exact H|]. apply IH. intros [].
    + apply IH. intros [C|C]; [|exact (H C)]. subst b. rewrite byte_eqb_refl in E. discriminate.
Qed.

Lemma real_iff c : real_component c = true <-> c <> [] /\ c <> bs ".".
Proof.
  unfold real_component. rewrite andb_true_iff, !negb_true_iff, !beqb_neq. reflexivity.
Qed.
Lemma unreal_iff c : real_component c = false <-> c = [] \/ c = bs ".".
Proof.
  unfold real_component. rewrite andb_false_iff, !negb_false_iff, !beqb_eq. reflexivity.
Qed.

Lemma trail_none ts e : Forall (fun t => t = bs "/" \/ t = bs "/.") ts -> e = [] \/ e = bs "." ->
  filter real_component (cut_slash (e ++ concat ts) []) = [].
Proof.
  revert e. induction ts as [|t ts IH]; intros e Ht He.
  - cbn [concat]. rewrite app_nil_r. destruct He as [->| ->]; reflexivity.
  - inversion Ht as [|t0 ts0 H1 H2]; subst. cbn [concat].
    assert (He1 : filter real_component (cut_slash e []) = []) by (destruct He as [->| ->]; reflexivity).
    destruct H1 as [->| ->].
    + change (e ++ bs "/" ++ concat ts) with (e ++ "/"%byte :: ([] ++ concat ts)).
      rewrite cut_app, filter_app, He1. apply IH; [exact H2|left; reflexivity].
    + change (e ++ bs "/." ++ concat ts) with (e ++ "/"%byte :: (bs "." ++ concat ts)).
      rewrite cut_app, filter_app, He1. apply IH; [exact H2|right; reflexivity].
Qed.
Lemma component_tail c ts : Forall (fun t => t = bs "/" \/ t = bs "/.") ts -> ~ In "/"%byte c ->
  real_component c = true -> filter real_component (cut_slash (c ++ concat ts) []) = [c].
Proof.
  intros Ht Hc Hr. destruct ts as [|t ts].
  - cbn [concat]. rewrite app_nil_r, cut_plain by exact Hc. cbn [rev app filter]. rewrite Hr. reflexivity.
  - inversion Ht as [|t0 ts0 H1 H2]; subst. cbn [concat].
    destruct H1 as [->| ->].
    + change (c ++ bs "/" ++ concat ts) with (c ++ "/"%byte :: ([] ++ concat ts)).
      rewrite cut_app, filter_app, trail_none by (auto). rewrite cut_plain by exact Hc. cbn [rev app filter]. rewrite Hr. reflexivity.
    + change (c ++ bs "/." ++ concat ts) with (c ++ "/"%byte :: (bs "." ++ concat ts)).
      rewrite cut_app, filter_app, trail_none by (auto). rewrite cut_plain by exact Hc. cbn [rev app filter]. rewrite Hr. reflexivity.
Qed.
Lemma component_iff path c :
  component_of path c <-> hd_error (rev (filter real_component (cut_slash path []))) = Some c.
Proof.
  split.
  - intros [dir c' trail -> Hd Hs H1 H2 Ht].
    assert (Hr : real_component c' = true) by (apply real_iff; split; assumption).
    destruct Hd as [->|[r ->]].
    + cbn [app]. rewrite component_tail by assumption. reflexivity.
    + rewrite <- app_assoc. change (r ++ bs "/" ++ c' ++ concat trail) with (r ++ "/"%byte :: (c' ++ concat trail)).
      rewrite cut_app, filter_app, component_tail, rev_app_distr by assumption. reflexivity.
  - intros H. destruct (cut_joined path []) as [Hj _]. cbn [rev app] in Hj.
    pose proof (cut_no_slash path [] (fun C => C)) as Hs. set (l := cut_slash path []) in *. clearbody l. subst path.
    assert (E : exists l1 l2, l = l1 ++ c :: l2 /\ real_component c = true /\ Forall (fun t => real_component t = false) l2).
    { clear Hs. induction l as [|x l IH] using rev_ind; [discriminate|]. rewrite filter_app, rev_app_distr in H. cbn [filter] in H.
      destruct (real_component x) eqn:Ex.
      - cbn in H. injection H as ->. exists l, []. repeat split; [exact Ex|constructor].
      - cbn [rev app] in H. destruct (IH H) as (l1 & l2 & -> & Hc & Hl). exists l1, (l2 ++ [x]).
        rewrite <- app_assoc. repeat split; [exact Hc|]. apply Forall_app. split; [exact Hl|]. constructor; [exact Ex|constructor]. }
    destruct E as (l1 & l2 & -> & Hc & Hl). apply real_iff in Hc. destruct Hc as [Hc1 Hc2].
    apply (component_intro _ (concat (map (fun x => x ++ bs "/") l1)) c (map (cons "/"%byte) l2)).
    + clear. destruct l1 as [|x l1]; [reflexivity|]. cbn [app joined map concat]. rewrite <- !app_assoc. f_equal.
      clear x. induction l1 as [|y l1 IH]; [reflexivity|]. cbn [app map concat].
      rewrite IH, <- !app_assoc. reflexivity.
    + destruct l1 as [|x l1] using rev_ind; [left; reflexivity|]. right. rewrite map_app, concat_app. cbn [map concat].
      exists (concat (map (fun x => x ++ bs "/") l1) ++ x). rewrite app_nil_r, app_assoc. reflexivity.
    + apply Forall_elt in Hs. exact Hs.
    + exact Hc1.
    + exact Hc2.
    + apply Forall_map. eapply Forall_impl; [|exact Hl]. intros t Ht. apply unreal_iff in Ht. destruct Ht as [->| ->]; [left|right]; reflexivity.
Qed.

Lemma program_iff argv0 p : program argv0 p <-> p = shown_name argv0.
Proof.
  unfold shown_name. pose proof (component_iff argv0) as Hc.
  destruct (rev (filter real_component (cut_slash argv0 []))) as [|x l]; cbn [hd_error] in Hc.
  - split.
    + intros [c H Hn|_]; [apply Hc in H; discriminate|reflexivity].
    + intros ->. apply program_other. intros c H. apply Hc in H. discriminate.
  - destruct (beqb x (bs "..")) eqn:E.
    + apply beqb_eq in E. subst x. split.
      * intros [c H Hn|_]; [|reflexivity]. apply Hc in H. injection H as <-. contradiction.
      * intros ->. apply program_other. intros c H. apply Hc in H. injection H as <-. reflexivity.
    + apply beqb_neq in E. split.
      * intros [c H Hn|H]; [apply Hc in H; injection H as <-; reflexivity|]. specialize (H x (proj2 (Hc x) eq_refl)). contradiction.
      * intros ->. apply program_component; [apply Hc; reflexivity|exact E].
Qed.

Lemma summary_iff t l : summary t l <-> l = first_line t.
Proof.
  unfold first_line. split.
  - intros [H|l' r -> H].
    + apply split_once_None in H. change c_nl with "010"%byte. rewrite H. reflexivity.
    + unfold nl. cbn [app]. rewrite split_once_app by exact H. reflexivity.
  - intros ->. destruct (split_once c_nl t) as [[l r]|] eqn:E.
    + apply split_once_Some in E. destruct E as [-> H]. exact (summary_line _ l r eq_refl H).
    + apply split_once_None in E. apply summary_all. exact E.
Qed.

Section PageEq.
Context {V : Type}.
Local Notation args_decl := (args_decl V).
Local Notation sarg := (sarg V).
Local Notation scope := (scope V).
Implicit Types (d : args_decl) (a : sarg) (stk : list scope) (s : scope).

Lemma filter_and {A} (p q : A -> bool) l : filter (fun x => p x && q x) l = filter p (filter q l).
Proof.
  induction l as [|x l IH]; [reflexivity|]. cbn [filter]. destruct (q x); cbn [filter]; destruct (p x); cbn [andb]; rewrite IH; reflexivity.
Qed.
Lemma own_shown d : filter (fun a => is_option a && shown a) (own_args d) = filter shown (opts (own_args d)).
Proof. rewrite filter_and, filter_comm. reflexivity. Qed.

Lemma options_of_iff d l : options_of d l <-> l = shown_opts d.
Proof.
  revert l. induction d as [d IH _] using decl_induction. intros l. rewrite shown_opts_eq. split.
  - intros Hl. inversion Hl as [d' ls H E1 E2]. subst d' l. clear Hl. rewrite own_shown. f_equal.
    assert (IH' : forall fx l, In fx (flattened d) -> options_of (snd fx) l -> l = shown_opts (snd fx)).
    { intros [id x] l Hi Hl. apply (IH id x); [apply in_flattened; exact Hi|exact Hl]. }
    clear IH. induction H as [|fx l fs ls H1 H2 IHl]; [reflexivity|]. cbn [concat flat_map].
    rewrite (IH' fx l) by (try (left; reflexivity); exact H1). f_equal. apply IHl. intros fy l' Hi. apply IH'. right. exact Hi.
  - intros ->. rewrite <- own_shown, flat_map_concat_map. constructor.
    assert (IH' : forall fx, In fx (flattened d) -> options_of (snd fx) (shown_opts (snd fx))).
    { intros [id x] Hi. apply (IH id x); [apply in_flattened; exact Hi|reflexivity]. }
    clear IH. induction (flattened d) as [|fx fs IHl]; constructor; [apply IH'; left; reflexivity|].
    apply IHl. intros fy Hi. apply IH'. right. exact Hi.
Qed.

Lemma entry_cons a : exists x r, entry a = x :: r.
Proof. unfold entry. do 2 eexists. reflexivity. Qed.
Lemma lists_iff title (l : list sarg) t : lists title l t <-> t = section title (flat_map entry l).
Proof.
  unfold lists, section. rewrite flat_map_concat_map. destruct l as [|a l]; [reflexivity|]. cbn [map concat].
  destruct (entry_cons a) as (x & r & ->). cbn [app]. reflexivity.
Qed.

Definition words (ws : list bytes) : bytes := concat (map (fun w => bs " " ++ w) ws).
Lemma words_app ws vs : words (ws ++ vs) = words ws ++ words vs.
Proof. unfold words. rewrite map_app, concat_app. reflexivity. Qed.

Lemma mentioned_words a ws : mentioned a ws -> words ws = usage_of a.
Proof.
  unfold usage_of, words. intros H. destruct H as [a H1 H2|a H1 H2|a H1 H2 H3|a H1 H2 H3|a H1 H2 H3|a H1 H2 H3 H4]; rewrite ?H1, ?H2, ?H3; cbn [map concat].
  - rewrite app_nil_r. reflexivity.
  - reflexivity.
  - rewrite app_nil_r. reflexivity.
  - rewrite app_nil_r. reflexivity.
  - rewrite app_nil_r. destruct H3 as [->| ->]; [reflexivity|]. rewrite orb_true_r. reflexivity.
  - rewrite H4. reflexivity.
Qed.
Lemma mentioned_some a : exists ws, mentioned a ws.
Proof.
  destruct (is_option a) eqn:E1.
  - destruct (is_required a) eqn:E2; eexists; [apply mentioned_required|apply mentioned_optional]; assumption.
  - destruct (is_last a) eqn:E2.
    + destruct (is_required a) eqn:E3; eexists; [apply mentioned_last|apply mentioned_last_optional]; assumption.
    + destruct (is_required a) eqn:E3; [eexists; apply mentioned_positional; auto|].
      destruct (many a) eqn:E4; [eexists; apply mentioned_positional; auto|]. eexists. apply mentioned_not; assumption.
Qed.
Lemma mentions_words (l : list sarg) wl : Forall2 mentioned l wl -> words (concat wl) = flat_map usage_of l.
Proof.
  induction 1 as [|a ws l wl H1 H2 IH]; [reflexivity|]. cbn [concat flat_map]. rewrite words_app, IH, (mentioned_words _ _ H1). reflexivity.
Qed.
Lemma mentions_some (l : list sarg) : exists wl, Forall2 mentioned l wl.
Proof.
  induction l as [|a l [wl IH]]; [exists []; constructor|]. destruct (mentioned_some a) as [ws H]. exists (ws :: wl). constructor; assumption.
Qed.

Definition width (vs : list (ident * variant_decl V)) : nat := fold_right Nat.max 0 (map (fun v => length (sub_name v)) vs).
Lemma widest_width vs : widest vs (width vs).
Proof.
  unfold widest, width. induction vs as [|v vs [IH1 IH2]]; cbn [map fold_right].
  - split; [intros v []|left; reflexivity].
  - split.
    + intros u [<-|Hu]; [lia|]. specialize (IH1 u Hu). lia.
    + right. destruct (Nat.max_spec (length (sub_name v)) (fold_right Nat.max 0 (map (fun v => length (sub_name v)) vs))) as [[H E]|[H E]]; rewrite E.
      * destruct IH2 as [E0|(u & Hu & E0)]; [lia|]. exists u. split; [right; exact Hu|exact E0].
      * exists v. split; [left; reflexivity|reflexivity].
Qed.
Lemma widest_unique (vs : list (ident * variant_decl V)) w : widest vs w -> w = width vs.
Proof.
  intros [H1 H2]. destruct (widest_width vs) as [K1 K2]. apply Nat.le_antisymm.
  - destruct H2 as [->|(v & Hv & <-)]; [lia|]. exact (K1 v Hv).
  - destruct K2 as [K2|(v & Hv & E)]; [lia|]. rewrite <- E. exact (H1 v Hv).
Qed.
Lemma command_entry_iff w (v : ident * variant_decl V) l : length (sub_name v) <= w -> (command_entry w v l <-> l = command_line w v).
Proof.
  intros Hw. unfold command_line. replace (w - length (sub_name v) + 2) with (w + 2 - length (sub_name v)) by lia. split.
  - intros [pad s -> H]. apply summary_iff in H. subst s. reflexivity.
  - intros ->. econstructor; [reflexivity|]. apply summary_iff. reflexivity.
Qed.
Lemma command_entries w (vs : list (ident * variant_decl V)) ls : (forall v, In v vs -> length (sub_name v) <= w) ->
  (Forall2 (command_entry w) vs ls <-> ls = map (command_line w) vs).
Proof.
  intros H. split.
  - induction 1 as [|v l vs ls H1 H2 IH]; [reflexivity|]. cbn [map]. f_equal.
    + apply command_entry_iff; [apply H; left; reflexivity|exact H1].
    + apply IH. intros u Hu. apply H. right. exact Hu.
  - intros ->. induction vs as [|v vs IH]; constructor.
    + apply command_entry_iff; [apply H; left; reflexivity|reflexivity].
    + apply IH. intros u Hu. apply H. right. exact Hu.
Qed.

Lemma page_help argv0 stk t : page argv0 stk t -> t = help_text argv0 stk.
Proof.
  intros [s outer prog intro op wopts wposs command commands arguments options Hi Hp Ho Hwo Hwp Hc Ha Hop].
  apply program_iff in Hp. apply options_of_iff in Ho. apply lists_iff in Ha, Hop. subst prog op arguments options.
  unfold help_text. fold (all_args (sc_decl s)). fold (shown_opts (sc_decl s)). cbn zeta. unfold positionals_of in *.
  f_equal. { destruct Hi as [[-> ->]|[Hn ->]]; [reflexivity|]. destruct (about _); [contradiction|reflexivity]. }
  f_equal. fold (words ([to_string_lossy (shown_name argv0)] ++ command_names (s :: outer) ++ concat wopts
             ++ (if existsb (fun a => negb (is_required a)) (shown_opts (sc_decl s)) then [bs "[OPTIONS]"] else [])
             ++ concat wposs ++ command)).
  rewrite app_assoc, !words_app, (mentions_words _ _ Hwo), (mentions_words _ _ Hwp).
  rewrite <- !app_assoc. change (to_string_lossy (shown_name argv0) :: command_names (s :: outer)) with
    ([to_string_lossy (shown_name argv0)] ++ command_names (s :: outer)).
  rewrite (flat_map_concat_map (fun n => bs " " ++ n)). fold (words ([to_string_lossy (shown_name argv0)] ++ command_names (s :: outer))).
  rewrite words_app, <- !app_assoc. do 3 f_equal.
  f_equal. { destruct (existsb _ _); reflexivity. }
  f_equal. destruct Hc as [E|id o vs w ls E Hw Hl]; rewrite E; [reflexivity|].
  apply command_entries in Hl; [|exact (proj1 Hw)]. apply widest_unique in Hw. subst ls w. fold (width vs).
  rewrite (flat_map_concat_map (command_line (width vs))). unfold words, nl. cbn [map concat]. rewrite <- !app_assoc. destruct o; reflexivity.
Qed.
Lemma page_some argv0 (s : scope) outer : exists t, page argv0 (s :: outer) t.
Proof.
  destruct (mentions_some (shown_opts (sc_decl s))) as [wo Hwo]. destruct (mentions_some (positionals_of (sc_decl s))) as [wp Hwp].
  assert (Hc : exists command commands, commands_of (sc_decl s) command commands).
  { destruct (subcommand (sc_decl s)) as [[[id o] vs]|] eqn:E.
    - do 2 eexists. eapply commands_some; [exact E|apply widest_width|]. apply command_entries; [apply widest_width|reflexivity].
    - do 2 eexists. apply commands_none. exact E. }
  destruct Hc as (command & commands & Hc). eexists.
  eapply page_intro with (intro := match about (attrs_of (sc_decl s)) with [] => [] | t => t ++ nl ++ nl end).
  - destruct (about (attrs_of (sc_decl s))); [left; split; reflexivity|right; split; [discriminate|reflexivity]].
  - apply program_iff. reflexivity.
  - apply options_of_iff. reflexivity.
  - exact Hwo.
  - exact Hwp.
  - exact Hc.
  - apply lists_iff. reflexivity.
  - apply lists_iff. reflexivity.
Qed.
Theorem page_iff argv0 (s : scope) outer t : page argv0 (s :: outer) t <-> t = help_text argv0 (s :: outer).
Proof.
  split; [apply page_help|]. intros ->. destruct (page_some argv0 s outer) as [t H]. pose proof H as H'. apply page_help in H'. subst t. exact H.
Qed.

Theorem page_unique argv0 stk t u : page argv0 stk t -> page argv0 stk u -> t = u.
Proof. intros H1 H2. apply page_help in H1, H2. congruence. Qed.

(** *** What the page lists *)

Lemma listed_in d a : listed d a -> In a (shown_opts d) \/ In a (positionals_of d).
Proof.
  intros H. destruct H as [d a Hi Ho Hs|d a p Hi Ho Hs].
  - right. unfold positionals_of, positionals. apply filter_In. split; [|exact Hs]. apply in_app_iff.
    destruct (is_last a) eqn:El; [right|left]; apply filter_In; (split; [apply filter_In; split; [exact Hi|rewrite Ho; reflexivity]|]).
    + exact El.
    + rewrite El. reflexivity.
  - left. unfold shown_opts, all_args. apply filter_In. split; [|exact Ho]. apply filter_In. split; [|exact Hs].
    apply in_map_iff. exists (p, a). split; [reflexivity|exact Hi].
Qed.
Lemma section_has title (l : list sarg) a : In a l -> exists b e, section title (flat_map entry l) = b ++ entry a ++ e.
Proof.
  intros H. apply in_split in H. destruct H as (l1 & l2 & ->). rewrite flat_map_app. cbn [flat_map].
  unfold section. destruct (entry_cons a) as (x & r & E).
  exists (title ++ [c_nl] ++ flat_map entry l1), (flat_map entry l2).
  destruct (flat_map entry l1 ++ entry a ++ flat_map entry l2) as [|y l] eqn:El.
  - apply app_eq_nil in El. destruct El as [_ El]. rewrite E in El. discriminate.
  - rewrite <- El, <- !app_assoc. reflexivity.
Qed.
Theorem page_lists argv0 (s : scope) outer t a : page argv0 (s :: outer) t -> listed (sc_decl s) a ->
  exists b e, t = b ++ entry a ++ e.
Proof.
  intros Hp H. apply listed_in in H.
  inversion Hp as [s' outer' prog intro op wopts wposs command commands arguments options Hi Hpr Ho Hwo Hwp Hc Ha Hop [E1 E2] Et].
  clear Hp Hi Hpr Hwo Hwp Hc. apply options_of_iff in Ho. apply lists_iff in Ha, Hop. subst s' outer' op t.
  match goal with |- exists b e, intro ++ ?u ++ ?w ++ _ ++ _ ++ ?c ++ _ ++ _ ++ _ = _ =>
    generalize u, w, c; intros u1 w1 c1 end.
  destruct H as [H|H].
  - destruct (section_has (bs "Options:") _ _ H) as (b & e & E). rewrite <- Hop in E. rewrite E.
    exists (intro ++ u1 ++ w1 ++ nl ++ nl ++ c1 ++ arguments ++ b), (e ++ after_help (attrs_of (sc_decl s))).
    rewrite <- !app_assoc. reflexivity.
  - destruct (section_has (bs "Arguments:") _ _ H) as (b & e & E). rewrite <- Ha in E. rewrite E.
    exists (intro ++ u1 ++ w1 ++ nl ++ nl ++ c1 ++ b), (e ++ options ++ after_help (attrs_of (sc_decl s))).
    rewrite <- !app_assoc. reflexivity.
Qed.

(** *** The help of a parse *)

Lemma at_option_cons d pre os stk rem : valid d -> at_option d pre os stk rem -> exists s outer, stk = s :: outer.
Proof.
  intros [Hd _] H. destruct (read_ok first_named first_named_in _ _ _ _ (start_ok d Hd) H) as (_ & _ & inner & E).
  cbn in E. destruct inner as [|s inner]; cbn in E; subst stk; eauto.
Qed.
Theorem help_is_page d (argv0 : bytes) toks e t : valid d -> try_parse_from d (argv0 :: toks) = Err e ->
  try_into_help e = Some t ->
  exists pre tok post os stk rem n rest, toks = pre ++ tok :: post /\ at_option d pre os stk rem /\
    mentions stk tok n rest /\ asks_help n /\ unknown stk n /\ page argv0 stk t.
Proof.
  intros Hd H Ht. apply (error_blame d argv0 toks e Hd) in H. unfold try_into_help in Ht.
  destruct H as [| | | |pre tok post os stk rem n rest E Ha Hm Hu Hh| | | | | | | | | | |]; cbn [e_help error_about error_on err_new] in Ht; try discriminate Ht.
  injection Ht as <-.
  exists pre, tok, post, os, stk, rem, n, rest. repeat split; try assumption.
  destruct (at_option_cons _ _ _ _ _ Hd Ha) as (s & outer & ->). apply page_iff. reflexivity.
Qed.

Lemma top_unknown d n : unknown [Scope d [] false] n <-> ~ offers d n.
Proof.
  unfold unknown, offers. cbn [stack_args length scope_args sc_decl]. rewrite app_nil_r. split.
  - intros H (p & a & Hi & Hn). apply (H (Addr 0 p) a); [|left; reflexivity|exact Hn].
    apply in_map_iff. exists (p, a). split; [reflexivity|exact Hi].
  - intros H ad a Hi _ Hn. apply in_map_iff in Hi. destruct Hi as ([p a'] & E & Hi). injection E as <- ->. apply H. exists p, a. auto.
Qed.
Lemma start_at d : at_option d [] [] [Scope d [] false] (positionals d).
Proof. reflexivity. Qed.
Lemma top_ok d : valid d -> stack_ok [Scope d [] false].
Proof. intros Hd. exact (at_option_stack _ _ _ _ _ Hd (start_at d)). Qed.

Theorem long_help d (argv0 : bytes) : valid d -> ~ offers d (Long (bs "help")) ->
  render_long_help d argv0 = Ok (help_text argv0 [Scope d [] false]).
Proof.
  intros Hd H. apply top_unknown in H. unfold render_long_help.
  change [argv0; bs "--help"] with (argv0 :: [] ++ [bs "--help"]).
  rewrite (help_long d argv0 [] [] _ _ (bs "--help") [] Hd (start_at d) eq_refl (or_introl eq_refl) H). reflexivity.
Qed.
Theorem long_help_page d (argv0 : bytes) : valid d -> ~ offers d (Long (bs "help")) ->
  exists t, render_long_help d argv0 = Ok t /\ page argv0 [Scope d [] false] t.
Proof. intros Hd H. eexists. split; [exact (long_help d argv0 Hd H)|]. apply page_iff. reflexivity. Qed.
Theorem long_help_panics d (argv0 : bytes) : valid d -> offers d (Long (bs "help")) ->
  exists p, render_long_help d argv0 = Panic p.
Proof.
  intros Hd H. pose proof (top_ok d Hd) as Hok.
  destruct (resolve [Scope d [] false] (Long (bs "help"))) as [[ad a]|] eqn:Er.
  2: { apply unknown_iff in Er; [|exact Hok]. apply top_unknown in Er. contradiction. }
  unfold render_long_help. destruct (try_parse_from d [argv0; bs "--help"]) as [o|e|p] eqn:Ep; [eauto| |eauto].
  destruct (try_into_help e) as [t|] eqn:Et; [exfalso|eauto]. pose proof Ep as Ep'. 
  rewrite parse_conclude, read_cons in Ep by exact Hd. unfold start in Ep. cbn [step] in Ep.
  assert (Ef : form_of (bs "--help") = FLong (bs "help") None) by reflexivity.
  rewrite Ef in Ep. unfold read_long, bare in Ep. rewrite Er in Ep.
  destruct (takes_value a) eqn:Ea; [destruct (needs_equals a) eqn:Ee|].
  - cbn in Ep. injection Ep as <-. discriminate Et.
  - cbn in Ep. injection Ep as <-. discriminate Et.
  - clear Ep. destruct (help_is_page d argv0 _ e t Hd Ep' Et) as (pre & tok & post & os & stk & rem & n & rest & E & Ha & Hm & _ & Hu & _).
    pose proof (mention_unknown stk rem tok n rest (at_option_stack _ _ _ _ _ Hd Ha) Hm Hu) as Hh.
    destruct pre as [|x pre]; [|injection E as _ E; destruct pre; discriminate E].
    injection E as <- <-. unfold at_option in Ha. cbn [read] in Ha. unfold start in Ha. injection Ha as <- <- <-.
    cbn [step] in Hh. rewrite Ef in Hh. unfold read_long, bare in Hh. rewrite Er, Ea in Hh. exact Hh.
Qed.
Theorem long_help_iff d (argv0 : bytes) : valid d ->
  ((exists t, render_long_help d argv0 = Ok t) <-> ~ offers d (Long (bs "help"))).
Proof.
  intros Hd. split.
  - intros (t & E) H. destruct (long_help_panics d argv0 Hd H) as [p E']. congruence.
  - intros H. eexists. exact (long_help d argv0 Hd H).
Qed.

(** *** Hidden arguments *)

Lemma without_fields d : fields_of (without_hidden d) = flat_map (fun f : ident * field_decl V =>
    let '(id, fd) := f in
    match fd with
    | FArg m t => if am_hide m then [] else [(id, FArg m t)]
    | FFlatten x => [(id, FFlatten (without_hidden x))]
    | FSub o s => [(id, FSub o s)]
    end) (fields_of d).
Proof. destruct d. reflexivity. Qed.
Lemma without_attrs d : attrs_of (without_hidden d) = attrs_of d.
Proof. destruct d. reflexivity. Qed.
Lemma without_own d : own_args (without_hidden d) = filter shown (own_args d).
Proof.
  unfold own_args. rewrite without_fields. induction (fields_of d) as [|[id f] fs IH]; [reflexivity|]. cbn [flat_map].
  rewrite flat_map_app, filter_app, IH. f_equal. destruct f as [m t|x|o sd]; try reflexivity.
  cbn [own_arg snd fst flat_map filter]. unfold shown. cbn [sa_meta]. destruct (am_hide m); reflexivity.
Qed.
Lemma without_flattened d : flattened (without_hidden d) = map (fun fx => (fst fx, without_hidden (snd fx))) (flattened d).
Proof.
  unfold flattened. rewrite without_fields. induction (fields_of d) as [|[id f] fs IH]; [reflexivity|]. cbn [flat_map].
  rewrite flat_map_app, map_app, IH. f_equal. destruct f as [m t|x|o sd]; try reflexivity.
  cbn [flat_field snd fst map]. destruct (am_hide m); reflexivity.
Qed.
Lemma without_subcommand d : subcommand (without_hidden d) = subcommand d.
Proof.
  unfold subcommand. f_equal. rewrite without_fields. induction (fields_of d) as [|[id f] fs IH]; [reflexivity|]. cbn [flat_map].
  rewrite flat_map_app, IH. f_equal. destruct f as [m t|x|o sd]; try reflexivity.
  - cbn [sub_field snd fst map]. destruct (am_hide m); reflexivity.
  - cbn [flat_map app]. rewrite app_nil_r. reflexivity.
Qed.
Lemma filter_idem {A} (p : A -> bool) l : filter p (filter p l) = filter p l.
Proof.
  induction l as [|x l IH]; [reflexivity|]. cbn [filter]. destruct (p x) eqn:E; [cbn [filter]; rewrite E, IH; reflexivity|exact IH].
Qed.
Lemma without_positionals d : filter shown (positionals (without_hidden d)) = filter shown (positionals d).
Proof.
  unfold positionals. rewrite without_own. cbn zeta. rewrite !filter_app.
  rewrite !(filter_comm shown (fun a => negb (is_last a))), !(filter_comm shown is_last).
  rewrite !(filter_comm shown (fun a => negb (is_option a))), filter_idem. reflexivity.
Qed.
Lemma without_shown d : shown_opts (without_hidden d) = shown_opts d.
Proof.
  induction d as [d IH _] using decl_induction. rewrite !shown_opts_eq, without_own, without_flattened. f_equal.
  - unfold opts. rewrite (filter_comm shown), filter_idem, filter_comm. reflexivity.
  - rewrite flat_map_concat_map, map_map, <- flat_map_concat_map. apply flat_map_ext_in. intros [id x] Hx. cbn [snd].
    apply (IH id). apply in_flattened. exact Hx.
Qed.
Lemma without_help argv0 d id u outer :
  help_text argv0 (Scope (without_hidden d) id u :: outer) = help_text argv0 (Scope d id u :: outer).
Proof.
  unfold help_text. cbn [sc_decl]. fold (all_args (without_hidden d)). fold (shown_opts (without_hidden d)).
  fold (all_args d). fold (shown_opts d). rewrite without_attrs, without_shown, without_positionals, without_subcommand.
  assert (E : command_names (Scope (without_hidden d) id u :: outer) = command_names (Scope d id u :: outer)) by (destruct outer; reflexivity).
  rewrite E. reflexivity.
Qed.
Theorem without_page argv0 d id u outer t :
  page argv0 (Scope (without_hidden d) id u :: outer) t <-> page argv0 (Scope d id u :: outer) t.
Proof. rewrite !page_iff, without_help. reflexivity. Qed.

Lemma without_reach d p a : In (p, a) (reach (without_hidden d)) -> In (p, a) (reach d).
Proof.
  revert p a. induction d as [d IH _] using decl_induction. intros p a. rewrite !reach_eq, without_own, without_flattened, !in_app_iff.
  intros [H|H]; [left|right].
  - apply in_map_iff in H. destruct H as (b & E & Hb). apply filter_In in Hb. apply in_map_iff. exists b. tauto.
  - apply in_flat_map in H. destruct H as ([id y] & Hx & H). apply in_map_iff in Hx. destruct Hx as ([id' x] & E & Hx).
    injection E as <- <-. apply in_flat_map. exists (id', x). split; [exact Hx|]. cbn [fst snd] in *.
    apply in_map_iff in H. destruct H as ([q b] & E & H). apply in_map_iff. exists (q, b). split; [exact E|].
    apply (IH id'); [apply in_flattened; exact Hx|exact H].
Qed.
Theorem without_long_help d (argv0 : bytes) : valid d -> valid (without_hidden d) -> ~ offers d (Long (bs "help")) ->
  render_long_help (without_hidden d) argv0 = render_long_help d argv0.
Proof.
  intros Hd Hw H. rewrite (long_help d argv0 Hd H), long_help.
  - rewrite without_help. reflexivity.
  - exact Hw.
  - intros (p & a & Hi & Hn). apply H. exists p, a. split; [apply without_reach; exact Hi|exact Hn].
Qed.
End PageEq.
