(** Facts about the attributes of fields, structs and variants. *)
From Verif Require Import Bytes BytesFacts Utf8 Attrs Refl Error Values Places Help Heck Decl Derive
  EnumDerive Spec Parts WellFormed WellFormedFacts Source Written SourceFacts SourceArg.
From Coq Require Import Permutation.

Section Fields.
Context {V : Type}.
Local Notation aexpr := (aexpr V).
Local Notation tok := (tok V).
Local Notation attribute := (attribute V).
Local Notation item := (@item V).

(** ** Lists of items are read in one way only *)

Lemma value_toks_sep (v v' : option aexpr) r r' :
  separated r -> separated r' -> value_toks v ++ r = value_toks v' ++ r' -> v = v' /\ r = r'.
Proof.
  intros Hr Hr' H. destruct v as [e|], v' as [e'|]; cbn in H.
  - now injection H as -> ->.
  - subst r'. destruct Hr' as [?|[? ?]]; discriminate.
  - subst r. destruct Hr as [?|[? ?]]; discriminate.
  - auto.
Qed.
Lemma item_list_head ts (l : list item) :
  item_list ts l -> ts <> [] ->
  exists i r l', ts = TPath (word (it_name i)) :: value_toks (it_value i) ++ r /\ l = i :: l' /\
    ((r = [] /\ l' = []) \/ exists r', r = TComma :: r' /\ item_list r' l').
Proof.
  intros H Hne. destruct H as [|i|i ts l H]; [easy| |].
  - exists i, [], []. rewrite app_nil_r. auto.
  - exists i, (TComma :: ts), l. split; [easy|]. split; [easy|]. right. eauto.
Qed.
Lemma item_list_fun : forall k ts (l l' : list item), length ts <= k ->
  item_list ts l -> item_list ts l' -> l = l'.
Proof.
  induction k as [|k IH]; intros ts l l' Hk H H'.
  - destruct ts; [|cbn in Hk; lia]. apply item_list_nil in H, H'. congruence.
  - destruct ts as [|t ts]; [apply item_list_nil in H, H'; congruence|].
    apply item_list_head in H; [|discriminate]. apply item_list_head in H'; [|discriminate].
    destruct H as (i & r & m & E & -> & Hr). destruct H' as (i' & r' & m' & E' & -> & Hr').
    injection E as Et Es. injection E' as Et' Es'. rewrite Et in Et'. injection Et' as En.
    assert (Hsep : separated r) by (destruct Hr as [[-> _]|(x & -> & _)]; [now left|right; eauto]).
    assert (Hsep' : separated r') by (destruct Hr' as [[-> _]|(x & -> & _)]; [now left|right; eauto]).
    rewrite Es in Es'. destruct (value_toks_sep _ _ _ _ Hsep Hsep' Es') as [Ev <-].
    assert (Hi : i = i') by (destruct i, i'; cbn in *; congruence). subst i'. f_equal.
    destruct Hr as [[-> ->]|(x & -> & Hx)], Hr' as [[Hq ->]|(x' & Hq & Hx')]; try discriminate; [easy|].
    injection Hq as <-. apply (IH x m m'); [|exact Hx|exact Hx'].
    cbn in Hk. rewrite Es, app_length in Hk. cbn in Hk. lia.
Qed.
Lemma item_list_once ts (l l' : list item) : item_list ts l -> item_list ts l' -> l = l'.
Proof. apply (item_list_fun (length ts)). lia. Qed.
Lemma items_once name attrs (l l' : list item) : items name attrs l -> items name attrs l' -> l = l'.
Proof.
  intros H. revert l'. induction H as [|ts l attrs l1 Hl H IH|a attrs l Ha H IH]; intros l' H'.
  - now inversion H'.
  - inversion H' as [|ts2 l2 attrs2 l3 Hl2 H2|a2 attrs2 l2 Ha2 H2]; subst.
    + f_equal; [eapply item_list_once; eassumption|now apply IH].
    + exfalso. apply Ha2. reflexivity.
  - inversion H' as [|ts2 l2 attrs2 l3 Hl2 H2|a2 attrs2 l2 Ha2 H2]; subst.
    + exfalso. apply Ha. reflexivity.
    + now apply IH.
Qed.

(** ** Reading the attributes with one name *)

Definition cur {S} (dflt : S) (o : option S) : S := match o with Some x => x | None => dflt end.

Lemma uses_cons name a (attrs : list attribute) :
  uses name (a :: attrs) <-> bears name a \/ uses name attrs.
Proof.
  unfold uses. split.
  - intros (b & [<-|Hin] & Hb); eauto.
  - intros [H|(b & Hin & Hb)]; [exists a|exists b]; cbn; auto.
Qed.
Lemma uses_app name (l m : list attribute) : uses name (l ++ m) <-> uses name l \/ uses name m.
Proof.
  unfold uses. split.
  - intros (b & Hin & Hb). apply in_app_iff in Hin. destruct Hin; eauto.
  - intros [(b & Hin & Hb)|(b & Hin & Hb)]; exists b; rewrite in_app_iff; auto.
Qed.
Lemma uses_nil name : ~ uses name (@nil attribute).
Proof. now intros (b & [] & _). Qed.

Lemma docs_literal_cons (a : attribute) l :
  docs_literal (a :: l) <-> a <> AtDoc None /\ docs_literal l.
Proof. unfold docs_literal. cbn. intuition congruence. Qed.
Lemma docs_cons (a : attribute) l : docs (a :: l) = docs [a] ++ docs l.
Proof. cbn. now rewrite app_nil_r. Qed.

Lemma doc_lines_ok (a : attribute) : snd (doc_lines a) = [] <-> a <> AtDoc None.
Proof. destruct a as [[]| |]; cbn; split; congruence. Qed.
Lemma doc_lines_docs (a : attribute) : fst (doc_lines a) = docs [a].
Proof. destruct a as [[]| |]; reflexivity. Qed.

(** The command words of the attributes, one after the other. *)
Fixpoint words_of (l : list attribute) : option (list args_command) :=
  match l with
  | [] => Some []
  | a :: l' =>
      if attr_is a (bs "command") then
        match parse_args_command a, words_of l' with
        | Some c, Some cs => Some (c :: cs)
        | _, _ => None
        end
      else words_of l'
  end.

Definition opt_list {A} (o : option A) : list A := match o with Some x => [x] | None => [] end.

Lemma items_cons_list name ts (attrs : list attribute) l :
  items name (AtList (word name) ts :: attrs) l <->
  exists l1 l2, item_list ts l1 /\ items name attrs l2 /\ l = l1 ++ l2.
Proof.
  split.
  - intros H. inversion H as [|ts2 l2 attrs2 l3 Hl2 H2|a2 attrs2 l2 Ha2 H2]; subst; [eauto|].
    exfalso. apply Ha2. reflexivity.
  - intros (l1 & l2 & H1 & H2 & ->). now apply is_list.
Qed.
Lemma items_cons_other name a (attrs : list attribute) l : ~ bears name a ->
  items name (a :: attrs) l <-> items name attrs l.
Proof.
  intros Ha. split.
  - intros H. inversion H as [|ts2 l2 attrs2 l3 Hl2 H2|a2 attrs2 l2 Ha2 H2]; subst; [|easy].
    exfalso. apply Ha. reflexivity.
  - intros H. now apply is_other.
Qed.
Lemma items_bears name a (attrs : list attribute) l : bears name a -> items name (a :: attrs) l ->
  exists ts, a = AtList (word name) ts.
Proof.
  intros Hb H. inversion H as [|ts2 l2 attrs2 l3 Hl2 H2|a2 attrs2 l2 Ha2 H2]; subst; [eauto|easy].
Qed.

Lemma field_errs_grow (l : list attribute) : forall st,
  fs_errs (fold_left field_step l st) = [] -> fs_errs st = [].
Proof.
  induction l as [|a l IH]; intros st H; cbn in H; [easy|].
  apply IH in H. unfold field_step in H. destruct (doc_lines a) as [ls des].
  destruct (attr_is a (bs "arg")).
  - destruct (parse_nested_meta arg_update _ a) as [x es]. cbn in H.
    now apply app_eq_nil in H.
  - destruct (attr_is a (bs "command")); [destruct (parse_args_command a)|]; cbn in H;
      now apply app_eq_nil in H.
Qed.

Lemma bears_arg_command (a : attribute) : bears (bs "arg") a -> ~ bears (bs "command") a.
Proof.
  destruct a as [d|p ts|p]; cbn; [discriminate| |]; intros -> H; discriminate.
Qed.
Lemma bears_doc_arg (a : attribute) : bears (bs "arg") a -> docs [a] = [] /\ a <> AtDoc None.
Proof. destruct a as [d|p ts|p]; cbn; [discriminate| |]; auto; split; easy. Qed.
Lemma bears_doc_command (a : attribute) : bears (bs "command") a -> docs [a] = [] /\ a <> AtDoc None.
Proof. destruct a as [d|p ts|p]; cbn; [discriminate| |]; auto; split; easy. Qed.

Lemma field_step_arg st (a : attribute) : attr_is a (bs "arg") = true ->
  field_step st a =
  let '(x, es) := parse_nested_meta arg_update (cur arg_default (fs_arg st)) a in
  mkFieldState (fs_doc st ++ docs [a]) (Some x) (fs_command st)
    (fs_errs st ++ snd (doc_lines a) ++ es).
Proof.
  intros H. unfold field_step. rewrite <- doc_lines_docs. destruct (doc_lines a) as [ls des].
  now rewrite H.
Qed.
Lemma field_step_command st (a : attribute) : attr_is a (bs "command") = true ->
  field_step st a =
  match parse_args_command a with
  | Some c =>
      mkFieldState (fs_doc st ++ docs [a]) (fs_arg st) (Some c)
        (fs_errs st ++ snd (doc_lines a) ++ (if is_somef (fs_command st) then [AE_dup_command] else []))
  | None => mkFieldState (fs_doc st ++ docs [a]) (fs_arg st) (fs_command st)
              (fs_errs st ++ snd (doc_lines a) ++ [AE_syntax])
  end.
Proof.
  intros H. unfold field_step. rewrite <- doc_lines_docs. destruct (doc_lines a) as [ls des].
  assert (Ha : attr_is a (bs "arg") = false).
  { destruct (attr_is a (bs "arg")) eqn:E; [|easy]. apply bears_iff in E, H.
    now apply bears_arg_command in E. }
  now rewrite Ha, H.
Qed.
Lemma field_step_other st (a : attribute) : attr_is a (bs "arg") = false ->
  attr_is a (bs "command") = false ->
  field_step st a =
  mkFieldState (fs_doc st ++ docs [a]) (fs_arg st) (fs_command st) (fs_errs st ++ snd (doc_lines a)).
Proof.
  intros H H'. unfold field_step. rewrite <- doc_lines_docs. destruct (doc_lines a) as [ls des].
  now rewrite H, H'.
Qed.

(** What the loop over the attributes of a field does. *)
Record field_run (l : list attribute) (st st' : field_state) : Prop := {
  fr_doc : docs_literal l;
  fr_docs : fs_doc st' = fs_doc st ++ docs l;
  fr_arg : exists its, items (bs "arg") l its /\
    apply_all arg_update (cur arg_default (fs_arg st)) its = Some (cur arg_default (fs_arg st'));
  fr_uses : is_somef (fs_arg st') = true <-> is_somef (fs_arg st) = true \/ uses (bs "arg") l;
  fr_words : exists cs, words_of l = Some cs /\
    opt_list (fs_command st') = opt_list (fs_command st) ++ cs
}.

Lemma field_fold_fwd (l : list attribute) : forall st, 
  fs_errs (fold_left field_step l st) = [] ->
  fs_errs st = [] /\ field_run l st (fold_left field_step l st).
Proof.
  induction l as [|a l IH]; intros st H.
  - split; [exact H|]. split; cbn.
    + intros [].
    + now rewrite app_nil_r.
    + exists []. split; [constructor|easy].
    + split; [auto|]. intros [?|?]; [easy|]. now destruct (uses_nil (bs "arg")).
    + exists []. now rewrite app_nil_r.
  - cbn [fold_left] in *. destruct (IH _ H) as [He Hr]. clear IH H.
    destruct (attr_is a (bs "arg")) eqn:Ea; [|destruct (attr_is a (bs "command")) eqn:Ec].
    + assert (Hc : attr_is a (bs "command") = false).
      { apply bears_not. apply bears_arg_command. now apply bears_iff. }
      apply bears_iff in Ea as Hb.
      rewrite field_step_arg in * by exact Ea.
      destruct (parse_nested_meta arg_update (cur arg_default (fs_arg st)) a) as [x es] eqn:Ep.
      cbn [fs_errs] in He. apply app_eq_nil in He. destruct He as [He He'].
      apply app_eq_nil in He'. destruct He' as [Hd ->]. split; [exact He|].
      apply parse_nested_iff in Ep; [|exact arg_local].
      destruct Ep as (p & ts & its & -> & Hits & Hap).
      cbn in Hb. subst p. destruct Hr as [R1 R2 (its' & R3 & R3') R4 (cs & R5 & R5')].
      cbn [fs_doc fs_arg fs_command cur is_somef] in *. split.
      * apply docs_literal_cons. split; [discriminate|exact R1].
      * rewrite R2. cbn. now rewrite app_nil_r.
      * exists (its ++ its'). split; [now apply is_list|]. rewrite apply_all_app, Hap. exact R3'.
      * rewrite R4, uses_cons. cbn. tauto.
      * exists cs. cbn [words_of]. rewrite Hc. auto.
    + apply bears_iff in Ec as Hb. assert (Hna : ~ bears (bs "arg") a) by now apply bears_not.
      rewrite field_step_command in * by exact Ec.
      destruct (parse_args_command a) as [c|] eqn:Ep;
        [|cbn [fs_errs] in He; apply app_eq_nil in He; destruct He as [_ He];
          apply app_eq_nil in He; now destruct He].
      cbn [fs_errs] in He. apply app_eq_nil in He. destruct He as [He He'].
      apply app_eq_nil in He'. destruct He' as [Hd He']. split; [exact He|].
      destruct (fs_command st) as [c0|] eqn:E0; [discriminate|].
      destruct Hr as [R1 R2 (its' & R3 & R3') R4 (cs & R5 & R5')].
      cbn [fs_doc fs_arg fs_command cur is_somef] in *. split.
      * apply docs_literal_cons. split; [now apply doc_lines_ok|exact R1].
      * now rewrite R2, (docs_cons a l), app_assoc.
      * exists its'. split; [now apply is_other|exact R3'].
      * rewrite R4, uses_cons. tauto.
      * exists (c :: cs). cbn [words_of]. rewrite Ec, Ep, R5, E0. split; [easy|]. exact R5'.
    + assert (Hna : ~ bears (bs "arg") a) by now apply bears_not.
      rewrite field_step_other in * by assumption.
      cbn [fs_errs] in He. apply app_eq_nil in He. destruct He as [He Hd]. split; [exact He|].
      destruct Hr as [R1 R2 (its' & R3 & R3') R4 (cs & R5 & R5')].
      cbn [fs_doc fs_arg fs_command cur is_somef] in *. split.
      * apply docs_literal_cons. split; [now apply doc_lines_ok|exact R1].
      * now rewrite R2, (docs_cons a l), app_assoc.
      * exists its'. split; [now apply is_other|exact R3'].
      * rewrite R4, uses_cons. tauto.
      * exists cs. cbn [words_of]. rewrite Ec. auto.
Qed.

Lemma field_fold_bwd (l : list attribute) : forall st its x cs,
  fs_errs st = [] -> docs_literal l ->
  items (bs "arg") l its -> apply_all arg_update (cur arg_default (fs_arg st)) its = Some x ->
  words_of l = Some cs -> length (opt_list (fs_command st) ++ cs) <= 1 ->
  fs_errs (fold_left field_step l st) = [].
Proof.
  induction l as [|a l IH]; intros st its x cs He Hd Hi Hx Hc Hn; [exact He|].
  cbn [fold_left]. apply docs_literal_cons in Hd. destruct Hd as [Hda Hd].
  apply doc_lines_ok in Hda. cbn [words_of] in Hc.
  destruct (attr_is a (bs "arg")) eqn:Ea; [|destruct (attr_is a (bs "command")) eqn:Ec].
  - assert (Ec : attr_is a (bs "command") = false).
    { apply bears_not. apply bears_arg_command. now apply bears_iff. }
    rewrite Ec in Hc. apply bears_iff in Ea as Hb.
    destruct (items_bears _ _ _ _ Hb Hi) as [ts ->].
    apply items_cons_list in Hi. destruct Hi as (l1 & l2 & H1 & H2 & ->).
    rewrite apply_all_app in Hx.
    destruct (apply_all arg_update (cur arg_default (fs_arg st)) l1) as [y|] eqn:Ey; [|discriminate].
    rewrite field_step_arg by exact Ea.
    assert (Ep : parse_nested_meta arg_update (cur arg_default (fs_arg st))
                   (AtList (word (bs "arg")) ts) = (y, [])).
    { apply parse_nested_iff; [exact arg_local|]. exists (word (bs "arg")), ts, l1. auto. }
    rewrite Ep. eapply (IH _ l2 x cs); cbn [fs_errs fs_arg fs_command cur]; auto.
    now rewrite He, Hda.
  - destruct (parse_args_command a) as [c|] eqn:Ep; [|discriminate].
    destruct (words_of l) as [cs'|] eqn:Ew; [|discriminate]. injection Hc as <-.
    destruct (fs_command st) as [c0|] eqn:E0; [cbn in Hn; lia|].
    rewrite field_step_command by exact Ec. rewrite Ep, E0. cbn [is_somef].
    apply items_cons_other in Hi; [|now apply bears_not].
    eapply (IH _ its x cs'); cbn [fs_errs fs_arg fs_command]; auto. now rewrite He, Hda.
  - rewrite field_step_other by assumption.
    apply items_cons_other in Hi; [|now apply bears_not].
    eapply (IH _ its x cs); cbn [fs_errs fs_arg fs_command]; auto. now rewrite He, Hda.
Qed.

(** ** Which kind of field *)

Lemma words_none (l : list attribute) : words_of l = Some [] <-> ~ uses (bs "command") l.
Proof.
  induction l as [|a l IH]; cbn [words_of].
  - split; [|easy]. intros _. apply uses_nil.
  - rewrite uses_cons. destruct (attr_is a (bs "command")) eqn:E.
    + apply bears_iff in E. split; [|tauto].
      destruct (parse_args_command a); [destruct (words_of l)|]; discriminate.
    + apply bears_not in E. rewrite IH. tauto.
Qed.
Definition word_name (c : args_command) : bytes :=
  match c with CSubcommand => bs "subcommand" | CFlatten => bs "flatten" end.
Lemma parse_command_iff (a : attribute) c : bears (bs "command") a ->
  (parse_args_command a = Some c <-> a = command_word (word_name c)).
Proof.
  intros Hb. split.
  - destruct a as [d|p ts|p]; unfold parse_args_command; try discriminate. destruct ts as [|[q| | | |] [|]]; try discriminate.
    cbn in Hb. subst p. unfold command_word.
    destruct (is_ident q (bs "subcommand")) eqn:E1.
    + apply is_ident_iff in E1. intros [= <-]. now subst.
    + destruct (is_ident q (bs "flatten")) eqn:E2; [|discriminate].
      apply is_ident_iff in E2. intros [= <-]. now subst.
  - intros ->. destruct c; reflexivity.
Qed.
Lemma words_one (l : list attribute) c :
  words_of l = Some [c] <->
  exists pre post, l = pre ++ command_word (word_name c) :: post /\ ~ uses (bs "command") (pre ++ post).
Proof.
  induction l as [|a l IH]; cbn [words_of].
  - split; [discriminate|]. intros (pre & post & H & _). now destruct pre.
  - destruct (attr_is a (bs "command")) eqn:E.
    + apply bears_iff in E. split.
      * destruct (parse_args_command a) as [c'|] eqn:Ep; [|discriminate].
        destruct (words_of l) as [cs|] eqn:Ew; [|discriminate]. intros [= -> ->].
        apply parse_command_iff in Ep; [|exact E]. exists [], l. subst a. split; [easy|].
        now apply words_none.
      * intros (pre & post & H & Hn). destruct pre as [|b pre].
        -- injection H as -> ->. assert (Hw : words_of post = Some []) by now apply words_none.
           rewrite Hw. assert (Ep : parse_args_command (command_word (V := V) (word_name c)) = Some c)
             by now apply parse_command_iff. now rewrite Ep.
        -- injection H as -> ->. exfalso. apply Hn. cbn. apply uses_cons. now left.
    + apply bears_not in E. rewrite IH. split.
      * intros (pre & post & -> & Hn). exists (a :: pre), post. split; [easy|]. cbn.
        rewrite uses_cons. tauto.
      * intros (pre & post & H & Hn). destruct pre as [|b pre].
        -- injection H as -> ->. exfalso. now apply E.
        -- injection H as -> ->. exists pre, post. split; [easy|]. cbn in Hn.
           rewrite uses_cons in Hn. tauto.
Qed.

Lemma items_unused name (l : list attribute) : ~ uses name l -> items name l [].
Proof.
  induction l as [|a l IH]; intros H; [constructor|]. rewrite uses_cons in H.
  apply is_other; [tauto|]. apply IH. tauto.
Qed.

(** What is said determines the attributes. *)
Lemma opt_ext {A} (o o' : option A) : (forall x, o = Some x <-> o' = Some x) -> o = o'.
Proof.
  intros H. destruct o as [x|], o' as [y|]; try easy.
  - symmetry. now apply H.
  - symmetry. now apply H.
  - now apply H.
Qed.
Lemma bool_ext (b b' : bool) (P : Prop) : (b = true <-> P) -> (b' = true <-> P) -> b = b'.
Proof.
  intros H H'. destruct b, b'; try reflexivity.
  - symmetry. now apply H', H.
  - now apply H, H'.
Qed.
Lemma says_str_once l n (o o' : option bytes) :
  says_str (V := V) l n o -> says_str l n o' -> o = o'.
Proof. intros H H'. apply opt_ext. intros x. now rewrite (H x), (H' x). Qed.
Lemma says_char_once l n (o o' : option N) :
  says_char (V := V) l n o -> says_char l n o' -> o = o'.
Proof. intros H H'. apply opt_ext. intros x. now rewrite (H x), (H' x). Qed.
Lemma says_true_once l n (o o' : bool) :
  says_true (V := V) l n o -> says_true l n o' -> o = o'.
Proof. apply bool_ext. Qed.
Lemma override_ext {A} (o o' : option (override A)) (P : Prop) :
  (o = Some Inherit <-> P) -> (o' = Some Inherit <-> P) ->
  match o with Some (Explicit s) => Some s | _ => None end =
  match o' with Some (Explicit s) => Some s | _ => None end -> o = o'.
Proof.
  intros H H' E. destruct o as [[|x]|], o' as [[|x']|]; try easy; try congruence.
  - symmetry. apply H', H. easy.
  - now apply H, H'.
Qed.
Lemma explicit_ext {A} (o o' : option (override A)) :
  (forall x, o = Some (Explicit x) <-> o' = Some (Explicit x)) ->
  match o with Some (Explicit s) => Some s | _ => None end =
  match o' with Some (Explicit s) => Some s | _ => None end.
Proof.
  intros H. apply opt_ext. intros x. specialize (H x).
  destruct o as [[|y]|], o' as [[|y']|]; split; intros Q; try discriminate; injection Q as ->.
  - destruct H as [_ H]. now specialize (H eq_refl).
  - destruct H as [H _]. now specialize (H eq_refl).
  - destruct H as [H _]. specialize (H eq_refl). now injection H as ->.
  - destruct H as [_ H]. specialize (H eq_refl). now injection H as ->.
  - destruct H as [H _]. now specialize (H eq_refl).
  - destruct H as [_ H]. now specialize (H eq_refl).
Qed.

Lemma arg_says_once ds (l : list item) (m m' : arg_meta V) :
  arg_says ds l m -> arg_says ds l m' -> m = m'.
Proof.
  intros H H'.
  assert (E1 : am_doc m = am_doc m') by (rewrite (ay_doc _ _ _ H), (ay_doc _ _ _ H'); easy).
  assert (E2 : am_long m = am_long m').
  { apply (override_ext _ _ _ (ay_long_default _ _ _ H) (ay_long_default _ _ _ H')).
    exact (says_str_once _ _ _ _ (ay_long _ _ _ H) (ay_long _ _ _ H')). }
  assert (E3 : am_short m = am_short m').
  { apply (override_ext _ _ _ (ay_short_default _ _ _ H) (ay_short_default _ _ _ H')).
    exact (says_char_once _ _ _ _ (ay_short _ _ _ H) (ay_short _ _ _ H')). }
  assert (E4 : am_alias m = am_alias m') by (rewrite (ay_alias _ _ _ H), (ay_alias _ _ _ H'); easy).
  assert (E5 : am_short_alias m = am_short_alias m')
    by (rewrite (ay_short_alias _ _ _ H), (ay_short_alias _ _ _ H'); easy).
  assert (E6 := says_str_once _ _ _ _ (ay_value_name _ _ _ H) (ay_value_name _ _ _ H')).
  assert (E7 := says_true_once _ _ _ _ (ay_require_equals _ _ _ H) (ay_require_equals _ _ _ H')).
  assert (E8 := says_true_once _ _ _ _ (ay_global _ _ _ H) (ay_global _ _ _ H')).
  assert (E9 := says_true_once _ _ _ _ (ay_allow_hyphen_values _ _ _ H)
                  (ay_allow_hyphen_values _ _ _ H')).
  assert (E10 := says_true_once _ _ _ _ (ay_allow_negative_numbers _ _ _ H)
                  (ay_allow_negative_numbers _ _ _ H')).
  assert (E11 := says_true_once _ _ _ _ (ay_ignore_case _ _ _ H) (ay_ignore_case _ _ _ H')).
  assert (E12 := says_true_once _ _ _ _ (ay_trailing_var_arg _ _ _ H) (ay_trailing_var_arg _ _ _ H')).
  assert (E13 := says_true_once _ _ _ _ (ay_last _ _ _ H) (ay_last _ _ _ H')).
  assert (E14 := says_str_once _ _ _ _ (ay_default_value _ _ _ H) (ay_default_value _ _ _ H')).
  assert (E15 : am_default_value_t m = am_default_value_t m').
  { apply (override_ext _ _ _ (ay_default_default _ _ _ H) (ay_default_default _ _ _ H')).
    apply explicit_ext. intros x.
    now rewrite (ay_default_value_t _ _ _ H x), (ay_default_value_t _ _ _ H' x). }
  assert (E16 : am_value_delimiter m = am_value_delimiter m').
  { apply opt_ext. intros c.
    now rewrite (ay_value_delimiter _ _ _ H c), (ay_value_delimiter _ _ _ H' c). }
  assert (E17 := says_true_once _ _ _ _ (ay_hide _ _ _ H) (ay_hide _ _ _ H')).
  assert (E18 := says_true_once _ _ _ _ (ay_required _ _ _ H) (ay_required _ _ _ H')).
  assert (E19 := says_true_once _ _ _ _ (ay_exclusive _ _ _ H) (ay_exclusive _ _ _ H')).
  assert (E20 : am_requires m = am_requires m')
    by (rewrite (ay_requires _ _ _ H), (ay_requires _ _ _ H'); easy).
  assert (E21 : am_conflicts_with m = am_conflicts_with m')
    by (rewrite (ay_conflicts_with _ _ _ H), (ay_conflicts_with _ _ _ H'); easy).
  clear H H'. destruct m, m'. cbn in *. subst. reflexivity.
Qed.

Lemma says_doc ds (l : list item) (m : arg_meta V) :
  arg_says [] l m -> arg_says ds l (with_doc m ds).
Proof. intros []. split; try assumption. reflexivity. Qed.

Lemma field_run_start (l : list attribute) :
  snd (field_attrs l) = [] ->
  field_run l (mkFieldState [] None None []) (fold_left field_step l (mkFieldState [] None None [])) /\
  fs_errs (fold_left field_step l (mkFieldState [] None None [])) = [].
Proof.
  intros H. unfold field_attrs in H.
  set (st := fold_left field_step l (mkFieldState [] None None [])) in *.
  assert (He : fs_errs st = []).
  { destruct (fs_command st); cbn [snd] in H; [|exact H]. now apply app_eq_nil in H. }
  split; [|exact He]. now apply field_fold_fwd.
Qed.

Lemma field_attrs_arg_fwd (l : list attribute) m :
  field_attrs l = (Arg m, []) ->
  exists its, field_says l (AnArg its) /\ arg_says (docs l) its m.
Proof.
  intros H. destruct (field_run_start l) as [[R1 R2 (its & R3 & R3') R4 (cs & R5 & R5')] He];
    [now rewrite H|].
  unfold field_attrs in H.
  set (st := fold_left field_step l (mkFieldState [] None None [])) in *.
  destruct (fs_command st) as [c|] eqn:Ec; [discriminate|].
  cbn [fs_doc fs_arg fs_command opt_list cur app] in *. subst cs.
  apply (proj1 (arg_all its)) in R3'. destruct R3' as [Hg [_ Hy]].
  exists its. split.
  - apply fy_arg; [exact R1|now apply words_none|]. split; assumption.
  - injection H as <- _. rewrite R2. apply says_doc. exact Hy.
Qed.
Lemma field_attrs_cmd_fwd (l : list attribute) c :
  field_attrs l = (Command c, []) ->
  field_says l (match c with CSubcommand => ASubcommand | CFlatten => AFlatten end).
Proof.
  intros H. destruct (field_run_start l) as [[R1 R2 (its & R3 & R3') R4 (cs & R5 & R5')] He];
    [now rewrite H|].
  unfold field_attrs in H.
  set (st := fold_left field_step l (mkFieldState [] None None [])) in *.
  destruct (fs_command st) as [c'|] eqn:Ec; [|discriminate].
  cbn [fs_doc fs_arg fs_command opt_list cur app is_somef] in *. subst cs.
  injection H as -> H. rewrite He in H. cbn in H.
  assert (Hu : ~ uses (bs "arg") l).
  { intros Hu. destruct (is_somef (fs_arg st)); [discriminate|].
    assert (false = true) by (apply R4; now right). discriminate. }
  apply words_one in R5. destruct R5 as (pre & post & -> & Hn).
  destruct c; [eapply fy_subcommand|eapply fy_flatten]; eauto.
Qed.

Lemma field_says_ok (l : list attribute) k : field_says l k -> snd (field_attrs l) = [].
Proof.
  intros H.
  assert (Hex : docs_literal l /\ exists its x cs, items (bs "arg") l its /\
    apply_all arg_update (arg_default (V := V)) its = Some x /\ words_of l = Some cs /\
    length cs <= 1 /\ (cs <> [] -> ~ uses (bs "arg") l)).
  { destruct H as [its Hd Hc [Hi Hg]|pre post Hd Ha E Hn|pre post Hd Ha E Hn].
    - split; [exact Hd|]. destruct (proj2 (arg_all its) Hg) as [x Hx].
      exists its, x, []. split; [exact Hi|]. split; [exact Hx|]. split; [now apply words_none|].
      split; [cbn; lia|easy].
    - split; [exact Hd|]. exists [], arg_default, [CSubcommand].
      split; [now apply items_unused|]. split; [easy|]. split; [|split; [cbn; lia|auto]].
      apply words_one. eauto.
    - split; [exact Hd|]. exists [], arg_default, [CFlatten].
      split; [now apply items_unused|]. split; [easy|]. split; [|split; [cbn; lia|auto]].
      apply words_one. eauto. }
  destruct Hex as (Hd & its & x & cs & Hi & Hx & Hw & Hl & Hu).
  assert (He : fs_errs (fold_left field_step l (mkFieldState [] None None [])) = []).
  { eapply field_fold_bwd; cbn [fs_errs fs_arg fs_command]; eauto. }
  destruct (field_fold_fwd l _ He) as [_ [R1 R2 R3 R4 (cs' & R5 & R5')]].
  rewrite Hw in R5. injection R5 as <-. unfold field_attrs.
  set (st := fold_left field_step l (mkFieldState [] None None [])) in *.
  destruct (fs_command st) as [c|] eqn:Ec; cbn [snd]; [|exact He].
  cbn in R5'. rewrite He. cbn. destruct (is_somef (fs_arg st)) eqn:Es; [|easy].
  exfalso. destruct R4 as [R4 _]. destruct (R4 eq_refl) as [H0|H0]; [discriminate|].
  apply Hu; [|exact H0]. intros ->. discriminate.
Qed.

Lemma field_says_kind (l : list attribute) k k' : field_says l k -> field_says l k' -> k = k'.
Proof.
  assert (Hw : forall pre post c, ~ uses (bs "command") (pre ++ command_word (V := V) c :: post) -> False).
  { intros pre post c H. apply H. apply uses_app. right. apply uses_cons. now left. }
  assert (Hone : forall pre post c, ~ uses (bs "command") (pre ++ post) ->
    words_of (pre ++ command_word (V := V) (word_name c) :: post) = Some [c]).
  { intros pre post c H. apply words_one. eauto. }
  intros H H'.
  destruct H as [its Hd Hc [Hi Hg]|pre post Hd Ha E Hn|pre post Hd Ha E Hn];
  destruct H' as [its' Hd' Hc' [Hi' Hg']|pre' post' Hd' Ha' E' Hn'|pre' post' Hd' Ha' E' Hn'];
    try easy; try (subst l; exfalso; eapply Hw; eassumption).
  - f_equal. eapply items_once; eassumption.
  - assert (Q := Hone pre post CSubcommand Hn). assert (Q' := Hone pre' post' CFlatten Hn').
    cbn [word_name] in Q, Q'. rewrite <- E in Q. rewrite <- E' in Q'. congruence.
  - assert (Q := Hone pre post CFlatten Hn). assert (Q' := Hone pre' post' CSubcommand Hn').
    cbn [word_name] in Q, Q'. rewrite <- E in Q. rewrite <- E' in Q'. congruence.
Qed.

Lemma field_attrs_ok (l : list attribute) :
  snd (field_attrs l) = [] -> exists k, field_says l k /\
  match k with
  | AnArg its => exists m, field_attrs l = (Arg m, []) /\ arg_says (docs l) its m
  | ASubcommand => field_attrs l = (Command CSubcommand, [])
  | AFlatten => field_attrs l = (Command CFlatten, [])
  end.
Proof.
  intros H. destruct (field_attrs l) as [[m|c] es] eqn:E; cbn in H; subst es.
  - destruct (field_attrs_arg_fwd l m E) as (its & Hs & Hm). exists (AnArg its). eauto.
  - apply field_attrs_cmd_fwd in E as Hs. eexists. split; [exact Hs|]. now destruct c.
Qed.
Lemma field_attrs_iff (l : list attribute) :
  snd (field_attrs l) = [] <-> exists k, field_says l k.
Proof.
  split.
  - intros H. destruct (field_attrs_ok l H) as (k & Hk & _). eauto.
  - intros [k Hk]. eapply field_says_ok. exact Hk.
Qed.
Lemma field_says_arg (l : list attribute) its m :
  field_says l (AnArg its) -> arg_says (docs l) its m -> field_attrs l = (Arg m, []).
Proof.
  intros Hs Hm. destruct (field_attrs_ok l (field_says_ok _ _ Hs)) as (k & Hk & H).
  assert (k = AnArg its) by (eapply field_says_kind; eassumption). subst k.
  destruct H as (m' & -> & Hm'). f_equal. f_equal. eapply arg_says_once; eassumption.
Qed.
Lemma field_says_exists (l : list attribute) its :
  field_says l (AnArg its) -> exists m, arg_says (docs l) its m.
Proof.
  intros Hs. destruct (field_attrs_ok l (field_says_ok _ _ Hs)) as (k & Hk & H).
  assert (k = AnArg its) by (eapply field_says_kind; eassumption). subst k.
  destruct H as (m' & _ & Hm'). eauto.
Qed.
End Fields.
