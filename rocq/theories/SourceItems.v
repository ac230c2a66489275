(** Facts about whole sources: structs, enums, types. *)
From Verif Require Import Bytes BytesFacts Utf8 Attrs Refl Error Values Places Help Heck Decl Derive
  EnumDerive Spec Parts WellFormed WellFormedFacts Source Written SourceFacts SourceArg SourceField.
From Coq Require Import Permutation.

Section Commands.
Context {V : Type}.
Local Notation aexpr := (aexpr V).
Local Notation tok := (tok V).
Local Notation attribute := (attribute V).
Local Notation item := (@item V).

(** ** The attributes of structs and variants *)

Lemma cmd_table_nodup : NoDup (map r_name cmd_table).
Proof. apply nodup_b. reflexivity. Qed.

Record cmd_inv (l : list item) (s : cmd_src V) : Prop := {
  ci_name : In (bs "name") (slots cmd_table l) <-> cs_name s <> None;
  ci_version : In (bs "version") (slots cmd_table l) <-> cs_version s <> None;
  ci_about : In (bs "long_about") (slots cmd_table l) <-> cs_long_about s <> None;
  ci_after : In (bs "after_long_help") (slots cmd_table l) <-> cs_after_long_help s <> None;
  ci_about_bare : cs_long_about s = Some Inherit <-> In (Item (bs "long_about") None) l;
  ci_about_expr : forall e, cs_long_about s = Some (Explicit e) <->
                            In (Item (bs "long_about") (Some e)) l;
  ci_after_expr : forall e, cs_after_long_help s = Some e <->
                            In (Item (bs "after_long_help") (Some e)) l
}.

Lemma cmd_inv_nil : cmd_inv [] cmd_default.
Proof. split; cbn; split; try easy; try discriminate. Qed.

Lemma cmd_slots_step (l : list item) n v r :
  row_of cmd_table n = Some r ->
  slots cmd_table (l ++ [Item (V := V) n v]) =
  slots cmd_table l ++ match r_slot r with Some s => [s] | None => [] end.
Proof.
  intros H. rewrite slots_app, slots_one by exact cmd_table_nodup. unfold slot_of. cbn [it_name].
  now rewrite H.
Qed.
Lemma in_snoc_other {A} (x y : A) l : x <> y -> (In x (l ++ [y]) <-> In x l).
Proof. intros H. rewrite in_app_iff. cbn. intuition congruence. Qed.
Lemma in_snoc_same {A} (x : A) l : In x (l ++ [x]).
Proof. apply in_app_iff. cbn. auto. Qed.

Lemma cmd_names n :
  In n [bs "name"; bs "version"; bs "long_about"; bs "after_long_help"] \/
  (row_of cmd_table n = None /\
   forall (s : cmd_src V) ts s', cmd_update s (word n) ts <> (s', [], Some [])).
Proof.
  destruct (row_of cmd_table n) as [r|] eqn:R.
  - left. apply row_of_name in R. destruct R as [Hin <-]. apply (in_map r_name) in Hin. exact Hin.
  - destruct (in_dec (list_eq_dec Byte.byte_eq_dec) n
      [bs "name"; bs "version"; bs "long_about"; bs "after_long_help"]) as [Hi|Hi]; [now left|].
    right. split; [easy|]. intros s ts s'. unfold cmd_update.
    destruct (key_of cmd_keys (word n)) as [k|] eqn:K; [|discriminate].
    apply key_of_iff in K; [|exact cmd_keys_nodup]. destruct K as (m & Hm & Hin).
    injection Hm as <-.
    cbn [cmd_keys In] in Hin.
    repeat (destruct Hin as [Hin|Hin]; [injection Hin as Hn <-;
      try (exfalso; apply Hi; rewrite <- Hn; cbn; auto 8; fail)|]); try easy.
    1-3: destruct (parse_override parse_expr ts) as [[x y]|]; cbn; discriminate.
    1-2: destruct (value_of parse_expr ts) as [[x y]|]; cbn; discriminate.
Qed.

Lemma not_none {A} (x : A) : Some x <> None.
Proof. discriminate. Qed.

Lemma cmd_step_ok l s i : good_items cmd_table l -> cmd_inv l s ->
  (forall s', apply cmd_update s i = Some s' ->
     good_items cmd_table (l ++ [i]) /\ cmd_inv (l ++ [i]) s') /\
  (good_items cmd_table (l ++ [i]) -> exists s', apply cmd_update s i = Some s').
Proof.
  intros Hg Hinv. destruct i as [n v].
  destruct (cmd_names n) as [Hn|[Hr Hk]].
  2:{ split.
      - intros s' E. apply apply_some in E. now apply Hk in E.
      - intros H. apply good_items_snoc in H; [|exact cmd_table_nodup].
        destruct H as [_ (r & Hr' & _)]. cbn [it_name] in Hr'. congruence. }
  assert (Hfwd : forall (o : Prop) k, 
    row_of cmd_table n = Some (Row n k (Some n)) -> (In n (slots cmd_table l) <-> o) -> ~ o ->
    takes k v -> good_items cmd_table (l ++ [Item n v])).
  { intros o k Hr Ho Hno Ht. apply good_items_snoc; [exact cmd_table_nodup|]. split; [exact Hg|].
    eexists. split; [exact Hr|]. split; [exact Ht|]. intros x [= <-]. tauto. }
  assert (Hbwd : forall (o : Prop) k,
    row_of cmd_table n = Some (Row n k (Some n)) -> (In n (slots cmd_table l) <-> o) ->
    good_items cmd_table (l ++ [Item n v]) -> takes k v /\ ~ o).
  { intros o k Hr Ho H. apply good_items_snoc in H; [|exact cmd_table_nodup].
    destruct H as [_ (r & Hr' & Ht & Hs)]. cbn [it_name it_value] in *. rewrite Hr in Hr'.
    injection Hr' as <-. split; [exact Ht|]. rewrite <- Ho. now apply Hs. }
  destruct Hinv as [I1 I2 I3 I4 I5 I6 I7].
  destruct Hn as [<-|[<-|[<-|[<-|[]]]]].
  - (* name *)
    split.
    + intros s' E. apply apply_some in E. cbn [it_name it_value] in E.
      change (commit s (value_of (parse_form as_str) (value_toks v))
        (fun v => let '(x, es) := set_once (cs_name s) v in
                  (mkCmdSrc x (cs_version s) (cs_long_about s) (cs_after_long_help s), es))
        = (s', [], Some [])) in E.
      apply commit_value in E. destruct E as (e & x & -> & Hx & E).
      destruct (set_once (cs_name s) x) as [y es] eqn:Es. injection E as <- ->.
      apply set_once_ok in Es. destruct Es as [Hc ->]. split.
      * eapply Hfwd; [reflexivity|exact I1|now rewrite Hc|]. apply as_str_iff in Hx. now exists x.
      * split; cbn [cs_name cs_version cs_long_about cs_after_long_help];
          try (rewrite (cmd_slots_step l (bs "name") _ _ eq_refl); cbn [r_slot once]).
        -- split; [intros _; apply not_none|intros _; apply in_snoc_same].
        -- now rewrite in_snoc_other.
        -- now rewrite in_snoc_other.
        -- now rewrite in_snoc_other.
        -- now rewrite in_other.
        -- intros e'. now rewrite in_other.
        -- intros e'. now rewrite in_other.
    + intros H. eapply Hbwd in H; [|reflexivity|exact I1]. destruct H as [Ht Hc].
      destruct v as [e|]; [|easy]. destruct Ht as [x Hx].
      destruct (cs_name s) eqn:Es; [exfalso; apply Hc, not_none|].
      eexists. apply apply_some. cbn [it_name it_value].
      apply (commit_value s as_str (Some e) (fun v => let '(x, es) := set_once (cs_name s) v in
                  (mkCmdSrc x (cs_version s) (cs_long_about s) (cs_after_long_help s), es))).
      exists e, x. rewrite Hx, Es. cbn. auto.
  - (* version *)
    split.
    + intros s' E. apply apply_some in E. cbn [it_name it_value] in E.
      change (commit s (parse_override parse_expr (value_toks v))
        (fun v => let '(x, es) := set_once (cs_version s) v in
                  (mkCmdSrc (cs_name s) x (cs_long_about s) (cs_after_long_help s), es))
        = (s', [], Some [])) in E.
      apply commit_override_expr in E.
      destruct (set_once (cs_version s) _) as [y es] eqn:Es in E. injection E as <- ->.
      apply set_once_ok in Es. destruct Es as [Hc ->]. split.
      * eapply Hfwd; [reflexivity|exact I2|now rewrite Hc|]. now destruct v.
      * split; cbn [cs_name cs_version cs_long_about cs_after_long_help];
          try (rewrite (cmd_slots_step l (bs "version") _ _ eq_refl); cbn [r_slot once]).
        -- now rewrite in_snoc_other.
        -- split; [intros _; apply not_none|intros _; apply in_snoc_same].
        -- now rewrite in_snoc_other.
        -- now rewrite in_snoc_other.
        -- now rewrite in_other.
        -- intros e'. now rewrite in_other.
        -- intros e'. now rewrite in_other.
    + intros H. eapply Hbwd in H; [|reflexivity|exact I2]. destruct H as [Ht Hc].
      destruct (cs_version s) eqn:Es; [exfalso; apply Hc, not_none|].
      eexists. apply apply_some. cbn [it_name it_value].
      apply (commit_override_expr s v (fun v => let '(x, es) := set_once (cs_version s) v in
                  (mkCmdSrc (cs_name s) x (cs_long_about s) (cs_after_long_help s), es))).
      rewrite Es. cbn. reflexivity.
  - (* long_about *)
    split.
    + intros s' E. apply apply_some in E. cbn [it_name it_value] in E.
      change (commit s (parse_override parse_expr (value_toks v))
        (fun v => let '(x, es) := set_once (cs_long_about s) v in
                  (mkCmdSrc (cs_name s) (cs_version s) x (cs_after_long_help s), es))
        = (s', [], Some [])) in E.
      apply commit_override_expr in E.
      destruct (set_once (cs_long_about s) _) as [y es] eqn:Es in E. injection E as <- ->.
      apply set_once_ok in Es. destruct Es as [Hc ->]. split.
      * eapply Hfwd; [reflexivity|exact I3|now rewrite Hc|]. now destruct v.
      * rewrite Hc in I5, I6.
        split; cbn [cs_name cs_version cs_long_about cs_after_long_help];
          try (rewrite (cmd_slots_step l (bs "long_about") _ _ eq_refl); cbn [r_slot once]).
        -- now rewrite in_snoc_other.
        -- now rewrite in_snoc_other.
        -- split; [intros _; apply not_none|intros _; apply in_snoc_same].
        -- now rewrite in_snoc_other.
        -- rewrite in_new. destruct v as [e|].
           ++ rewrite <- I5. split; [discriminate|]. intros [?|?]; discriminate.
           ++ split; auto.
        -- intros e'. rewrite in_new. rewrite <- I6. destruct v as [e|].
           ++ split; [intros [= ->]; auto|]. intros [?|[= ->]]; [discriminate|easy].
           ++ split; [discriminate|]. intros [?|?]; discriminate.
        -- intros e'. now rewrite in_other.
    + intros H. eapply Hbwd in H; [|reflexivity|exact I3]. destruct H as [Ht Hc].
      destruct (cs_long_about s) eqn:Es; [exfalso; apply Hc, not_none|].
      eexists. apply apply_some. cbn [it_name it_value].
      apply (commit_override_expr s v (fun v => let '(x, es) := set_once (cs_long_about s) v in
                  (mkCmdSrc (cs_name s) (cs_version s) x (cs_after_long_help s), es))).
      rewrite Es. cbn. reflexivity.
  - (* after_long_help *)
    split.
    + intros s' E. apply apply_some in E. cbn [it_name it_value] in E.
      change (commit s (value_of parse_expr (value_toks v))
        (fun v => let '(x, es) := set_once (cs_after_long_help s) v in
                  (mkCmdSrc (cs_name s) (cs_version s) (cs_long_about s) x, es))
        = (s', [], Some [])) in E.
      apply commit_value_expr in E. destruct E as (e & -> & E).
      destruct (set_once (cs_after_long_help s) e) as [y es] eqn:Es. injection E as <- ->.
      apply set_once_ok in Es. destruct Es as [Hc ->]. split.
      * eapply Hfwd; [reflexivity|exact I4|now rewrite Hc|]. easy.
      * rewrite Hc in I7. split; cbn [cs_name cs_version cs_long_about cs_after_long_help];
          try (rewrite (cmd_slots_step l (bs "after_long_help") _ _ eq_refl); cbn [r_slot once]).
        -- now rewrite in_snoc_other.
        -- now rewrite in_snoc_other.
        -- now rewrite in_snoc_other.
        -- split; [intros _; apply not_none|intros _; apply in_snoc_same].
        -- now rewrite in_other.
        -- intros e'. now rewrite in_other.
        -- intros e'. rewrite in_new. rewrite <- I7.
           split; [intros [= ->]; auto|]. intros [?|[= ->]]; [discriminate|easy].
    + intros H. eapply Hbwd in H; [|reflexivity|exact I4]. destruct H as [Ht Hc].
      destruct v as [e|]; [|easy].
      destruct (cs_after_long_help s) eqn:Es; [exfalso; apply Hc, not_none|].
      eexists. apply apply_some. cbn [it_name it_value].
      apply (commit_value_expr s (Some e) (fun v => let '(x, es) := set_once (cs_after_long_help s) v in
                  (mkCmdSrc (cs_name s) (cs_version s) (cs_long_about s) x, es))).
      exists e. rewrite Es. cbn. auto.
Qed.

Lemma cmd_all l :
  (forall s', apply_all cmd_update cmd_default l = Some s' ->
     good_items cmd_table l /\ cmd_inv l s') /\
  (good_items cmd_table l -> exists s', apply_all cmd_update cmd_default l = Some s').
Proof.
  exact (apply_all_good cmd_update cmd_table cmd_inv cmd_step_ok l [] cmd_default
           (good_items_nil _) cmd_inv_nil).
Qed.

Lemma cmd_step_command st (a : attribute) : attr_is a (bs "command") = true ->
  cmd_step st a =
  let '(x, es) := parse_nested_meta cmd_update (cur cmd_default (ct_cmd st)) a in
  mkCmdState (ct_doc st ++ docs [a]) (Some x) (ct_errs st ++ snd (doc_lines a) ++ es).
Proof.
  intros H. unfold cmd_step. rewrite <- doc_lines_docs. destruct (doc_lines a) as [ls des].
  now rewrite H.
Qed.
Lemma cmd_step_arg st (a : attribute) : attr_is a (bs "arg") = true ->
  cmd_step st a =
  mkCmdState (ct_doc st ++ docs [a]) (ct_cmd st)
    (ct_errs st ++ snd (doc_lines a) ++ [AE_arg_not_allowed]).
Proof.
  intros H. unfold cmd_step. rewrite <- doc_lines_docs. destruct (doc_lines a) as [ls des].
  assert (Hc : attr_is a (bs "command") = false).
  { apply bears_not. apply bears_arg_command. now apply bears_iff. }
  now rewrite Hc, H.
Qed.
Lemma cmd_step_other st (a : attribute) : attr_is a (bs "arg") = false ->
  attr_is a (bs "command") = false ->
  cmd_step st a =
  mkCmdState (ct_doc st ++ docs [a]) (ct_cmd st) (ct_errs st ++ snd (doc_lines a)).
Proof.
  intros H H'. unfold cmd_step. rewrite <- doc_lines_docs. destruct (doc_lines a) as [ls des].
  now rewrite H, H'.
Qed.

Record cmd_run (l : list attribute) (st st' : cmd_state) : Prop := {
  cr_doc : docs_literal l;
  cr_docs : ct_doc st' = ct_doc st ++ docs l;
  cr_no_arg : ~ uses (bs "arg") l;
  cr_cmd : exists its, items (bs "command") l its /\
    apply_all cmd_update (cur cmd_default (ct_cmd st)) its = Some (cur cmd_default (ct_cmd st'));
  cr_uses : is_somef (ct_cmd st') = true <-> is_somef (ct_cmd st) = true \/ uses (bs "command") l
}.

Lemma cmd_fold_fwd (l : list attribute) : forall st,
  ct_errs (fold_left cmd_step l st) = [] ->
  ct_errs st = [] /\ cmd_run l st (fold_left cmd_step l st).
Proof.
  induction l as [|a l IH]; intros st H.
  - split; [exact H|]. split; cbn.
    + intros [].
    + now rewrite app_nil_r.
    + apply uses_nil.
    + exists []. split; [constructor|easy].
    + split; [auto|]. intros [?|H0]; [easy|]. now apply uses_nil in H0.
  - cbn [fold_left] in *. destruct (IH _ H) as [He Hr]. clear IH H.
    destruct (attr_is a (bs "arg")) eqn:Ea; [|destruct (attr_is a (bs "command")) eqn:Ec].
    + rewrite cmd_step_arg in * by exact Ea. cbn [ct_errs] in He.
      apply app_eq_nil in He. destruct He as [_ He]. apply app_eq_nil in He. now destruct He.
    + apply bears_iff in Ec as Hb. assert (Hna : ~ bears (bs "arg") a) by now apply bears_not.
      rewrite cmd_step_command in * by exact Ec.
      destruct (parse_nested_meta cmd_update (cur cmd_default (ct_cmd st)) a) as [x es] eqn:Ep.
      cbn [ct_errs] in He. apply app_eq_nil in He. destruct He as [He He'].
      apply app_eq_nil in He'. destruct He' as [Hd ->]. split; [exact He|].
      apply parse_nested_iff in Ep; [|exact cmd_local].
      destruct Ep as (p & ts & its & -> & Hits & Hap).
      cbn in Hb. subst p. destruct Hr as [R1 R2 R0 (its' & R3 & R3') R4].
      cbn [ct_doc ct_cmd cur is_somef] in *. split.
      * apply docs_literal_cons. split; [discriminate|exact R1].
      * rewrite R2. cbn. now rewrite app_nil_r.
      * rewrite uses_cons. tauto.
      * exists (its ++ its'). split; [now apply is_list|]. rewrite apply_all_app, Hap. exact R3'.
      * rewrite R4, uses_cons. cbn. tauto.
    + assert (Hna : ~ bears (bs "arg") a) by now apply bears_not.
      assert (Hnc : ~ bears (bs "command") a) by now apply bears_not.
      rewrite cmd_step_other in * by assumption.
      cbn [ct_errs] in He. apply app_eq_nil in He. destruct He as [He Hd]. split; [exact He|].
      destruct Hr as [R1 R2 R0 (its' & R3 & R3') R4].
      cbn [ct_doc ct_cmd cur is_somef] in *. split.
      * apply docs_literal_cons. split; [now apply doc_lines_ok|exact R1].
      * now rewrite R2, (docs_cons a l), app_assoc.
      * rewrite uses_cons. tauto.
      * exists its'. split; [now apply is_other|exact R3'].
      * rewrite R4, uses_cons. tauto.
Qed.
Lemma cmd_fold_bwd (l : list attribute) : forall st its x,
  ct_errs st = [] -> docs_literal l -> ~ uses (bs "arg") l ->
  items (bs "command") l its -> apply_all cmd_update (cur cmd_default (ct_cmd st)) its = Some x ->
  ct_errs (fold_left cmd_step l st) = [].
Proof.
  induction l as [|a l IH]; intros st its x He Hd Hu Hi Hx; [exact He|].
  cbn [fold_left]. apply docs_literal_cons in Hd. destruct Hd as [Hda Hd].
  apply doc_lines_ok in Hda. rewrite uses_cons in Hu.
  assert (Ea : attr_is a (bs "arg") = false) by (apply bears_not; tauto).
  destruct (attr_is a (bs "command")) eqn:Ec.
  - apply bears_iff in Ec as Hb.
    destruct (items_bears _ _ _ _ Hb Hi) as [ts ->].
    apply items_cons_list in Hi. destruct Hi as (l1 & l2 & H1 & H2 & ->).
    rewrite apply_all_app in Hx.
    destruct (apply_all cmd_update (cur cmd_default (ct_cmd st)) l1) as [y|] eqn:Ey; [|discriminate].
    rewrite cmd_step_command by exact Ec.
    assert (Ep : parse_nested_meta cmd_update (cur cmd_default (ct_cmd st))
                   (AtList (word (bs "command")) ts) = (y, [])).
    { apply parse_nested_iff; [exact cmd_local|]. exists (word (bs "command")), ts, l1. auto. }
    rewrite Ep. eapply (IH _ l2 x); cbn [ct_errs ct_cmd cur]; auto. now rewrite He, Hda.
  - rewrite cmd_step_other by assumption.
    apply items_cons_other in Hi; [|now apply bears_not].
    eapply (IH _ its x); cbn [ct_errs ct_cmd]; auto. now rewrite He, Hda.
Qed.

Variable pd : bytes.

(** What an expression gives as a text. *)
Lemma text_ok (e : aexpr) s : text_expr e = (s, []) <-> ax_text e = Some s.
Proof. unfold text_expr. destruct (ax_text e); split; congruence. Qed.

Lemma map_attr_nil (l : list aerr) : map SE_attr l = [] <-> l = [].
Proof. destruct l; cbn; split; easy. Qed.

Lemma command_attrs_fwd (l : list attribute) ca :
  command_attrs pd l = (ca, []) -> good_command l /\ cmd_says pd l ca.
Proof.
  unfold command_attrs.
  set (st := fold_left cmd_step l (mkCmdState [] None [])). intros H.
  set (about := match cs_long_about (match ct_cmd st with Some x => x | None => cmd_default end) with
    | None => (None, [])
    | Some Inherit => (Some pd, [])
    | Some (Explicit e) => let '(s, es) := text_expr e in (Some s, es)
    end) in H.
  set (after := match cs_after_long_help (match ct_cmd st with Some x => x | None => cmd_default end) with
    | None => (None, [])
    | Some e => let '(s, es) := text_expr e in (Some s, es)
    end) in H.
  destruct about as [ab es1] eqn:Eab. destruct after as [af es2] eqn:Eaf.
  injection H as <- He. apply app_eq_nil in He. destruct He as [He He'].
  apply app_eq_nil in He'. destruct He' as [-> ->]. apply map_attr_nil in He.
  destruct (cmd_fold_fwd l _ He) as [_ [R1 R2 R0 (its & R3 & R3') R4]].
  fold st in R2, R3', R4. cbn [ct_doc ct_cmd cur app is_somef] in *.
  apply (proj1 (cmd_all its)) in R3'. destruct R3' as [Hg [I1 I2 I3 I4 I5 I6 I7]].
  change (cur cmd_default (ct_cmd st)) with
    (match ct_cmd st with Some x => x | None => cmd_default end) in *.
  set (cmd := match ct_cmd st with Some x => x | None => cmd_default end) in *.
  assert (Hab : forall s, ab = Some s <->
       (In (Item (bs "long_about") None) its /\ s = pd) \/
       exists e, In (Item (bs "long_about") (Some e)) its /\ ax_text e = Some s).
  { intros s. rewrite <- I5. unfold about in Eab.
    destruct (cs_long_about cmd) as [[|e]|] eqn:E.
    - injection Eab as <-. split; [intros [= <-]; now left|].
      intros [[_ ->]|(e & He' & _)]; [easy|]. apply I6 in He'. discriminate.
    - destruct (text_expr e) as [t es] eqn:Et. injection Eab as <- ->. apply text_ok in Et. split.
      + intros [= <-]. right. exists e. split; [now apply I6|exact Et].
      + intros [[H _]|(e' & He' & Ht)]; [discriminate|]. apply I6 in He'. injection He' as ->.
        congruence.
    - injection Eab as <-. split; [discriminate|].
      intros [[H _]|(e' & He' & Ht)]; [discriminate|]. apply I6 in He'. discriminate. }
  assert (Haf : forall s, af = Some s <->
       exists e, In (Item (bs "after_long_help") (Some e)) its /\ ax_text e = Some s).
  { intros s. unfold after in Eaf. destruct (cs_after_long_help cmd) as [e|] eqn:E.
    - destruct (text_expr e) as [t es] eqn:Et. injection Eaf as <- ->. apply text_ok in Et. split.
      + intros [= <-]. exists e. split; [now apply I7|exact Et].
      + intros (e' & He' & Ht). apply I7 in He'. injection He' as ->. congruence.
    - injection Eaf as <-. split; [discriminate|].
      intros (e' & He' & Ht). apply I7 in He'. discriminate. }
  split.
  - split; [exact R1|]. split; [exact R0|]. exists its. split; [split; assumption|].
    intros n e Hin [->| ->].
    + apply I6 in Hin. unfold about in Eab. rewrite Hin in Eab.
      destruct (text_expr e) as [t es] eqn:Et. injection Eab as _ ->. apply text_ok in Et. congruence.
    + apply I7 in Hin. unfold after in Eaf. rewrite Hin in Eaf.
      destruct (text_expr e) as [t es] eqn:Et. injection Eaf as _ ->. apply text_ok in Et. congruence.
  - split; cbn [ca_doc ca_has_command ca_long_about ca_after_long_help].
    + exact R2.
    + rewrite R4. split; [intros [?|?]; [discriminate|easy]|auto].
    + exists its. split; [split; assumption|]. auto.
Qed.
Lemma command_attrs_bwd (l : list attribute) :
  good_command l -> snd (command_attrs pd l) = [].
Proof.
  intros (Hd & Ha & its & [Hi Hg] & Ht).
  destruct (proj2 (cmd_all its) Hg) as [x Hx].
  assert (He : ct_errs (fold_left cmd_step l (mkCmdState [] None [])) = []).
  { eapply cmd_fold_bwd; cbn [ct_errs ct_cmd]; eauto. }
  destruct (cmd_fold_fwd l _ He) as [_ [R1 R2 R0 (its' & R3 & R3') R4]].
  assert (its' = its) by (eapply items_once; eassumption). subst its'.
  apply (proj1 (cmd_all its)) in R3'. destruct R3' as [_ [I1 I2 I3 I4 I5 I6 I7]].
  unfold command_attrs. set (st := fold_left cmd_step l (mkCmdState [] None [])) in *.
  change (cur cmd_default (ct_cmd st)) with
    (match ct_cmd st with Some x => x | None => cmd_default end) in *.
  set (cmd := match ct_cmd st with Some x => x | None => cmd_default end) in *.
  assert (H1 : forall e, cs_long_about cmd = Some (Explicit e) -> exists s, text_expr e = (s, [])).
  { intros e E. apply I6 in E. specialize (Ht _ _ E (or_introl eq_refl)).
    destruct (ax_text e) as [s|] eqn:Es; [|easy]. exists s. now apply text_ok. }
  assert (H2 : forall e, cs_after_long_help cmd = Some e -> exists s, text_expr e = (s, [])).
  { intros e E. apply I7 in E. specialize (Ht _ _ E (or_intror eq_refl)).
    destruct (ax_text e) as [s|] eqn:Es; [|easy]. exists s. now apply text_ok. }
  destruct (cs_long_about cmd) as [[|e1]|] eqn:E1; destruct (cs_after_long_help cmd) as [e2|] eqn:E2;
    try (destruct (H1 e1 eq_refl) as [s1 S1]; rewrite S1);
    try (destruct (H2 e2 eq_refl) as [s2 S2]; rewrite S2);
    cbn [snd]; rewrite He; reflexivity.
Qed.
Lemma command_attrs_iff (l : list attribute) :
  snd (command_attrs pd l) = [] <-> good_command l.
Proof.
  split.
  - destruct (command_attrs pd l) as [ca es] eqn:E. cbn. intros ->.
    now apply command_attrs_fwd in E.
  - apply command_attrs_bwd.
Qed.
Lemma command_attrs_says (l : list attribute) :
  snd (command_attrs pd l) = [] -> cmd_says pd l (fst (command_attrs pd l)).
Proof.
  destruct (command_attrs pd l) as [ca es] eqn:E. cbn. intros ->. now apply command_attrs_fwd in E.
Qed.
Lemma cmd_says_once (l : list attribute) ca ca' : cmd_says pd l ca -> cmd_says pd l ca' -> ca = ca'.
Proof.
  intros [D1 C1 (its & [Hi Hg] & A1 & B1)] [D2 C2 (its' & [Hi' Hg'] & A2 & B2)].
  assert (its' = its) by (eapply items_once; eassumption). subst its'.
  assert (E2 : ca_has_command ca = ca_has_command ca') by (eapply bool_ext; eassumption).
  assert (E3 : ca_long_about ca = ca_long_about ca')
    by (apply opt_ext; intros s; now rewrite (A1 s), (A2 s)).
  assert (E4 : ca_after_long_help ca = ca_after_long_help ca')
    by (apply opt_ext; intros s; now rewrite (B1 s), (B2 s)).
  clear - D1 D2 E2 E3 E4. destruct ca, ca'. cbn in *. congruence.
Qed.
End Commands.

(** ** Types *)

Section Types.
Context {V : Type}.

Lemma strip_iff (t : rty V) c t' : strip_ty_ctor t c = Some t' <-> exists u, t = applied c t' u.
Proof.
  split.
  - destruct t as [q ld segs u|u]; cbn; [|discriminate].
    destruct q; [discriminate|]. destruct ld; [discriminate|].
    destruct segs as [|[i [|args|]] [|]]; try discriminate;
      destruct args as [|[a|] [|]]; try discriminate.
    destruct (beqb i c) eqn:E; [|discriminate]. intros [= ->]. apply beqb_eq in E. subst i.
    exists u. reflexivity.
  - intros [u ->]. cbn. now rewrite beqb_refl.
Qed.
Lemma strip_none (t : rty V) c : strip_ty_ctor t c = None <-> ~ written_as c t.
Proof.
  unfold written_as. split.
  - intros H (t' & u & E). assert (strip_ty_ctor t c = Some t') by (apply strip_iff; eauto). congruence.
  - intros H. destruct (strip_ty_ctor t c) as [t'|] eqn:E; [|easy].
    apply strip_iff in E. destruct E as [u E]. destruct H. eauto.
Qed.
Lemma is_bool_iff (t : rty V) : is_bool_path t = true <-> exists u, t = simple (bs "bool") u.
Proof.
  split.
  - destruct t as [q ld segs u|u]; unfold is_bool_path; [|discriminate].
    destruct q; [discriminate|]. destruct ld; [discriminate|].
    destruct segs as [|[i [|args|]] [|]]; try discriminate.
    intros E. apply beqb_eq in E. subst i. exists u. reflexivity.
  - intros [u ->]. reflexivity.
Qed.

Lemma ty_says_of (t : rty V) :
  exists t', ty_says t (shape_of (ty_of t)) t' /\ value_of_ty (ty_of t) = rty_value t'.
Proof.
  unfold ty_of, classify_ty.
  destruct (is_bool_path t) eqn:Eb.
  - apply is_bool_iff in Eb. destruct Eb as [u ->]. exists (simple (bs "bool") u).
    split; [constructor|reflexivity].
  - assert (Hb : forall u, t <> simple (bs "bool") u).
    { intros u E. assert (is_bool_path t = true) by (apply is_bool_iff; eauto). congruence. }
    destruct (strip_ty_ctor t (bs "Option")) as [t1|] eqn:E1.
    + apply strip_iff in E1. destruct E1 as [u ->].
      destruct (strip_ty_ctor t1 (bs "Option")) as [t2|] eqn:E2.
      * apply strip_iff in E2. destruct E2 as [u' ->]. exists t2. split; [constructor|reflexivity].
      * destruct (strip_ty_ctor t1 (bs "Vec")) as [t2|] eqn:E3.
        -- apply strip_iff in E3. destruct E3 as [u' ->]. exists t2. split; [constructor|reflexivity].
        -- apply strip_none in E2, E3. exists t1. split; [now constructor|reflexivity].
    + destruct (strip_ty_ctor t (bs "Vec")) as [t2|] eqn:E3.
      * apply strip_iff in E3. destruct E3 as [u' ->]. exists t2. split; [constructor|reflexivity].
      * apply strip_none in E1, E3. exists t. split; [now constructor|reflexivity].
Qed.
Lemma ty_says_once (t : rty V) sh sh' t1 t2 :
  ty_says t sh t1 -> ty_says t sh' t2 -> sh = sh' /\ t1 = t2.
Proof.
  assert (W : forall n (t' : rty V) u, ~ written_as n (applied n t' u) -> False).
  { intros n t' u H. apply H. unfold written_as. eauto. }
  intros H H'. inversion H; subst; inversion H'; subst; auto;
    try (exfalso; eapply W; eassumption); try congruence;
    try (match goal with K : forall u, simple _ _ <> _ |- _ => now destruct (K _ eq_refl) end).
Qed.
End Types.
