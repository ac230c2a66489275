(** Facts about reading attributes and types: proofs for PropsSource.v. *)
From Verif Require Import Bytes BytesFacts Utf8 Attrs Refl Error Values Places Help Heck Decl Derive
  EnumDerive Spec Parts WellFormed WellFormedFacts Source Written.
From Coq Require Import Permutation.

(** ** Paths and tables *)

Lemma is_ident_iff p s : is_ident p s = true <-> p = word s.
Proof.
  unfold is_ident, word. destruct p as [[] [|x [|y l]]]; cbn; split; intros H;
    try discriminate; try (inversion H; fail).
  - apply beqb_eq in H. now subst.
  - injection H as ->. apply beqb_refl.
Qed.

Lemma key_of_iff {K} (keys : list (bytes * K)) p k :
  NoDup (map fst keys) ->
  (key_of keys p = Some k <-> exists n, p = word n /\ In (n, k) keys).
Proof.
  intros Hnd. unfold key_of. induction keys as [|[n k'] keys IH]; cbn.
  - split; [discriminate|]. intros (n & _ & []).
  - inversion Hnd as [|x l Hn Hnd']; subst. destruct (is_ident p n) eqn:E; cbn.
    + apply is_ident_iff in E. subst p. split.
      * intros [= ->]. exists n. auto.
      * intros (m & Hm & [He|Hin]).
        { now injection He as _ ->. }
        exfalso. apply Hn. injection Hm as <-. apply (in_map fst) in Hin. exact Hin.
    + rewrite IH by exact Hnd'. split.
      * intros (m & Hm & Hin). exists m. auto.
      * intros (m & Hm & [He|Hin]).
        { injection He as -> ->. subst p.
          assert (is_ident (word m) m = true) by now apply is_ident_iff. congruence. }
        exists m. auto.
Qed.

Definition nodupb (l : list bytes) : bool := negb (has_dup l).
Lemma nodup_b (l : list bytes) : nodupb l = true -> NoDup l.
Proof.
  unfold nodupb. induction l as [|x l IH]; cbn; intros H; [constructor|].
  destruct (existsb (beqb x) l) eqn:E; [discriminate|].
  constructor; [|now apply IH]. intros Hin.
  assert (existsb (beqb x) l = true); [|congruence].
  apply existsb_exists. exists x. split; [exact Hin|apply beqb_refl].
Qed.
Lemma arg_keys_nodup : NoDup (map fst arg_keys).
Proof. apply nodup_b. reflexivity. Qed.
Lemma cmd_keys_nodup : NoDup (map fst cmd_keys).
Proof. apply nodup_b. reflexivity. Qed.

Definition row_of (table : list row) (n : bytes) : option row :=
  find (fun r => beqb (r_name r) n) table.
Definition slot_of (table : list row) (n : bytes) : list bytes :=
  match row_of table n with
  | Some r => match r_slot r with Some s => [s] | None => [] end
  | None => []
  end.

Lemma row_of_name table n r : row_of table n = Some r -> In r table /\ r_name r = n.
Proof.
  unfold row_of. intros H. apply find_some in H. destruct H as [Hin He].
  apply beqb_eq in He. auto.
Qed.
Lemma row_of_in table r :
  NoDup (map r_name table) -> In r table -> row_of table (r_name r) = Some r.
Proof.
  induction table as [|x table IH]; cbn; intros Hnd Hin; [easy|].
  inversion Hnd as [|y l Hn Hnd']; subst. destruct Hin as [->|Hin].
  - now rewrite beqb_refl.
  - destruct (beqb (r_name x) (r_name r)) eqn:E.
    + exfalso. apply Hn. apply beqb_eq in E. rewrite E. now apply in_map.
    + now apply IH.
Qed.

Lemma nodup_left {A} (l m : list A) : NoDup (l ++ m) -> NoDup l.
Proof.
  induction l as [|x l IH]; cbn; intros H; [constructor|].
  inversion H as [|y k Hn Hnd]; subst. constructor; [|auto].
  intros Hin. apply Hn, in_app_iff. now left.
Qed.

Section Facts.
Context {V : Type}.
Local Notation aexpr := (aexpr V).
Local Notation tok := (tok V).
Local Notation attribute := (attribute V).
Local Notation item := (@item V).

Lemma bears_iff (a : attribute) n : attr_is a n = true <-> bears n a.
Proof.
  destruct a as [d|p ts|p]; cbn.
  - rewrite beqb_eq. split; congruence.
  - apply is_ident_iff.
  - apply is_ident_iff.
Qed.
Lemma bears_not (a : attribute) n : attr_is a n = false <-> ~ bears n a.
Proof. rewrite <- bears_iff. destruct (attr_is a n); split; congruence. Qed.

Lemma slots_app table (l l' : list item) : slots table (l ++ l') = slots table l ++ slots table l'.
Proof. apply flat_map_app. Qed.

Lemma slots_one table (i : item) :
  NoDup (map r_name table) -> slots table [i] = slot_of table (it_name i).
Proof.
  intros Hnd. unfold slots, slot_of, row_of. cbn. rewrite app_nil_r.
  induction table as [|r table IH]; cbn; [easy|].
  inversion Hnd as [|x l Hn Hnd']; subst. specialize (IH Hnd').
  destruct (beqb (r_name r) (it_name i)) eqn:E.
  - apply beqb_eq in E. rewrite IH. clear IH.
    destruct (find (fun r0 => beqb (r_name r0) (it_name i)) table) as [r'|] eqn:F.
    + exfalso. apply find_some in F. destruct F as [Fin Fe]. apply beqb_eq in Fe.
      apply Hn. rewrite E, <- Fe. now apply in_map.
    + now rewrite app_nil_r.
  - exact IH.
Qed.

(** Adding one item. *)
Lemma good_items_snoc table (l : list item) i :
  NoDup (map r_name table) ->
  (good_items table (l ++ [i]) <->
   good_items table l /\
   exists r, row_of table (it_name i) = Some r /\ takes (r_kind r) (it_value i) /\
     (forall s, r_slot r = Some s -> ~ In s (slots table l))).
Proof.
  intros Hnd. unfold good_items. rewrite Forall_app, slots_app, slots_one by exact Hnd. split.
  - intros [[HF H1] Hs]. inversion H1 as [|x y (r & Hin & Hn & Ht)]; subst.
    assert (Hr : row_of table (it_name i) = Some r) by (rewrite <- Hn; now apply row_of_in).
    unfold slot_of in Hs. rewrite Hr in Hs. split.
    + split; [exact HF|]. apply nodup_left in Hs. exact Hs.
    + exists r. split; [exact Hr|]. split; [exact Ht|]. intros s Es. rewrite Es in Hs.
      apply NoDup_remove_2 in Hs. now rewrite app_nil_r in Hs.
  - intros [[HF Hs] (r & Hr & Ht & Hslot)]. split.
    + split; [exact HF|]. constructor; [|constructor]. exists r.
      apply row_of_name in Hr. destruct Hr. auto.
    + unfold slot_of. rewrite Hr. destruct (r_slot r) as [s|]; [|now rewrite app_nil_r].
      apply NoDup_Add with (a := s) (l := slots table l).
      * rewrite <- (app_nil_r (slots table l)) at 1. apply Add_app.
      * split; auto.
Qed.

(** ** Nested attributes *)

Definition not_eq_first (ts : list tok) : Prop := forall r, ts <> TEq :: r.
Definition separated (r : list tok) : Prop := r = [] \/ exists r', r = TComma :: r'.

Lemma separated_not_eq r : separated r -> not_eq_first r.
Proof. intros [->|[r' ->]] x; discriminate. Qed.

Definition value_toks (v : option aexpr) : list tok :=
  match v with Some e => [TEq; TExpr e] | None => [] end.
Definition apply {S} (upd : update S) (s : S) (i : item) : option S :=
  match upd s (word (it_name i)) (value_toks (it_value i)) with
  | (s', [], Some []) => Some s'
  | _ => None
  end.

(** An update looks at an equals sign and an expression at most. *)
Record local {S} (upd : update S) : Prop := {
  lo_fwd : forall s n v r s' es, separated r ->
    upd s (word n) (value_toks v) = (s', es, Some []) ->
    upd s (word n) (value_toks v ++ r) = (s', es, Some r);
  lo_bwd : forall s p ts s' r, upd s p ts = (s', [], Some r) -> separated r ->
    exists n v, p = word n /\ ts = value_toks v ++ r /\
      upd s (word n) (value_toks v) = (s', [], Some [])
}.

Fixpoint apply_all {S} (upd : update S) (s : S) (l : list item) : option S :=
  match l with
  | [] => Some s
  | i :: l' => match apply upd s i with Some s' => apply_all upd s' l' | None => None end
  end.

Lemma apply_all_app {S} (upd : update S) l l' : forall s,
  apply_all upd s (l ++ l') =
  match apply_all upd s l with Some s' => apply_all upd s' l' | None => None end.
Proof.
  induction l as [|i l IH]; intros s; cbn; [easy|].
  destruct (apply upd s i); [apply IH|easy].
Qed.

Lemma item_toks_eq (i : item) : item_toks i = TPath (word (it_name i)) :: value_toks (it_value i).
Proof. reflexivity. Qed.

Lemma apply_some {S} (upd : update S) s i s' :
  apply upd s i = Some s' <->
  upd s (word (it_name i)) (value_toks (it_value i)) = (s', [], Some []).
Proof.
  unfold apply. destruct (upd s (word (it_name i)) (value_toks (it_value i))) as [[s1 es] o].
  destruct es; destruct o as [[|]|]; split; congruence.
Qed.

Lemma item_list_nil l : item_list (V := V) [] l -> l = [].
Proof.
  intros H. now inversion H.
Qed.

Lemma nested_fwd {S} (upd : update S) : local upd ->
  forall ts l, item_list ts l -> ts <> [] -> forall fuel s s', length ts <= fuel ->
  apply_all upd s l = Some s' -> nested_loop upd fuel s ts = (s', []).
Proof.
  intros Hlo ts l H. induction H as [|i|i ts l H IH]; intros Hne fuel s s' Hf Ha.
  - congruence.
  - rewrite item_toks_eq in *. cbn in Ha, Hf.
    destruct fuel as [|fuel]; [lia|].
    destruct (apply upd s i) as [s1|] eqn:E; [|discriminate]. injection Ha as <-.
    apply apply_some in E. cbn [nested_loop]. now rewrite E.
  - rewrite item_toks_eq in *. cbn in Ha, Hf. rewrite app_length in Hf. cbn in Hf.
    destruct fuel as [|fuel]; [lia|].
    destruct (apply upd s i) as [s1|] eqn:E; [|discriminate].
    apply apply_some in E. cbn [nested_loop app].
    rewrite (lo_fwd _ Hlo _ _ _ (TComma :: ts) _ _ (or_intror (ex_intro _ _ eq_refl)) E).
    destruct ts as [|t ts].
    + apply item_list_nil in H. subst l. now injection Ha as ->.
    + rewrite (IH ltac:(discriminate) fuel s1 s'); [easy|lia|exact Ha].
Qed.

Lemma nested_bwd {S} (upd : update S) : local upd ->
  forall fuel s ts s', nested_loop upd fuel s ts = (s', []) ->
  exists l, item_list ts l /\ apply_all upd s l = Some s'.
Proof.
  intros Hlo. induction fuel as [|fuel IH]; intros s ts s' H; [discriminate|].
  cbn [nested_loop] in H. destruct ts as [|t ts]; [discriminate|].
  destruct t as [p| | | |]; try discriminate.
  destruct (upd s p ts) as [[s1 es] o] eqn:E.
  destruct o as [r|]; [|injection H as _ H; destruct es; discriminate].
  assert (Hcases : separated r /\ es = [] /\
    (forall r', r = TComma :: r' -> exists l, item_list r' l /\ apply_all upd s1 l = Some s') /\
    (r = [] -> s1 = s')).
  { destruct r as [|x r].
    - injection H as -> ->. split; [now left|]. split; [easy|]. split; [discriminate|easy].
    - destruct x; try (injection H as _ H; destruct es; discriminate).
      destruct r as [|y r].
      + injection H as -> ->. split; [right; eauto|]. split; [easy|]. split; [|discriminate].
        intros r' [= <-]. exists []. split; [constructor|easy].
      + destruct (nested_loop upd fuel s1 (y :: r)) as [s2 es2] eqn:E2.
        injection H as -> He. apply app_eq_nil in He. destruct He as [-> ->].
        split; [right; eauto|]. split; [easy|]. split; [|discriminate].
        intros r' [= <-]. eapply IH. exact E2. }
  destruct Hcases as (Hsep & -> & Hc & Hn).
  destruct (lo_bwd _ Hlo _ _ _ _ _ E Hsep) as (n & v & -> & -> & Hv).
  destruct Hsep as [->|[r' ->]].
  - rewrite app_nil_r. exists [Item n v]. split; [apply (il_one (Item n v))|].
    cbn. unfold apply. cbn. rewrite Hv. now rewrite Hn.
  - destruct (Hc r' eq_refl) as (l & Hl & Hal). exists (Item n v :: l). split.
    + apply (il_cons (Item n v)). exact Hl.
    + cbn. unfold apply. cbn. now rewrite Hv.
Qed.

(** An attribute that is a list of items. *)
Lemma parse_nested_iff {S} (upd : update S) (s s' : S) (a : attribute) : local upd ->
  (parse_nested_meta upd s a = (s', []) <->
   exists p ts l, a = AtList p ts /\ item_list ts l /\ apply_all upd s l = Some s').
Proof.
  intros Hlo. split.
  - destruct a as [d|p ts|p]; cbn; try discriminate. destruct ts as [|t ts].
    + intros [= ->]. exists p, [], []. repeat split. constructor.
    + intros H. destruct (nested_bwd upd Hlo _ _ _ _ H) as (l & Hl & Ha).
      exists p, (t :: ts), l. auto.
  - intros (p & ts & l & -> & Hl & Ha). cbn. destruct ts as [|t ts].
    + apply item_list_nil in Hl. subst l. now injection Ha as ->.
    + eapply nested_fwd; eauto. discriminate.
Qed.

(** Parsers of values. *)
Definition local_parser {A} (P : list tok -> parsed_as A) : Prop :=
  forall ts v r, P ts = Some (v, r) ->
    (ts = r /\ not_eq_first r /\ forall r', not_eq_first r' -> P r' = Some (v, r')) \/
    (exists e, ts = TEq :: TExpr e :: r /\ forall r', P (TEq :: TExpr e :: r') = Some (v, r')).

Lemma local_override_form {A} (f : form -> option A) :
  local_parser (parse_override (parse_form f)).
Proof.
  intros ts v r H. destruct ts as [|t ts]; cbn in H.
  - injection H as <- <-. left. repeat split; [discriminate|].
    intros [|[] r'] Hr; try easy. now destruct (Hr r').
  - destruct t; try (injection H as <- <-; left; repeat split; [discriminate|];
      intros [|[] r'] Hr; try easy; now destruct (Hr r')).
    destruct ts as [|[] ts]; cbn in H; try discriminate.
    destruct (f (ax_form e)) as [x|] eqn:E; [|discriminate]. injection H as <- <-.
    right. exists e. split; [easy|]. intros r'. cbn. now rewrite E.
Qed.
Lemma local_override_expr : local_parser (parse_override parse_expr).
Proof.
  intros ts v r H. destruct ts as [|t ts]; cbn in H.
  - injection H as <- <-. left. repeat split; [discriminate|].
    intros [|[] r'] Hr; try easy. now destruct (Hr r').
  - destruct t; try (injection H as <- <-; left; repeat split; [discriminate|];
      intros [|[] r'] Hr; try easy; now destruct (Hr r')).
    destruct ts as [|[] ts]; cbn in H; try discriminate.
    injection H as <- <-. right. exists e. split; [easy|]. reflexivity.
Qed.
Lemma local_value_form {A} (f : form -> option A) : local_parser (value_of (parse_form f)).
Proof.
  intros ts v r H. unfold value_of in H. destruct ts as [|[] ts]; cbn in H; try discriminate.
  destruct ts as [|[] ts]; cbn in H; try discriminate.
  destruct (f (ax_form e)) as [x|] eqn:E; [|discriminate]. injection H as <- <-.
  right. exists e. split; [easy|]. intros r'. cbn. now rewrite E.
Qed.
Lemma local_value_expr : local_parser (value_of parse_expr).
Proof.
  intros ts v r H. unfold value_of in H. destruct ts as [|[] ts]; cbn in H; try discriminate.
  destruct ts as [|[] ts]; cbn in H; try discriminate.
  injection H as <- <-. right. exists e. split; [easy|]. reflexivity.
Qed.

(** An update that commits the value of a local parser. *)
Lemma commit_fwd {S A} (P : list tok -> parsed_as A) (s : S) (f : A -> S * list aerr) v r s' es :
  local_parser P -> separated r -> commit s (P (value_toks v)) f = (s', es, Some []) ->
  commit s (P (value_toks v ++ r)) f = (s', es, Some r).
Proof.
  intros HP Hr H. unfold commit in H. destruct (P (value_toks v)) as [[x r0]|] eqn:E; [|discriminate].
  destruct (f x) as [s1 es1] eqn:Ef. injection H as <- <- ->.
  destruct (HP _ _ _ E) as [(H1 & H2 & H3)|(e & H1 & H3)].
  - destruct v; [discriminate|]. cbn. rewrite H3 by now apply separated_not_eq.
    cbn. now rewrite Ef.
  - destruct v as [e'|]; [|discriminate]. injection H1 as ->. cbn [value_toks app]. rewrite H3.
    cbn. now rewrite Ef.
Qed.
Lemma commit_bwd {S A} (P : list tok -> parsed_as A) (s : S) (f : A -> S * list aerr) ts r s' es :
  local_parser P -> commit s (P ts) f = (s', es, Some r) ->
  exists v, ts = value_toks v ++ r /\ commit s (P (value_toks v)) f = (s', es, Some []).
Proof.
  intros HP H. unfold commit in H. destruct (P ts) as [[x r0]|] eqn:E; [|discriminate].
  destruct (f x) as [s1 es1] eqn:Ef. injection H as <- <- ->.
  destruct (HP _ _ _ E) as [(H1 & H2 & H3)|(e & H1 & H3)].
  - subst ts. exists None. split; [easy|]. cbn. rewrite H3 by discriminate. cbn. now rewrite Ef.
  - subst ts. exists (Some e). split; [easy|]. cbn [value_toks]. rewrite H3. cbn. now rewrite Ef.
Qed.

Ltac local_parser := first
  [ apply local_override_form | apply local_override_expr
  | apply local_value_form | apply local_value_expr ].

Lemma key_word {K} (keys : list (bytes * K)) p k :
  key_of keys p = Some k -> exists n, p = word n.
Proof.
  unfold key_of. destruct (find (fun k0 => is_ident p (fst k0)) keys) as [x|] eqn:E; [|discriminate].
  intros _. apply find_some in E. destruct E as [_ E]. apply is_ident_iff in E. eauto.
Qed.

Lemma arg_local : local (@arg_update V).
Proof.
  split.
  - intros s n v r s' es Hr H. unfold arg_update in *.
    destruct (key_of arg_keys (word n)) as [[]|] eqn:K;
      try (eapply commit_fwd; [local_parser|exact Hr|exact H]).
    + injection H as <- <- H. destruct v; [discriminate|]. reflexivity.
    + injection H as <- <- H. destruct v; [discriminate|]. reflexivity.
  - intros s p ts s' r H Hr. unfold arg_update in H.
    destruct (key_of arg_keys p) as [k|] eqn:K; [|discriminate].
    destruct (key_word _ _ _ K) as [n ->]. exists n. unfold arg_update. rewrite K.
    destruct k;
      try (apply commit_bwd in H; [|local_parser]; destruct H as (v & -> & H); exists v; auto).
    injection H as <- He <-. exists None. rewrite He. auto.
Qed.

Lemma cmd_local : local (@cmd_update V).
Proof.
  split.
  - intros s n v r s' es Hr H. unfold cmd_update in *.
    destruct (key_of cmd_keys (word n)) as [[]|] eqn:K;
      try (eapply commit_fwd; [local_parser|exact Hr|exact H]).
    injection H as <- <- H. destruct v; [discriminate|]. reflexivity.
  - intros s p ts s' r H Hr. unfold cmd_update in H.
    destruct (key_of cmd_keys p) as [k|] eqn:K; [|discriminate].
    destruct (key_word _ _ _ K) as [n ->]. exists n. unfold cmd_update. rewrite K.
    destruct k; apply commit_bwd in H; try local_parser; destruct H as (v & -> & H); exists v; auto.
Qed.

Lemma value_enum_local : local (@value_enum_update V).
Proof.
  split.
  - intros s n v r s' es Hr H. unfold value_enum_update in *.
    destruct (key_of [(bs "rename_all", tt)] (word n)) as [[]|] eqn:K;
      [eapply commit_fwd; [local_parser|exact Hr|exact H]|].
    injection H as <- <- H. destruct v; [discriminate|]. reflexivity.
  - intros s p ts s' r H Hr. unfold value_enum_update in H.
    destruct (key_of [(bs "rename_all", tt)] p) as [[]|] eqn:K; [|discriminate].
    destruct (key_word _ _ _ K) as [n ->]. exists n. unfold value_enum_update. rewrite K.
    apply commit_bwd in H; try local_parser; destruct H as (v & -> & H); exists v; auto.
Qed.
Lemma value_variant_local : local (@value_variant_update V).
Proof.
  split.
  - intros s n v r s' es Hr H. unfold value_variant_update in *.
    destruct (key_of [(bs "name", tt)] (word n)) as [[]|] eqn:K;
      [eapply commit_fwd; [local_parser|exact Hr|exact H]|].
    injection H as <- <- H. destruct v; [discriminate|]. reflexivity.
  - intros s p ts s' r H Hr. unfold value_variant_update in H.
    destruct (key_of [(bs "name", tt)] p) as [[]|] eqn:K; [|discriminate].
    destruct (key_word _ _ _ K) as [n ->]. exists n. unfold value_variant_update. rewrite K.
    apply commit_bwd in H; try local_parser; destruct H as (v & -> & H); exists v; auto.
Qed.

(** ** From items to states *)

(** If every item keeps an invariant exactly when it is a good one, then so do
    the lists. *)
Lemma apply_all_good {S} (upd : update S) (table : list row) (Inv : list item -> S -> Prop) :
  (forall l s i, good_items table l -> Inv l s ->
     (forall s', apply upd s i = Some s' -> good_items table (l ++ [i]) /\ Inv (l ++ [i]) s') /\
     (good_items table (l ++ [i]) -> exists s', apply upd s i = Some s')) ->
  forall l2 l1 s, good_items table l1 -> Inv l1 s ->
  (forall s', apply_all upd s l2 = Some s' -> good_items table (l1 ++ l2) /\ Inv (l1 ++ l2) s') /\
  (good_items table (l1 ++ l2) -> exists s', apply_all upd s l2 = Some s').
Proof.
  intros Hstep. induction l2 as [|i l2 IH]; intros l1 s Hg Hi.
  - rewrite app_nil_r. cbn. split; [now intros s' [= <-]|eauto].
  - destruct (Hstep l1 s i Hg Hi) as [H1 H2]. cbn. split.
    + intros s' H. destruct (apply upd s i) as [s1|] eqn:E; [|discriminate].
      destruct (H1 s1 eq_refl) as [Hg1 Hi1]. change (i :: l2) with ([i] ++ l2); rewrite app_assoc.
      now apply (IH (l1 ++ [i]) s1 Hg1 Hi1).
    + intros Hg2. change (i :: l2) with ([i] ++ l2) in Hg2; rewrite app_assoc in Hg2.
      assert (Hg1 : good_items table (l1 ++ [i])).
      { destruct Hg2 as [HF Hs]. split.
        - now apply Forall_app in HF.
        - rewrite slots_app in Hs. now apply nodup_left in Hs. }
      destruct (H2 Hg1) as [s1 E]. rewrite E. destruct (H1 s1 E) as [_ Hi1].
      now apply (IH (l1 ++ [i]) s1 Hg1 Hi1).
Qed.
End Facts.
