(** Facts about the [arg(..)] attributes: every item keeps what the items say. *)
From Verif Require Import Bytes BytesFacts Utf8 Attrs Refl Error Values Places Help Heck Decl Derive
  EnumDerive Spec Parts WellFormed WellFormedFacts Source Written SourceFacts.
From Coq Require Import Permutation.

Section Arg.
Context {V : Type}.
Local Notation aexpr := (aexpr V).
Local Notation tok := (tok V).
Local Notation attribute := (attribute V).
Local Notation item := (@item V).

(** ** Committing *)

Lemma commit_value {S A} (s : S) (g : form -> option A) (v : option aexpr) f s' :
  commit s (value_of (parse_form g) (value_toks v)) f = (s', [], Some []) <->
  exists e x, v = Some e /\ g (ax_form e) = Some x /\ f x = (s', []).
Proof.
  destruct v as [e|]; cbn.
  - destruct (g (ax_form e)) as [x|] eqn:E; cbn.
    + destruct (f x) as [s1 es] eqn:F. split.
      * intros [= -> ->]. eauto.
      * intros (e' & x' & [= <-] & Hx & Hf). rewrite E in Hx. injection Hx as <-. congruence.
    + split; [discriminate|]. intros (e' & x' & [= <-] & Hx & Hf). congruence.
  - split; [discriminate|]. now intros (e & x & H & _).
Qed.
Lemma commit_override {S A} (s : S) (g : form -> option A) (v : option aexpr) f s' :
  commit s (parse_override (parse_form g) (value_toks v)) f = (s', [], Some []) <->
  (v = None /\ f Inherit = (s', [])) \/
  exists e x, v = Some e /\ g (ax_form e) = Some x /\ f (Explicit x) = (s', []).
Proof.
  destruct v as [e|]; cbn.
  - destruct (g (ax_form e)) as [x|] eqn:E; cbn.
    + destruct (f (Explicit x)) as [s1 es] eqn:F. split.
      * intros [= -> ->]. right. eauto.
      * intros [[H _]|(e' & x' & [= <-] & Hx & Hf)]; [discriminate|].
        rewrite E in Hx. injection Hx as <-. congruence.
    + split; [discriminate|]. intros [[H _]|(e' & x' & [= <-] & Hx & Hf)]; congruence.
  - destruct (f Inherit) as [s1 es] eqn:F. split.
    + intros [= -> ->]. auto.
    + intros [[_ H]|(e & x & H & _)]; congruence.
Qed.
Lemma commit_override_expr {S} (s : S) (v : option aexpr) f s' :
  commit s (parse_override parse_expr (value_toks v)) f = (s', [], Some []) <->
  f match v with None => Inherit | Some e => Explicit e end = (s', []).
Proof.
  destruct v as [e|]; cbn.
  - destruct (f (Explicit e)) as [s1 es]. split; intros [= -> ->]; easy.
  - destruct (f Inherit) as [s1 es]. split; intros [= -> ->]; easy.
Qed.
Lemma commit_value_expr {S} (s : S) (v : option aexpr) f s' :
  commit s (value_of parse_expr (value_toks v)) f = (s', [], Some []) <->
  exists e, v = Some e /\ f e = (s', []).
Proof.
  destruct v as [e|]; cbn.
  - destruct (f e) as [s1 es] eqn:F. split.
    + intros [= -> ->]. eauto.
    + intros (e' & [= <-] & H). congruence.
  - split; [discriminate|]. now intros (e & H & _).
Qed.
Lemma set_once_ok {A} (cur : option A) v x :
  set_once cur v = (x, []) <-> cur = None /\ x = Some v.
Proof.
  destruct cur; cbn; split; try discriminate; try (intros [? ?]; congruence).
  intros [= <-]. auto.
Qed.
Lemma set_true_ok cur b x : set_true cur b = (x, []) <-> b = true /\ cur = false /\ x = true.
Proof.
  unfold set_true. destruct b, cur; cbn; split; try discriminate; try (intros (? & ? & ?); congruence).
  intros [= <-]. auto.
Qed.

(** ** One more item *)

Lemma in_other n v (l : list item) i :
  beqb (it_name i) n = false -> (In (Item n v) (l ++ [i]) <-> In (Item n v) l).
Proof.
  intros H. rewrite in_app_iff. cbn. split; [|auto].
  intros [?|[->|[]]]; [easy|]. cbn in H. rewrite beqb_refl in H. discriminate.
Qed.
Lemma in_new n v w (l : list item) :
  In (Item n v) (l ++ [Item n w]) <-> In (Item n v) l \/ v = w.
Proof.
  rewrite in_app_iff. cbn. split.
  - intros [?|[[= ->]|[]]]; auto.
  - intros [?| ->]; auto.
Qed.

Lemma says_str_other l i n o :
  beqb (it_name i) n = false -> says_str (V := V) l n o -> says_str (l ++ [i]) n o.
Proof.
  intros Hi H s. rewrite (H s). split; intros (e & He & Hf); exists e; split; auto;
    now apply (in_other n (Some e) l i Hi).
Qed.
Lemma says_char_other l i n o :
  beqb (it_name i) n = false -> says_char (V := V) l n o -> says_char (l ++ [i]) n o.
Proof.
  intros Hi H s. rewrite (H s). split; intros (e & He & Hf); exists e; split; auto;
    now apply (in_other n (Some e) l i Hi).
Qed.
Lemma says_true_other l i n o :
  beqb (it_name i) n = false -> says_true (V := V) l n o -> says_true (l ++ [i]) n o.
Proof.
  unfold says_true. intros Hi [H1 H2]. split.
  - intros Ho. destruct (H1 Ho) as [v Hv]. exists v. now apply (in_other n v l i Hi).
  - intros [v Hv]. apply H2. exists v. now apply (in_other n v l i Hi).
Qed.
Lemma gather_app {A} ns (f : form -> list A) (l l' : list item) :
  gather ns f (l ++ l') = gather ns f l ++ gather ns f l'.
Proof. apply flat_map_app. Qed.
Lemma gather_other {A} ns (f : form -> list A) (l : list item) i x :
  existsb (beqb (it_name i)) ns = false -> x = gather ns f l -> x = gather ns f (l ++ [i]).
Proof. intros Hi ->. rewrite gather_app. cbn. rewrite Hi. now rewrite !app_nil_r. Qed.
Lemma in_other_iff (P : Prop) n v (l : list item) i :
  beqb (it_name i) n = false -> (P <-> In (Item n v) l) -> (P <-> In (Item n v) (l ++ [i])).
Proof. intros Hi H. rewrite H. symmetry. now apply in_other. Qed.
Lemma in_other_or (P : Prop) n n' v v' (l : list item) i :
  beqb (it_name i) n = false -> beqb (it_name i) n' = false ->
  (P <-> In (Item n v) l \/ In (Item n' v') l) ->
  (P <-> In (Item n v) (l ++ [i]) \/ In (Item n' v') (l ++ [i])).
Proof. intros Hi Hi' H. rewrite H, !in_other by assumption. reflexivity. Qed.
Lemma says_default_other (m : arg_meta V) n n' (l : list item) i :
  beqb (it_name i) n = false -> beqb (it_name i) n' = false ->
  (forall x, am_default_value_t m = Some (Explicit x) <->
    exists e, (In (Item n (Some e)) l \/ In (Item n' (Some e)) l) /\ ax_default e = x) ->
  (forall x, am_default_value_t m = Some (Explicit x) <->
    exists e, (In (Item n (Some e)) (l ++ [i]) \/ In (Item n' (Some e)) (l ++ [i])) /\
              ax_default e = x).
Proof.
  intros Hi Hi' H x. rewrite H. split; intros (e & He & Hx); exists e; split; auto;
    destruct He; [left|right|left|right]; eapply in_other; eassumption.
Qed.
Lemma says_delimiter_other (o : option N) n n' (l : list item) i :
  beqb (it_name i) n = false -> beqb (it_name i) n' = false ->
  (forall c, o = Some c <->
    (exists e, In (Item n (Some e)) l /\ ax_form e = FoChar c) \/
    (exists v, In (Item n' v) l /\ c = b2n ",")) ->
  (forall c, o = Some c <->
    (exists e, In (Item n (Some e)) (l ++ [i]) /\ ax_form e = FoChar c) \/
    (exists v, In (Item n' v) (l ++ [i]) /\ c = b2n ",")).
Proof.
  intros Hi Hi' H x. rewrite H. split; (intros [(e & He & Hx)|(e & He & Hx)]; [left|right]; exists e;
    split; auto; eapply in_other; eassumption).
Qed.

(** The item that speaks. *)
Lemma says_str_new l n e x :
  says_str (V := V) l n None -> ax_form e = FoStr x -> says_str (l ++ [Item n (Some e)]) n (Some x).
Proof.
  intros H He s. split.
  - intros [= <-]. exists e. split; [|exact He]. apply in_new. now right.
  - intros (e' & Hin & Hf). apply in_new in Hin. destruct Hin as [Hin|[= ->]]; [|congruence].
    exfalso. assert (@None bytes = Some s) by (apply H; eauto). discriminate.
Qed.
Lemma says_char_new l n e x :
  says_char (V := V) l n None -> ax_form e = FoChar x ->
  says_char (l ++ [Item n (Some e)]) n (Some x).
Proof.
  intros H He s. split.
  - intros [= <-]. exists e. split; [|exact He]. apply in_new. now right.
  - intros (e' & Hin & Hf). apply in_new in Hin. destruct Hin as [Hin|[= ->]]; [|congruence].
    exfalso. assert (@None N = Some s) by (apply H; eauto). discriminate.
Qed.
Lemma says_str_bare l n o : says_str (V := V) l n o -> says_str (l ++ [Item n None]) n o.
Proof.
  intros H s. rewrite (H s). split; intros (e & He & Hf); exists e; split; auto.
  - apply in_new. now left.
  - apply in_new in He. now destruct He.
Qed.
Lemma says_char_bare l n o : says_char (V := V) l n o -> says_char (l ++ [Item n None]) n o.
Proof.
  intros H s. rewrite (H s). split; intros (e & He & Hf); exists e; split; auto.
  - apply in_new. now left.
  - apply in_new in He. now destruct He.
Qed.
Lemma says_true_new (l : list item) n v : says_true (l ++ [Item n v]) n true.
Proof. split; [|easy]. intros _. exists v. apply in_new. now right. Qed.
Lemma says_bare_new {A} (l : list item) n :
  Some (@Inherit A) = Some Inherit <-> In (Item n None) (l ++ [Item n None]).
Proof. split; [|easy]. intros _. apply in_new. now right. Qed.
Lemma says_bare_explicit {A} (x : A) (l : list item) n e :
  (@None (override A) = Some Inherit <-> In (Item n None) l) ->
  (Some (Explicit x) = Some Inherit <-> In (Item n None) (l ++ [Item n (Some e)])).
Proof.
  intros H. split; [discriminate|]. intros Hin. apply in_new in Hin.
  destruct Hin as [Hin|Hin]; [|discriminate]. apply H in Hin. discriminate.
Qed.

(** ** Values of lists *)

Lemma as_str_iff f x : as_str f = Some x <-> f = FoStr x.
Proof. destruct f; cbn; split; congruence. Qed.
Lemma as_char_iff f x : as_char f = Some x <-> f = FoChar x.
Proof. destruct f; cbn; split; congruence. Qed.
Lemma as_bool_iff f x : as_bool f = Some x <-> f = FoBool x.
Proof. destruct f; cbn; split; congruence. Qed.
Lemma as_field_iff f x :
  as_field f = Some x <-> f = FoStr x /\ identifier x /\ ~ In x keywords.
Proof.
  unfold as_field.
  destruct f as [s|c|b|l|]; try (split; [discriminate|intros [H _]; discriminate]).
  rewrite <- existsb_beqb_nIn, <- ident_ok_iff.
  destruct (ident_ok s) eqn:E; [|split; [discriminate|intros ([= ->] & H & _); congruence]].
  destruct (existsb (beqb s) keywords) eqn:K; cbv [andb negb].
  - split; [discriminate|intros ([= ->] & _ & H); congruence].
  - split; [intros [= ->]; auto|intros ([= ->] & _); easy].
Qed.

Lemma all_some_iff {A B} (f : A -> option B) (g : A -> list B) l ys :
  (forall x y, f x = Some y -> g x = [y]) ->
  all_some f l = Some ys <-> Forall (fun x => f x <> None) l /\ ys = flat_map g l.
Proof.
  intros Hg. revert ys. induction l as [|x l IH]; intros ys; cbn.
  - split; [intros [= <-]; auto|intros [_ ->]; easy].
  - destruct (f x) as [y|] eqn:E.
    + destruct (all_some f l) as [zs|] eqn:Ea.
      * destruct (proj1 (IH zs) eq_refl) as [HF ->]. split.
        -- intros [= <-]. split; [constructor; [congruence|easy]|]. now rewrite (Hg x y E).
        -- intros [_ ->]. now rewrite (Hg x y E).
      * split; [discriminate|]. intros [HF ->]. inversion HF; subst.
        assert (@None (list B) = Some (flat_map g l)) by now apply IH. discriminate.
    + split; [discriminate|]. intros [HF _]. inversion HF; subst. congruence.
Qed.

Definition one_str (g : form) : list bytes := match g with FoStr s => [s] | _ => [] end.
Definition one_char (g : form) : list N := match g with FoChar c => [c] | _ => [] end.

Lemma str_list_of f ys : one_or_array as_str f = Some ys <-> one_or_more is_str f /\ ys = strs f.
Proof.
  unfold one_or_more, is_str. destruct f as [s|c|b|l|]; cbn;
    try (split; [discriminate|intros [[[x H]|(l & H & _)] _]; discriminate]).
  - split; [intros [= <-]; split; [left; eauto|easy]|intros [_ ->]; easy].
  - rewrite (all_some_iff as_str one_str).
    + split.
      * intros [HF ->]. split; [|easy]. right. exists l. split; [easy|].
        eapply Forall_impl; [|exact HF]. intros g Hg. destruct g; cbn in Hg; try congruence. eauto.
      * intros [[[x H]|(l' & [= <-] & HF)] ->]; [discriminate|]. split; [|easy].
        eapply Forall_impl; [|exact HF]. now intros g [x ->].
    + intros x y H. apply as_str_iff in H. now subst.
Qed.
Lemma char_list_of f ys : one_or_array as_char f = Some ys <-> one_or_more is_char f /\ ys = chars f.
Proof.
  unfold one_or_more, is_char. destruct f as [s|c|b|l|]; cbn;
    try (split; [discriminate|intros [[[x H]|(l & H & _)] _]; discriminate]).
  - split; [intros [= <-]; split; [left; eauto|easy]|intros [_ ->]; easy].
  - rewrite (all_some_iff as_char one_char).
    + split.
      * intros [HF ->]. split; [|easy]. right. exists l. split; [easy|].
        eapply Forall_impl; [|exact HF]. intros g Hg. destruct g; cbn in Hg; try congruence. eauto.
      * intros [[[x H]|(l' & [= <-] & HF)] ->]; [discriminate|]. split; [|easy].
        eapply Forall_impl; [|exact HF]. now intros g [x ->].
    + intros x y H. apply as_char_iff in H. now subst.
Qed.
Lemma field_list_of f ys : one_or_array as_field f = Some ys <-> one_or_more is_field f /\ ys = strs f.
Proof.
  unfold one_or_more, is_field. destruct f as [s|c|b|l|];
    try (cbn; split; [discriminate|intros [[[x [H _]]|(l & H & _)] _]; discriminate]).
  - unfold one_or_array. destruct (as_field (FoStr s)) as [y|] eqn:E.
    + apply as_field_iff in E. destruct E as ([= <-] & E1 & E2).
      split; [intros [= <-]; split; [left; eauto|easy]|intros [_ ->]; easy].
    + split; [discriminate|]. intros [[(x & [= <-] & H)|(l & H & _)] _]; [|discriminate].
      assert (as_field (FoStr s) = Some s) by now apply as_field_iff. congruence.
  - cbn [one_or_array]. rewrite (all_some_iff as_field one_str).
    + split.
      * intros [HF ->]. split; [|easy]. right. exists l. split; [easy|].
        eapply Forall_impl; [|exact HF]. intros g Hg.
        destruct (as_field g) as [x|] eqn:E; [|congruence]. apply as_field_iff in E. eauto.
      * intros [[[x [H _]]|(l' & [= <-] & HF)] ->]; [discriminate|]. split; [|easy].
        eapply Forall_impl; [|exact HF]. intros g (x & Hx).
        apply as_field_iff in Hx. congruence.
    + intros x y H. apply as_field_iff in H. destruct H as [-> _]. easy.
Qed.

(** ** The invariant *)

Definition filled_list (s : arg_src V) : list (bytes * bool) :=
  let m := as_meta s in
  [(bs "long", is_somef (am_long m)); (bs "short", is_somef (am_short m));
   (bs "value_name", is_somef (am_value_name m));
   (bs "require_equals", am_require_equals m); (bs "global", am_global m);
   (bs "allow_hyphen_values", am_allow_hyphen_values m);
   (bs "allow_negative_numbers", am_allow_negative_numbers m);
   (bs "trailing_var_arg", am_trailing_var_arg m); (bs "last", am_last m);
   (bs "ignore_case", am_ignore_case m);
   (bs "hide", am_hide m); (bs "required", am_required m); (bs "exclusive", am_exclusive m);
   (bs "default_value", is_somef (am_default_value m));
   (bs "default_value_t", is_somef (am_default_value_t m));
   (bs "value_delimiter", is_somef (am_value_delimiter m));
   (bs "value_enum", as_value_enum s); (bs "help", is_somef (as_help s));
   (bs "long_help", is_somef (as_long_help s))].
Definition filled (s : arg_src V) (n : bytes) : bool :=
  existsb (fun x => beqb (fst x) n && snd x) (filled_list s).

Record arg_inv (l : list item) (s : arg_src V) : Prop := {
  ai_slots : forall n, In n (slots arg_table l) <-> filled s n = true;
  ai_says : arg_says [] l (as_meta s)
}.

Lemma arg_table_nodup : NoDup (map r_name arg_table).
Proof. apply nodup_b. reflexivity. Qed.

Lemma says_str_nil n : says_str (V := V) [] n None.
Proof. intros s. split; [discriminate|]. intros (e & [] & _). Qed.
Lemma says_char_nil n : says_char (V := V) [] n None.
Proof. intros s. split; [discriminate|]. intros (e & [] & _). Qed.
Lemma says_true_nil n : says_true (V := V) [] n false.
Proof. split; [discriminate|]. intros (e & []). Qed.

Lemma arg_inv_nil : arg_inv [] arg_default.
Proof.
  split.
  - intros n. unfold filled, filled_list. cbn [existsb as_meta arg_default fst snd is_somef am_long
      am_short am_value_name am_require_equals am_global am_allow_hyphen_values
      am_allow_negative_numbers am_trailing_var_arg am_last am_ignore_case am_hide am_required
      am_exclusive am_default_value am_default_value_t am_value_delimiter as_value_enum as_help
      as_long_help].
    rewrite !andb_false_r. cbn. split; [easy|discriminate].
  - split; cbn [arg_default as_meta am_long am_short am_value_name am_require_equals am_global
      am_allow_hyphen_values am_allow_negative_numbers am_trailing_var_arg am_last am_ignore_case
      am_hide am_required am_exclusive am_default_value am_default_value_t am_value_delimiter
      am_doc am_alias am_short_alias am_requires am_conflicts_with];
      first [reflexivity|apply says_str_nil|apply says_char_nil|apply says_true_nil|idtac].
    + split; [discriminate|intros []].
    + split; [discriminate|intros []].
    + split; [discriminate|]. intros [[]|[]].
    + intros x. split; [discriminate|]. intros (e & [[]|[]] & _).
    + intros c. split; [discriminate|]. intros [(e & [] & _)|(e & [] & _)].
Qed.

(** The slots after one more item. *)
Lemma slots_step l n v r :
  row_of arg_table n = Some r ->
  slots arg_table (l ++ [Item (V := V) n v]) =
  slots arg_table l ++ match r_slot r with Some s => [s] | None => [] end.
Proof.
  intros H. rewrite slots_app, slots_one by exact arg_table_nodup. unfold slot_of. cbn [it_name].
  now rewrite H.
Qed.

(** Every name that is known is known to both. *)
Lemma arg_names n :
  In n (map fst arg_keys) \/ (key_of arg_keys (word n) = None /\ row_of arg_table n = None).
Proof.
  destruct (key_of arg_keys (word n)) as [k|] eqn:K.
  - left. apply key_of_iff in K; [|exact arg_keys_nodup]. destruct K as (m & [= <-] & Hin).
    apply (in_map fst) in Hin. exact Hin.
  - destruct (row_of arg_table n) as [r|] eqn:R; [|now right].
    left. apply row_of_name in R. destruct R as [Hin <-].
    apply (in_map r_name) in Hin. revert Hin.
    assert (H : forallb (fun x => existsb (beqb x) (map fst arg_keys)) (map r_name arg_table) = true)
      by reflexivity.
    rewrite forallb_forall in H. intros Hin. apply existsb_beqb_In. now apply H.
Qed.

Record step_ok (l : list item) (s : arg_src V) (i : item) (r : row) : Prop := {
  so_fwd : forall s', apply arg_update s i = Some s' ->
    takes (r_kind r) (it_value i) /\
    (forall n, r_slot r = Some n -> filled s n = false) /\
    (forall n, filled s' n = true <-> filled s n = true \/ r_slot r = Some n) /\
    arg_says [] (l ++ [i]) (as_meta s');
  so_bwd : takes (r_kind r) (it_value i) ->
    (forall n, r_slot r = Some n -> filled s n = false) ->
    exists s', apply arg_update s i = Some s'
}.

Lemma switch_on n pre k post :
  existsb (fun x : bytes * bool => beqb (fst x) n && snd x) (pre ++ (k, true) :: post) = true <->
  existsb (fun x => beqb (fst x) n && snd x) (pre ++ (k, false) :: post) = true \/ Some k = Some n.
Proof.
  rewrite !existsb_app. cbn [existsb fst snd]. rewrite andb_false_r, andb_true_r.
  rewrite !orb_true_iff. cbn [orb]. rewrite beqb_eq. split.
  - intros [H|[->|H]]; auto.
  - intros [[H|[H|H]]|[= ->]]; auto. discriminate.
Qed.
Lemma filled_set j k s s' :
  filled_list s' = firstn j (filled_list s) ++ (k, true) :: skipn (S j) (filled_list s) ->
  filled_list s = firstn j (filled_list s) ++ (k, false) :: skipn (S j) (filled_list s) ->
  forall n, filled s' n = true <-> filled s n = true \/ Some k = Some n.
Proof.
  intros H1 H2 n. unfold filled. rewrite H1. rewrite H2 at 3. apply switch_on.
Qed.

(** A reader that takes a value once. *)
Lemma once_value {A} (g : form -> option A) s (v : option aexpr) (cur : option A) put s' :
  commit s (value_of (parse_form g) (value_toks v))
    (fun x => let '(y, es) := set_once cur x in (put y, es)) = (s', [], Some []) <->
  exists e x, v = Some e /\ g (ax_form e) = Some x /\ cur = None /\ s' = put (Some x) :> arg_src V.
Proof.
  rewrite commit_value. split.
  - intros (e & x & -> & Hg & H). exists e, x. destruct (set_once cur x) as [y es] eqn:E.
    injection H as <- ->. apply set_once_ok in E. destruct E as [-> ->]. auto.
  - intros (e & x & -> & Hg & -> & ->). exists e, x. auto.
Qed.
Lemma once_override {A} (g : form -> option A) s (v : option aexpr) (cur : option (override A)) put s' :
  commit s (parse_override (parse_form g) (value_toks v))
    (fun x => let '(y, es) := set_once cur x in (put y, es)) = (s', [], Some []) <->
  cur = None /\
  ((v = None /\ s' = put (Some Inherit)) \/
   exists e x, v = Some e /\ g (ax_form e) = Some x /\ s' = put (Some (Explicit x)) :> arg_src V).
Proof.
  rewrite commit_override. split.
  - intros [[-> H]|(e & x & -> & Hg & H)].
    + destruct (set_once cur Inherit) as [y es] eqn:E.
      injection H as <- ->. apply set_once_ok in E. destruct E as [-> ->]. auto.
    + destruct (set_once cur (Explicit x)) as [y es] eqn:E.
      injection H as <- ->. apply set_once_ok in E. destruct E as [-> ->].
      split; [easy|]. right. exists e, x. auto.
  - intros [-> [[-> ->]|(e & x & -> & Hg & ->)]]; [now left|right]. exists e, x. auto.
Qed.
Lemma once_true s (v : option aexpr) (cur : bool) put s' :
  commit s (value_of (parse_form as_bool) (value_toks v))
    (fun x => let '(y, es) := set_true cur x in (put y, es)) = (s', [], Some []) <->
  exists e, v = Some e /\ ax_form e = FoBool true /\ cur = false /\ s' = put true :> arg_src V.
Proof.
  rewrite commit_value. split.
  - intros (e & x & -> & Hg & H). exists e. destruct (set_true cur x) as [y es] eqn:E.
    injection H as <- ->. apply set_true_ok in E. destruct E as (-> & -> & ->).
    apply as_bool_iff in Hg. auto.
  - intros (e & -> & Hg & -> & ->). exists e, true. rewrite Hg. auto.
Qed.

Ltac settled := first
  [ assumption
  | eapply says_str_other; [reflexivity|eassumption]
  | eapply says_char_other; [reflexivity|eassumption]
  | eapply says_true_other; [reflexivity|eassumption]
  | apply gather_other; [reflexivity|assumption]
  | eapply in_other_iff; [reflexivity|eassumption]
  | eapply in_other_or; [reflexivity|reflexivity|eassumption]
  | eapply says_default_other; [reflexivity|reflexivity|eassumption]
  | eapply says_delimiter_other; [reflexivity|reflexivity|eassumption] ].
Ltac meta_cbn := cbn [as_meta with_meta with_long with_short with_alias with_short_alias
  with_value_name with_require_equals with_global with_allow_hyphen_values
  with_allow_negative_numbers with_ignore_case with_trailing_var_arg with_last with_default_value
  with_default_value_t with_value_delimiter with_hide with_required with_exclusive with_requires
  with_conflicts_with put_true get_true
  am_doc am_long am_short am_alias am_short_alias am_value_name am_require_equals
  am_global am_allow_hyphen_values am_allow_negative_numbers am_ignore_case am_trailing_var_arg
  am_last am_default_value am_default_value_t am_value_delimiter am_hide am_required am_exclusive
  am_requires am_conflicts_with].
Ltac says_split H := destruct H; split; meta_cbn; try settled.


Lemma step_slot l s n v k slot j (free : Prop) (R : arg_src V -> Prop) :
  (forall s', apply arg_update s (Item n v) = Some s' <-> free /\ R s') ->
  (takes k v <-> exists s', R s') ->
  (filled s slot = false <-> free) ->
  (forall s', R s' ->
     filled_list s' = firstn j (filled_list s) ++ (slot, true) :: skipn (S j) (filled_list s)) ->
  (free -> filled_list s = firstn j (filled_list s) ++ (slot, false) :: skipn (S j) (filled_list s)) ->
  (free -> forall s', R s' -> arg_says [] (l ++ [Item n v]) (as_meta s')) ->
  step_ok l s (Item n v) (Row n k (Some slot)).
Proof.
  intros Ha Ht Hf H1 H2 Hy. split; cbn [it_value r_kind r_slot].
  - intros s' E. apply Ha in E. destruct E as [Hfree HR]. split; [apply Ht; eauto|]. split.
    + intros m [= <-]. now apply Hf.
    + split; [|now apply Hy]. apply (filled_set j); auto.
  - intros Hk Hs. apply Ht in Hk. destruct Hk as [s' HR]. exists s'. apply Ha. split; [|exact HR].
    apply Hf. now apply Hs.
Qed.
Lemma step_free l s n v k (R : arg_src V -> Prop) :
  (forall s', apply arg_update s (Item n v) = Some s' <-> R s') ->
  (takes k v <-> exists s', R s') ->
  (forall s', R s' -> filled_list s' = filled_list s) ->
  (forall s', R s' -> arg_says [] (l ++ [Item n v]) (as_meta s')) ->
  step_ok l s (Item n v) (Row n k None).
Proof.
  intros Ha Ht H1 Hy. split; cbn [it_value r_kind r_slot].
  - intros s' HR. apply Ha in HR. split; [apply Ht; eauto|]. split; [discriminate|].
    split; [|now apply Hy]. intros m. unfold filled. rewrite (H1 s' HR). split; [auto|].
    intros [?|?]; [easy|discriminate].
  - intros Hk _. apply Ht in Hk. destruct Hk as [s' HR]. exists s'. now apply Ha.
Qed.

Lemma free_none {A} (o : option A) (b : bool) : b = is_somef o || false -> b = false <-> o = None.
Proof. intros ->. destruct o; cbn; split; congruence. Qed.
Lemma free_false (o b : bool) : b = o || false -> b = false <-> o = false.
Proof. intros ->. now rewrite orb_false_r. Qed.

Lemma takes_str (v : option aexpr) (S : Type) (put : bytes -> S) :
  takes VkStr v <-> exists s' e x, v = Some e /\ as_str (ax_form e) = Some x /\ s' = put x.
Proof.
  destruct v as [e|]; cbn.
  - unfold is_str. split.
    + intros [x Hx]. exists (put x), e, x. rewrite Hx. auto.
    + intros (s' & e' & x & [= <-] & Hx & _). apply as_str_iff in Hx. eauto.
  - split; [easy|]. now intros (s' & e & x & H & _).
Qed.

(** One that takes a string once. *)
Definition reads_str (v : option aexpr) (put : option bytes -> arg_src V) (s' : arg_src V) : Prop :=
  exists e x, v = Some e /\ as_str (ax_form e) = Some x /\ s' = put (Some x).
Lemma apply_once_str s n v (cur : option bytes) put :
  (forall s', apply arg_update s (Item n v) = Some s' <->
     commit s (value_of (parse_form as_str) (value_toks v))
       (fun x => let '(y, es) := set_once cur x in (put y, es)) = (s', [], Some [])) ->
  forall s', apply arg_update s (Item n v) = Some s' <-> cur = None /\ reads_str v put s'.
Proof.
  intros H s'. rewrite H, once_value. unfold reads_str. split.
  - intros (e & x & ? & ? & ? & ?). split; [easy|]. eauto.
  - intros [? (e & x & ? & ? & ?)]. exists e, x. auto.
Qed.
Lemma takes_reads_str v put : takes VkStr v <-> exists s', reads_str v put s'.
Proof. apply takes_str with (put := fun x => put (Some x)). Qed.

Definition reads_true (v : option aexpr) (put : bool -> arg_src V) (s' : arg_src V) : Prop :=
  exists e, v = Some e /\ ax_form e = FoBool true /\ s' = put true.
Lemma apply_true s n v (cur : bool) put :
  (forall s', apply arg_update s (Item n v) = Some s' <->
     commit s (value_of (parse_form as_bool) (value_toks v))
       (fun x => let '(y, es) := set_true cur x in (put y, es)) = (s', [], Some [])) ->
  forall s', apply arg_update s (Item n v) = Some s' <-> cur = false /\ reads_true v put s'.
Proof.
  intros H s'. rewrite H, once_true. unfold reads_true. split.
  - intros (e & ? & ? & ? & ?). split; [easy|]. eauto.
  - intros [? (e & ? & ? & ?)]. exists e. auto.
Qed.
Lemma takes_reads_true v put : takes VkTrue v <-> exists s', reads_true v put s'.
Proof.
  destruct v as [e|]; cbn; unfold reads_true.
  - split; [intros H; exists (put true), e; auto|]. now intros (s' & e' & [= <-] & H & _).
  - split; [easy|]. now intros (s' & e & H & _).
Qed.

Definition reads_override {A} (g : form -> option A) (v : option aexpr)
    (put : option (override A) -> arg_src V) (s' : arg_src V) : Prop :=
  (v = None /\ s' = put (Some Inherit)) \/
  exists e x, v = Some e /\ g (ax_form e) = Some x /\ s' = put (Some (Explicit x)).

Definition reads_list {A} (g : form -> option A) (v : option aexpr) (put : A -> arg_src V)
    (s' : arg_src V) : Prop :=
  exists e x, v = Some e /\ g (ax_form e) = Some x /\ s' = put x.
Lemma apply_list {A} (g : form -> option A) s n v put :
  (forall s', apply arg_update s (Item n v) = Some s' <->
     commit s (value_of (parse_form g) (value_toks v)) (fun x => (put x, [])) = (s', [], Some [])) ->
  forall s', apply arg_update s (Item n v) = Some s' <-> reads_list g v put s'.
Proof.
  intros H s'. rewrite H, commit_value. unfold reads_list. split.
  - intros (e & x & ? & ? & [= <-]). exists e, x. auto.
  - intros (e & x & ? & ? & ->). exists e, x. auto.
Qed.
Lemma takes_reads_list {A} k (g : form -> option A) (P : form -> Prop) (f : form -> A) v put :
  (forall x : aexpr, takes k (Some x) <-> P (ax_form x)) -> ~ takes (V := V) k None ->
  (forall x y, g x = Some y <-> P x /\ y = f x) ->
  takes k v <-> exists s', reads_list g v put s'.
Proof.
  intros H0 Hn H. unfold reads_list. destruct v as [e|].
  - rewrite H0. split.
    + intros HP. exists (put (f (ax_form e))), e, (f (ax_form e)). split; [easy|]. split; [|easy].
      now apply H.
    + intros (s' & e' & x & [= <-] & Hx & _). now apply H in Hx.
  - split; [easy|]. now intros (s' & e & x & Hx & _).
Qed.


Lemma step_long l s v : arg_says [] l (as_meta s) ->
  step_ok l s (Item (bs "long") v) (once (bs "long") VkOptStr).
Proof.
  intros H. set (put := fun y => with_meta s (with_long (as_meta s) y)).
  apply (step_slot l s _ v _ _ 0 (am_long (as_meta s) = None) (reads_override as_str v put)).
  - intros s'. etransitivity; [apply apply_some|]. exact (once_override as_str s v _ put s').
  - unfold reads_override. destruct v as [e|]; cbn.
    + unfold is_str. split.
      * intros [x Hx]. exists (put (Some (Explicit x))). right. exists e, x. now rewrite Hx.
      * intros (s' & [[? _]|(e' & x & [= <-] & Hx & _)]); [discriminate|].
        apply as_str_iff in Hx. eauto.
    + split; [eauto|easy].
  - apply free_none. reflexivity.
  - intros s' [[_ ->]|(e & x & _ & _ & ->)]; reflexivity.
  - intros Hc. unfold filled_list. rewrite Hc. reflexivity.
  - intros Hc s' [[-> ->]|(e & x & -> & Hg & ->)]; unfold put; says_split H.
    + apply says_bare_new.
    + rewrite Hc in *. now apply says_str_bare.
    + apply says_bare_explicit. now rewrite Hc in *.
    + apply as_str_iff in Hg. rewrite Hc in *. now apply says_str_new.
Qed.
Lemma step_short l s v : arg_says [] l (as_meta s) ->
  step_ok l s (Item (bs "short") v) (once (bs "short") VkOptChar).
Proof.
  intros H. set (put := fun y => with_meta s (with_short (as_meta s) y)).
  apply (step_slot l s _ v _ _ 1 (am_short (as_meta s) = None) (reads_override as_char v put)).
  - intros s'. etransitivity; [apply apply_some|]. exact (once_override as_char s v _ put s').
  - unfold reads_override. destruct v as [e|]; cbn.
    + unfold is_char. split.
      * intros [x Hx]. exists (put (Some (Explicit x))). right. exists e, x. now rewrite Hx.
      * intros (s' & [[? _]|(e' & x & [= <-] & Hx & _)]); [discriminate|].
        apply as_char_iff in Hx. eauto.
    + split; [eauto|easy].
  - apply free_none. reflexivity.
  - intros s' [[_ ->]|(e & x & _ & _ & ->)]; reflexivity.
  - intros Hc. unfold filled_list. rewrite Hc. reflexivity.
  - intros Hc s' [[-> ->]|(e & x & -> & Hg & ->)]; unfold put; says_split H.
    + apply says_bare_new.
    + rewrite Hc in *. now apply says_char_bare.
    + apply says_bare_explicit. now rewrite Hc in *.
    + apply as_char_iff in Hg. rewrite Hc in *. now apply says_char_new.
Qed.

Lemma step_value_name l s v : arg_says [] l (as_meta s) ->
  step_ok l s (Item (bs "value_name") v) (once (bs "value_name") VkStr).
Proof.
  intros H. set (put := fun y => with_meta s (with_value_name (as_meta s) y)).
  apply (step_slot l s _ v _ _ 2 (am_value_name (as_meta s) = None) (reads_str v put)).
  - apply apply_once_str. intros s'. exact (apply_some arg_update s (Item _ v) s').
  - apply takes_reads_str.
  - apply free_none. reflexivity.
  - intros s' (e & x & _ & _ & ->). reflexivity.
  - intros Hc. unfold filled_list. rewrite Hc. reflexivity.
  - intros Hc s' (e & x & -> & Hg & ->). unfold put. says_split H.
    apply as_str_iff in Hg. rewrite Hc in *. now apply says_str_new.
Qed.
Lemma step_default_value l s v : arg_says [] l (as_meta s) ->
  step_ok l s (Item (bs "default_value") v) (once (bs "default_value") VkStr).
Proof.
  intros H. set (put := fun y => with_meta s (with_default_value (as_meta s) y)).
  apply (step_slot l s _ v _ _ 13 (am_default_value (as_meta s) = None) (reads_str v put)).
  - apply apply_once_str. intros s'. exact (apply_some arg_update s (Item _ v) s').
  - apply takes_reads_str.
  - apply free_none. reflexivity.
  - intros s' (e & x & _ & _ & ->). reflexivity.
  - intros Hc. unfold filled_list. rewrite Hc. reflexivity.
  - intros Hc s' (e & x & -> & Hg & ->). unfold put. says_split H.
    apply as_str_iff in Hg. rewrite Hc in *. now apply says_str_new.
Qed.
Lemma step_help l s v : arg_says [] l (as_meta s) ->
  step_ok l s (Item (bs "help") v) (once (bs "help") VkStr).
Proof.
  intros H. set (put := fun y => mkArgSrc (as_meta s) (as_value_enum s) y (as_long_help s)).
  apply (step_slot l s _ v _ _ 17 (as_help s = None) (reads_str v put)).
  - apply apply_once_str. intros s'. exact (apply_some arg_update s (Item _ v) s').
  - apply takes_reads_str.
  - apply free_none. reflexivity.
  - intros s' (e & x & _ & _ & ->). reflexivity.
  - intros Hc. unfold filled_list. rewrite Hc. reflexivity.
  - intros Hc s' (e & x & -> & Hg & ->). unfold put. says_split H.
Qed.
Lemma step_long_help l s v : arg_says [] l (as_meta s) ->
  step_ok l s (Item (bs "long_help") v) (once (bs "long_help") VkStr).
Proof.
  intros H. set (put := fun y => mkArgSrc (as_meta s) (as_value_enum s) (as_help s) y).
  apply (step_slot l s _ v _ _ 18 (as_long_help s = None) (reads_str v put)).
  - apply apply_once_str. intros s'. exact (apply_some arg_update s (Item _ v) s').
  - apply takes_reads_str.
  - apply free_none. reflexivity.
  - intros s' (e & x & _ & _ & ->). reflexivity.
  - intros Hc. unfold filled_list. rewrite Hc. reflexivity.
  - intros Hc s' (e & x & -> & Hg & ->). unfold put. says_split H.
Qed.
Lemma step_require_equals l s v : arg_says [] l (as_meta s) ->
  step_ok l s (Item (bs "require_equals") v) (once (bs "require_equals") VkTrue).
Proof.
  intros H. set (put := fun y => with_meta s (with_require_equals (as_meta s) y)).
  apply (step_slot l s _ v _ _ 3 (am_require_equals (as_meta s) = false) (reads_true v put)).
  - apply apply_true. intros s'. exact (apply_some arg_update s (Item _ v) s').
  - apply takes_reads_true.
  - apply free_false. reflexivity.
  - intros s' (e & _ & _ & ->). reflexivity.
  - intros Hc. unfold filled_list. rewrite Hc. reflexivity.
  - intros Hc s' (e & -> & Hg & ->). unfold put. says_split H. apply says_true_new.
Qed.
Lemma step_global l s v : arg_says [] l (as_meta s) ->
  step_ok l s (Item (bs "global") v) (once (bs "global") VkTrue).
Proof.
  intros H. set (put := fun y => with_meta s (with_global (as_meta s) y)).
  apply (step_slot l s _ v _ _ 4 (am_global (as_meta s) = false) (reads_true v put)).
  - apply apply_true. intros s'. exact (apply_some arg_update s (Item _ v) s').
  - apply takes_reads_true.
  - apply free_false. reflexivity.
  - intros s' (e & _ & _ & ->). reflexivity.
  - intros Hc. unfold filled_list. rewrite Hc. reflexivity.
  - intros Hc s' (e & -> & Hg & ->). unfold put. says_split H. apply says_true_new.
Qed.
Lemma step_allow_hyphen_values l s v : arg_says [] l (as_meta s) ->
  step_ok l s (Item (bs "allow_hyphen_values") v) (once (bs "allow_hyphen_values") VkTrue).
Proof.
  intros H. set (put := fun y => with_meta s (with_allow_hyphen_values (as_meta s) y)).
  apply (step_slot l s _ v _ _ 5 (am_allow_hyphen_values (as_meta s) = false) (reads_true v put)).
  - apply apply_true. intros s'. exact (apply_some arg_update s (Item _ v) s').
  - apply takes_reads_true.
  - apply free_false. reflexivity.
  - intros s' (e & _ & _ & ->). reflexivity.
  - intros Hc. unfold filled_list. rewrite Hc. reflexivity.
  - intros Hc s' (e & -> & Hg & ->). unfold put. says_split H. apply says_true_new.
Qed.
Lemma step_allow_negative_numbers l s v : arg_says [] l (as_meta s) ->
  step_ok l s (Item (bs "allow_negative_numbers") v) (once (bs "allow_negative_numbers") VkTrue).
Proof.
  intros H. set (put := fun y => with_meta s (with_allow_negative_numbers (as_meta s) y)).
  apply (step_slot l s _ v _ _ 6 (am_allow_negative_numbers (as_meta s) = false) (reads_true v put)).
  - apply apply_true. intros s'. exact (apply_some arg_update s (Item _ v) s').
  - apply takes_reads_true.
  - apply free_false. reflexivity.
  - intros s' (e & _ & _ & ->). reflexivity.
  - intros Hc. unfold filled_list. rewrite Hc. reflexivity.
  - intros Hc s' (e & -> & Hg & ->). unfold put. says_split H. apply says_true_new.
Qed.
Lemma step_trailing_var_arg l s v : arg_says [] l (as_meta s) ->
  step_ok l s (Item (bs "trailing_var_arg") v) (once (bs "trailing_var_arg") VkTrue).
Proof.
  intros H. set (put := fun y => with_meta s (with_trailing_var_arg (as_meta s) y)).
  apply (step_slot l s _ v _ _ 7 (am_trailing_var_arg (as_meta s) = false) (reads_true v put)).
  - apply apply_true. intros s'. exact (apply_some arg_update s (Item _ v) s').
  - apply takes_reads_true.
  - apply free_false. reflexivity.
  - intros s' (e & _ & _ & ->). reflexivity.
  - intros Hc. unfold filled_list. rewrite Hc. reflexivity.
  - intros Hc s' (e & -> & Hg & ->). unfold put. says_split H. apply says_true_new.
Qed.
Lemma step_last l s v : arg_says [] l (as_meta s) ->
  step_ok l s (Item (bs "last") v) (once (bs "last") VkTrue).
Proof.
  intros H. set (put := fun y => with_meta s (with_last (as_meta s) y)).
  apply (step_slot l s _ v _ _ 8 (am_last (as_meta s) = false) (reads_true v put)).
  - apply apply_true. intros s'. exact (apply_some arg_update s (Item _ v) s').
  - apply takes_reads_true.
  - apply free_false. reflexivity.
  - intros s' (e & _ & _ & ->). reflexivity.
  - intros Hc. unfold filled_list. rewrite Hc. reflexivity.
  - intros Hc s' (e & -> & Hg & ->). unfold put. says_split H. apply says_true_new.
Qed.
Lemma step_ignore_case l s v : arg_says [] l (as_meta s) ->
  step_ok l s (Item (bs "ignore_case") v) (once (bs "ignore_case") VkTrue).
Proof.
  intros H. set (put := fun y => with_meta s (with_ignore_case (as_meta s) y)).
  apply (step_slot l s _ v _ _ 9 (am_ignore_case (as_meta s) = false) (reads_true v put)).
  - apply apply_true. intros s'. exact (apply_some arg_update s (Item _ v) s').
  - apply takes_reads_true.
  - apply free_false. reflexivity.
  - intros s' (e & _ & _ & ->). reflexivity.
  - intros Hc. unfold filled_list. rewrite Hc. reflexivity.
  - intros Hc s' (e & -> & Hg & ->). unfold put. says_split H. apply says_true_new.
Qed.
Lemma step_hide l s v : arg_says [] l (as_meta s) ->
  step_ok l s (Item (bs "hide") v) (once (bs "hide") VkTrue).
Proof.
  intros H. set (put := fun y => with_meta s (with_hide (as_meta s) y)).
  apply (step_slot l s _ v _ _ 10 (am_hide (as_meta s) = false) (reads_true v put)).
  - apply apply_true. intros s'. exact (apply_some arg_update s (Item _ v) s').
  - apply takes_reads_true.
  - apply free_false. reflexivity.
  - intros s' (e & _ & _ & ->). reflexivity.
  - intros Hc. unfold filled_list. rewrite Hc. reflexivity.
  - intros Hc s' (e & -> & Hg & ->). unfold put. says_split H. apply says_true_new.
Qed.
Lemma step_required l s v : arg_says [] l (as_meta s) ->
  step_ok l s (Item (bs "required") v) (once (bs "required") VkTrue).
Proof.
  intros H. set (put := fun y => with_meta s (with_required (as_meta s) y)).
  apply (step_slot l s _ v _ _ 11 (am_required (as_meta s) = false) (reads_true v put)).
  - apply apply_true. intros s'. exact (apply_some arg_update s (Item _ v) s').
  - apply takes_reads_true.
  - apply free_false. reflexivity.
  - intros s' (e & _ & _ & ->). reflexivity.
  - intros Hc. unfold filled_list. rewrite Hc. reflexivity.
  - intros Hc s' (e & -> & Hg & ->). unfold put. says_split H. apply says_true_new.
Qed.
Lemma step_exclusive l s v : arg_says [] l (as_meta s) ->
  step_ok l s (Item (bs "exclusive") v) (once (bs "exclusive") VkTrue).
Proof.
  intros H. set (put := fun y => with_meta s (with_exclusive (as_meta s) y)).
  apply (step_slot l s _ v _ _ 12 (am_exclusive (as_meta s) = false) (reads_true v put)).
  - apply apply_true. intros s'. exact (apply_some arg_update s (Item _ v) s').
  - apply takes_reads_true.
  - apply free_false. reflexivity.
  - intros s' (e & _ & _ & ->). reflexivity.
  - intros Hc. unfold filled_list. rewrite Hc. reflexivity.
  - intros Hc s' (e & -> & Hg & ->). unfold put. says_split H. apply says_true_new.
Qed.
Lemma step_alias l s v : arg_says [] l (as_meta s) ->
  step_ok l s (Item (bs "alias") v) (Row (bs "alias") VkStrs None).
Proof.
  intros H. set (put := fun y => with_meta s (with_alias (as_meta s) (am_alias (as_meta s) ++ y))).
  apply (step_free l s _ v _ (reads_list (one_or_array as_str) v put)).
  - apply apply_list. intros s'. exact (apply_some arg_update s (Item _ v) s').
  - apply (takes_reads_list VkStrs (one_or_array as_str) (one_or_more is_str) strs); [easy|easy|]. intros x y. apply str_list_of.
  - intros s' (e & x & _ & _ & ->). reflexivity.
  - intros s' (e & x & -> & Hg & ->). apply str_list_of in Hg. destruct Hg as [_ ->].
    unfold put. says_split H. rewrite gather_app. cbn. rewrite app_nil_r. f_equal. assumption.
Qed.
Lemma step_aliases l s v : arg_says [] l (as_meta s) ->
  step_ok l s (Item (bs "aliases") v) (Row (bs "aliases") VkStrs None).
Proof.
  intros H. set (put := fun y => with_meta s (with_alias (as_meta s) (am_alias (as_meta s) ++ y))).
  apply (step_free l s _ v _ (reads_list (one_or_array as_str) v put)).
  - apply apply_list. intros s'. exact (apply_some arg_update s (Item _ v) s').
  - apply (takes_reads_list VkStrs (one_or_array as_str) (one_or_more is_str) strs); [easy|easy|]. intros x y. apply str_list_of.
  - intros s' (e & x & _ & _ & ->). reflexivity.
  - intros s' (e & x & -> & Hg & ->). apply str_list_of in Hg. destruct Hg as [_ ->].
    unfold put. says_split H. rewrite gather_app. cbn. rewrite app_nil_r. f_equal. assumption.
Qed.
Lemma step_short_alias l s v : arg_says [] l (as_meta s) ->
  step_ok l s (Item (bs "short_alias") v) (Row (bs "short_alias") VkChars None).
Proof.
  intros H. set (put := fun y => with_meta s (with_short_alias (as_meta s) (am_short_alias (as_meta s) ++ y))).
  apply (step_free l s _ v _ (reads_list (one_or_array as_char) v put)).
  - apply apply_list. intros s'. exact (apply_some arg_update s (Item _ v) s').
  - apply (takes_reads_list VkChars (one_or_array as_char) (one_or_more is_char) chars); [easy|easy|]. intros x y. apply char_list_of.
  - intros s' (e & x & _ & _ & ->). reflexivity.
  - intros s' (e & x & -> & Hg & ->). apply char_list_of in Hg. destruct Hg as [_ ->].
    unfold put. says_split H. rewrite gather_app. cbn. rewrite app_nil_r. f_equal. assumption.
Qed.
Lemma step_short_aliases l s v : arg_says [] l (as_meta s) ->
  step_ok l s (Item (bs "short_aliases") v) (Row (bs "short_aliases") VkChars None).
Proof.
  intros H. set (put := fun y => with_meta s (with_short_alias (as_meta s) (am_short_alias (as_meta s) ++ y))).
  apply (step_free l s _ v _ (reads_list (one_or_array as_char) v put)).
  - apply apply_list. intros s'. exact (apply_some arg_update s (Item _ v) s').
  - apply (takes_reads_list VkChars (one_or_array as_char) (one_or_more is_char) chars); [easy|easy|]. intros x y. apply char_list_of.
  - intros s' (e & x & _ & _ & ->). reflexivity.
  - intros s' (e & x & -> & Hg & ->). apply char_list_of in Hg. destruct Hg as [_ ->].
    unfold put. says_split H. rewrite gather_app. cbn. rewrite app_nil_r. f_equal. assumption.
Qed.
Lemma step_conflicts_with_all l s v : arg_says [] l (as_meta s) ->
  step_ok l s (Item (bs "conflicts_with_all") v) (Row (bs "conflicts_with_all") VkFields None).
Proof.
  intros H. set (put := fun y => with_meta s (with_conflicts_with (as_meta s) (am_conflicts_with (as_meta s) ++ y))).
  apply (step_free l s _ v _ (reads_list (one_or_array as_field) v put)).
  - apply apply_list. intros s'. exact (apply_some arg_update s (Item _ v) s').
  - apply (takes_reads_list VkFields (one_or_array as_field) (one_or_more is_field) strs); [easy|easy|]. intros x y. apply field_list_of.
  - intros s' (e & x & _ & _ & ->). reflexivity.
  - intros s' (e & x & -> & Hg & ->). apply field_list_of in Hg. destruct Hg as [_ ->].
    unfold put. says_split H. rewrite gather_app. cbn. rewrite app_nil_r. f_equal. assumption.
Qed.
Lemma takes_field v put : takes VkField v <-> exists s', reads_list as_field v put s'.
Proof.
  unfold reads_list. destruct v as [e|]; cbn [takes].
  - unfold is_field. split.
    + intros (x & Hx). exists (put x), e, x. split; [easy|]. split; [|easy]. now apply as_field_iff.
    + intros (s' & e' & x & [= <-] & Hx & _). exists x. now apply as_field_iff.
  - split; [easy|]. now intros (s' & e & x & Hx & _).
Qed.
Lemma step_requires l s v : arg_says [] l (as_meta s) ->
  step_ok l s (Item (bs "requires") v) (Row (bs "requires") VkField None).
Proof.
  intros H. set (put := fun y => with_meta s (with_requires (as_meta s) (am_requires (as_meta s) ++ [y]))).
  apply (step_free l s _ v _ (reads_list as_field v put)).
  - apply apply_list. intros s'. exact (apply_some arg_update s (Item _ v) s').
  - apply takes_field.
  - intros s' (e & x & _ & _ & ->). reflexivity.
  - intros s' (e & x & -> & Hg & ->). apply as_field_iff in Hg. destruct Hg as [Hg _].
    unfold put. says_split H. rewrite gather_app. cbn. rewrite app_nil_r, Hg. f_equal. assumption.
Qed.
Lemma step_conflicts_with l s v : arg_says [] l (as_meta s) ->
  step_ok l s (Item (bs "conflicts_with") v) (Row (bs "conflicts_with") VkField None).
Proof.
  intros H. set (put := fun y => with_meta s (with_conflicts_with (as_meta s) (am_conflicts_with (as_meta s) ++ [y]))).
  apply (step_free l s _ v _ (reads_list as_field v put)).
  - apply apply_list. intros s'. exact (apply_some arg_update s (Item _ v) s').
  - apply takes_field.
  - intros s' (e & x & _ & _ & ->). reflexivity.
  - intros s' (e & x & -> & Hg & ->). apply as_field_iff in Hg. destruct Hg as [Hg _].
    unfold put. says_split H. rewrite gather_app. cbn. rewrite app_nil_r, Hg. f_equal. assumption.
Qed.

Definition reads_default (v : option aexpr) (put : option (override (dexpr V)) -> arg_src V)
    (s' : arg_src V) : Prop :=
  s' = put (Some match v with None => Inherit | Some e => Explicit (ax_default e) end).
Lemma takes_default v put : takes VkOptExpr v <-> exists s', reads_default v put s'.
Proof. unfold reads_default. destruct v; cbn; split; eauto. Qed.
Lemma once_default s (v : option aexpr) (cur : option (override (dexpr V))) put s' :
  commit s (parse_override parse_expr (value_toks v))
    (fun v =>
       let v := match v with Inherit => Inherit | Explicit e => Explicit (ax_default e) end in
       let '(x, es) := set_once cur v in (put x, es)) = (s', [], Some []) <->
  cur = None /\ reads_default v put s'.
Proof.
  rewrite commit_override_expr. unfold reads_default.
  replace match match v with Some e => Explicit e | None => Inherit end with
          | Inherit => Inherit | Explicit e => Explicit (ax_default e) end
    with match v with None => Inherit | Some e => Explicit (ax_default e) end by now destruct v.
  set (w := match v with None => Inherit | Some e => Explicit (ax_default e) end). cbv zeta.
  destruct (set_once cur w) as [y es] eqn:E. split.
  - intros [= <- ->]. apply set_once_ok in E. destruct E as [-> ->]. auto.
  - intros [-> ->]. cbn in E. now injection E as <- <-.
Qed.
Lemma says_default_bare (n1 n2 n : bytes) (l : list item) (v : option aexpr) :
  In n [n1; n2] ->
  (@None (override (dexpr V)) = Some Inherit <-> In (Item n1 None) l \/ In (Item n2 None) l) ->
  (Some match v with None => Inherit | Some e => Explicit (ax_default e) end = Some Inherit <->
   In (Item n1 None) (l ++ [Item n v]) \/ In (Item n2 None) (l ++ [Item n v])).
Proof.
  intros Hn H. destruct v as [e|].
  - split; [discriminate|]. rewrite !in_app_iff. cbn.
    intros [[Hin|[Hin|[]]]|[Hin|[Hin|[]]]]; try discriminate;
      (assert (@None (override (dexpr V)) = Some Inherit) by (apply H; auto); discriminate).
  - split; [|easy]. intros _. rewrite !in_app_iff. cbn.
    destruct Hn as [<-|[<-|[]]]; auto.
Qed.
Lemma says_default_gen (n1 n2 n : bytes) (l : list item) (v : option aexpr) :
  In n [n1; n2] ->
  (forall x, @None (override (dexpr V)) = Some (Explicit x) <->
    exists e, (In (Item n1 (Some e)) l \/ In (Item n2 (Some e)) l) /\ ax_default e = x) ->
  (forall x, Some match v with None => Inherit | Some e => Explicit (ax_default e) end
             = Some (Explicit x) <->
    exists e, (In (Item n1 (Some e)) (l ++ [Item n v]) \/ In (Item n2 (Some e)) (l ++ [Item n v])) /\
              ax_default e = x).
Proof.
  intros Hn H x. assert (Hno : forall e, In (Item n1 (Some e)) l \/ In (Item n2 (Some e)) l -> False).
  { intros e He. assert (@None (override (dexpr V)) = Some (Explicit (ax_default e)))
      by (apply H; eauto). discriminate. }
  split.
  - destruct v as [e|]; [|discriminate]. intros [= <-]. exists e. split; [|easy].
    rewrite !in_app_iff. cbn. destruct Hn as [<-|[<-|[]]]; auto.
  - intros (e & He & <-). rewrite !in_app_iff in He. cbn in He.
    destruct He as [[Hin|[Hin|[]]]|[Hin|[Hin|[]]]];
      try (destruct (Hno e); auto; fail); injection Hin as _ ->; reflexivity.
Qed.

Lemma step_default_value_t l s v : arg_says [] l (as_meta s) ->
  step_ok l s (Item (bs "default_value_t") v) (Row (bs "default_value_t") VkOptExpr (Some (bs "default_value_t"))).
Proof.
  intros H. set (put := fun y => with_meta s (with_default_value_t (as_meta s) y)).
  apply (step_slot l s _ v _ _ 14 (am_default_value_t (as_meta s) = None) (reads_default v put)).
  - intros s'. etransitivity; [exact (apply_some arg_update s (Item _ v) s')|].
    exact (once_default s v _ put s').
  - apply takes_default.
  - apply free_none. reflexivity.
  - intros s' ->. reflexivity.
  - intros Hc. unfold filled_list. rewrite Hc. reflexivity.
  - intros Hc s' ->. unfold put. says_split H.
    + apply (says_default_bare _ _ _ l v); [cbn; auto|]. now rewrite Hc in *.
    + apply (says_default_gen _ _ _ l v); [cbn; auto|]. now rewrite Hc in *.
Qed.
Lemma step_default_values_t l s v : arg_says [] l (as_meta s) ->
  step_ok l s (Item (bs "default_values_t") v) (Row (bs "default_values_t") VkOptExpr (Some (bs "default_value_t"))).
Proof.
  intros H. set (put := fun y => with_meta s (with_default_value_t (as_meta s) y)).
  apply (step_slot l s _ v _ _ 14 (am_default_value_t (as_meta s) = None) (reads_default v put)).
  - intros s'. etransitivity; [exact (apply_some arg_update s (Item _ v) s')|].
    exact (once_default s v _ put s').
  - apply takes_default.
  - apply free_none. reflexivity.
  - intros s' ->. reflexivity.
  - intros Hc. unfold filled_list. rewrite Hc. reflexivity.
  - intros Hc s' ->. unfold put. says_split H.
    + apply (says_default_bare _ _ _ l v); [cbn; auto|]. now rewrite Hc in *.
    + apply (says_default_gen _ _ _ l v); [cbn; auto|]. now rewrite Hc in *.
Qed.

Lemma says_delimiter_none n1 n2 (l : list item) :
  (forall c, @None N = Some c <->
    (exists e, In (Item n1 (Some e)) l /\ ax_form e = FoChar c) \/
    (exists v, In (Item n2 v) l /\ c = b2n ",")) ->
  (forall e c, In (Item n1 (Some e)) l -> ax_form e <> FoChar c) /\
  (forall v, ~ In (Item n2 v) l).
Proof.
  intros H. split.
  - intros e c Hin Hc. assert (@None N = Some c) by (apply H; eauto). discriminate.
  - intros v Hin. assert (@None N = Some (b2n ",")) by (apply H; eauto). discriminate.
Qed.
Lemma step_value_delimiter l s v : arg_says [] l (as_meta s) ->
  step_ok l s (Item (bs "value_delimiter") v) (once (bs "value_delimiter") VkChar).
Proof.
  intros H. set (put := fun y => with_meta s (with_value_delimiter (as_meta s) (Some y))).
  apply (step_slot l s _ v _ _ 15 (am_value_delimiter (as_meta s) = None) (reads_list as_char v put)).
  - intros s'. etransitivity; [exact (apply_some arg_update s (Item _ v) s')|].
    etransitivity; [exact (once_value as_char s v _
      (fun y => with_meta s (with_value_delimiter (as_meta s) y)) s')|].
    unfold reads_list, put. split.
    + intros (e & x & ? & ? & ? & ?). split; [easy|]. eauto.
    + intros [? (e & x & ? & ? & ?)]. exists e, x. auto.
  - unfold reads_list. destruct v as [e|]; cbn.
    + unfold is_char. split.
      * intros [x Hx]. exists (put x), e, x. now rewrite Hx.
      * intros (s' & e' & x & [= <-] & Hx & _). apply as_char_iff in Hx. eauto.
    + split; [easy|]. now intros (s' & e & x & Hx & _).
  - apply free_none. reflexivity.
  - intros s' (e & x & _ & _ & ->). reflexivity.
  - intros Hc. unfold filled_list. rewrite Hc. reflexivity.
  - intros Hc s' (e & x & -> & Hg & ->). unfold put.
    assert (Hd := ay_value_delimiter _ _ _ H). rewrite Hc in Hd. says_split H.
    apply as_char_iff in Hg. apply says_delimiter_none in Hd.
    destruct Hd as [N1 N2]. intros c. split.
    + intros [= <-]. left. exists e. split; [|easy]. apply in_new. now right.
    + intros [(e' & Hin & Hf)|(w & Hin & ->)].
      * apply in_new in Hin. destruct Hin as [Hin|[= ->]]; [|congruence]. now destruct (N1 e' c).
      * apply in_other in Hin; [|reflexivity]. now destruct (N2 w).
Qed.
Lemma step_use_value_delimiter l s v : arg_says [] l (as_meta s) ->
  step_ok l s (Item (bs "use_value_delimiter") v)
    (Row (bs "use_value_delimiter") VkTrue (Some (bs "value_delimiter"))).
Proof.
  intros H. set (put := fun _ : bool => with_meta s (with_value_delimiter (as_meta s) (Some (b2n ",")))).
  apply (step_slot l s _ v _ _ 15 (am_value_delimiter (as_meta s) = None) (reads_true v put)).
  - intros s'. etransitivity; [exact (apply_some arg_update s (Item _ v) s')|].
    etransitivity; [exact (commit_value s as_bool v (fun v =>
           let '(x, es) := set_once (am_value_delimiter (as_meta s)) (b2n ","%byte) in
           (with_meta s (with_value_delimiter (as_meta s) x),
            (if v then [] else [AE_not_true]) ++ es)) s')|].
    unfold reads_true, put. split.
    + intros (e & x & -> & Hx & E).
      destruct (set_once (am_value_delimiter (as_meta s)) (b2n ",")) as [y es] eqn:Es.
      injection E as <- E. apply app_eq_nil in E. destruct E as [E ->].
      apply set_once_ok in Es. destruct Es as [-> ->]. split; [easy|]. exists e.
      destruct x; [|discriminate]. apply as_bool_iff in Hx. auto.
    + intros [-> (e & -> & Hx & ->)]. exists e, true. rewrite Hx. auto.
  - apply takes_reads_true.
  - apply free_none. reflexivity.
  - intros s' (e & _ & _ & ->). reflexivity.
  - intros Hc. unfold filled_list. rewrite Hc. reflexivity.
  - intros Hc s' (e & -> & Hg & ->). unfold put.
    assert (Hd := ay_value_delimiter _ _ _ H). rewrite Hc in Hd. says_split H.
    apply says_delimiter_none in Hd.
    destruct Hd as [N1 N2]. intros c. split.
    + intros [= <-]. right. exists (Some e). split; [|easy]. apply in_new. now right.
    + intros [(e' & Hin & Hf)|(w & Hin & ->)]; [|easy].
      apply in_other in Hin; [|reflexivity]. now destruct (N1 e' c).
Qed.
Lemma step_value_enum l s v : arg_says [] l (as_meta s) ->
  step_ok l s (Item (bs "value_enum") v) (once (bs "value_enum") VkNothing).
Proof.
  intros H. set (put := mkArgSrc (as_meta s) true (as_help s) (as_long_help s)).
  apply (step_slot l s _ v _ _ 16 (as_value_enum s = false) (fun s' => v = None /\ s' = put)).
  - intros s'. etransitivity; [exact (apply_some arg_update s (Item _ v) s')|].
    change ((put, (if as_value_enum s then [AE_duplicated] else []), Some (value_toks v)) =
            (s', [], Some []) <-> as_value_enum s = false /\ v = None /\ s' = put).
    destruct (as_value_enum s), v; cbn; split; try discriminate; try (intros (? & ? & ?); discriminate).
    + intros [= <-]. auto.
    + intros (_ & _ & ->). auto.
  - destruct v; cbn; split; try easy; eauto. intros (? & ? & ?). discriminate.
  - apply free_false. reflexivity.
  - intros s' (_ & ->). reflexivity.
  - intros Hc. unfold filled_list. rewrite Hc. reflexivity.
  - intros Hc s' (-> & ->). unfold put. says_split H.
Qed.

(** ** All the items of a field *)

Lemma arg_step l s i : good_items arg_table l -> arg_inv l s ->
  (forall s', apply arg_update s i = Some s' ->
     good_items arg_table (l ++ [i]) /\ arg_inv (l ++ [i]) s') /\
  (good_items arg_table (l ++ [i]) -> exists s', apply arg_update s i = Some s').
Proof.
  intros Hg [Hs Hy]. destruct i as [n v].
  assert (Hrow : forall r, row_of arg_table n = Some r -> step_ok l s (Item n v) r ->
    (forall s', apply arg_update s (Item n v) = Some s' ->
       good_items arg_table (l ++ [Item n v]) /\ arg_inv (l ++ [Item n v]) s') /\
    (good_items arg_table (l ++ [Item n v]) -> exists s', apply arg_update s (Item n v) = Some s')).
  { intros r Hr [F B]. split.
    - intros s' E. destruct (F s' E) as (F1 & F2 & F3 & F4). split.
      + apply good_items_snoc; [exact arg_table_nodup|]. split; [exact Hg|]. exists r.
        split; [exact Hr|]. split; [exact F1|]. intros m Hm Hin. apply Hs in Hin.
        rewrite (F2 m Hm) in Hin. discriminate.
      + split; [|exact F4]. intros m. rewrite (slots_step l n v r Hr), in_app_iff, F3, <- Hs.
        destruct (r_slot r) as [k|]; cbn; split; intros [?|?]; auto; try discriminate; try easy.
        * right. destruct H as [->|[]]. easy.
        * right. injection H as ->. auto.
    - intros Hgi. apply good_items_snoc in Hgi; [|exact arg_table_nodup].
      destruct Hgi as [_ (r' & Hr' & Ht & Hn)]. cbn [it_name it_value] in *.
      assert (r' = r) by congruence. subst r'. apply B; [exact Ht|].
      intros m Hm. specialize (Hn m Hm). rewrite Hs in Hn. destruct (filled s m); congruence. }
  destruct (arg_names n) as [Hn|[Hk Hr]].
  - cbn [map fst arg_keys] in Hn.
    destruct Hn as [<-|Hn]; [eapply Hrow; [reflexivity|exact (step_long l s v Hy)]|].
    destruct Hn as [<-|Hn]; [eapply Hrow; [reflexivity|exact (step_short l s v Hy)]|].
    destruct Hn as [<-|Hn]; [eapply Hrow; [reflexivity|exact (step_alias l s v Hy)]|].
    destruct Hn as [<-|Hn]; [eapply Hrow; [reflexivity|exact (step_aliases l s v Hy)]|].
    destruct Hn as [<-|Hn]; [eapply Hrow; [reflexivity|exact (step_short_alias l s v Hy)]|].
    destruct Hn as [<-|Hn]; [eapply Hrow; [reflexivity|exact (step_short_aliases l s v Hy)]|].
    destruct Hn as [<-|Hn]; [eapply Hrow; [reflexivity|exact (step_value_name l s v Hy)]|].
    destruct Hn as [<-|Hn]; [eapply Hrow; [reflexivity|exact (step_require_equals l s v Hy)]|].
    destruct Hn as [<-|Hn]; [eapply Hrow; [reflexivity|exact (step_global l s v Hy)]|].
    destruct Hn as [<-|Hn]; [eapply Hrow; [reflexivity|exact (step_allow_hyphen_values l s v Hy)]|].
    destruct Hn as [<-|Hn]; [eapply Hrow; [reflexivity|exact (step_allow_negative_numbers l s v Hy)]|].
    destruct Hn as [<-|Hn]; [eapply Hrow; [reflexivity|exact (step_trailing_var_arg l s v Hy)]|].
    destruct Hn as [<-|Hn]; [eapply Hrow; [reflexivity|exact (step_last l s v Hy)]|].
    destruct Hn as [<-|Hn]; [eapply Hrow; [reflexivity|exact (step_default_value l s v Hy)]|].
    destruct Hn as [<-|Hn]; [eapply Hrow; [reflexivity|exact (step_default_value_t l s v Hy)]|].
    destruct Hn as [<-|Hn]; [eapply Hrow; [reflexivity|exact (step_default_values_t l s v Hy)]|].
    destruct Hn as [<-|Hn]; [eapply Hrow; [reflexivity|exact (step_use_value_delimiter l s v Hy)]|].
    destruct Hn as [<-|Hn]; [eapply Hrow; [reflexivity|exact (step_value_delimiter l s v Hy)]|].
    destruct Hn as [<-|Hn]; [eapply Hrow; [reflexivity|exact (step_value_enum l s v Hy)]|].
    destruct Hn as [<-|Hn]; [eapply Hrow; [reflexivity|exact (step_ignore_case l s v Hy)]|].
    destruct Hn as [<-|Hn]; [eapply Hrow; [reflexivity|exact (step_help l s v Hy)]|].
    destruct Hn as [<-|Hn]; [eapply Hrow; [reflexivity|exact (step_long_help l s v Hy)]|].
    destruct Hn as [<-|Hn]; [eapply Hrow; [reflexivity|exact (step_hide l s v Hy)]|].
    destruct Hn as [<-|Hn]; [eapply Hrow; [reflexivity|exact (step_required l s v Hy)]|].
    destruct Hn as [<-|Hn]; [eapply Hrow; [reflexivity|exact (step_exclusive l s v Hy)]|].
    destruct Hn as [<-|Hn]; [eapply Hrow; [reflexivity|exact (step_requires l s v Hy)]|].
    destruct Hn as [<-|Hn]; [eapply Hrow; [reflexivity|exact (step_conflicts_with l s v Hy)]|].
    destruct Hn as [<-|Hn]; [eapply Hrow; [reflexivity|exact (step_conflicts_with_all l s v Hy)]|].
    destruct Hn.
  - split.
    + intros s' E. apply apply_some in E. cbn [it_name it_value] in E. unfold arg_update in E.
      rewrite Hk in E. discriminate.
    + intros Hgi. apply good_items_snoc in Hgi; [|exact arg_table_nodup].
      destruct Hgi as [_ (r' & Hr' & _)]. cbn [it_name] in Hr'. congruence.
Qed.

Lemma good_items_nil table : good_items (V := V) table [].
Proof. split; constructor. Qed.

Lemma arg_all l : 
  (forall s', apply_all arg_update arg_default l = Some s' ->
     good_items arg_table l /\ arg_inv l s') /\
  (good_items arg_table l -> exists s', apply_all arg_update arg_default l = Some s').
Proof.
  exact (apply_all_good arg_update arg_table arg_inv arg_step l [] arg_default
           (good_items_nil _) arg_inv_nil).
Qed.
End Arg.
