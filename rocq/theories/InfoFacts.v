(** The reflection data of an accepted declaration. *)
From Verif Require Import Bytes BytesFacts Utf8 Utf8Facts Attrs AttrFacts Refl Error Values SortFacts
  Places Heck Decl Spec Derive CompileFacts VariantFacts.
From Coq Require Import Permutation Sorted.

Section Info.
Context {V : Type}.
Local Notation args_decl := (args_decl V).
Local Notation sarg := (sarg V).
Implicit Types (d : args_decl) (a : sarg).

(** ** One argument *)

Local Notation kind a := (kind_of_shape (shape_a a)).

Record arg_facts (a : sarg) : Prop := {
  ar_default : snd (compute_default (kind a) (value_of_ty (sa_ty a)) (sa_meta a)) = [];
  ar_required : dflt_of a <> None -> am_required (sa_meta a) = false;
  ar_delim : am_value_delimiter (sa_meta a) <> None -> many a = true;
  ar_delim_scalar : forall c, am_value_delimiter (sa_meta a) = Some c -> is_scalar c = true;
  ar_hyphen_both :
    am_allow_hyphen_values (sa_meta a) && am_allow_negative_numbers (sa_meta a) = false;
  ar_hyphen : am_allow_hyphen_values (sa_meta a) || am_allow_negative_numbers (sa_meta a) = true ->
    takes_value a = true /\ needs_equals a = false;
  ar_value_name : existsb is_ascii_control (value_name a) = false;
  ar_value_name_utf8 : utf8_valid (value_name a) = true;
  ar_optopt : shape_a a = ShOptOpt -> needs_equals a = true;
  ar_parser : shape_a a <> ShFlag -> exists p, infer_parser (value_of_ty (sa_ty a)) = Some p;
  ar_ignore : am_ignore_case (sa_meta a) = true ->
    exists names inj vs, vt_value_enum (value_of_ty (sa_ty a)) = Some (names, inj) /\
      ve_expand names = inl vs /\ ve_no_upper_case vs = true;
  ar_ident : ident_ok (sa_id a) = true;
  ar_named : is_option a = true ->
    is_last a = false /\ am_trailing_var_arg (sa_meta a) = false /\
    name_errs (sa_id a) (sa_meta a) = [];
  ar_pos : is_option a = false ->
    needs_equals a = false /\ is_global a = false /\ am_ignore_case (sa_meta a) = false /\
    am_allow_hyphen_values (sa_meta a) = false /\ am_allow_negative_numbers (sa_meta a) = false /\
    (is_last a = true -> many a = true)
}.

Lemma require_value_shape a : require_value (kind a) = takes_value a.
Proof. unfold takes_value. destruct (shape_a a); reflexivity. Qed.
Lemma accepts_multiple_shape a : accepts_multiple_values (kind a) = many a.
Proof. unfold many. destruct (shape_a a); reflexivity. Qed.

Lemma accept_hyphen_zero (m : arg_meta V) :
  am_allow_hyphen_values m && am_allow_negative_numbers m = false ->
  negb (accept_hyphen_of m =? 0)%N = am_allow_hyphen_values m || am_allow_negative_numbers m.
Proof.
  unfold accept_hyphen_of.
  destruct (am_allow_hyphen_values m), (am_allow_negative_numbers m); try discriminate; reflexivity.
Qed.

Lemma arg_facts_of a : errs_of a = [] -> arg_facts a.
Proof.
  unfold errs_of, compile_field. rewrite classify_shape. fold (shape_a a).
  assert (Ed : dflt_of a = fst (compute_default (kind a) (value_of_ty (sa_ty a)) (sa_meta a)))
    by reflexivity.
  destruct (compute_default (kind a) (value_of_ty (sa_ty a)) (sa_meta a)) as [df es] eqn:Edf.
  cbn [fst] in Ed.
  assert (Hn : is_named (sa_meta a) = is_option a) by reflexivity. rewrite Hn. clear Hn.
  match goal with |- snd (if _ then (_, _, ?c ++ ?n1) else (_, _, ?c ++ ?n2)) = [] -> _ =>
    set (common := c); set (e1 := n1); set (e2 := n2) end.
  intros H.
  assert (Hc : common = []).
  { destruct (is_option a); cbn [snd] in H; apply app_nil in H; tauto. }
  assert (H1 : is_option a = true -> e1 = []).
  { intros E. rewrite E in H. cbn [snd] in H. apply app_nil in H. tauto. }
  assert (H2 : is_option a = false -> e2 = []).
  { intros E. rewrite E in H. cbn [snd] in H. apply app_nil in H. tauto. }
  unfold common in Hc. rewrite !app_nil, !cerr_when_nil in Hc.
  destruct Hc as (C1 & C2 & C3 & C4 & C5 & C6 & C7 & C8 & C9 & C10 & C11).
  rewrite require_value_shape in C5. rewrite accepts_multiple_shape in C3.
  rewrite accept_hyphen_zero in C5 by exact C4.
  apply orb_false_iff in C11. destruct C11 as [C11 C12].
  constructor.
  - rewrite Edf. exact C1.
  - rewrite Ed. destruct df; [|contradiction]. intros _. exact C2.
  - destruct (am_value_delimiter (sa_meta a)); [|contradiction]. intros _.
    destruct (many a); [reflexivity|discriminate].
  - intros c Hc. rewrite Hc in C12. destruct (is_scalar c); [reflexivity|discriminate].
  - exact C4.
  - intros Hh. rewrite Hh in C5. simpl in C5. apply orb_false_iff in C5. destruct C5 as [C5 C5'].
    split; [|exact C5']. destruct (takes_value a); [reflexivity|discriminate].
  - exact C6.
  - unfold value_name_of in C11. unfold value_name. apply negb_false_iff. exact C11.
  - intros Hs. unfold needs_equals. rewrite Hs in C7. simpl in C7.
    destruct (am_require_equals (sa_meta a)); [reflexivity|discriminate].
  - intros Hs. destruct (infer_parser (value_of_ty (sa_ty a))) as [p|]; [eauto|].
    destruct (shape_a a); try discriminate. contradiction.
  - intros Hi. rewrite Hi in C9. simpl in C9.
    destruct (vt_value_enum (value_of_ty (sa_ty a))) as [[names inj]|]; [|discriminate].
    destruct (ve_expand names) as [vs|] eqn:Ev; [|discriminate].
    apply negb_false_iff in C9. eauto 8.
  - destruct (ident_ok (sa_id a)); [reflexivity|discriminate].
  - intros Ho. specialize (H1 Ho). unfold e1 in H1. rewrite app_nil, cerr_when_nil in H1.
    destruct H1 as [H1 H1']. apply orb_false_iff in H1. tauto.
  - intros Ho. specialize (H2 Ho). unfold e2 in H2. rewrite !app_nil, !cerr_when_nil in H2.
    destruct H2 as (X1 & X2 & X3). rewrite !orb_false_iff in X1.
    rewrite accept_hyphen_zero in X2 by exact C4. apply orb_false_iff in X2.
    rewrite accepts_multiple_shape in X3. unfold needs_equals, is_global.
    do 3 (split; [tauto|]). split; [tauto|]. split; [tauto|].
    intros Hl. unfold is_last in Hl. rewrite Hl in X3. destruct (many a); [reflexivity|discriminate].
Qed.

(** The default. *)
Lemma dflt_of_spec a : arg_facts a ->
  match default_of a with
  | SdNone => dflt_of a = None /\ has_default a = false /\ default_text a = None
  | SdText s => dflt_of a = Some (DfParseStr s) /\ has_default a = true /\ default_text a = Some s
  | SdValue v => exists t, dflt_of a = Some (DfValueExpr v t) /\ has_default a = true /\
                           default_text a = Some t /\ dval_fits (kind a) v = true
  end.
Proof.
  intros [Hd _ _ _ _ _ _ _ _ Hp _ _ _ _]. unfold dflt_of, has_default, default_text, default_of.
  unfold compute_default in *.
  destruct (am_default_value_t (sa_meta a)) as [[|e]|]; destruct (am_default_value (sa_meta a)) as [s|];
    cbn [snd] in Hd; try discriminate.
  - unfold value_expr, inherit_default in *.
    destruct (shape_a a) eqn:Hs; cbn [kind_of_shape fst snd dx_val] in *;
      try (destruct (vt_default (value_of_ty (sa_ty a))) as [v|]; [|discriminate]; cbn [fst snd dx_val] in *);
      eexists; (split; [reflexivity|]); (split; [reflexivity|]); (split; [|first [reflexivity|discriminate]]);
      cbn [expr_display dx_literal dx_val]; [reflexivity| | | | |];
      (destruct (Hp ltac:(discriminate)) as [p Ep]; exact (f_equal Some (eq_sym (shown_text _ v p Ep)))).
  - unfold value_expr in *. cbn [fst snd] in *. apply app_nil in Hd. destruct Hd as [Hd _].
    apply cerr_when_nil, negb_false_iff in Hd.
    exists (match expr_display (value_of_ty (sa_ty a)) e with Some s => s | None => [] end).
    split; [reflexivity|]. split; [reflexivity|]. split; [|exact Hd].
    destruct e as [w [l|]]; cbn [expr_display dx_literal dx_val] in *; [reflexivity|].
    destruct w as [b|v|l|o]; [reflexivity| |reflexivity|reflexivity].
    assert (Hs : shape_a a <> ShFlag) by (intros Hs; rewrite Hs in Hd; discriminate).
    destruct (Hp Hs) as [p Ep]. exact (f_equal Some (eq_sym (shown_text _ v p Ep))).
  - auto.
  - auto.
Qed.
Lemma required_spec a : arg_facts a -> required_of (kind a) (sa_meta a) (dflt_of a) = is_required a.
Proof.
  intros Ha. pose proof (dflt_of_spec a Ha) as H. unfold required_of, is_required.
  destruct (default_of a).
  - destruct H as (-> & -> & _). simpl. f_equal. destruct (shape_a a); reflexivity.
  - destruct H as (-> & -> & _). reflexivity.
  - destruct H as (t & -> & -> & _). reflexivity.
Qed.

(** The description. *)
Lemma description_spec a : arg_facts a -> fi_description (field_of a) = describe a.
Proof.
  intros Ha. rewrite field_of_spec. cbn [fi_description]. rewrite required_spec by exact Ha.
  unfold describe. destruct (is_option a).
  - unfold named_description, value_part, needs_equals.
    change (primary_short (sa_id a) (sa_meta a)) with (short_name a).
    change (primary_long (sa_id a) (sa_meta a)) with (long_name a).
    change (value_name_of (sa_id a) (sa_meta a)) with (value_name a).
    assert (E : (if kind_eqb (kind a) KOptionOption then bs "[=<" ++ value_name a ++ bs ">]"
       else if require_value (kind a)
            then (if am_require_equals (sa_meta a) then bs "=" else bs " ") ++ bs "<" ++ value_name a ++ bs ">"
            else []) =
      match shape_a a with
      | ShFlag => []
      | ShOptOpt => bs "[=<" ++ value_name a ++ bs ">]"
      | _ => (if am_require_equals (sa_meta a) then bs "=<" else bs " <") ++ value_name a ++ bs ">"
      end).
    { destruct (shape_a a); try reflexivity; destruct (am_require_equals (sa_meta a)); reflexivity. }
    rewrite E. destruct (short_name a), (long_name a); reflexivity.
  - unfold positional_description. rewrite accepts_multiple_shape.
    change (value_name_of (sa_id a) (sa_meta a)) with (value_name a). reflexivity.
Qed.

(** ** Names *)

Definition enc_of (n : name) : bytes :=
  match n with Long s => bs "--" ++ s | Short c => utf8_encode c end.
Definition name_ok (n : name) : Prop :=
  match n with Long _ => True | Short c => is_scalar c = true end.

Record names_facts (a : sarg) : Prop := {
  nm_long : forall s, In s (long_names (sa_id a) (sa_meta a)) ->
    s <> [] /\ starts_with [c_dash] s = false /\ utf8_valid s = true /\
    forall b, In b s -> b <> c_eq /\ is_ascii_control b = false;
  nm_short : forall c, In c (short_names (sa_id a) (sa_meta a)) ->
    c <> 45%N /\ c <> 61%N /\ (32 <= c)%N /\ c <> 127%N /\ is_scalar c = true
}.
Lemma existsb_false {A} (p : A -> bool) l : existsb p l = false <-> forall x, In x l -> p x = false.
Proof.
  split.
  - intros H x Hx. destruct (p x) eqn:E; [|reflexivity].
    assert (existsb p l = true) by (apply existsb_exists; eauto). congruence.
  - intros H. destruct (existsb p l) eqn:E; [|reflexivity]. apply existsb_exists in E.
    destruct E as (x & Hx & E). rewrite H in E by exact Hx. discriminate.
Qed.
Lemma names_facts_of a : name_errs (sa_id a) (sa_meta a) = [] -> names_facts a.
Proof.
  unfold name_errs. rewrite !app_nil, !cerr_when_nil. intros (H1 & H2 & H3 & H4).
  rewrite concat_nil in H1, H2. pose proof (proj1 (existsb_false _ _) H3) as H3'. pose proof (proj1 (existsb_false _ _) H4) as H4'.
  clear H3 H4. rename H3' into H3. rename H4' into H4. constructor.
  - intros s Hs.
    assert (E : snd (encode_long_name s) = []).
    { apply H1. apply in_map_iff. exists s. auto. }
    unfold encode_long_name in E. cbn [snd] in E. apply cerr_when_nil in E.
    rewrite !orb_false_iff in E. destruct E as ((E1 & E2) & E3).
    split; [destruct s; [discriminate|discriminate]|]. split; [exact E2|].
    split; [apply negb_false_iff; apply H3; exact Hs|].
    intros b Hb. pose proof (proj1 (existsb_false _ _) E3 b Hb) as E3'. clear E3. rename E3' into E3. apply orb_false_iff in E3.
    destruct E3 as [E3 E4]. split; [apply byte_eqb_neq; exact E3|exact E4].
  - intros c Hc.
    assert (E : snd (encode_short_name c) = []).
    { apply H2. apply in_map_iff. exists c. auto. }
    unfold encode_short_name in E. cbn [snd] in E. apply cerr_when_nil in E.
    specialize (H4 c Hc). apply negb_false_iff in H4.
    rewrite !orb_false_iff in E. destruct E as ((E1 & E2) & E3 & E4).
    apply N.eqb_neq in E1, E2, E4. apply N.leb_gt in E3. repeat split; auto. lia.
Qed.

Lemma short_not_long c s : is_scalar c = true -> utf8_encode c <> bs "--" ++ s.
Proof.
  intros Hc E.
  assert (E' : utf8_encode c ++ [] = utf8_encode 45 ++ (c_dash :: s)).
  { rewrite app_nil_r, E. reflexivity. }
  apply utf8_encode_prefix in E'; [|exact Hc|reflexivity]. destruct E'. discriminate.
Qed.

Lemma has_nameb_spec a n : has_nameb a n = true <-> has_name a n.
Proof.
  unfold has_nameb, has_name. rewrite andb_true_iff.
  destruct n as [s|c]; rewrite orb_true_iff.
  - rewrite existsb_beqb_In. unfold opt_is. destruct (long_name a) as [l|].
    + rewrite beqb_eq. split; intros [H [H'|H']]; split; auto; right; congruence.
    + split; intros [H [H'|H']]; split; auto; discriminate.
  - rewrite existsb_exists. unfold opt_is.
    assert (E : (exists x, In x (am_short_alias (sa_meta a)) /\ (c =? x)%N = true)
                <-> In c (am_short_alias (sa_meta a))).
    { split; [intros (x & Hx & E); apply N.eqb_eq in E; congruence|].
      intros Hc. exists c. split; [exact Hc|apply N.eqb_refl]. }
    rewrite E. destruct (short_name a) as [x|].
    + rewrite N.eqb_eq. split; intros [H [H'|H']]; split; auto; right; congruence.
    + split; intros [H [H'|H']]; split; auto; discriminate.
Qed.

Lemma in_opt_list {A} (o : option A) x : In x (opt_list o) <-> o = Some x.
Proof. destruct o; simpl; split; [intros [->|[]]; reflexivity|intros H; left; congruence|tauto|discriminate]. Qed.

Lemma in_long_names a s :
  In s (long_names (sa_id a) (sa_meta a)) <-> In s (am_alias (sa_meta a)) \/ long_name a = Some s.
Proof. unfold long_names. rewrite in_app_iff, in_opt_list. reflexivity. Qed.
Lemma in_short_names a c :
  In c (short_names (sa_id a) (sa_meta a)) <-> In c (am_short_alias (sa_meta a)) \/ short_name a = Some c.
Proof. unfold short_names. rewrite in_app_iff, in_opt_list. reflexivity. Qed.

Lemma has_name_enc a n :
  arg_facts a -> name_ok n -> is_option a = true ->
  (has_nameb a n = true <-> In (enc_of n) (enc_names a)).
Proof.
  intros Ha Hn Ho. rewrite has_nameb_spec. unfold has_name, enc_names, enc_names_of.
  destruct (ar_named a Ha Ho) as (_ & _ & Hne). apply names_facts_of in Hne. destruct Hne as [_ Hs].
  rewrite in_app_iff, !in_map_iff. destruct n as [s|c]; cbn [enc_of encode_long_name encode_short_name fst].
  - rewrite <- in_long_names. split.
    + intros [_ H]. left. exists s. auto.
    + intros [(s' & E & H)|(c & E & H)].
      * apply app_inv_head in E. subst. auto.
      * exfalso. destruct (Hs c H) as (_ & _ & _ & _ & Hc). exact (short_not_long c s Hc E).
  - rewrite <- in_short_names. split.
    + intros [_ H]. right. exists c. auto.
    + intros [(s' & E & H)|(c' & E & H)].
      * exfalso. exact (short_not_long c s' Hn (eq_sym E)).
      * destruct (Hs c' H) as (_ & _ & _ & _ & Hc). apply utf8_encode_inj in E; [|assumption..].
        subst. auto.
Qed.
Lemma has_name_positional a n : is_option a = false -> has_nameb a n = false.
Proof. intros H. unfold has_nameb. rewrite H. reflexivity. Qed.

Lemma enc_names_utf8 a n :
  arg_facts a -> is_option a = true -> In n (enc_names a) -> utf8_valid n = true.
Proof.
  intros Ha Ho. destruct (ar_named a Ha Ho) as (_ & _ & Hne). apply names_facts_of in Hne.
  destruct Hne as [Hl Hs]. unfold enc_names, enc_names_of. rewrite in_app_iff, !in_map_iff.
  cbn [encode_long_name encode_short_name fst].
  intros [(s & <- & H)|(c & <- & H)].
  - destruct (Hl s H) as (_ & _ & Hv & _). apply utf8_valid_spec in Hv. destruct Hv as (cs & Hcs & ->).
    apply utf8_valid_spec. exists (45 :: 45 :: cs)%N. split; [exact Hcs|reflexivity].
  - destruct (Hs c H) as (_ & _ & _ & _ & Hc). apply utf8_valid_encode. exact Hc.
Qed.

(** ** Flags *)

Lemma bit_ge8 : (8 <= 16 /\ 8 <= 17 /\ 8 <= 18 /\ 8 <= 19 /\ 8 <= 20 /\ 8 <= 21 /\ 8 <= 22 /\ 8 <= 23 /\ 8 <= 24)%N.
Proof. lia. Qed.

Section Flags.
Variables (d : args_decl) (i : nat) (a : sarg).
Hypothesis Hacc : accepted d.
Hypothesis Hi : nth_error (checked d) i = Some a.
Let Hlt := checked_lt d i a Hacc Hi.

Lemma flag_arg n : (8 <= n)%N -> contains (arg_attrs i a) (2 ^ n)%N = contains (fi_attrs (field_of a)) (2 ^ n)%N.
Proof. intros Hn. unfold arg_attrs. apply contains_set_index; [exact Hlt|exact Hn]. Qed.

Lemma flag_option n : (8 <= n)%N -> is_option a = true ->
  contains (arg_attrs i a) (2 ^ n)%N = contains (base_attrs (kind a) (sa_meta a)) (2 ^ n)%N.
Proof. intros Hn Ho. rewrite flag_arg by exact Hn. rewrite field_of_spec. cbn [fi_attrs]. rewrite Ho. reflexivity. Qed.
Lemma flag_pos n : (8 <= n)%N -> is_option a = false ->
  contains (arg_attrs i a) (2 ^ n)%N = contains (positional_attrs_of (kind a) (sa_meta a)) (2 ^ n)%N.
Proof. intros Hn Ho. rewrite flag_arg by exact Hn. rewrite field_of_spec. cbn [fi_attrs]. rewrite Ho. reflexivity. Qed.

Lemma flag_REQUIRE_VALUE : is_option a = true -> contains (arg_attrs i a) REQUIRE_VALUE = takes_value a.
Proof. intros Ho. etransitivity; [apply (flag_option 16%N); [lia|exact Ho]|]. etransitivity; [apply base_REQUIRE_VALUE|]. apply require_value_shape. Qed.
Lemma flag_REQUIRE_EQ : is_option a = true -> contains (arg_attrs i a) REQUIRE_EQ = needs_equals a.
Proof. intros Ho. etransitivity; [apply (flag_option 17%N); [lia|exact Ho]|]. apply base_REQUIRE_EQ. Qed.
Lemma flag_GLOBAL : is_option a = true -> contains (arg_attrs i a) GLOBAL = is_global a.
Proof. intros Ho. etransitivity; [apply (flag_option 20%N); [lia|exact Ho]|]. apply base_GLOBAL. Qed.
Lemma flag_LOWER : is_option a = true -> contains (arg_attrs i a) MAKE_LOWERCASE = am_ignore_case (sa_meta a).
Proof. intros Ho. etransitivity; [apply (flag_option 21%N); [lia|exact Ho]|]. apply base_LOWER. Qed.
Lemma flag_ANY : arg_facts a -> is_option a = true ->
  contains (arg_attrs i a) ACCEPT_HYPHEN_ANY = am_allow_hyphen_values (sa_meta a).
Proof.
  intros Ha Ho. etransitivity; [apply (flag_option 18%N); [lia|exact Ho]|]. etransitivity; [apply base_ANY|].
  pose proof (ar_hyphen_both a Ha).
  destruct (am_allow_hyphen_values (sa_meta a)), (am_allow_negative_numbers (sa_meta a)); try reflexivity; discriminate.
Qed.
Lemma flag_NUM : arg_facts a -> is_option a = true ->
  contains (arg_attrs i a) ACCEPT_HYPHEN_NUM = am_allow_negative_numbers (sa_meta a).
Proof.
  intros Ha Ho. etransitivity; [apply (flag_option 19%N); [lia|exact Ho]|]. etransitivity; [apply base_NUM|].
  pose proof (ar_hyphen_both a Ha).
  destruct (am_allow_hyphen_values (sa_meta a)), (am_allow_negative_numbers (sa_meta a)); try reflexivity; discriminate.
Qed.
Lemma flag_VAR_ARG : is_option a = false -> contains (arg_attrs i a) VAR_ARG = many a.
Proof. intros Ho. etransitivity; [apply (flag_pos 22%N); [lia|exact Ho]|]. etransitivity; [apply pos_VAR_ARG|]. apply accepts_multiple_shape. Qed.
Lemma flag_LAST : is_option a = false -> contains (arg_attrs i a) LAST = is_last a.
Proof. intros Ho. etransitivity; [apply (flag_pos 24%N); [lia|exact Ho]|]. apply pos_LAST. Qed.
Lemma flag_GREEDY : is_option a = false -> contains (arg_attrs i a) GREEDY = greedy a.
Proof. intros Ho. etransitivity; [apply (flag_pos 23%N); [lia|exact Ho]|]. apply pos_GREEDY. Qed.
Lemma flag_opt_LAST : is_option a = true -> contains (arg_attrs i a) LAST = false.
Proof. intros Ho. etransitivity; [apply (flag_option 24%N); [lia|exact Ho]|]. apply base_LAST. Qed.
Lemma flag_opt_VAR_ARG : is_option a = true -> contains (arg_attrs i a) VAR_ARG = false.
Proof. intros Ho. etransitivity; [apply (flag_option 22%N); [lia|exact Ho]|]. apply base_VAR_ARG. Qed.
End Flags.
End Info.
