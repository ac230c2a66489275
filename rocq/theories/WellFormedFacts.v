(** The macros accept exactly the well-formed declarations. *)
From Verif Require Import Bytes BytesFacts Utf8 Utf8Facts Attrs AttrFacts Refl Error Values SortFacts
  Places Heck Decl Spec Derive CompileFacts InfoFacts PlaceFacts Observe EnumDerive EnumFacts Parts
  PartsFacts WellFormed.
From Coq Require Import Permutation.

(** ** Characters and identifiers *)

Lemma is_text_iff s : utf8_valid s = true <-> is_text s.
Proof. apply utf8_valid_iff. Qed.
Lemma clean_iff s : existsb is_ascii_control s = false <-> Forall (fun b => ~ control b) s.
Proof.
  rewrite existsb_false, Forall_forall. split; intros H b Hb; specialize (H b Hb); pose proof (control_spec b) as C.
  - intros K. apply C in K. congruence.
  - destruct (is_ascii_control b); [|reflexivity]. exfalso. apply H, C. reflexivity.
Qed.
Lemma upper_spec b : is_ascii_upper b = true <-> upper_letter b.
Proof. unfold is_ascii_upper, upper_letter. rewrite andb_true_iff, !N.leb_le. tauto. Qed.
Lemma lower_spec b : is_ascii_lower b = true <-> lower_letter b.
Proof. unfold is_ascii_lower, lower_letter. rewrite andb_true_iff, !N.leb_le. tauto. Qed.
Lemma digit_spec b : is_ascii_digit b = true <-> digit b.
Proof. unfold is_ascii_digit, digit. rewrite andb_true_iff, !N.leb_le. tauto. Qed.
Lemma ident_char_spec b : ident_char b = true <-> ident_byte b.
Proof.
  unfold ident_char, ident_byte, is_alnum. rewrite !orb_true_iff, upper_spec, lower_spec, digit_spec, byte_eqb_eq. tauto.
Qed.
Lemma ident_ok_iff s : ident_ok s = true <-> identifier s.
Proof.
  unfold ident_ok, identifier.
  set (body := fun t : bytes => match t with [] => false | c :: _ => negb (is_ascii_digit c) && forallb ident_char t end).
  assert (Hb : forall t, body t = true <-> exists c r, t = c :: r /\ ~ digit c /\ Forall ident_byte (c :: r)).
  { intros [|c r]; unfold body.
    - split; [discriminate|]. intros (c & r & E & _). discriminate.
    - rewrite andb_true_iff, negb_true_iff, forallb_forall. split.
      + intros [H1 H2]. exists c, r. split; [reflexivity|]. split.
        * intros K. apply digit_spec in K. congruence.
        * apply Forall_forall. intros b Hb. apply ident_char_spec. auto.
      + intros (c' & r' & E & H1 & H2). injection E as <- <-. split.
        * destruct (is_ascii_digit c) eqn:K; [|reflexivity]. exfalso. apply H1, digit_spec. exact K.
        * rewrite Forall_forall in H2. intros b Hb. apply ident_char_spec. auto. }
  change (body (match strip_prefix (bs "r#") s with Some s' => s' | None => s end) = true <->
          exists c r, (s = c :: r \/ s = bs "r#" ++ c :: r) /\ ~ digit c /\ Forall ident_byte (c :: r)).
  rewrite Hb. destruct (strip_prefix (bs "r#") s) as [t|] eqn:E.
  - apply strip_prefix_Some in E. subst s. split.
    + intros (c & r & -> & H). exists c, r. split; [right; reflexivity|exact H].
    + intros (c & r & [Hs|Hs] & H).
      * exfalso. destruct H as [_ H]. rewrite <- Hs in H. rewrite Forall_forall in H.
        specialize (H "#"%byte). destruct H as [H|[H|[H|H]]]; [right; left; reflexivity| | | |discriminate].
        -- unfold lower_letter in H. vm_compute in H. destruct H as [H _]. apply H. reflexivity.
        -- unfold upper_letter in H. vm_compute in H. destruct H as [H _]. apply H. reflexivity.
        -- unfold digit in H. vm_compute in H. destruct H as [H _]. apply H. reflexivity.
      * apply app_inv_head in Hs. subst t. eauto.
  - split.
    + intros (c & r & -> & H). exists c, r. split; [left; reflexivity|exact H].
    + intros (c & r & [Hs|Hs] & H); [eauto|]. exfalso. subst s. rewrite strip_prefix_app in E. discriminate.
Qed.

(** Doc comments. *)
Lemma doc_extend_blank doc l : Forall space doc -> Forall space l -> Forall space (doc_extend doc l).
Proof.
  intros Hd Hl. unfold doc_extend.
  assert (E : trim_ascii l = []).
  { apply trim_ascii_iff. constructor.
    - exists l, []. rewrite app_nil_r. auto.
    - discriminate.
    - intros [|? ?] ?; discriminate. }
  rewrite E. destruct (ends_with_nl doc); [exact Hd|]. apply Forall_app. split; [exact Hd|].
  constructor; [|constructor]. unfold space. simpl. auto.
Qed.
Lemma doc_extend_solid doc l b : (In b doc \/ In b l) -> ~ space b -> In b (doc_extend doc l).
Proof.
  intros H Hb. unfold doc_extend.
  assert (Ht : In b l -> In b (trim_ascii l)).
  { intros Hi. pose proof (proj1 (trim_ascii_iff l (trim_ascii l)) eq_refl) as [(x & y & E & Hx & Hy) _ _].
    rewrite E, !in_app_iff in Hi. rewrite Forall_forall in Hx, Hy. destruct Hi as [Hi|[Hi|Hi]]; auto; exfalso; auto. }
  destruct (trim_ascii l) as [|c t] eqn:E.
  - destruct H as [H|H]; [|destruct (Ht H)]. destruct (ends_with_nl doc); [exact H|]. apply in_app_iff. auto.
  - destruct H as [H|H].
    + apply in_app_iff. left. destruct doc; [exact H|]. destruct (ends_with_nl _); [exact H|]. apply in_app_iff. auto.
    + apply in_app_iff. right. auto.
Qed.
Lemma doc_blank ls : doc_process ls = [] <-> Forall (Forall space) ls.
Proof.
  unfold doc_process.
  assert (Ht : forall s, trim_end s = [] <-> Forall space s).
  { intros s. destruct (trim_end_spec s) as (r & E & Hr & Hl). split.
    - intros K. rewrite K in E. simpl in E. congruence.
    - intros K. destruct (trim_end s) as [|x t] eqn:Et using rev_ind; [reflexivity|].
      exfalso. apply (Hl t x eq_refl). rewrite E in K. rewrite Forall_forall in K. apply K.
      rewrite !in_app_iff. left. right. left. reflexivity. }
  rewrite Ht.
  assert (G : forall ls doc, Forall space (fold_left doc_extend ls doc) <-> Forall space doc /\ Forall (Forall space) ls).
  { clear. induction ls as [|l ls IH]; intros doc; cbn [fold_left].
    - split; [intros H; split; [exact H|constructor]|tauto].
    - rewrite IH. split.
      + intros [H1 H2]. rewrite Forall_forall in H1.
        assert (D : forall b, space b \/ ~ space b).
        { intros b. unfold space. destruct (in_dec N.eq_dec (b2n b) [32; 9; 10; 12; 13]%N); auto. }
        split; [|constructor; [|exact H2]]; apply Forall_forall; intros b Hb; destruct (D b) as [K|K]; auto;
          apply H1; apply doc_extend_solid; auto.
      + intros [H1 H2]. inversion H2; subst. split; [apply doc_extend_blank|]; assumption. }
  rewrite G. split; [tauto|]. intros H. split; [constructor|exact H].
Qed.
Lemma bare_attrs_iff at_ : cmd_meta_of at_ = None <-> bare_attrs at_.
Proof.
  unfold cmd_meta_of, bare_attrs. rewrite <- doc_blank. destruct (ca_has_command at_); simpl.
  - split; [discriminate|]. intros [H _]. discriminate.
  - destruct (doc_process (ca_doc at_)); split; try discriminate; auto. intros [_ H]. discriminate.
Qed.

Section Facts.
Context {V : Type}.
Local Notation args_decl := (args_decl V).
Local Notation sarg := (sarg V).
Implicit Types (d : args_decl) (a : sarg).
Local Notation kind a := (kind_of_shape (shape_a a)).

(** ** One argument *)

Lemma legal_enum_iff vs : (exists l, ve_expand vs = inl l) <-> legal_enum vs.
Proof.
  rewrite ve_expand_iff. unfold legal_enum. rewrite Forall_forall. split; intros [H1 H2]; (split; [exact H1|]);
    intros n Hn; apply clean_iff; auto.
Qed.
Lemma no_upper_iff vs l : ve_expand vs = inl l ->
  (ve_no_upper_case l = true <-> Forall (Forall (fun b => ~ upper_letter b)) vs).
Proof.
  intros H. apply ve_expand_facts in H. destruct H as [_ _ _ _ Hin].
  unfold ve_no_upper_case. rewrite forallb_forall, Forall_forall.
  assert (K : forall n, forallb (fun b => negb (is_ascii_upper b)) n = true <-> Forall (fun b => ~ upper_letter b) n).
  { intros n. rewrite forallb_forall, Forall_forall. split; intros H b Hb; specialize (H b Hb); pose proof (upper_spec b) as U.
    - intros L. apply U in L. rewrite L in H. discriminate.
    - destruct (is_ascii_upper b); [|reflexivity]. exfalso. apply H, U. reflexivity. }
  split.
  - intros H n Hn. apply In_nth_error in Hn. destruct Hn as [i Hn]. apply Hin in Hn. apply H in Hn. apply K. exact Hn.
  - intros H [n i] Hv. apply Hin in Hv. cbn [vv_name]. apply K, H. eapply nth_error_In. exact Hv.
Qed.
Lemma readable_iff (u : value_ty V) : (exists p, infer_parser u = Some p) <-> readable u.
Proof.
  unfold infer_parser, readable. destruct (vt_value_enum u) as [[vs inj]|].
  - rewrite <- legal_enum_iff. split.
    + intros [p H]. destruct (ve_expand vs); [eauto|discriminate].
    + intros [l ->]. eauto.
  - split.
    + intros [p H]. destruct (vt_try_from_os u); [left; discriminate|]. destruct (vt_from_str u); [right; discriminate|discriminate].
    + intros H. destruct (vt_try_from_os u); [eauto|]. destruct (vt_from_str u); [eauto|]. destruct H; contradiction.
Qed.

Lemma name_errs_iff a : name_errs (sa_id a) (sa_meta a) = [] <-> names_facts a.
Proof.
  split; [apply names_facts_of|]. intros [Hl Hs]. unfold name_errs. rewrite !app_nil, !cerr_when_nil, !concat_nil, !existsb_false.
  split; [|split; [|split]].
  - intros x Hx. apply in_map_iff in Hx. destruct Hx as (s & <- & Hi). destruct (Hl s Hi) as (H1 & H2 & H3 & H4).
    unfold encode_long_name. cbn [snd]. apply cerr_when_nil. rewrite !orb_false_iff, existsb_false. split; [split|].
    + destruct s; [contradiction|reflexivity].
    + exact H2.
    + intros b Hb. destruct (H4 b Hb) as [H5 H6]. rewrite H6. rewrite orb_false_r. apply byte_eqb_neq. exact H5.
  - intros x Hx. apply in_map_iff in Hx. destruct Hx as (c & <- & Hi). destruct (Hs c Hi) as (H1 & H2 & H3 & H4 & H5).
    unfold encode_short_name. cbn [snd]. apply cerr_when_nil. rewrite !orb_false_iff. lia.
  - intros s Hi. destruct (Hl s Hi) as (_ & _ & H & _). rewrite H. reflexivity.
  - intros c Hi. destruct (Hs c Hi) as (_ & _ & _ & _ & H). rewrite H. reflexivity.
Qed.
Lemma legal_names_iff a : is_option a = true -> (names_facts a <-> forall n, has_name a n -> legal_name n).
Proof.
  intros Ho. assert (Hd : forall s, starts_with [c_dash] s = false <-> hd_error s <> Some c_dash).
  { intros [|x s]; [split; [discriminate|reflexivity]|]. unfold starts_with. cbn [strip_prefix hd_error].
    destruct (Byte.eqb c_dash x) eqn:E.
    - apply byte_eqb_eq in E. subst x. destruct s; split; congruence.
    - apply byte_eqb_neq in E. split; [congruence|reflexivity]. }
  split.
  - intros [Hl Hs] [s|c] [_ Hn]; cbn [legal_name].
    + apply in_long_names in Hn. destruct (Hl s Hn) as (H1 & H2 & H3 & H4). split; [exact H1|]. split; [apply Hd; exact H2|].
      split; [|apply is_text_iff; exact H3]. apply Forall_forall. intros b Hb. destruct (H4 b Hb) as [H5 H6].
      split; [exact H5|]. intros K. apply control_spec in K. congruence.
    + apply in_short_names in Hn. destruct (Hs c Hn) as (H1 & H2 & H3 & H4 & H5). apply scalar_spec in H5. auto.
  - intros H. constructor.
    + intros s Hi. destruct (H (Long s)) as (H1 & H2 & H3 & H4).
      { split; [exact Ho|]. apply in_long_names. exact Hi. }
      split; [exact H1|]. split; [apply Hd; exact H2|]. split; [apply is_text_iff; exact H4|].
      rewrite Forall_forall in H3. intros b Hb. destruct (H3 b Hb) as [H5 H6]. split; [exact H5|].
      destruct (is_ascii_control b) eqn:K; [|reflexivity]. exfalso. apply H6, control_spec. exact K.
    + intros c Hi. destruct (H (Short c)) as (H1 & H2 & H3 & H4 & H5).
      { split; [exact Ho|]. apply in_short_names. exact Hi. }
      apply scalar_spec in H1. auto.
Qed.

Definition default_rules a : Prop :=
  (forall s, am_default_value (sa_meta a) = Some s -> am_default_value_t (sa_meta a) = None /\ is_text s) /\
  (am_default_value_t (sa_meta a) <> None ->
   am_default_value (sa_meta a) = None /\
   exists e, default_expr a e /\ fits (shape_a a) (dx_val e) /\
             (am_hide (sa_meta a) = false -> single (shape_a a) /\ showable a e)).

Lemma fits_iff s v : dval_fits (kind_of_shape s) v = true <-> fits (V:=V) s v.
Proof. destruct s, v; simpl; split; try discriminate; try contradiction; auto. Qed.
Lemma single_iff s v : fits (V:=V) s v -> (dval_is_value (kind_of_shape s) v = true <-> single s).
Proof.
  unfold single. destruct s, v; simpl; intros H; try contradiction; split; auto; try discriminate;
    intros [K|[K|K]]; discriminate.
Qed.
Lemma expr_display_None a e :
  fits (shape_a a) (dx_val e) -> single (shape_a a) ->
  (shape_a a <> ShFlag -> infer_parser (value_of_ty (sa_ty a)) <> None) ->
  (expr_display (value_of_ty (sa_ty a)) e <> None <-> showable a e).
Proof.
  destruct e as [w l]. unfold expr_display, showable, infer_display, infer_parser. cbn [dx_val dx_literal].
  destruct l as [l|]; [intros _ _ _; split; [intros _; left|intros _]; discriminate|].
  destruct w as [b|v|l|o]; unfold single; destruct (shape_a a); cbn [fits]; intros Hf Hs Hp;
    try contradiction; try (destruct Hs as [?|[?|?]]; discriminate).
  - split; [auto|discriminate].
  - specialize (Hp ltac:(discriminate)). destruct (vt_value_enum (value_of_ty (sa_ty a))) as [[names inj]|].
    + destruct (ve_expand names); [|contradiction]. cbn [option_map]. split; [intros _; right; right; left|intros _]; discriminate.
    + destruct (vt_display (value_of_ty (sa_ty a))); cbn [option_map].
      * split; [intros _; right; right; right|intros _]; discriminate.
      * split; [contradiction|]. intros [H|[H|[H|H]]]; [contradiction|discriminate|contradiction|contradiction].
  - specialize (Hp ltac:(discriminate)). destruct (vt_value_enum (value_of_ty (sa_ty a))) as [[names inj]|].
    + destruct (ve_expand names); [|contradiction]. cbn [option_map]. split; [intros _; right; right; left|intros _]; discriminate.
    + destruct (vt_display (value_of_ty (sa_ty a))); cbn [option_map].
      * split; [intros _; right; right; right|intros _]; discriminate.
      * split; [contradiction|]. intros [H|[H|[H|H]]]; [contradiction|discriminate|contradiction|contradiction].
Qed.
Lemma value_expr_iff a h e :
  (shape_a a <> ShFlag -> infer_parser (value_of_ty (sa_ty a)) <> None) ->
  snd (value_expr (V:=V) (kind a) (value_of_ty (sa_ty a)) h e) = [] <->
  exists x, e = Some x /\ fits (shape_a a) (dx_val x) /\ (h = false -> single (shape_a a) /\ showable a x).
Proof.
  intros Hp. unfold value_expr. destruct e as [x|]; cbn [snd].
  - rewrite app_nil, cerr_when_nil, negb_false_iff, fits_iff. split.
    + intros [Hf Hh]. exists x. split; [reflexivity|]. split; [exact Hf|]. intros ->.
      rewrite app_nil, !cerr_when_nil, negb_false_iff in Hh. destruct Hh as [H1 H2].
      apply (single_iff _ _ Hf) in H1. split; [exact H1|]. apply (expr_display_None a x Hf H1 Hp).
      destruct (expr_display _ x); discriminate.
    + intros (y & E & Hf & Hh). injection E as <-. split; [exact Hf|]. destruct h; [reflexivity|].
      destruct (Hh eq_refl) as [H1 H2]. rewrite app_nil, !cerr_when_nil, negb_false_iff. split.
      * apply (single_iff _ _ Hf). exact H1.
      * apply (expr_display_None a x Hf H1 Hp) in H2. destruct (expr_display _ x); [reflexivity|contradiction].
  - split; [discriminate|]. intros (x & E & _). discriminate.
Qed.
Lemma default_expr_iff a e :
  default_expr a e <->
  match am_default_value_t (sa_meta a) with
  | Some Inherit => inherit_default (kind a) (value_of_ty (sa_ty a)) = Some e
  | Some (Explicit x) => e = x
  | None => False
  end.
Proof.
  split.
  - intros H. destruct H as [e E|E Hs|v E Hs Hv]; rewrite E; [reflexivity| |].
    + rewrite Hs. reflexivity.
    + unfold inherit_default. rewrite Hv. destruct (shape_a a); try reflexivity. contradiction.
  - destruct (am_default_value_t (sa_meta a)) as [[|x]|] eqn:E; [| |contradiction].
    + unfold inherit_default. intros H. destruct (shape_a a) eqn:Hs; cbn [kind_of_shape] in H;
        try (destruct (vt_default (value_of_ty (sa_ty a))) as [v|] eqn:Ev; [|discriminate]);
        injection H as <-; try (apply default_default; [exact E|congruence|exact Ev]).
      apply default_false; assumption.
    + intros ->. apply default_explicit. exact E.
Qed.
Lemma default_rules_iff a :
  (shape_a a <> ShFlag -> infer_parser (value_of_ty (sa_ty a)) <> None) ->
  snd (compute_default (kind a) (value_of_ty (sa_ty a)) (sa_meta a)) = [] <-> default_rules a.
Proof.
  intros Hp. unfold compute_default, default_rules. pose proof (default_expr_iff a) as He.
  destruct (am_default_value_t (sa_meta a)) as [[|x]|]; destruct (am_default_value (sa_meta a)) as [s|]; cbn [snd].
  - split; [discriminate|]. intros [H _]. destruct (H s eq_refl). discriminate.
  - rewrite value_expr_iff by exact Hp. split.
    + intros (x & E & H). split; [discriminate|]. intros _. split; [reflexivity|]. exists x. split; [|exact H]. apply He. exact E.
    + intros [_ H]. destruct H as (_ & e & E & H); [discriminate|]. exists e. split; [|exact H]. apply He. exact E.
  - split; [discriminate|]. intros [H _]. destruct (H s eq_refl). discriminate.
  - rewrite value_expr_iff by exact Hp. split.
    + intros (y & E & H). injection E as <-. split; [discriminate|]. intros _. split; [reflexivity|]. exists x. split; [|exact H]. apply He. reflexivity.
    + intros [_ H]. destruct H as (_ & e & E & H); [discriminate|]. exists e. split; [|exact H]. f_equal. symmetry. apply He. exact E.
  - rewrite cerr_when_nil, negb_false_iff, is_text_iff. split.
    + intros H. split; [|contradiction]. intros s' E. injection E as <-. auto.
    + intros [H _]. destruct (H s eq_refl). assumption.
  - split; [|reflexivity]. intros _. split; [discriminate|contradiction].
Qed.
Lemma dflt_of_None a : default_rules a ->
  (dflt_of a <> None <-> am_default_value (sa_meta a) <> None \/ am_default_value_t (sa_meta a) <> None).
Proof.
  intros [H1 H2]. unfold dflt_of, compute_default. pose proof (default_expr_iff a) as He.
  destruct (am_default_value_t (sa_meta a)) as [[|x]|]; destruct (am_default_value (sa_meta a)) as [s|]; cbn [fst];
    try (destruct (H1 s eq_refl); discriminate).
  - destruct H2 as (_ & e & E & _); [discriminate|]. apply He in E. rewrite E. cbn [value_expr fst].
    split; [intros _; right|intros _]; discriminate.
  - cbn [value_expr fst]. split; [intros _; right|intros _]; discriminate.
  - split; [intros _; left|intros _]; discriminate.
  - split; [contradiction|]. intros [H|H]; contradiction.
Qed.

Lemma errs_of_facts a : arg_facts a -> errs_of a = [].
Proof.
  intros [F1 F2 F3 F4 F5 F6 F7 F8 F9 F10 F11 F12 F13 F14].
  unfold errs_of, compile_field. rewrite classify_shape. fold (shape_a a).
  assert (Ed : dflt_of a = fst (compute_default (kind a) (value_of_ty (sa_ty a)) (sa_meta a))) by reflexivity.
  destruct (compute_default (kind a) (value_of_ty (sa_ty a)) (sa_meta a)) as [df es] eqn:Edf.
  cbn [fst snd] in *. rewrite Ed in F2.
  assert (Hn : is_named (sa_meta a) = is_option a) by reflexivity. rewrite Hn. clear Hn.
  match goal with |- snd (if _ then (_, _, ?c ++ ?n1) else (_, _, ?c ++ ?n2)) = [] =>
    set (common := c); set (e1 := n1); set (e2 := n2) end.
  assert (Hc : common = []).
  { unfold common. rewrite !app_nil, !cerr_when_nil. rewrite require_value_shape, accepts_multiple_shape, accept_hyphen_zero by exact F5.
    split; [exact F1|]. split; [destruct df; [apply F2; discriminate|reflexivity]|].
    split; [destruct (am_value_delimiter (sa_meta a)); [rewrite F3 by discriminate; reflexivity|reflexivity]|].
    split; [exact F5|].
    split. { destruct (_ || _); [|reflexivity]. destruct (F6 eq_refl) as [G1 G2]. unfold needs_equals in G2. rewrite G1, G2. reflexivity. }
    split; [exact F7|].
    split. { destruct (shape_a a); try reflexivity. unfold needs_equals in F9. rewrite F9 by reflexivity. reflexivity. }
    split. { destruct (shape_a a) eqn:Es; try reflexivity; (destruct F10 as [p ->]; [discriminate|reflexivity]). }
    split. { destruct (am_ignore_case (sa_meta a)); [|reflexivity]. destruct (F11 eq_refl) as (ns & inj & vs & -> & -> & ->). reflexivity. }
    split; [rewrite F12; reflexivity|].
    apply orb_false_iff. split.
    - apply negb_false_iff. exact F8.
    - destruct (am_value_delimiter (sa_meta a)) as [c|]; [|reflexivity]. rewrite (F4 c eq_refl). reflexivity. }
  destruct (is_option a) eqn:Ho; cbn [snd]; rewrite Hc.
  - destruct (F13 eq_refl) as (G1 & G2 & G3). unfold e1, is_last in *. rewrite G1, G2, G3. reflexivity.
  - destruct (F14 eq_refl) as (G1 & G2 & G3 & G4 & G5 & G6). unfold e2, needs_equals, is_global, is_last in *.
    rewrite accept_hyphen_zero by exact F5. rewrite G1, G2, G3, G4, G5. cbn [orb cerr_when app].
    apply cerr_when_nil. rewrite accepts_multiple_shape. destruct (am_last (sa_meta a)); [|reflexivity]. rewrite G6 by reflexivity. reflexivity.
Qed.

Lemma legal_arg_iff a : errs_of a = [] <-> legal_arg a.
Proof.
  split.
  - intros H. apply arg_facts_of in H. destruct H as [F1 F2 F3 F4 F5 F6 F7 F8 F9 F10 F11 F12 F13 F14].
    apply default_rules_iff in F1; [|intros Hs; destruct (F10 Hs) as [q Hq]; congruence]. pose proof (dflt_of_None a F1) as Fd. destruct F1 as [Fd1 Fd2].
    constructor.
    + apply ident_ok_iff. exact F12.
    + intros Hs. apply readable_iff. auto.
    + exact F9.
    + intros c Hc. split; [apply F3; congruence|]. apply scalar_spec. auto.
    + intros Hi. destruct (F11 Hi) as (ns & inj & vs & E1 & E2 & E3). split.
      * destruct (is_option a) eqn:Ho; [reflexivity|]. destruct (F14 eq_refl) as (_ & _ & K & _). congruence.
      * exists ns, inj. split; [exact E1|]. split; [apply legal_enum_iff; eauto|]. apply (no_upper_iff ns vs E2). exact E3.
    + split; [apply is_text_iff; exact F8|apply clean_iff; exact F7].
    + intros Hh. destruct F6 as [G1 G2]; [apply orb_true_iff; exact Hh|]. split; [|auto].
      destruct (is_option a) eqn:Ho; [reflexivity|]. destruct (F14 eq_refl) as (_ & _ & _ & K1 & K2 & _). destruct Hh; congruence.
    + intros [K1 K2]. rewrite K1, K2 in F5. discriminate.
    + intros s Hs. destruct (Fd1 s Hs). split; [assumption|]. split; [|assumption]. apply F2, Fd. left. congruence.
    + intros Hs. destruct (Fd2 Hs) as [K1 K2]. split; [exact K1|]. split; [|exact K2]. apply F2, Fd. right. exact Hs.
    + intros n Hn. pose proof Hn as [Ho _]. destruct (F13 Ho) as (_ & _ & K). apply names_facts_of in K.
      revert n Hn. apply (legal_names_iff a Ho). exact K.
    + intros Ho. destruct (F13 Ho) as (K1 & K2 & _). unfold greedy, is_last in *. rewrite K1, K2. reflexivity.
    + intros Ho. destruct (F14 Ho) as (K1 & K2 & _). auto.
    + intros Hl. destruct (is_option a) eqn:Ho; [destruct (F13 eq_refl) as (K & _); congruence|].
      destruct (F14 eq_refl) as (_ & _ & _ & _ & _ & K). auto.
  - intros [L1 L2 L3 L4 L5 L6 L7 L8 L9 L10 L11 L12 L13 L14].
    assert (Fd : default_rules a).
    { split; [intros s Hs; destruct (L9 s Hs) as (K1 & K2 & K3); auto|]. intros Hs. destruct (L10 Hs) as (K1 & K2 & K3). auto. }
    apply errs_of_facts. constructor.
    + apply default_rules_iff; [|exact Fd]. intros Hs. destruct (proj2 (readable_iff _) (L2 Hs)) as [q Hq]. congruence.
    + intros H. apply (dflt_of_None a Fd) in H. destruct H as [H|H].
      * destruct (am_default_value (sa_meta a)) as [s|]; [|contradiction]. destruct (L9 s eq_refl) as (_ & K & _). exact K.
      * destruct (L10 H) as (_ & K & _). exact K.
    + intros H. destruct (am_value_delimiter (sa_meta a)) as [c|]; [|contradiction]. destruct (L4 c eq_refl). assumption.
    + intros c Hc. apply scalar_spec. destruct (L4 c Hc). assumption.
    + destruct (am_allow_hyphen_values (sa_meta a)), (am_allow_negative_numbers (sa_meta a)); try reflexivity. exfalso. apply L8. auto.
    + intros H. apply orb_true_iff in H. destruct (L7 H) as (_ & K). exact K.
    + apply clean_iff. exact (proj2 L6).
    + apply is_text_iff. exact (proj1 L6).
    + exact L3.
    + intros Hs. apply readable_iff. auto.
    + intros Hi. destruct (L5 Hi) as (_ & vs & inj & E & Hl & Hu). apply legal_enum_iff in Hl. destruct Hl as [l El].
      exists vs, inj, l. split; [exact E|]. split; [exact El|]. apply (no_upper_iff vs l El). exact Hu.
    + apply ident_ok_iff. exact L1.
    + intros Ho. specialize (L12 Ho). unfold greedy, is_last in *. apply orb_false_iff in L12. destruct L12 as [K1 K2].
      split; [exact K2|]. split; [exact K1|]. apply name_errs_iff, (legal_names_iff a Ho). exact L11.
    + intros Ho. destruct (L13 Ho) as [K1 K2]. split; [exact K1|]. split; [exact K2|]. split; [|split; [|split]].
      * destruct (am_ignore_case (sa_meta a)); [|reflexivity]. destruct (L5 eq_refl). congruence.
      * destruct (am_allow_hyphen_values (sa_meta a)); [|reflexivity]. destruct (L7 (or_introl eq_refl)). congruence.
      * destruct (am_allow_negative_numbers (sa_meta a)); [|reflexivity]. destruct (L7 (or_intror eq_refl)). congruence.
      * exact L14.
Qed.

(** ** The loop over the fields *)

Lemma names_enc a : map table_key (names a) = enc_names a.
Proof.
  unfold names, enc_names, enc_names_of, long_names, short_names. rewrite !map_app, !map_map.
  change (primary_long (sa_id a) (sa_meta a)) with (long_name a).
  change (primary_short (sa_id a) (sa_meta a)) with (short_name a).
  unfold opt_list, encode_long_name, encode_short_name. cbn [fst table_key]. rewrite <- !app_assoc. reflexivity.
Qed.
Lemma in_names a n : is_option a = true -> (In n (names a) <-> has_name a n).
Proof.
  intros Ho. unfold names, has_name. rewrite Ho, !in_app_iff, !in_map_iff. destruct n as [s|c].
  - split.
    + intros [(x & E & H)|[(x & E & H)|[(x & E & H)|(x & E & H)]]]; try discriminate; injection E as ->; (split; [reflexivity|]).
      * auto.
      * right. destruct (long_name a); [|destruct H]. destruct H as [->|[]]. reflexivity.
    + intros [_ [H|H]]; [left; eauto|right; left]. exists s. rewrite H. simpl. auto.
  - split.
    + intros [(x & E & H)|[(x & E & H)|[(x & E & H)|(x & E & H)]]]; try discriminate; injection E as ->; (split; [reflexivity|]).
      * auto.
      * right. destruct (short_name a); [|destruct H]. destruct H as [->|[]]. reflexivity.
    + intros [_ [H|H]]; [right; right; left; eauto|right; right; right]. exists c. rewrite H. simpl. auto.
Qed.
Lemma names_all_enc (l : list sarg) : map table_key (flat_map names (opts l)) = all_enc_names l.
Proof.
  unfold all_enc_names, opts. induction (filter is_option l) as [|a r IH]; [reflexivity|].
  cbn [flat_map map concat]. rewrite map_app, IH, names_enc. reflexivity.
Qed.
Lemma table_key_inj m n : legal_name m -> legal_name n -> table_key m = table_key n -> m = n.
Proof.
  destruct m as [s|c], n as [s'|c']; cbn [legal_name table_key]; intros Hm Hn E.
  - apply app_inv_head in E. congruence.
  - exfalso. apply (short_not_long c' s); [apply scalar_spec; tauto|auto].
  - exfalso. apply (short_not_long c s'); [apply scalar_spec; tauto|auto].
  - apply utf8_encode_inj in E; [congruence|apply scalar_spec; tauto..].
Qed.
Lemma NoDup_map_iff {A B} (f : A -> B) l :
  (forall x y, In x l -> In y l -> f x = f y -> x = y) -> (NoDup (map f l) <-> NoDup l).
Proof.
  intros Hf. split; [apply NoDup_map_inv|]. intros H. induction H as [|x l Hx H IH]; simpl; constructor.
  - intros K. apply in_map_iff in K. destruct K as (y & E & Hy). apply Hx.
    rewrite (Hf x y); [exact Hy|left; reflexivity|right; exact Hy|congruence].
  - apply IH. intros y z Hy Hz. apply Hf; right; assumption.
Qed.
Lemma all_names_iff (l : list sarg) : (forall a, In a l -> legal_arg a) ->
  (NoDup (all_enc_names l) <-> NoDup (flat_map names (filter is_option l))).
Proof.
  intros Hl. rewrite <- names_all_enc. apply NoDup_map_iff. unfold opts.
  assert (K : forall n, In n (flat_map names (filter is_option l)) -> legal_name n).
  { intros n Hn. apply in_flat_map in Hn. destruct Hn as (a & Ha & Hn). apply filter_In in Ha. destruct Ha as [Ha Ho].
    apply (la_names a (Hl a Ha)), in_names; assumption. }
  intros m n Hm Hn. apply table_key_inj; auto.
Qed.

(** What the loop requires of the fields. *)
Record fields_ok (fs : list (ident * field_decl V)) : Prop := {
  fo_good : forall f, In f fs -> field_good f;
  fo_names : NoDup (all_enc_names (flat_map own_arg fs));
  fo_many : forall l a r, pos_plain (flat_map own_arg fs) = l ++ a :: r -> many a = true -> r = [];
  fo_last : length (pos_last (flat_map own_arg fs)) <= 1;
  fo_sub : length (flat_map sub_field fs) <= 1
}.

Lemma all_enc_app (l l' : list sarg) : all_enc_names (l ++ l') = all_enc_names l ++ all_enc_names l'.
Proof. unfold all_enc_names, opts. rewrite filter_app, map_app, concat_app. reflexivity. Qed.
Lemma pos_plain_app (l l' : list sarg) : pos_plain (l ++ l') = pos_plain l ++ pos_plain l'.
Proof. unfold pos_plain. rewrite !filter_app. reflexivity. Qed.
Lemma pos_last_app (l l' : list sarg) : pos_last (l ++ l') = pos_last l ++ pos_last l'.
Proof. unfold pos_last. rewrite !filter_app. reflexivity. Qed.
Lemma NoDup_app_l {A} (l m : list A) : NoDup (l ++ m) -> NoDup l.
Proof.
  induction l as [|x l IH]; simpl; intros H; [constructor|]. inversion H as [|? ? Hn Hd]; subst. constructor; [|auto].
  intros K. apply Hn, in_app_iff. auto.
Qed.
Lemma NoDup_app_r {A} (l m : list A) : NoDup (l ++ m) -> NoDup m /\ forall x, In x l -> ~ In x m.
Proof.
  induction l as [|x l IH]; simpl; intros H; [split; [exact H|contradiction]|].
  inversion H as [|? ? Hn Hd]; subst. destruct (IH Hd) as [K1 K2]. split; [exact K1|].
  intros y [<-|Hy]; [|auto]. intros K. apply Hn, in_app_iff. auto.
Qed.

Lemma fields_ok_prefix fs f : fields_ok (fs ++ [f]) -> fields_ok fs.
Proof.
  intros [H1 H2 H3 H4 H5]. rewrite flat_map_app in *. rewrite all_enc_app in H2. rewrite pos_plain_app in H3.
  rewrite pos_last_app, app_length in H4. rewrite ?flat_map_app, app_length in H5. constructor; try lia.
  - intros g Hg. apply H1, in_app_iff. auto.
  - exact (NoDup_app_l _ _ H2).
  - intros l a r E Hm. rewrite E in H3. rewrite <- app_assoc in H3. cbn [app] in H3. specialize (H3 l a _ eq_refl Hm).
    apply app_eq_nil in H3. tauto.
Qed.

Lemma check_dup_clean ns (x : expand_state (V:=V)) :
  x_errs x = [] -> NoDup ns -> (forall n, In n ns -> ~ In n (x_seen x)) ->
  x_errs (fold_left check_dup_name ns x) = [].
Proof.
  revert x. induction ns as [|n ns IH]; intros x He Hn Hs; [exact He|]. cbn [fold_left].
  inversion Hn as [|? ? Hn1 Hn2]; subst. apply IH; [|exact Hn2|].
  - cbn [check_dup_name x_errs]. rewrite He. cbn [app]. apply cerr_when_nil, existsb_beqb_nIn. apply Hs. left. reflexivity.
  - cbn [check_dup_name x_seen]. intros m Hm [<-|K]; [contradiction|]. apply (Hs m); [right; exact Hm|exact K].
Qed.

Lemma x_var_many fs i :
  x_var (fold_left compile_step fs expand_init) = Some i ->
  exists a, In a (pos_plain (flat_map own_arg fs)) /\ many a = true.
Proof.
  revert i. induction fs as [|f fs IH] using rev_ind; intros i; [discriminate|].
  rewrite fold_left_app, flat_map_app, pos_plain_app. cbn [fold_left].
  set (x := fold_left compile_step fs expand_init) in *.
  assert (Hold : x_var x = Some i ->
    exists a, In a (pos_plain (flat_map own_arg fs) ++ pos_plain (flat_map own_arg [f])) /\ many a = true).
  { intros H. destruct (IH i H) as (a & Ha & Hm). exists a. split; [apply in_app_iff; auto|exact Hm]. }
  destruct f as [id [m t|a|o [vs]]]; unfold compile_step; cbn [fst snd].
  - set (a := Arg id m t) in *. pose proof (class_of_spec a) as Hc. cbn [x_add_errs x_var].
    destruct (class_of a) eqn:Ec; cbn [place_field x_var].
    + destruct (check_dup_fold (fi_enc_names (field_of a)) x) as (_ & _ & H3 & _). rewrite H3. exact Hold.
    + destruct (x_var x) eqn:Ev; cbn [x_add_errs x_var]; [rewrite Ev; exact Hold|exact Hold].
    + intros _. destruct (is_option a) eqn:Ho; [discriminate|]. destruct (is_last a) eqn:Hl; [discriminate|].
      destruct (many a) eqn:Hm; [|discriminate]. exists a. split; [|exact Hm]. apply in_app_iff. right.
      cbn [flat_map own_arg fst snd app]. fold a. unfold pos_plain. cbn [filter]. rewrite Ho. cbn [negb filter]. rewrite Hl. left. reflexivity.
    + exact Hold.
  - cbn [x_var]. exact Hold.
  - destruct (x_sub x) as [sb|]; cbn [x_add_errs x_var]; exact Hold.
Qed.

Lemma loop_clean fs : fields_ok fs -> x_errs (fold_left compile_step fs expand_init) = [].
Proof.
  induction fs as [|f fs IH] using rev_ind; intros H; [reflexivity|].
  pose proof (IH (fields_ok_prefix _ _ H)) as He. pose proof (loop_inv_all fs He) as [I1 I2 I3 I4 I5 I6 I7 I8].
  pose proof (x_var_many fs) as Hv. destruct H as [H1 H2 H3 H4 H5].
  rewrite fold_left_app. cbn [fold_left]. set (x := fold_left compile_step fs expand_init) in *.
  assert (Hg : field_good f) by (apply H1, in_app_iff; right; left; reflexivity).
  rewrite flat_map_app in *. rewrite all_enc_app in H2. rewrite pos_plain_app in H3. rewrite pos_last_app, app_length in H4.
  rewrite ?flat_map_app, app_length in H5.
  destruct f as [id [m t|a|o [vs]]]; unfold field_good in Hg; unfold compile_step; cbn [fst snd] in *;
    cbn [flat_map own_arg flat_field sub_field fst snd app] in *.
  - set (a := Arg id m t) in *. rewrite x_add_errs_errs, Hg, app_nil_r.
    pose proof (class_of_spec a) as Hc. destruct (class_of a) eqn:Ec; cbn [place_field x_errs].
    + assert (Ho : is_option a = true).
      { destruct (is_option a); [reflexivity|]. destruct (is_last a), (many a); discriminate. }
      assert (En : fi_enc_names (field_of a) = enc_names a).
      { rewrite field_of_spec. cbn [fi_enc_names]. rewrite Ho. reflexivity. }
      rewrite En. unfold all_enc_names in H2 at 2. unfold opts in H2. cbn [filter] in H2. rewrite Ho in H2.
      cbn [map concat] in H2. rewrite app_nil_r in H2. destruct (NoDup_app_r _ _ H2) as [K1 K2].
      apply check_dup_clean; [exact He|exact K1|]. intros n Hn K. apply (K2 n); [apply I6; exact K|exact Hn].
    + destruct (x_var x) as [i|] eqn:Ev; [|exact He]. exfalso. destruct (Hv i eq_refl) as (b & Hb & Hm).
      apply in_split in Hb. destruct Hb as (l & r & E). rewrite E, <- app_assoc in H3. cbn [app] in H3.
      specialize (H3 l b _ eq_refl Hm). apply app_eq_nil in H3. destruct H3 as [_ H3].
      destruct (is_option a) eqn:Ho; [discriminate|]. destruct (is_last a) eqn:Hl; [discriminate|].
      unfold pos_plain in H3. cbn [filter] in H3. rewrite Ho in H3. cbn [negb filter] in H3. rewrite Hl in H3. discriminate.
    + rewrite He. destruct (x_var x) as [i|] eqn:Ev; [|reflexivity]. exfalso. destruct (Hv i eq_refl) as (b & Hb & Hm).
      apply in_split in Hb. destruct Hb as (l & r & E). rewrite E, <- app_assoc in H3. cbn [app] in H3.
      specialize (H3 l b _ eq_refl Hm). apply app_eq_nil in H3. destruct H3 as [_ H3].
      destruct (is_option a) eqn:Ho; [discriminate|]. destruct (is_last a) eqn:Hl; [discriminate|].
      unfold pos_plain in H3. cbn [filter] in H3. rewrite Ho in H3. cbn [negb filter] in H3. rewrite Hl in H3. discriminate.
    + rewrite He. destruct (x_last x) as [i|] eqn:Ev; [|reflexivity]. exfalso. apply (f_equal (@length _)) in I3.
      rewrite map_length in I3. cbn [opt_list length] in I3.
      destruct (is_option a) eqn:Ho; [discriminate|]. destruct (is_last a) eqn:Hl; [|destruct (many a); discriminate].
      unfold pos_last in H4 at 2. cbn [filter] in H4. rewrite Ho in H4. cbn [negb filter] in H4. rewrite Hl in H4.
      cbn [length] in H4. lia.
  - cbn [x_errs]. destruct Hg as (G1 & G2 & G3). unfold accepted in G1. rewrite He, G1, G2, G3. reflexivity.
  - destruct Hg as (G1 & G2). rewrite G1, G2. destruct (x_sub x) as [i|] eqn:Ev.
    + exfalso. apply (f_equal (@length _)) in I5. rewrite map_length in I5. cbn [opt_list length] in I5, H5. lia.
    + cbn [x_errs]. rewrite He. reflexivity.
Qed.

Lemma compile_step_errs x f : x_errs (compile_step (V:=V) x f) = [] -> x_errs x = [].
Proof.
  destruct f as [id [m t|a|o [vs]]]; unfold compile_step; cbn [fst snd].
  - rewrite x_add_errs_errs. intros H. apply app_nil in H. destruct H as [H _]. revert H.
    destruct (class_of (Arg id m t)); cbn [place_field x_errs].
    + intros H. destruct (check_dup_fold (fi_enc_names (field_of (Arg id m t))) x) as (_ & _ & _ & _ & _ & _ & _ & K). apply K. exact H.
    + destruct (x_var x); [|auto]. rewrite x_add_errs_errs. intros H. apply app_nil in H. tauto.
    + intros H. apply app_nil in H. tauto.
    + intros H. apply app_nil in H. tauto.
  - cbn [x_errs]. intros H. apply app_nil in H. tauto.
  - destruct (x_sub x); [rewrite x_add_errs_errs|cbn [x_errs]]; intros H; apply app_nil in H; tauto.
Qed.

Lemma loop_many fs : x_errs (fold_left compile_step fs expand_init) = [] ->
  forall l (a : sarg) r, pos_plain (flat_map own_arg fs) = l ++ a :: r -> many a = true ->
  r = [] /\ x_var (fold_left compile_step fs expand_init) <> None.
Proof.
  induction fs as [|f fs IH] using rev_ind; intros He l a r E Hm.
  - destruct l; discriminate.
  - rewrite fold_left_app in *. cbn [fold_left] in *. set (x := fold_left compile_step fs expand_init) in *.
    specialize (IH (compile_step_errs x f He)). rewrite flat_map_app, pos_plain_app in E.
    assert (Hadd : forall b, pos_plain (flat_map own_arg fs) ++ [b] = l ++ a :: r ->
      x_var x = None -> r = [] /\ a = b).
    { intros b Eb Hx. destruct r as [|c r] using rev_ind.
      - apply app_inj_tail in Eb. destruct Eb as [_ ->]. auto.
      - exfalso. change (l ++ a :: r ++ [c]) with (l ++ (a :: r) ++ [c]) in Eb. rewrite app_assoc in Eb. apply app_inj_tail in Eb.
        destruct Eb as [Eb _]. destruct (IH l a r Eb Hm) as [_ K]. contradiction. }
    assert (Hold : pos_plain (flat_map own_arg [f]) = [] -> r = [] /\ x_var x <> None).
    { intros K. rewrite K, app_nil_r in E. exact (IH l a r E Hm). }
    destruct f as [id [m t|y|o [vs]]]; unfold compile_step in *; cbn [fst snd] in *.
    + set (b := Arg id m t) in *. rewrite x_add_errs_errs in He. apply app_nil in He. destruct He as [He _].
      pose proof (class_of_spec b) as Hc. cbn [x_add_errs x_var].
      cbn [flat_map own_arg fst snd app] in *. fold b in E, Hold. unfold pos_plain in E at 2. unfold pos_plain in Hold.
      cbn [filter] in *.
      destruct (is_option b) eqn:Ho; cbn [negb filter] in *.
      * rewrite Hc. cbn [place_field x_var].
        destruct (check_dup_fold (fi_enc_names (field_of b)) x) as (_ & _ & H3 & _). rewrite H3. auto.
      * destruct (is_last b) eqn:Hl; cbn [negb] in *.
        -- rewrite Hc. cbn [place_field x_var]. auto.
        -- destruct (many b) eqn:Hb; rewrite Hc in *; cbn [place_field x_var] in *.
           ++ split; [|discriminate]. destruct (x_var x) eqn:Ev.
              { cbn [x_errs] in He. apply app_nil in He. destruct He as [_ He]. discriminate. }
              destruct (Hadd b E eq_refl). assumption.
           ++ destruct (x_var x) eqn:Ev.
              { rewrite x_add_errs_errs in He. apply app_nil in He. destruct He as [_ He]. discriminate. }
              destruct (Hadd b E eq_refl) as [_ ->]. congruence.
    + cbn [x_var]. auto.
    + destruct (x_sub x); cbn [x_add_errs x_var]; auto.
Qed.

(** ** The references *)

Lemma find_field_None id (l : list (field_info V)) : find_field id l = None <-> ~ In id (map fi_ident l).
Proof.
  induction l as [|f l IH]; simpl; [tauto|]. destruct (beqb id (fi_ident f)) eqn:E.
  - apply beqb_eq in E. split; [discriminate|]. intros H. exfalso. apply H. auto.
  - apply beqb_neq in E. rewrite IH. split; [intros H [K|K]; [congruence|auto]|tauto].
Qed.
Lemma resolve_refs_nil (l : list (field_info V)) ids :
  snd (resolve_refs l ids) = [] <-> forall id, In id ids -> In id (map fi_ident l).
Proof.
  induction ids as [|id ids IH]; simpl; [split; [contradiction|reflexivity]|].
  destruct (resolve_refs l ids) as [is es]. cbn [snd] in IH. destruct (find_field id l) as [n|] eqn:E.
  - cbn [snd]. rewrite IH. split; [|auto]. intros H id' [<-|Hi]; [|auto].
    destruct (in_dec (list_eq_dec Byte.byte_eq_dec) id (map fi_ident l)) as [K|K]; [exact K|]. apply find_field_None in K. congruence.
  - cbn [snd]. split; [discriminate|]. intros H. exfalso. apply find_field_None in E. apply E, H. auto.
Qed.
Lemma list_ext {A} (l : list A) : forall m, (forall i, nth_error l i = nth_error m i) -> l = m.
Proof.
  induction l as [|x l IH]; intros [|y m] H; try (specialize (H 0); discriminate); [reflexivity|].
  pose proof (H 0) as H0. injection H0 as ->. f_equal. apply IH. intros i. exact (H (S i)).
Qed.
Lemma direct1_idents d : map fi_ident (direct1_of d) = map sa_id (checked d).
Proof.
  apply list_ext. intros i. rewrite !nth_error_map, direct1_nth. destruct (nth_error (checked d) i) as [a|]; [|reflexivity].
  cbn [option_map]. rewrite field_of_spec. reflexivity.
Qed.
Lemma in_direct1 d f : In f (direct1_of d) <-> exists i a, nth_error (checked d) i = Some a /\ f = with_index (N.of_nat i) (field_of a).
Proof.
  split.
  - intros H. apply In_nth_error in H. destruct H as [i H]. rewrite direct1_nth in H.
    destruct (nth_error (checked d) i) as [a|] eqn:E; [|discriminate]. injection H as <-. eauto.
  - intros (i & a & E & ->). apply nth_error_In with (n := i). rewrite direct1_nth, E. reflexivity.
Qed.
Lemma refs_iff d :
  (forall f, In f (direct1_of d) -> resolve_errs (direct1_of d) f = []) <->
  (forall a id, In a (own_args d) -> In id (am_requires (sa_meta a)) \/ In id (am_conflicts_with (sa_meta a)) ->
     exists b, In b (own_args d) /\ sa_id b = id).
Proof.
  assert (K : forall id, In id (map fi_ident (direct1_of d)) <-> exists b, In b (own_args d) /\ sa_id b = id).
  { intros id. rewrite direct1_idents, in_map_iff. split; intros (b & H1 & H2); exists b; rewrite in_checked in *; auto. }
  split.
  - intros H a id Ha Hid. rewrite <- K. apply in_checked, In_nth_error in Ha. destruct Ha as [i Ha].
    assert (Hf : In (with_index (N.of_nat i) (field_of a)) (direct1_of d)) by (apply in_direct1; eauto).
    specialize (H _ Hf). unfold resolve_errs in H. rewrite app_nil, !resolve_refs_nil in H. destruct H as [H1 H2].
    rewrite field_of_spec in H1, H2. cbn [with_index fi_requires fi_conflicts] in H1, H2. destruct Hid; auto.
  - intros H f Hf. apply in_direct1 in Hf. destruct Hf as (i & a & Ha & ->). apply nth_error_In, in_checked in Ha.
    unfold resolve_errs. rewrite app_nil, !resolve_refs_nil, field_of_spec. cbn [with_index fi_requires fi_conflicts].
    split; intros id Hid; apply K; eauto.
Qed.
Lemma exclusive_iff d : existsb fi_exclusive (direct_of d) = false <->
  forall a, In a (own_args d) -> am_exclusive (sa_meta a) = false.
Proof.
  rewrite existsb_false. split.
  - intros H a Ha. apply in_checked, In_nth_error in Ha. destruct Ha as [i Ha].
    specialize (H (final_field d i a)). rewrite <- H.
    + unfold final_field, resolve_field. rewrite field_of_spec. reflexivity.
    + apply nth_error_In with (n := i). rewrite direct_nth, Ha. reflexivity.
  - intros H f Hf. apply In_nth_error in Hf. destruct Hf as [i Hf]. rewrite direct_nth in Hf.
    destruct (nth_error (checked d) i) as [a|] eqn:Ha; [|discriminate]. injection Hf as <-.
    unfold final_field, resolve_field. rewrite field_of_spec. cbn [with_index fi_exclusive]. apply H, in_checked.
    eapply nth_error_In. exact Ha.
Qed.

(** ** Structs *)

Lemma has_dup_iff l : has_dup l = false <-> NoDup l.
Proof.
  split; [apply has_dup_false|]. intros H. induction H as [|x l Hx H IH]; [reflexivity|]. simpl.
  apply orb_false_iff. split; [|exact IH]. apply existsb_beqb_nIn. exact Hx.
Qed.

Lemma accepted_iff d :
  accepted d <->
  length (fields_of d) <= 254 /\ NoDup (map fst (fields_of d)) /\ fields_ok (fields_of d) /\
  (forall f, In f (direct1_of d) -> resolve_errs (direct1_of d) f = []) /\
  (flattened d <> [] -> existsb fi_exclusive (direct_of d) = false).
Proof.
  split.
  - intros H. pose proof (accepted_facts_of d H) as [F1 F2 F3 F4 F5 F6 F7 F8 _].
    split; [exact F1|]. split; [exact F2|]. split; [|auto]. constructor; try assumption.
    destruct d as [at_ fs]. cbn [fields_of] in *. unfold accepted in H. rewrite compile_args_eq in H.
    unfold expand_finish in H. cbn [snd] in H. rewrite !app_nil in H. destruct H as (_ & _ & He & _).
    intros l a r E Hm. destruct (loop_many fs He l a r E Hm). assumption.
  - destruct d as [at_ fs]. cbn [fields_of]. intros (H1 & H2 & H3 & H4 & H5). unfold accepted. rewrite compile_args_eq.
    pose proof (loop_clean fs H3) as He. pose proof (loop_inv_all fs He) as [I1 I2 I3 I4 I5 I6 I7 I8].
    set (x := fold_left compile_step fs expand_init) in *. unfold expand_finish. cbn [snd].
    assert (E0 : x_named x ++ x_positional x ++ opt_list (x_var x) ++ opt_list (x_last x)
                 = direct0_of (MkArgsDecl at_ fs)).
    { rewrite (app_assoc (x_positional x)), I1, I2, I3. unfold direct0_of, checked, positionals.
      rewrite !map_app. reflexivity. }
    rewrite E0. change (assign_indexes 0 (direct0_of (MkArgsDecl at_ fs))) with (direct1_of (MkArgsDecl at_ fs)).
    rewrite !app_nil, !cerr_when_nil. split; [rewrite map_length; lia|]. split; [apply has_dup_iff; exact H2|].
    split; [exact He|]. split.
    + apply concat_nil. intros es Hes. apply in_map_iff in Hes. destruct Hes as (f & <- & Hf). auto.
    + change (map (resolve_field (direct1_of (MkArgsDecl at_ fs))) (direct1_of (MkArgsDecl at_ fs))) with (direct_of (MkArgsDecl at_ fs)).
      rewrite I4. unfold flattened in H5. cbn [fields_of] in H5. destruct (flat_map flat_field fs); [reflexivity|].
      cbn [map]. apply H5. discriminate.
Qed.

Lemma flatten_errs_iff d : accepted d ->
  (flatten_errs (fst (compile_args d)) = [] <->
   (forall a, In a (own_args d) -> is_option a = true) /\ subcommands d = []).
Proof.
  intros H. pose proof (ac_impl d (accepted_facts_of d H)) as E. unfold impl in E. rewrite E.
  unfold flatten_errs. rewrite app_nil, !cerr_when_nil, negb_false_iff. cbn [ai_direct ai_named_cnt ai_sub].
  rewrite Nat.leb_le, direct_length, (Permutation_length (checked_perm d)).
  unfold named_cnt_of, opts. pose proof (filter_negb_length is_option (own_args d)) as L.
  assert (K : length (own_args d) <= length (filter is_option (own_args d)) <->
              forall a, In a (own_args d) -> is_option a = true).
  { split.
    - intros K a Ha. destruct (is_option a) eqn:Ho; [reflexivity|].
      assert (Hf : In a (filter (fun x => negb (is_option x)) (own_args d))).
      { apply filter_In. rewrite Ho. auto. }
      destruct (filter (fun x => negb (is_option x)) (own_args d)); [destruct Hf|]. cbn [length] in L. lia.
    - intros K. rewrite (filter_all _ _ K). lia. }
  rewrite K. unfold subcommand, subcommands. destruct (flat_map sub_field (fields_of d)); cbn; split; intros [A B]; split; auto; discriminate.
Qed.

Lemma fields_ident fs : (forall f, In f fs -> field_good (V:=V) f) -> forall id f, In (id, f) fs -> ident_ok id = true.
Proof.
  intros H id f Hf. specialize (H _ Hf). destruct f as [m t|a|o s]; unfold field_good in H; cbn [fst snd] in H.
  - apply arg_facts_of in H. exact (ar_ident _ H).
  - tauto.
  - tauto.
Qed.

Lemma variant_nil v :
  variant_errs (V:=V) v = [] <-> legal_variant v /\ accepted (sc_decl (variant_scope v)).
Proof.
  destruct v as [id vd]. unfold variant_errs, legal_variant, variant_scope. cbn [fst snd].
  rewrite app_nil, cerr_when_nil, negb_false_iff, ident_ok_iff. destruct vd as [at_|at_ a|a]; cbn [sc_decl].
  - split; [|tauto]. intros [H _]. split; [auto|]. reflexivity.
  - rewrite app_nil, cerr_when_nil, <- bare_attrs_iff. unfold accepted.
    destruct (cmd_meta_of at_); cbn [opt_is_some]; intuition discriminate.
  - unfold accepted. tauto.
Qed.
Lemma sub_nil vs :
  snd (compile_sub (V:=V) (MkSubDecl vs)) = [] <->
  NoDup (map fst vs) /\ forall v, In v vs -> legal_variant v /\ accepted (sc_decl (variant_scope v)).
Proof.
  rewrite compile_sub_eq. cbn [snd]. rewrite app_nil, cerr_when_nil, has_dup_iff, concat_nil.
  split; intros [H1 H2]; (split; [exact H1|]).
  - intros v Hv. apply variant_nil, H2, in_map_iff. eauto.
  - intros es Hes. apply in_map_iff in Hes. destruct Hes as (v & <- & Hv). apply variant_nil. auto.
Qed.
Lemma in_subcommands d id o vs : In (id, o, vs) (subcommands d) <-> In (id, FSub o (MkSubDecl vs)) (fields_of d).
Proof.
  unfold subcommands. rewrite in_flat_map. split.
  - intros ([id' f] & Hi & H). unfold sub_field in H. cbn [fst snd] in H. destruct f as [m t|a|o' [vs']]; try contradiction.
    destruct H as [H|[]]. congruence.
  - intros H. eexists. split; [exact H|]. left. reflexivity.
Qed.

Lemma filter_filter {A} (p q : A -> bool) l : filter p (filter q l) = filter (fun x => q x && p x) l.
Proof.
  induction l as [|x l IH]; [reflexivity|]. cbn [filter]. destruct (q x); cbn [filter andb]; rewrite IH; reflexivity.
Qed.
Lemma plain_eq d : pos_plain (own_args d) = plain_positionals d.
Proof. apply filter_filter. Qed.
Lemma last_eq d : pos_last (own_args d) = last_positionals d.
Proof. apply filter_filter. Qed.

Lemma accepted_well_formed d : accepted d <-> well_formed d.
Proof.
  induction d as [d IHf IHs] using decl_induction. rewrite accepted_iff. split.
  - intros (H1 & H2 & [G1 G2 G3 G4 G5] & H4 & H5).
    change (flat_map own_arg (fields_of d)) with (own_args d) in G2, G3, G4. change (flat_map sub_field (fields_of d)) with (subcommands d) in G5.
    assert (Harg : forall a, In a (own_args d) -> legal_arg a).
    { intros a Ha. apply legal_arg_iff. apply in_own_args, G1 in Ha. destruct a. exact Ha. }
    constructor.
    + constructor.
      * exact H1.
      * exact H2.
      * intros id f Hf. apply ident_ok_iff. eapply fields_ident; eauto.
      * exact Harg.
      * apply all_names_iff; assumption.
      * rewrite <- plain_eq. exact G3.
      * rewrite <- last_eq. exact G4.
      * exact G5.
      * apply refs_iff. exact H4.
      * intros a Ha Hx. destruct (flattened d) as [|x l] eqn:E; [reflexivity|].
        assert (K : existsb fi_exclusive (direct_of d) = false) by (apply H5; discriminate).
        rewrite exclusive_iff in K. rewrite (K a Ha) in Hx. discriminate.
      * intros id x Hx. apply in_flattened, G1 in Hx. destruct Hx as (K1 & K2 & _). apply flatten_errs_iff; assumption.
      * intros id o vs Hs. apply in_subcommands, G1 in Hs. destruct Hs as [Hs _]. apply sub_nil in Hs.
        destruct Hs as [K1 K2]. split; [exact K1|]. intros v Hv. exact (proj1 (K2 v Hv)).
    + intros id x Hx. apply in_flattened in Hx. apply (IHf id x Hx). apply G1 in Hx. destruct Hx as (K1 & _). exact K1.
    + intros id o vs v Hs Hv. apply in_subcommands in Hs. apply (IHs id o vs v Hs Hv). apply G1 in Hs. destruct Hs as [Hs _].
      apply sub_nil in Hs. destruct Hs as [_ Hs]. exact (proj2 (Hs v Hv)).
  - intros H. inversion H as [d' [L1 L2 L3 L4 L5 L6 L7 L8 L9 L10 L11 L12] Wf Ws]; subst d'.
    split; [exact L1|]. split; [exact L2|]. split; [|split].
    + constructor.
      * intros [id [m t|a|o [vs]]] Hf; unfold field_good; cbn [fst snd].
        -- apply legal_arg_iff, L4, in_own_args. exact Hf.
        -- pose proof (proj2 (in_flattened d id a) Hf) as Hx.
           assert (Ha : accepted a) by (apply (IHf id a Hf); eapply Wf; exact Hx).
           split; [exact Ha|]. split; [|apply ident_ok_iff; eapply L3; exact Hf]. apply flatten_errs_iff; [exact Ha|].
           apply (L11 id). exact Hx.
        -- pose proof (proj2 (in_subcommands d id o vs) Hf) as Hx. split; [|apply ident_ok_iff; eapply L3; exact Hf].
           apply sub_nil. destruct (L12 id o vs Hx) as [K1 K2]. split; [exact K1|]. intros v Hv. split; [auto|].
           apply (IHs id o vs v Hf Hv). eapply Ws; eauto.
      * apply all_names_iff; assumption.
      * rewrite <- plain_eq in L6. exact L6.
      * rewrite <- last_eq in L7. exact L7.
      * exact L8.
    + apply refs_iff. exact L9.
    + intros Hne. apply exclusive_iff. intros a Ha. destruct (am_exclusive (sa_meta a)) eqn:E; [|reflexivity].
      exfalso. apply Hne. eapply L10; eauto.
Qed.
Lemma NoDup_flat_map {A B} (f : A -> list B) l (a b : A) x :
  NoDup (flat_map f l) -> In a l -> In b l -> In x (f a) -> In x (f b) -> a = b.
Proof.
  induction l as [|c l IH]; [contradiction|]. cbn [flat_map]. intros H Ha Hb Hx Hy.
  destruct (NoDup_app_r _ _ H) as [H1 H2].
  assert (K : forall e, In e l -> In x (f e) -> In x (flat_map f l)) by (intros e He Hf; apply in_flat_map; eauto).
  destruct Ha as [<-|Ha], Hb as [<-|Hb]; auto; exfalso; eapply H2; eauto.
Qed.
Lemma own_name_unique d a b n :
  accepted d -> In a (own_args d) -> In b (own_args d) -> has_name a n -> has_name b n -> a = b.
Proof.
  intros H Ha Hb Hna Hnb. apply accepted_well_formed in H. inversion H as [d' L _ _]; subst d'.
  apply (NoDup_flat_map names (filter is_option (own_args d)) a b n (ls_names d L)).
  - apply filter_In. split; [exact Ha|exact (proj1 Hna)].
  - apply filter_In. split; [exact Hb|exact (proj1 Hnb)].
  - apply in_names; [exact (proj1 Hna)|exact Hna].
  - apply in_names; [exact (proj1 Hnb)|exact Hnb].
Qed.
End Facts.
