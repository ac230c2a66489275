(** Errors describe an argument by its names. *)
From Verif Require Import Bytes Utf8 Error Values Heck Places Decl Spec Derive Generated Observe Grammar Parts Blame BlameFacts Described.

Section Facts.
Context {V : Type}.
Implicit Types (d : args_decl V) (a : sarg V).

Lemma placeholder_name a : placeholder a (value_name a).
Proof. unfold value_name. destruct (am_value_name (sa_meta a)) eqn:E; constructor; exact E. Qed.
Lemma value_part_shown a : value_shown a (value_part a).
Proof.
  pose proof (placeholder_name a) as Hp. unfold value_part, needs_equals.
  destruct (shape_a a) eqn:Es; try (constructor; assumption);
    (destruct (am_require_equals (sa_meta a)) eqn:Eq; [apply value_equals|apply value_next]; try assumption; unfold takes_value; rewrite Es; reflexivity).
Qed.
Lemma describe_described a : described a (describe a).
Proof.
  pose proof (placeholder_name a) as Hp. pose proof (value_part_shown a) as Hv. unfold describe. destruct (is_option a) eqn:Eo.
  - destruct (short_name a) as [c|] eqn:Es, (long_name a) as [l|] eqn:El.
    + pose proof (described_option a _ _ Eo (own_both a c l Es El) Hv) as H. cbn [with_commas map concat spell] in H.
      rewrite app_nil_r, <- !app_assoc in H. rewrite <- !app_assoc. exact H.
    + pose proof (described_option a _ _ Eo (own_short a c Es El) Hv) as H. cbn [with_commas map concat spell] in H. rewrite app_nil_r in H. exact H.
    + pose proof (described_option a _ _ Eo (own_long a l Es El) Hv) as H. cbn [with_commas map concat spell] in H. rewrite app_nil_r in H. exact H.
    + exact (described_option a _ _ Eo (own_neither a Es El) Hv).
  - destruct (is_required a) eqn:Er; rewrite <- !app_assoc; [apply described_required|apply described_optional]; auto.
Qed.
Lemma placeholder_unique a n m : placeholder a n -> placeholder a m -> n = m.
Proof. intros [] []; congruence. Qed.

Lemma value_shown_unique a v w : value_shown a v -> value_shown a w -> v = w.
Proof.
  intros [H1|n H1 P1|n H1 H2 P1|n H1 H2 P1] [G1|m G1 Q1|m G1 G2 Q1|m G1 G2 Q1]; unfold takes_value in *;
    try rewrite (placeholder_unique a _ _ P1 Q1); try congruence; try reflexivity;
    match goal with E : shape_a a = _, F : match shape_a a with _ => _ end = true |- _ => rewrite E in F; discriminate end.
Qed.
Lemma own_names_unique a l m : own_names a l -> own_names a m -> l = m.
Proof. intros [] []; congruence. Qed.
Theorem described_unique a t u : described a t -> described a u -> t = u.
Proof.
  intros [l v H1 H2 H3|n dots H1 H2 H3 H4|n dots H1 H2 H3 H4] [m w G1 G2 G3|m dots' G1 G2 G3 G4|m dots' G1 G2 G3 G4]; try congruence.
  - rewrite (own_names_unique a _ _ H2 G2), (value_shown_unique a _ _ H3 G3). reflexivity.
  - rewrite (placeholder_unique a _ _ H3 G3). congruence.
  - rewrite (placeholder_unique a _ _ H3 G3). congruence.
Qed.

Theorem error_described d (argv0 : bytes) toks e t : valid d -> try_parse_from d (argv0 :: toks) = Err e -> e_arg_desc e = Some t ->
  exists a, concerned d toks a /\ described a t.
Proof.
  intros Hd H Ht. apply error_blame in H; [|exact Hd].
  assert (Hn : forall a, named a = Some t -> t = describe a) by (intros a; unfold named; destruct (is_option a); congruence).
  assert (Hin : forall os1 os2 ad a v, seen d toks = os1 ++ Occ ad a v :: os2 -> concerned d toks a).
  { intros os1 os2 ad a v E. apply (concerned_given d toks a ad v). rewrite E. apply in_app_iff. right. left. reflexivity. }
  destruct H; cbn in Ht; try discriminate;
    try (match type of Ht with named ?a = _ => apply Hn in Ht; subst t; exists a; split; [eauto|apply describe_described] end);
    try (injection Ht as <-; eexists; split; [|apply describe_described]; solve [eapply concerned_named; eauto | eapply concerned_declared; eauto]).
Qed.
End Facts.
