(** What the text of an error contains. *)
From Verif Require Import Bytes Utf8 Error Parts BytesFacts.

Lemma infix_refl s : infix s s.
Proof. exists [], []. rewrite app_nil_r. reflexivity. Qed.
Lemma infix_l p s t : infix p s -> infix p (s ++ t).
Proof. intros (l & r & ->). exists l, (r ++ t). rewrite <- !app_assoc. reflexivity. Qed.
Lemma infix_r p s t : infix p t -> infix p (s ++ t).
Proof. intros (l & r & ->). exists (s ++ l), r. rewrite <- !app_assoc. reflexivity. Qed.
Lemma infix_trans p q s : infix p q -> infix q s -> infix p s.
Proof. intros (l & r & ->) (l' & r' & ->). exists (l' ++ l), (r ++ r'). rewrite <- !app_assoc. reflexivity. Qed.

Section Display.
Context (esc : escapes).
Local Notation error_message := (error_message esc).
Local Notation error_display := (error_display esc).
Local Notation os_debug := (os_debug esc).

Lemma display_message e : e_kind e <> Custom -> infix (error_message e) (error_display e).
Proof. intros H. unfold Error.error_display. destruct (e_kind e); try congruence; apply infix_l, infix_refl. Qed.

Theorem display_input e i : In (e_kind e) [UnknownNamedArgument; UnknownSubcommand; ExtraPositionalArgument; UnexpectedInlineValue; InvalidValue] ->
  e_input e = Some i -> infix (os_debug i) (error_display e).
Proof.
  intros Hk Hi. apply (infix_trans _ (error_message e)).
  - unfold Error.error_message. rewrite Hi. destruct (e_kind e); cbn [In] in Hk; try (exfalso; intuition discriminate);
      first [apply infix_r, infix_refl|apply infix_r, infix_l, infix_refl].
  - apply display_message. destruct (e_kind e); cbn [In] in Hk; intuition discriminate.
Qed.

Theorem display_arg e desc : In (e_kind e) [DuplicatedNamedArgument; UnexpectedInlineValue; MissingValue; InvalidValue; MissingEq;
    MissingRequiredArgument; ConstraintRequired; ConstraintExclusive; ConstraintConflict] ->
  e_arg_desc e = Some desc -> infix (bs "'" ++ desc ++ bs "'") (error_display e).
Proof.
  assert (G : forall p q s t, infix (bs "'" ++ desc ++ bs "'") ((p ++ q ++ bs "'") ++ desc ++ bs "'" ++ s ++ t)).
  { intros p q s t. exists (p ++ q), (s ++ t). rewrite <- !app_assoc. reflexivity. }
  assert (G2 : forall p s, infix (bs "'" ++ desc ++ bs "'") ((p ++ bs "'") ++ desc ++ bs "'" ++ s)).
  { intros p s. exists p, s. rewrite <- !app_assoc. reflexivity. }
  intros Hk Hd. apply (infix_trans _ (error_message e)).
  - unfold Error.error_message. rewrite Hd. destruct (e_kind e); cbn [In] in Hk; try (exfalso; intuition discriminate).
    + apply (G2 (bs "the argument ")).
    + apply infix_r, infix_r. apply (G2 (bs " for ") []).
    + apply (G2 (bs "a value is required for ")).
    + apply infix_r, infix_r. apply (G2 (bs " for ") []).
    + apply (G2 (bs "equal sign is needed when assigning values for ") []).
    + apply (G2 (bs "the argument ")).
    + apply (G2 (bs "the argument ")).
    + apply (G2 (bs "the argument ")).
    + apply (G2 (bs "the argument ")).
  - apply display_message. destruct (e_kind e); cbn [In] in Hk; intuition discriminate.
Qed.

Theorem display_source e s : e_source e = Some s -> infix s (error_display e).
Proof.
  intros H. unfold Error.error_display. rewrite H. destruct (e_kind e); try apply infix_refl;
    apply infix_r, infix_l; apply infix_r, infix_refl.
Qed.
Theorem display_context e : e_kind e <> Custom -> infix (e_context e) (error_display e).
Proof.
  intros H. unfold Error.error_display. destruct (e_kind e); try congruence; apply infix_r, infix_r, infix_l;
    (destruct (e_context e) as [|x c]; [apply infix_refl|]); apply infix_r, infix_r, infix_refl.
Qed.
Theorem display_help e h : e_kind e = Help -> e_source e = None -> e_context e = [] -> e_help e = Some h -> error_display e = h.
Proof. intros H1 H2 H3 H4. unfold Error.error_display, Error.error_message. rewrite H1, H2, H3, H4. reflexivity. Qed.

(** The phrases that tell what went wrong. *)
Lemma message_phrase e p : In (e_kind e, p)
   [(MissingArg0, bs "missing executable argument"); (UnknownNamedArgument, bs "unexpected argument");
    (UnknownSubcommand, bs "unrecognized subcommand"); (DuplicatedNamedArgument, bs "cannot be used multiple times");
    (ExtraPositionalArgument, bs "unexpected argument"); (UnexpectedInlineValue, bs "unexpected value");
    (MissingValue, bs "a value is required"); (InvalidValue, bs "invalid value"); (MissingEq, bs "equal sign is needed");
    (MissingRequiredArgument, bs "is required but not provided");
    (MissingRequiredSubcommand, bs "the subcommand is required but not provided");
    (ConstraintRequired, bs "is required because some dependency arguments are provided");
    (ConstraintExclusive, bs "cannot be used with one or more of the other specified arguments");
    (ConstraintConflict, bs "cannot be used with some other arguments")] ->
  infix p (error_display e).
Proof.
  intros H. apply (infix_trans _ (error_message e)).
  - unfold Error.error_message. cbn [In] in H.
    assert (L : forall p q s : bytes, infix p ((p ++ q) ++ s)) by (intros; apply infix_l, infix_l, infix_refl).
    assert (R : forall p q x y : bytes, infix p (x ++ y ++ (q ++ p))) by (intros; apply infix_r, infix_r, infix_r, infix_refl).
    repeat (destruct H as [H|H]; [injection H as E <-; rewrite <- E; cbv zeta|]); try contradiction.
    + apply (L (bs "missing executable argument") (bs " (argv[0])") []).
    + apply (L (bs "unexpected argument") (bs " ")).
    + apply (L (bs "unrecognized subcommand") (bs " ")).
    + apply (R _ (bs "' ")).
    + apply (L (bs "unexpected argument") (bs " ")).
    + apply (L (bs "unexpected value") (bs " ")).
    + apply (L (bs "a value is required") (bs " for '")).
    + apply (L (bs "invalid value") (bs " ")).
    + apply (L (bs "equal sign is needed") (bs " when assigning values for '")).
    + apply (R _ (bs "' ")).
    + apply infix_refl.
    + apply (R _ (bs "' ")).
    + apply (R _ (bs "' ")).
    + apply (R _ (bs "' ")).
  - apply display_message. cbn [In] in H. intros C. rewrite C in H. intuition discriminate.
Qed.
End Display.
