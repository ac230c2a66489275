(** Facts about the case conversions. *)
From Verif Require Import Bytes BytesFacts Heck.

Definition all_alnum (s : bytes) : Prop := forall b, In b s -> is_alnum b = true.

Lemma split_words_alnum s acc w : all_alnum acc -> In w (split_words s acc) -> all_alnum w.
Proof.
  revert acc. induction s as [|x s IH]; intros acc Ha; cbn [split_words].
  - intros [<-|[]] b Hb. apply Ha. apply in_rev. exact Hb.
  - destruct (is_alnum x) eqn:Ex.
    + apply IH. intros b [<-|Hb]; [exact Ex|apply Ha; exact Hb].
    + intros [<-|Hw]; [intros b Hb; apply Ha; apply in_rev; exact Hb|].
      apply (IH []); [intros b []|exact Hw].
Qed.

Lemma seg_spec w : forall mode cur, all_alnum cur -> all_alnum w -> (mode = WUpper -> cur <> []) ->
  forall x, In x (seg mode cur w) -> all_alnum x /\ x <> [].
Proof.
  induction w as [|c w IH]; intros mode cur Hc Hw Hm x; [intros []|].
  assert (Hcc : all_alnum (c :: cur)) by (intros b [<-|Hb]; [apply Hw; left; reflexivity|apply Hc; exact Hb]).
  assert (Hrc : all_alnum (rev (c :: cur)) /\ rev (c :: cur) <> []).
  { split; [intros b Hb; apply Hcc; apply in_rev; exact Hb|]. cbn [rev]. destruct (rev cur); discriminate. }
  assert (Hw' : all_alnum w) by (intros b Hb; apply Hw; right; exact Hb).
  assert (H0 : all_alnum []) by (intros b []).
  assert (H1 : all_alnum [c]) by (intros b [<-|[]]; apply Hw; left; reflexivity).
  cbn [seg]. destruct w as [|next w]; [intros [<-|[]]; exact Hrc|].
  set (nm := if is_ascii_lower c then WLower else if is_ascii_upper c then WUpper else mode).
  assert (G1 : In x (rev (c :: cur) :: seg WBoundary [] (next :: w)) -> all_alnum x /\ x <> []).
  { intros [<-|Hx]; [exact Hrc|]. eapply (IH WBoundary []); eauto. discriminate. }
  assert (G2 : mode = WUpper -> In x (rev cur :: seg WBoundary [c] (next :: w)) -> all_alnum x /\ x <> []).
  { intros E [<-|Hx].
    - split; [intros b Hb; apply Hc; apply in_rev; exact Hb|]. intros E0. apply (Hm E).
      rewrite <- (rev_involutive cur), E0. reflexivity.
    - eapply (IH WBoundary [c]); eauto. discriminate. }
  assert (G3 : In x (seg nm (c :: cur) (next :: w)) -> all_alnum x /\ x <> []).
  { intros Hx. eapply (IH nm (c :: cur)); eauto. discriminate. }
  destruct nm, (is_ascii_upper next); auto;
    (destruct mode, (is_ascii_upper c && is_ascii_lower next); auto).
Qed.

Lemma words_spec s w : In w (words s) -> all_alnum w /\ w <> [].
Proof.
  unfold words. rewrite in_concat. intros (l & Hl & Hw). apply in_map_iff in Hl. destruct Hl as (p & <- & Hp).
  apply (seg_spec p WBoundary []); [intros b []| |discriminate|exact Hw].
  eapply split_words_alnum; [|exact Hp]. intros b [].
Qed.

(** What may occur in the result of a conversion. *)
Definition kebab_char (b : byte) : bool := is_ascii_digit b || is_ascii_lower b || Byte.eqb b "-"%byte.
Definition shouty_char (b : byte) : bool := is_ascii_digit b || is_ascii_upper b || Byte.eqb b "_"%byte.

Lemma lower_alnum b : is_alnum b = true -> is_ascii_digit (ascii_lower b) || is_ascii_lower (ascii_lower b) = true.
Proof. destruct b; vm_compute; congruence. Qed.
Lemma upper_alnum b : is_alnum b = true -> is_ascii_digit (ascii_upper b) || is_ascii_upper (ascii_upper b) = true.
Proof. destruct b; vm_compute; congruence. Qed.

Lemma join_In sep l b : In b (join sep l) -> In b sep \/ exists w, In w l /\ In b w.
Proof.
  induction l as [|x l IH]; [intros []|]. destruct l as [|y l].
  - cbn [join]. intros H. right. exists x. split; [left; reflexivity|exact H].
  - change (join sep (x :: y :: l)) with (x ++ sep ++ join sep (y :: l)).
    rewrite !in_app_iff. intros [H|[H|H]].
    + right. exists x. split; [left; reflexivity|exact H].
    + left. exact H.
    + destruct (IH H) as [H'|(w & Hw & Hb)]; [left; exact H'|]. right. exists w. split; [right; exact Hw|exact Hb].
Qed.

Lemma kebab_chars s b : In b (kebab_case s) -> kebab_char b = true.
Proof.
  unfold kebab_case, kebab_char. intros H. apply join_In in H. destruct H as [[<-|[]]|(w & Hw & Hb)]; [reflexivity|].
  apply in_map_iff in Hw. destruct Hw as (v & <- & Hv). apply words_spec in Hv. destruct Hv as [Hv _].
  unfold lowercase in Hb. apply in_map_iff in Hb. destruct Hb as (c & <- & Hc).
  rewrite (lower_alnum c) by (apply Hv; exact Hc). reflexivity.
Qed.
Lemma shouty_chars s b : In b (shouty_snake_case s) -> shouty_char b = true.
Proof.
  unfold shouty_snake_case, shouty_char. intros H. apply join_In in H. destruct H as [[<-|[]]|(w & Hw & Hb)]; [reflexivity|].
  apply in_map_iff in Hw. destruct Hw as (v & <- & Hv). apply words_spec in Hv. destruct Hv as [Hv _].
  unfold uppercase in Hb. apply in_map_iff in Hb. destruct Hb as (c & <- & Hc).
  rewrite (upper_alnum c) by (apply Hv; exact Hc). reflexivity.
Qed.

(** The name of a subcommand is never taken for an option. *)
Lemma kebab_head s b r : kebab_case s = b :: r -> b <> "-"%byte.
Proof.
  unfold kebab_case. intros H E. subst b.
  destruct (words s) as [|w ws] eqn:Ew; [discriminate|].
  assert (Hw : all_alnum w /\ w <> []) by (apply (words_spec s); rewrite Ew; left; reflexivity).
  destruct Hw as [Hw Hne]. destruct w as [|c w]; [contradiction|].
  assert (Ec : ascii_lower c = "-"%byte).
  { cbn [map lowercase] in H. destruct ws; cbn in H; injection H as H _; exact H. }
  pose proof (lower_alnum c (Hw c (or_introl eq_refl))) as Hl. rewrite Ec in Hl. discriminate.
Qed.
