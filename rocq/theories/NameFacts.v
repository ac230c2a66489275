(** Proofs about the names that are made from identifiers. *)
From Verif Require Import Bytes BytesFacts Utf8 Utf8Facts Heck HeckFacts Decl Spec Parts PartsFacts.

Lemma raised_spec x y : raised x y <-> ascii_upper x = y.
Proof.
  unfold raised, ascii_upper, lower_letter. split.
  - intros [[H E]|[H E]].
    + replace (is_ascii_lower x) with true by (symmetry; unfold is_ascii_lower; lia).
      replace (b2n x - 32)%N with (b2n y) by lia. apply n2b_b2n.
    + replace (is_ascii_lower x) with false by (symmetry; unfold is_ascii_lower; lia). congruence.
  - destruct (is_ascii_lower x) eqn:E; unfold is_ascii_lower in E; intros <-.
    + left. split; [lia|]. rewrite b2n_n2b; lia.
    + right. split; [lia|reflexivity].
Qed.
Lemma lowered_spec x y : lowered x y <-> ascii_lower x = y.
Proof.
  unfold lowered, ascii_lower, upper_letter. split.
  - intros [[H E]|[H E]].
    + replace (is_ascii_upper x) with true by (symmetry; unfold is_ascii_upper; lia).
      rewrite <- E. apply n2b_b2n.
    + replace (is_ascii_upper x) with false by (symmetry; unfold is_ascii_upper; lia). congruence.
  - destruct (is_ascii_upper x) eqn:E; unfold is_ascii_upper in E; intros <-.
    + left. split; [lia|]. rewrite b2n_n2b; lia.
    + right. split; [lia|reflexivity].
Qed.
Lemma raised_all s t : Forall2 raised s t <-> uppercase s = t.
Proof.
  split.
  - induction 1 as [|x y s t Hx _ IH]; [reflexivity|]. apply raised_spec in Hx. rewrite <- Hx, <- IH. reflexivity.
  - intros <-. induction s as [|x s IH]; constructor; [apply raised_spec; reflexivity|exact IH].
Qed.
Lemma lowered_all s t : Forall2 lowered s t <-> lowercase s = t.
Proof.
  split.
  - induction 1 as [|x y s t Hx _ IH]; [reflexivity|]. apply lowered_spec in Hx. rewrite <- Hx, <- IH. reflexivity.
  - intros <-. induction s as [|x s IH]; constructor; [apply lowered_spec; reflexivity|exact IH].
Qed.

Definition low (b : byte) : Prop := lower_letter b \/ digit b.
Lemma low_not_upper b : low b -> is_ascii_upper b = false.
Proof. unfold low, lower_letter, digit, is_ascii_upper. lia. Qed.
Lemma low_alnum b : low b -> is_alnum b = true.
Proof. unfold low, lower_letter, digit, is_alnum, is_ascii_upper, is_ascii_lower, is_ascii_digit. lia. Qed.
Lemma low_lower b : low b -> ascii_lower b = b.
Proof. intros H. unfold ascii_lower. rewrite low_not_upper; auto. Qed.
Lemma low_lowercase w : Forall low w -> lowercase w = w.
Proof. induction 1; cbn; [reflexivity|]. rewrite low_lower by assumption. unfold lowercase in IHForall. congruence. Qed.

Lemma split_words_low w r acc : Forall low w -> split_words (w ++ r) acc = split_words r (rev w ++ acc).
Proof.
  revert acc. induction w as [|x w IH]; intros acc H; [reflexivity|]. inversion_clear H. cbn [app split_words].
  rewrite low_alnum by assumption. rewrite IH by assumption. cbn [rev]. rewrite <- app_assoc. reflexivity.
Qed.
Lemma split_words_snake ws : ws <> [] -> Forall snake_word ws -> split_words (glue (bs "_") ws) [] = ws.
Proof.
  induction ws as [|w ws IH]; [congruence|]. intros _ H. inversion_clear H as [|? ? [Hw Hl] Hws].
  destruct ws as [|v ws].
  - cbn [glue]. rewrite split_words_low by exact Hl. cbn. rewrite !app_nil_r, rev_involutive. reflexivity.
  - rewrite glue_cons by discriminate. rewrite split_words_low by exact Hl.
    change (bs "_" ++ glue (bs "_") (v :: ws)) with ("_"%byte :: glue (bs "_") (v :: ws)).
    cbn [split_words]. change (is_alnum "_"%byte) with false. cbv iota.
    rewrite IH by (congruence || assumption). rewrite app_nil_r, rev_involutive. reflexivity.
Qed.
Lemma seg_low w : Forall low w -> w <> [] -> forall mode cur, seg mode cur w = [rev cur ++ w].
Proof.
  induction w as [|c w IH]; [congruence|]. intros H _ mode cur. inversion_clear H as [|? ? Hc Hw].
  cbn [seg]. destruct w as [|n w]; [reflexivity|].
  inversion Hw as [|? ? Hn _]; subst.
  assert (E : seg (if is_ascii_lower c then WLower else if is_ascii_upper c then WUpper else mode) (c :: cur) (n :: w)
              = [rev cur ++ c :: n :: w]).
  { rewrite IH by (congruence || assumption). cbn [rev]. rewrite <- app_assoc. reflexivity. }
  rewrite (low_not_upper n Hn), (low_not_upper c Hc). rewrite (low_not_upper c Hc) in E. cbn [andb].
  destruct (if is_ascii_lower c then WLower else mode), mode; exact E.
Qed.
Lemma words_snake ws : Forall snake_word ws -> words (glue (bs "_") ws) = ws.
Proof.
  intros H. unfold words. destruct ws as [|w ws]; [reflexivity|].
  rewrite split_words_snake by (congruence || assumption).
  clear -H. induction H as [|v vs [Hv Hl] _ IH]; [reflexivity|]. cbn [map concat].
  rewrite seg_low by assumption. rewrite IH. reflexivity.
Qed.

Lemma seg_cons mode cur c n w :
  seg mode cur (c :: n :: w) =
  let next_mode := if is_ascii_lower c then WLower else if is_ascii_upper c then WUpper else mode in
  match next_mode, is_ascii_upper n with
  | WLower, true => rev (c :: cur) :: seg WBoundary [] (n :: w)
  | _, _ =>
      match mode, is_ascii_upper c && is_ascii_lower n with
      | WUpper, true => rev cur :: seg WBoundary [c] (n :: w)
      | _, _ => seg next_mode (c :: cur) (n :: w)
      end
  end.
Proof. reflexivity. Qed.

Lemma seg_tail r rest : Forall low r ->
  (forall x t, rest = x :: t -> is_ascii_upper x = true) ->
  forall c mode cur, low c -> mode = WLower \/ lower_letter c ->
  seg mode cur ((c :: r) ++ rest) = (rev cur ++ c :: r) :: seg WBoundary [] rest.
Proof.
  intros Hl Hrest. induction Hl as [|n r Hn Hr IH]; intros c mode cur Hc Hm.
  - assert (Enm : (if is_ascii_lower c then WLower else if is_ascii_upper c then WUpper else mode) = WLower).
    { destruct (is_ascii_lower c) eqn:El; [reflexivity|]. rewrite (low_not_upper c Hc).
      destruct Hm as [->|Hm]; [reflexivity|]. unfold lower_letter in Hm. unfold is_ascii_lower in El. lia. }
    cbn [app seg]. destruct rest as [|x t]; [reflexivity|]. rewrite Enm, (Hrest x t eq_refl). reflexivity.
  - assert (Enm : (if is_ascii_lower c then WLower else if is_ascii_upper c then WUpper else mode) = WLower).
    { destruct (is_ascii_lower c) eqn:El; [reflexivity|]. rewrite (low_not_upper c Hc).
      destruct Hm as [->|Hm]; [reflexivity|]. unfold lower_letter in Hm. unfold is_ascii_lower in El. lia. }
    specialize (IH n WLower (c :: cur) Hn (or_introl eq_refl)).
    cbn [app] in IH |- *. rewrite seg_cons. cbv zeta. rewrite Enm, (low_not_upper n Hn), (low_not_upper c Hc). cbn [andb].
    cbn [rev] in IH. rewrite <- app_assoc in IH.
    destruct mode; exact IH.
Qed.

Lemma raise_lower x x' : lower_letter x -> raised x x' -> is_ascii_upper x' = true /\ is_ascii_lower x' = false /\ ascii_lower x' = x /\ ascii_upper x = x'.
Proof.
  intros Hx Hr. pose proof Hr as E. apply raised_spec in E. unfold raised, lower_letter in *.
  destruct Hr as [[_ Hr]|[Hr _]]; [|contradiction].
  assert (Hu : is_ascii_upper x' = true) by (unfold is_ascii_upper; lia).
  repeat split; auto.
  - unfold is_ascii_lower. lia.
  - unfold ascii_lower. rewrite Hu. replace (b2n x' + 32)%N with (b2n x) by lia. apply n2b_b2n.
Qed.

Lemma seg_pascal ws cs : Forall pascal_word ws -> Forall2 capitalized ws cs -> seg WBoundary [] (concat cs) = cs.
Proof.
  intros H HC. induction HC as [|w c ws cs Hc HC IH]; [reflexivity|].
  inversion_clear H as [|? ? Hw Hws]. specialize (IH Hws).
  destruct Hw as (x & y & r & -> & Hx & Hy & Hr). destruct Hc as (x0 & x' & r0 & E & -> & Hx').
  injection E as <- <-. destruct (raise_lower x x' Hx Hx') as (Hu & Hl & _).
  assert (Hrest : forall z t, concat cs = z :: t -> is_ascii_upper z = true).
  { destruct HC as [|v v' vs vs' (z0 & z & q & -> & -> & Hz) _]; [discriminate|].
    inversion_clear Hws as [|? ? Hv _]. destruct Hv as (a & b & q' & Eq & Ha & _). injection Eq as -> ->.
    intros z1 t Ez. injection Ez as <- _. exact (proj1 (raise_lower _ _ Ha Hz)). }
  cbn [concat]. 
  assert (G := seg_tail r (concat cs) Hr Hrest y WUpper [x'] (or_introl Hy) (or_intror Hy)).
  change (seg WBoundary [] ((x' :: y :: r) ++ concat cs)) with (seg WBoundary [] (x' :: (y :: r) ++ concat cs)).
  rewrite IH in G. cbn [rev app] in G.
  cbn [app]. rewrite seg_cons. cbv zeta. rewrite Hl, Hu. exact G.
Qed.
Lemma words_pascal ws cs : Forall pascal_word ws -> Forall2 capitalized ws cs -> words (concat cs) = cs.
Proof.
  intros H HC. unfold words.
  assert (E : split_words (concat cs) [] = [concat cs]).
  { assert (Ha : Forall (fun b => is_alnum b = true) (concat cs)).
    { clear -H HC. induction HC as [|w c ws cs Hc HC IH]; [constructor|]. inversion_clear H as [|? ? Hw Hws].
      cbn [concat]. apply Forall_app. split; [|auto].
      destruct Hw as (x & y & r & -> & Hx & Hy & Hr). destruct Hc as (x0 & x' & r0 & E & -> & Hx'). injection E as <- <-.
      destruct (raise_lower x x' Hx Hx') as (Hu & _). constructor; [unfold is_alnum; rewrite Hu; destruct (is_ascii_digit x'); reflexivity|].
      constructor; [apply low_alnum; left; exact Hy|]. eapply Forall_impl; [|exact Hr]. apply low_alnum. }
    assert (G : forall s acc, Forall (fun b => is_alnum b = true) s -> split_words s acc = [rev acc ++ s]).
    { induction s as [|z s IHs]; intros acc Hs; [cbn; rewrite app_nil_r; reflexivity|]. inversion_clear Hs as [|? ? Hz Hs'].
      cbn [split_words]. rewrite Hz, IHs by assumption. cbn [rev]. rewrite <- app_assoc. reflexivity. }
    exact (G _ [] Ha). }
  rewrite E. cbn [map concat]. rewrite (seg_pascal ws cs H HC). apply app_nil_r.
Qed.

Lemma pascal_lower ws cs : Forall pascal_word ws -> Forall2 capitalized ws cs -> map lowercase cs = ws /\ map capitalize cs = cs.
Proof.
  intros H HC. induction HC as [|w c ws cs Hc HC IH]; [auto|]. inversion_clear H as [|? ? Hw Hws].
  destruct (IH Hws) as [E1 E2]. cbn [map]. rewrite E1, E2.
  destruct Hw as (x & y & r & -> & Hx & Hy & Hr). destruct Hc as (x0 & x' & r0 & E & -> & Hx'). injection E as <- <-.
  destruct (raise_lower x x' Hx Hx') as (Hu & Hl & Hlo & Hup).
  assert (Hyr : lowercase (y :: r) = y :: r) by (apply low_lowercase; constructor; [left; exact Hy|exact Hr]).
  split; f_equal.
  - unfold lowercase in *. cbn [map] in *. congruence.
  - cbn [capitalize]. rewrite Hyr. f_equal. unfold ascii_upper. rewrite Hl. reflexivity.
Qed.

(** The conversions, for identifiers in the usual conventions. *)
Theorem kebab_snake ws : Forall snake_word ws -> kebab_case (glue (bs "_") ws) = glue (bs "-") ws.
Proof.
  intros H. unfold kebab_case. rewrite words_snake by exact H. rewrite glue_join. f_equal.
  induction H as [|w ws [_ Hw] _ IH]; [reflexivity|]. cbn [map]. rewrite IH, low_lowercase by exact Hw. reflexivity.
Qed.
Lemma join_upper sep ws : uppercase sep = sep -> join sep (map uppercase ws) = uppercase (join sep ws).
Proof.
  intros Hs. induction ws as [|w ws IH]; [reflexivity|]. destruct ws as [|v ws]; [reflexivity|].
  change (join sep (map uppercase (w :: v :: ws))) with (uppercase w ++ sep ++ join sep (map uppercase (v :: ws))).
  change (join sep (w :: v :: ws)) with (w ++ sep ++ join sep (v :: ws)). rewrite IH.
  unfold uppercase in *. rewrite !map_app, Hs. reflexivity.
Qed.
Theorem shouty_snake ws s : Forall snake_word ws -> Forall2 raised (glue (bs "_") ws) s -> shouty_snake_case (glue (bs "_") ws) = s.
Proof.
  intros H Hr. apply raised_all in Hr. unfold shouty_snake_case. rewrite words_snake by exact H.
  rewrite join_upper by reflexivity. rewrite <- glue_join. exact Hr.
Qed.
Theorem kebab_pascal ws cs : Forall pascal_word ws -> Forall2 capitalized ws cs -> kebab_case (concat cs) = glue (bs "-") ws.
Proof.
  intros H HC. unfold kebab_case. rewrite (words_pascal ws cs H HC), (proj1 (pascal_lower ws cs H HC)), glue_join. reflexivity.
Qed.
Lemma join_nil l : join [] l = concat l.
Proof. induction l as [|x [|y l] IH]; [reflexivity|cbn; rewrite app_nil_r; reflexivity|]. cbn [join concat] in *. rewrite IH. reflexivity. Qed.
Lemma uppercase_lower x : ascii_upper (ascii_lower x) = ascii_upper x.
Proof. destruct x; reflexivity. Qed.
Theorem renames_pascal ws cs : Forall pascal_word ws -> Forall2 capitalized ws cs ->
  do_rename KebabCase (concat cs) = glue (bs "-") ws
  /\ do_rename SnakeCase (concat cs) = glue (bs "_") ws
  /\ Forall2 raised (glue (bs "_") ws) (do_rename ScreamingSnakeCase (concat cs))
  /\ do_rename PascalCase (concat cs) = concat cs
  /\ do_rename CamelCase (concat cs) = hd [] ws ++ concat (tl cs)
  /\ do_rename Lower (concat cs) = concat ws
  /\ Forall2 raised (concat ws) (do_rename Upper (concat cs))
  /\ do_rename Heck.Verbatim (concat cs) = concat cs.
Proof.
  intros H HC. pose proof (words_pascal ws cs H HC) as W. destruct (pascal_lower ws cs H HC) as [L C].
  assert (Lc : lowercase (concat cs) = concat ws) by (unfold lowercase; rewrite concat_map; fold lowercase; change (map (map ascii_lower) cs) with (map lowercase cs); rewrite L; reflexivity).
  assert (Hul : forall s, uppercase (lowercase s) = uppercase s).
  { intros s. unfold uppercase, lowercase. rewrite map_map. apply map_ext. apply uppercase_lower. }
  repeat split; cbn [do_rename].
  - apply kebab_pascal; assumption.
  - unfold snake_case. rewrite W, L, glue_join. reflexivity.
  - apply raised_all. unfold shouty_snake_case. rewrite W, glue_join, join_upper by reflexivity.
    rewrite <- !(join_upper (bs "_")) by reflexivity. f_equal. rewrite <- L, map_map. apply map_ext. exact Hul.
  - unfold pascal_case. rewrite W, C. apply join_nil.
  - unfold lower_camel_case. rewrite W. destruct HC as [|w c ws cs Hc HC]; [reflexivity|].
    cbn [map] in L, C. injection L as L1 L2. injection C as C1 C2. cbn [hd tl]. rewrite L1, C2, join_nil. reflexivity.
  - exact Lc.
  - apply raised_all. rewrite <- Lc. apply Hul.
Qed.

(** ** Names of arguments and subcommands *)

Section Names.
Context {V : Type}.

Theorem default_long (a : sarg V) ws : am_long (sa_meta a) = Some Inherit -> Forall snake_word ws -> sa_id a = glue (bs "_") ws ->
  has_name a (Long (glue (bs "-") ws)).
Proof.
  intros H Hw E. split; [unfold is_option; rewrite H; reflexivity|]. right. unfold long_name. rewrite H, E, kebab_snake by exact Hw. reflexivity.
Qed.
Theorem default_short (a : sarg V) b r : am_short (sa_meta a) = Some Inherit -> sa_id a = b :: r -> has_name a (Short (b2n b)).
Proof.
  intros H E. split; [unfold is_option; rewrite H; destruct (am_long (sa_meta a)); reflexivity|]. right. unfold short_name. rewrite H, E. reflexivity.
Qed.
Theorem default_value_name (a : sarg V) ws s : am_value_name (sa_meta a) = None -> Forall snake_word ws -> sa_id a = glue (bs "_") ws ->
  Forall2 raised (sa_id a) s -> value_name a = s.
Proof. intros H Hw E Hs. unfold value_name. rewrite H, E. rewrite E in Hs. apply shouty_snake; assumption. Qed.
Theorem default_subcommand (v : ident * variant_decl V) ws cs : Forall pascal_word ws -> Forall2 capitalized ws cs -> fst v = concat cs ->
  sub_name v = glue (bs "-") ws.
Proof. intros Hw Hc E. unfold sub_name. rewrite E. apply kebab_pascal; assumption. Qed.
End Names.
