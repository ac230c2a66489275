(** Proofs about the words of identifiers. *)
From Verif Require Import Bytes BytesFacts Utf8 Heck HeckFacts Decl Spec Parts PartsFacts NameFacts CaseNames.

(** ** Letters *)

Lemma lower_iff b : is_ascii_lower b = true <-> lower_letter b.
Proof. unfold is_ascii_lower, lower_letter. rewrite andb_true_iff, !N.leb_le. reflexivity. Qed.
Lemma upper_iff b : is_ascii_upper b = true <-> upper_letter b.
Proof. unfold is_ascii_upper, upper_letter. rewrite andb_true_iff, !N.leb_le. reflexivity. Qed.
Lemma digit_iff b : is_ascii_digit b = true <-> digit b.
Proof. unfold is_ascii_digit, digit. rewrite andb_true_iff, !N.leb_le. reflexivity. Qed.
Lemma alnum_iff b : is_alnum b = true <-> name_char b.
Proof. unfold is_alnum, name_char. rewrite !orb_true_iff, lower_iff, upper_iff, digit_iff. tauto. Qed.
Lemma alnum_not b : is_alnum b = false <-> ~ name_char b.
Proof. rewrite <- alnum_iff. symmetry. apply not_true_iff_false. Qed.

(** ** Words in one pass *)

Definition next_mode (mode : word_mode) (c : byte) : word_mode :=
  if is_ascii_lower c then WLower else if is_ascii_upper c then WUpper else mode.
Fixpoint pass (mode : word_mode) (cur : bytes) (s : bytes) : list bytes :=
  match s with
  | [] => []
  | c :: s' =>
      if is_alnum c then
        match s' with
        | [] => [rev (c :: cur)]
        | next :: _ =>
            if is_alnum next then
              match next_mode mode c, is_ascii_upper next with
              | WLower, true => rev (c :: cur) :: pass WBoundary [] s'
              | _, _ =>
                  match mode, is_ascii_upper c && is_ascii_lower next with
                  | WUpper, true => rev cur :: pass WBoundary [c] s'
                  | _, _ => pass (next_mode mode c) (c :: cur) s'
                  end
              end
            else rev (c :: cur) :: pass WBoundary [] s'
        end
      else pass WBoundary [] s'
  end.

Definition all_an (s : bytes) : Prop := Forall (fun b => is_alnum b = true) s.
Lemma seg_cons mode cur c n w : seg mode cur (c :: n :: w) =
  match next_mode mode c, is_ascii_upper n with
  | WLower, true => rev (c :: cur) :: seg WBoundary [] (n :: w)
  | _, _ =>
      match mode, is_ascii_upper c && is_ascii_lower n with
      | WUpper, true => rev cur :: seg WBoundary [c] (n :: w)
      | _, _ => seg (next_mode mode c) (c :: cur) (n :: w)
      end
  end.
Proof. reflexivity. Qed.
Lemma pass_cons mode cur c n s : is_alnum c = true -> is_alnum n = true -> pass mode cur (c :: n :: s) =
  match next_mode mode c, is_ascii_upper n with
  | WLower, true => rev (c :: cur) :: pass WBoundary [] (n :: s)
  | _, _ =>
      match mode, is_ascii_upper c && is_ascii_lower n with
      | WUpper, true => rev cur :: pass WBoundary [c] (n :: s)
      | _, _ => pass (next_mode mode c) (c :: cur) (n :: s)
      end
  end.
Proof.
  intros Hc Hn. change (pass mode cur (c :: n :: s)) with
    (if is_alnum c then
       if is_alnum n then
         match next_mode mode c, is_ascii_upper n with
         | WLower, true => rev (c :: cur) :: pass WBoundary [] (n :: s)
         | _, _ =>
             match mode, is_ascii_upper c && is_ascii_lower n with
             | WUpper, true => rev cur :: pass WBoundary [c] (n :: s)
             | _, _ => pass (next_mode mode c) (c :: cur) (n :: s)
             end
         end
       else rev (c :: cur) :: pass WBoundary [] (n :: s)
     else pass WBoundary [] (n :: s)).
  rewrite Hc, Hn. reflexivity.
Qed.
Lemma pass_last mode cur c s : is_alnum c = true -> s = [] \/ (exists n s', s = n :: s' /\ is_alnum n = false) ->
  pass mode cur (c :: s) = rev (c :: cur) :: pass WBoundary [] s.
Proof. intros Hc [->|(n & s' & -> & Hn)]; cbn [pass]; rewrite Hc; [reflexivity|]. rewrite Hn. reflexivity. Qed.
Lemma pass_skip mode cur c s : is_alnum c = false -> pass mode cur (c :: s) = pass WBoundary [] s.
Proof. intros Hc. cbn [pass]. rewrite Hc. reflexivity. Qed.
Lemma pass_seg w : forall mode cur, all_an w -> w <> [] -> forall r, match r with [] => True | x :: _ => is_alnum x = false end ->
  pass mode cur (w ++ r) = seg mode cur w ++ pass WBoundary [] r.
Proof.
  induction w as [|c w IH]; [contradiction|]. intros mode cur Hw _ r Hr. pose proof (Forall_inv Hw) as Hc. pose proof (Forall_inv_tail Hw) as Hw'.
  cbn beta in Hc. destruct w as [|n w].
  - cbn [app seg]. rewrite pass_last; [reflexivity|exact Hc|]. destruct r as [|x r]; [auto|right; eauto].
  - assert (G : forall m cu, pass m cu (n :: w ++ r) = seg m cu (n :: w) ++ pass WBoundary [] r)
      by (intros m cu; exact (IH m cu Hw' ltac:(discriminate) r Hr)).
    cbn [app]. rewrite pass_cons by (exact Hc || exact (Forall_inv Hw')). rewrite seg_cons.
    destruct (next_mode mode c), (is_ascii_upper n); try (rewrite G; reflexivity);
      destruct mode, (is_ascii_upper c && is_ascii_lower n); rewrite G; reflexivity.
Qed.
Lemma split_spec s : forall acc, all_an acc ->
  exists w r, s = w ++ r /\ all_an w /\ match r with [] => True | x :: _ => is_alnum x = false end /\
    split_words s acc = (rev acc ++ w) :: match r with [] => [] | _ :: r' => split_words r' [] end.
Proof.
  induction s as [|x s IH]; intros acc Ha.
  - exists [], []. split; [reflexivity|]. split; [constructor|]. split; [exact I|]. cbn. rewrite app_nil_r. reflexivity.
  - cbn [split_words]. destruct (is_alnum x) eqn:Ex.
    + destruct (IH (x :: acc)) as (w & r & -> & Hw & Hr & ->); [constructor; assumption|].
      exists (x :: w), r. split; [reflexivity|]. split; [constructor; assumption|]. split; [exact Hr|]. cbn [rev]. rewrite <- app_assoc. reflexivity.
    + exists [], (x :: s). split; [reflexivity|]. split; [constructor|]. split; [exact Ex|]. rewrite app_nil_r. reflexivity.
Qed.
Lemma words_pass s : words s = pass WBoundary [] s.
Proof.
  unfold words. remember (length s) as n eqn:En. revert s En. induction n as [n IH] using lt_wf_ind. intros s ->.
  destruct (split_spec s [] ltac:(constructor)) as (w & r & -> & Hw & Hr & ->).
  change (seg WBoundary [] w ++ concat (map (seg WBoundary []) match r with [] => [] | _ :: r' => split_words r' [] end) = pass WBoundary [] (w ++ r)).
  assert (T : concat (map (seg WBoundary []) match r with [] => [] | _ :: r' => split_words r' [] end) = pass WBoundary [] r).
  { destruct r as [|x r]; [reflexivity|]. cbn [pass]. rewrite Hr. apply (IH (length r)); [rewrite app_length; cbn; lia|reflexivity]. }
  rewrite T. destruct w as [|c w]; [reflexivity|]. symmetry. apply pass_seg; [exact Hw|discriminate|exact Hr].
Qed.

(** ** The last letter *)

Definition last_step (m : word_mode) (c : byte) : word_mode := if is_alnum c then next_mode m c else WBoundary.
Definition last_mode (l : bytes) : word_mode := fold_left last_step l WBoundary.
Lemma last_mode_snoc l c : last_mode (l ++ [c]) = last_step (last_mode l) c.
Proof. unfold last_mode. apply fold_left_app. Qed.

Lemma not_both b : is_ascii_lower b = true -> is_ascii_upper b = true -> False.
Proof. rewrite lower_iff, upper_iff. unfold lower_letter, upper_letter. lia. Qed.
Lemma digit_cases b : is_ascii_digit b = true -> is_alnum b = true /\ is_ascii_lower b = false /\ is_ascii_upper b = false.
Proof.
  intros H. split; [unfold is_alnum; rewrite H; reflexivity|]. apply digit_iff in H. unfold digit in H.
  split; apply not_true_iff_false; rewrite ?lower_iff, ?upper_iff; unfold lower_letter, upper_letter; lia.
Qed.
Lemma letter_alnum b : is_ascii_lower b = true \/ is_ascii_upper b = true -> is_alnum b = true.
Proof. unfold is_alnum. intros [->| ->]; rewrite ?orb_true_r; reflexivity. Qed.

Lemma ends_snoc (P : byte -> Prop) l c :
  (exists l' x ds, l ++ [c] = l' ++ x :: ds /\ P x /\ Forall digit ds) <->
  P c \/ digit c /\ exists l' x ds, l = l' ++ x :: ds /\ P x /\ Forall digit ds.
Proof.
  split.
  - intros (l' & x & ds & E & Hx & Hd). destruct ds as [|d ds _] using rev_ind.
    + apply app_inj_tail in E. destruct E as [_ ->]. left. exact Hx.
    + change (l' ++ x :: ds ++ [d]) with (l' ++ (x :: ds) ++ [d]) in E. rewrite app_assoc in E. apply app_inj_tail in E. destruct E as [-> ->].
      apply Forall_app in Hd. destruct Hd as [Hd Hc]. right. split; [exact (Forall_inv Hc)|]. exists l', x, ds. auto.
  - intros [H|(Hc & l' & x & ds & -> & Hx & Hd)].
    + exists l, c, []. auto.
    + exists l', x, (ds ++ [c]). rewrite <- app_assoc. split; [reflexivity|]. split; [exact Hx|]. apply Forall_app. auto.
Qed.
Lemma ends_lower_iff l : ends_lower l <-> last_mode l = WLower.
Proof.
  induction l as [|c l IH] using rev_ind.
  - split; [intros (l' & x & ds & E & _); destruct l'; discriminate|discriminate].
  - unfold ends_lower in *. rewrite ends_snoc, IH, last_mode_snoc. unfold last_step, next_mode. rewrite <- lower_iff, <- digit_iff.
    destruct (is_ascii_lower c) eqn:El; [rewrite letter_alnum by auto; tauto|].
    destruct (is_ascii_upper c) eqn:Eu.
    { rewrite letter_alnum by auto. split; [intros [H|[H _]]; [discriminate|]|discriminate].
      apply digit_cases in H. destruct H as (_ & _ & H). congruence. }
    unfold is_alnum. rewrite El, Eu, !orb_false_r. destruct (is_ascii_digit c); [|split; [intros [H|[H _]]; discriminate|discriminate]].
    split; [intros [H|[_ H]]; [discriminate|exact H]|auto].
Qed.
Lemma ends_upper_iff l : ends_upper l <-> last_mode l = WUpper.
Proof.
  induction l as [|c l IH] using rev_ind.
  - split; [intros (l' & x & ds & E & _); destruct l'; discriminate|discriminate].
  - unfold ends_upper in *. rewrite ends_snoc, IH, last_mode_snoc. unfold last_step, next_mode. rewrite <- upper_iff, <- digit_iff.
    destruct (is_ascii_lower c) eqn:El.
    { rewrite letter_alnum by auto. split; [intros [H|[H _]]|discriminate]; exfalso; [exact (not_both c El H)|].
      apply digit_cases in H. destruct H as (_ & H & _). congruence. }
    destruct (is_ascii_upper c) eqn:Eu; [rewrite letter_alnum by auto; tauto|].
    unfold is_alnum. rewrite El, Eu, !orb_false_r. destruct (is_ascii_digit c); [|split; [intros [H|[H _]]; discriminate|discriminate]].
    split; [intros [H|[_ H]]; [discriminate|exact H]|auto].
Qed.

Definition some_char (l : bytes) : bool := existsb is_alnum l.
Lemma some_char_false l : some_char l = false <-> Forall (fun b => ~ name_char b) l.
Proof.
  induction l as [|c l IH]; [split; [constructor|reflexivity]|]. cbn [some_char existsb]. fold (some_char l). rewrite orb_false_iff, IH, alnum_not.
  split; [intros [H1 H2]; constructor; assumption|]. intros H. inversion H. auto.
Qed.
Lemma some_char_snoc l c : some_char (l ++ [c]) = some_char l || is_alnum c.
Proof. unfold some_char. rewrite existsb_app. cbn [existsb]. rewrite orb_false_r. reflexivity. Qed.

(** ** The text, letter by letter *)

Section Spelled.
Context (cv : convention_of) (fi fs f : byte -> byte).
Hypothesis Hfirst : forall b, cv_first cv b (fi b).
Hypothesis Hstart : forall b, cv_start cv b (fs b).
Hypothesis Hrest : forall b, cv_rest cv b (f b).
Local Notation spelled := (spelled cv).
Local Notation sep := (cv_sep cv).
Definition cap (g : byte -> byte) (w : bytes) : bytes := match w with [] => [] | c :: x => g c :: map f x end.

(** The text of the words still to come, and of those after the first. *)
Definition others (ws : list bytes) : bytes := flat_map (fun w => sep ++ cap fs w) ws.
Definition text_of_words (started : bool) (ws : list bytes) : bytes :=
  match ws with
  | [] => []
  | w :: ws => (if started then sep ++ cap fs w else cap fi w) ++ others ws
  end.
Lemma others_started ws : others ws = text_of_words true ws.
Proof. destruct ws as [|w ws]; [reflexivity|]. cbn [others flat_map text_of_words]. reflexivity. Qed.

(** Within a word: what is to come after [rev cur], the part of the word in [l]. *)
Definition inside (l cur : bytes) (s : bytes) (ws : list bytes) : Prop :=
  exists x ws', ws = (rev cur ++ x) :: ws' /\ spelled l s (map f x ++ others ws').

Definition sep_end (l : bytes) : Prop := l = [] \/ exists l' x, l = l' ++ [x] /\ is_alnum x = false.
Lemma sep_end_mode l : sep_end l -> last_mode l = WBoundary.
Proof. intros [->|(l' & x & -> & Hx)]; [reflexivity|]. rewrite last_mode_snoc. unfold last_step. rewrite Hx. reflexivity. Qed.
Lemma starts_iff l c r : is_alnum c = true -> (exists l' x, l = l' ++ [x] /\ is_alnum x = true) ->
  word_starts l c r <-> is_ascii_upper c = true /\ (last_mode l = WLower \/ last_mode l = WUpper /\ exists d r', r = d :: r' /\ is_ascii_lower d = true).
Proof.
  intros Hc (l' & x & -> & Hx). unfold word_starts. rewrite ends_lower_iff, ends_upper_iff, upper_iff.
  assert (L : (exists d r', r = d :: r' /\ lower_letter d) <-> (exists d r', r = d :: r' /\ is_ascii_lower d = true)).
  { split; intros (d & r' & E & H); exists d, r'; (split; [exact E|]); apply lower_iff; exact H. }
  rewrite L. split; [|auto]. intros [E|[(l2 & y & E & Hy)|H]]; [destruct l'; discriminate| |exact H].
  apply app_inj_tail in E. destruct E as [_ <-]. apply alnum_iff in Hx. contradiction.
Qed.

Lemma emit l c s T : is_alnum c = true -> sep_end l \/ is_ascii_upper c = true /\ last_mode l = WLower -> spelled (l ++ [c]) s T ->
  spelled l (c :: s) (if some_char l then sep ++ fs c :: T else fi c :: T).
Proof.
  intros Hc Hl H. destruct (some_char l) eqn:E.
  - apply sp_next; [apply alnum_iff; exact Hc|apply Hstart|rewrite <- some_char_false, E; discriminate| |exact H].
    destruct Hl as [[->|(l' & x & -> & Hx)]|[Hu Hm]]; [left; reflexivity|right; left; exists l', x; split; [reflexivity|apply alnum_not; exact Hx]|].
    right; right. split; [apply upper_iff; exact Hu|]. left. apply ends_lower_iff. exact Hm.
  - apply sp_first; [apply alnum_iff; exact Hc|apply Hfirst|apply some_char_false; exact E|exact H].
Qed.
Lemma ends_some l : (exists l' x, l = l' ++ [x] /\ is_alnum x = true) -> ~ Forall (fun b => ~ name_char b) l.
Proof. intros (l' & x & -> & Hx). rewrite <- some_char_false, some_char_snoc, Hx, orb_true_r. discriminate. Qed.
Lemma keep l c s T : is_alnum c = true -> (exists l' x, l = l' ++ [x] /\ is_alnum x = true) ->
  (is_ascii_upper c = true -> last_mode l <> WLower) ->
  (is_ascii_upper c = true -> last_mode l = WUpper -> forall n s', s = n :: s' -> is_ascii_lower n = false) ->
  spelled (l ++ [c]) s T -> spelled l (c :: s) (f c :: T).
Proof.
  intros Hc Hl Ha Hb H. apply sp_same; [apply alnum_iff; exact Hc|apply Hrest|apply ends_some; exact Hl| |exact H].
  rewrite starts_iff by assumption. intros [Hu [Hm|(Hm & d & r' & E & Hd)]]; [exact (Ha Hu Hm)|].
  rewrite (Hb Hu Hm d r' E) in Hd. discriminate.
Qed.

Lemma mode_step mode l c n : is_alnum c = true -> is_ascii_lower c = true \/ mode = last_mode l -> is_ascii_lower n = true \/ next_mode mode c = last_mode (l ++ [c]).
Proof.
  intros Hc H. right. rewrite last_mode_snoc. unfold last_step. rewrite Hc. destruct H as [H| ->]; [|reflexivity]. unfold next_mode. rewrite H. reflexivity.
Qed.

(** At the start of a word, and within one. *)
Lemma pass_spelled s :
  (forall l, (forall c r, s = c :: r -> is_alnum c = true -> sep_end l \/ is_ascii_upper c = true /\ last_mode l = WLower) ->
     spelled l s (text_of_words (some_char l) (pass WBoundary [] s))) /\
  (forall c r mode cur l, s = c :: r -> is_alnum c = true -> (exists l' x, l = l' ++ [x] /\ is_alnum x = true) ->
     is_ascii_lower c = true \/ mode = last_mode l -> (is_ascii_upper c = true -> last_mode l <> WLower) ->
     inside l cur s (pass mode cur s)).
Proof.
  induction s as [|c s [IH1 IH2]]; [split; [intros l _; constructor|discriminate]|].
  (* what follows a letter that is the last of its word *)
  assert (After : forall l, is_alnum c = true ->
      (forall n r, s = n :: r -> is_alnum n = true -> is_ascii_upper n = true /\ last_mode (l ++ [c]) = WLower) ->
      spelled (l ++ [c]) s (others (pass WBoundary [] s))).
  { intros l Hc H. rewrite others_started. assert (E : true = some_char (l ++ [c])) by (rewrite some_char_snoc, Hc, orb_true_r; reflexivity).
    rewrite E. apply IH1. intros n r En Hn. right. exact (H n r En Hn). }
  assert (Last : forall l mode n r, is_alnum c = true -> is_ascii_lower c = true \/ mode = last_mode l \/ is_ascii_upper c = true -> next_mode mode c = WLower ->
      is_ascii_upper n = true -> s = n :: r -> forall n' r', s = n' :: r' -> is_alnum n' = true -> is_ascii_upper n' = true /\ last_mode (l ++ [c]) = WLower).
  { intros l mode n r Hc Hm Hn Hu Es n' r' Es' _. rewrite Es in Es'. injection Es' as <- <-. split; [exact Hu|].
    rewrite last_mode_snoc. unfold last_step. rewrite Hc. revert Hn. unfold next_mode.
    destruct (is_ascii_lower c); [reflexivity|]. destruct (is_ascii_upper c); [discriminate|]. destruct Hm as [Hm|[<-|Hm]]; [discriminate|auto|discriminate]. }
  assert (Case : is_alnum c = true -> (s = [] \/ exists n r, s = n :: r /\ is_alnum n = false) \/ exists n r, s = n :: r /\ is_alnum n = true).
  { intros _. destruct s as [|n r]; [auto|]. destruct (is_alnum n) eqn:E; [right|left; right]; eauto. }
  assert (End : s = [] \/ (exists n r, s = n :: r /\ is_alnum n = false) -> forall n r, s = n :: r -> is_alnum n = true -> False).
  { intros [->|(n & r & -> & Hn)] n' r' E Hn'; [discriminate|]. injection E as <- <-. congruence. }
  split.
  - intros l Hl. destruct (Bool.bool_dec (is_alnum c) true) as [Hc|Hc].
    2: { apply not_true_iff_false in Hc. rewrite pass_skip by exact Hc. apply sp_other; [apply alnum_not; exact Hc|].
         replace (some_char l) with (some_char (l ++ [c])) by (rewrite some_char_snoc, Hc, orb_false_r; reflexivity).
         apply IH1. intros n r _ _. left. right. exists l, c. auto. }
    specialize (Hl c s eq_refl Hc). specialize (Case Hc).
    assert (Emit : forall x ws, spelled (l ++ [c]) s (map f x ++ others ws) -> spelled l (c :: s) (text_of_words (some_char l) ((c :: x) :: ws))).
    { intros x ws H. cbn [text_of_words cap]. pose proof (emit l c s _ Hc Hl H) as G. destruct (some_char l); rewrite <- ?app_assoc; exact G. }
    destruct Case as [He|(n & r & Es & Hn)].
    { rewrite pass_last by assumption. apply (Emit []). apply After; [exact Hc|]. intros n r En Hn. destruct (End He n r En Hn). }
    assert (Hmode : is_ascii_lower c = true \/ WBoundary = last_mode l \/ is_ascii_upper c = true).
    { destruct Hl as [Hl|[Hu _]]; [right; left; symmetry; apply sep_end_mode; exact Hl|auto]. }
    assert (Enm : next_mode WBoundary c = last_mode (l ++ [c])).
    { rewrite last_mode_snoc. unfold last_step. rewrite Hc. unfold next_mode. destruct (is_ascii_lower c); [reflexivity|]. destruct (is_ascii_upper c); [reflexivity|].
      destruct Hmode as [H|[H|H]]; [discriminate|exact H|discriminate]. }
    assert (Go : (is_ascii_upper n = true -> next_mode WBoundary c <> WLower) -> spelled l (c :: s) (text_of_words (some_char l) (pass (next_mode WBoundary c) [c] s))).
    { intros Hu. rewrite Enm. destruct (IH2 n r (last_mode (l ++ [c])) [c] (l ++ [c]) Es Hn) as (x & ws & -> & Hx); [eauto|auto|rewrite <- Enm; exact Hu|].
      cbn [rev app]. apply Emit. exact Hx. }
    rewrite Es, pass_cons by assumption. rewrite <- Es.
    destruct (is_ascii_upper n) eqn:Hu.
    + destruct (next_mode WBoundary c) eqn:Em; try (apply Go; discriminate). apply (Emit []). apply After; [exact Hc|].
      exact (Last l WBoundary n r Hc Hmode Em Hu Es).
    + destruct (next_mode WBoundary c) eqn:Em; apply Go; discriminate.
  - intros c0 s0 mode cur l E Hc Hl Hm Ha. injection E as <- <-. specialize (Case Hc).
    destruct Case as [He|(n & r & Es & Hn)].
    { rewrite pass_last by assumption. exists [c], (pass WBoundary [] s). split; [reflexivity|]. cbn [map app]. apply keep; [exact Hc|exact Hl|exact Ha| |].
      - intros _ _ n r En. destruct (is_alnum n) eqn:Hn; [destruct (End He n r En Hn)|]. apply not_true_iff_false. intros H.
        rewrite letter_alnum in Hn by auto. discriminate.
      - apply After; [exact Hc|]. intros n r En Hn. destruct (End He n r En Hn). }
    assert (Enm : is_ascii_lower n = true \/ next_mode mode c = last_mode (l ++ [c])) by (apply mode_step; assumption).
    assert (Enm' : next_mode mode c = last_mode (l ++ [c])).
    { destruct (mode_step mode l c n Hc Hm) as [_|H]; [|exact H]. rewrite last_mode_snoc. unfold last_step. rewrite Hc.
      destruct Hm as [H| ->]; [|reflexivity]. unfold next_mode. rewrite H. reflexivity. }
    rewrite Es, pass_cons by assumption. rewrite <- Es.
    assert (Hlc : exists l' x, l ++ [c] = l' ++ [x] /\ is_alnum x = true) by eauto.
    assert (Upper : is_ascii_upper c = true -> mode = last_mode l).
    { intros H. destruct Hm as [Hx|Hx]; [destruct (not_both c Hx H)|exact Hx]. }
    assert (Go : (is_ascii_upper n = true -> next_mode mode c <> WLower) -> (mode = WUpper -> is_ascii_upper c && is_ascii_lower n = true -> False) ->
      inside l cur (c :: s) (pass (next_mode mode c) (c :: cur) s)).
    { intros Hu Hb. destruct (IH2 n r (next_mode mode c) (c :: cur) (l ++ [c]) Es Hn Hlc Enm) as (x & ws & -> & Hx); [rewrite <- Enm'; exact Hu|].
      exists (c :: x), ws. split; [cbn [rev]; rewrite <- app_assoc; reflexivity|]. cbn [map app]. apply keep; [exact Hc|exact Hl|exact Ha| |exact Hx].
      intros Huc Hlm n' r' Es'. rewrite Es in Es'. injection Es' as <- <-. apply not_true_iff_false. intros Hln. apply Hb; [rewrite (Upper Huc); exact Hlm|].
      rewrite Huc, Hln. reflexivity. }
    assert (Rest : (is_ascii_upper n = true -> next_mode mode c <> WLower) -> inside l cur (c :: s)
      match mode, is_ascii_upper c && is_ascii_lower n with WUpper, true => rev cur :: pass WBoundary [c] s | _, _ => pass (next_mode mode c) (c :: cur) s end).
    { intros Hu. destruct mode; try (apply Go; [exact Hu|discriminate]).
      destruct (is_ascii_upper c && is_ascii_lower n) eqn:Eb; [|apply Go; [exact Hu|discriminate]].
      apply andb_true_iff in Eb. destruct Eb as [Huc Hln].
      destruct (IH2 n r WBoundary [c] (l ++ [c]) Es Hn Hlc (or_introl Hln)) as (y & ws & E & Hy).
      { intros H. destruct (not_both n Hln H). }
      exists [], (pass WBoundary [c] s). split; [rewrite app_nil_r; reflexivity|]. rewrite E. cbn [rev app others flat_map map cap]. fold (others ws).
      rewrite <- app_assoc. cbn [app]. apply sp_next; [apply alnum_iff; exact Hc|apply Hstart|apply ends_some; exact Hl| |exact Hy].
      - apply starts_iff; [exact Hc|exact Hl|]. split; [exact Huc|]. right. split; [rewrite <- (Upper Huc); reflexivity|]. eauto. }
    destruct (is_ascii_upper n) eqn:Hu.
    + destruct (next_mode mode c) eqn:Em; try (apply Rest; discriminate).
      exists [c], (pass WBoundary [] s). split; [reflexivity|]. cbn [map app]. apply keep; [exact Hc|exact Hl|exact Ha| |].
      * intros _ _ n' r' Es'. rewrite Es in Es'. injection Es' as <- <-. apply not_true_iff_false. intros H. exact (not_both n H Hu).
      * apply After; [exact Hc|]. apply (Last l mode n r Hc); [destruct Hm; auto|exact Em|exact Hu|exact Es].
    + destruct (next_mode mode c) eqn:Em; apply Rest; discriminate.
Qed.

Lemma words_spelled s : spelled [] s (text_of_words false (words s)).
Proof. rewrite words_pass. apply (proj1 (pass_spelled s)). intros c r _ _. left. left. reflexivity. Qed.
Hypothesis fun_first : forall b x y, cv_first cv b x -> cv_first cv b y -> x = y.
Hypothesis fun_start : forall b x y, cv_start cv b x -> cv_start cv b y -> x = y.
Hypothesis fun_rest : forall b x y, cv_rest cv b x -> cv_rest cv b y -> x = y.
Lemma spelled_unique l r t : spelled l r t -> forall t', spelled l r t' -> t = t'.
Proof.
  induction 1 as [l|l c r t Hc H IH|l c c' r t Hc Hv Hn H IH|l c c' r t Hc Hv Hn Hs H IH|l c c' r t Hc Hv Hn Hs H IH]; intros t' H';
    inversion H' as [l0|l0 c0 r0 t0 Hc0 H0|l0 c0 c1 r0 t0 Hc0 Hv0 Hn0 H0|l0 c0 c1 r0 t0 Hc0 Hv0 Hn0 Hs0 H0|l0 c0 c1 r0 t0 Hc0 Hv0 Hn0 Hs0 H0]; subst; try contradiction.
  - reflexivity.
  - apply IH. exact H0.
  - rewrite (fun_first _ _ _ Hv Hv0), (IH _ H0). reflexivity.
  - rewrite (fun_rest _ _ _ Hv Hv0), (IH _ H0). reflexivity.
  - rewrite (fun_start _ _ _ Hv Hv0), (IH _ H0). reflexivity.
Qed.
Lemma spelled_iff s t : text_of_words false (words s) = t <-> spelled [] s t.
Proof. split; [intros <-; apply words_spelled|]. intros H. exact (spelled_unique _ _ _ (words_spelled s) t H). Qed.
End Spelled.

(** ** The conventions *)

Lemma lower_lowered b : lowered b (ascii_lower b).
Proof.
  unfold lowered, ascii_lower. rewrite <- upper_iff. destruct (is_ascii_upper b) eqn:E; [left|right; split; [discriminate|reflexivity]].
  split; [reflexivity|]. apply upper_iff in E. unfold upper_letter in E. apply b2n_n2b. lia.
Qed.
Lemma upper_raised b : raised b (ascii_upper b).
Proof.
  unfold raised, ascii_upper. rewrite <- lower_iff. destruct (is_ascii_lower b) eqn:E; [left|right; split; [discriminate|reflexivity]].
  split; [reflexivity|]. apply lower_iff in E. unfold lower_letter in E. rewrite b2n_n2b; lia.
Qed.
Lemma lowered_fun b x y : lowered b x -> lowered b y -> x = y.
Proof. unfold lowered. intros [[H1 H2]|[H1 H2]] [[G1 G2]|[G1 G2]]; try contradiction; [apply b2n_inj; lia|congruence]. Qed.
Lemma raised_fun b x y : raised b x -> raised b y -> x = y.
Proof. unfold raised. intros [[H1 H2]|[H1 H2]] [[G1 G2]|[G1 G2]]; try contradiction; [apply b2n_inj; lia|congruence]. Qed.

Lemma text_join cv f ws : text_of_words cv f f f false ws = join (cv_sep cv) (map (map f) ws).
Proof.
  assert (C : forall w, cap f f w = map f w) by (intros [|x w]; reflexivity).
  destruct ws as [|w ws]; [reflexivity|]. cbn [text_of_words map]. rewrite C. revert w. induction ws as [|x ws IH]; intros w; [apply app_nil_r|].
  cbn [others flat_map map]. fold (others cv f f ws). rewrite C.
  change (join (cv_sep cv) (map f w :: map f x :: map (map f) ws)) with (map f w ++ cv_sep cv ++ join (cv_sep cv) (map f x :: map (map f) ws)).
  rewrite <- IH, <- app_assoc. reflexivity.
Qed.
Lemma others_cap cv ws : cv_sep cv = [] -> others cv ascii_upper ascii_lower ws = join [] (map capitalize ws).
Proof.
  intros E. rewrite NameFacts.join_nil. unfold others. rewrite E. induction ws as [|w ws IH]; [reflexivity|]. cbn [flat_map map concat]. rewrite IH.
  destruct w; reflexivity.
Qed.

Theorem kebab_iff s t : do_rename KebabCase s = t <-> spelled kebab [] s t.
Proof.
  rewrite <- (spelled_iff kebab ascii_lower ascii_lower ascii_lower) by first [exact lower_lowered|exact lowered_fun].
  rewrite text_join. reflexivity.
Qed.
Theorem snake_iff s t : do_rename SnakeCase s = t <-> spelled snake [] s t.
Proof.
  rewrite <- (spelled_iff snake ascii_lower ascii_lower ascii_lower) by first [exact lower_lowered|exact lowered_fun].
  rewrite text_join. reflexivity.
Qed.
Theorem screaming_iff s t : do_rename ScreamingSnakeCase s = t <-> spelled screaming [] s t.
Proof.
  rewrite <- (spelled_iff screaming ascii_upper ascii_upper ascii_upper) by first [exact upper_raised|exact raised_fun].
  rewrite text_join. reflexivity.
Qed.
Theorem pascal_iff s t : do_rename PascalCase s = t <-> spelled pascal [] s t.
Proof.
  rewrite <- (spelled_iff pascal ascii_upper ascii_upper ascii_lower) by first [exact lower_lowered|exact lowered_fun|exact upper_raised|exact raised_fun].
  cbn [do_rename]. unfold pascal_case. rewrite <- (others_cap pascal) by reflexivity.
  destruct (words s); reflexivity.
Qed.
Theorem camel_iff s t : do_rename CamelCase s = t <-> spelled camel [] s t.
Proof.
  rewrite <- (spelled_iff camel ascii_lower ascii_upper ascii_lower) by first [exact lower_lowered|exact lowered_fun|exact upper_raised|exact raised_fun].
  cbn [do_rename]. unfold lower_camel_case. destruct (words s) as [|w ws]; [reflexivity|]. rewrite <- (others_cap camel) by reflexivity.
  destruct w; reflexivity.
Qed.

(** ** Names of arguments and subcommands *)

Section Names.
Context {V : Type}.
Theorem any_long (a : sarg V) t : am_long (sa_meta a) = Some Inherit -> spelled kebab [] (sa_id a) t -> has_name a (Long t).
Proof.
  intros H Hs. split; [unfold is_option; rewrite H; reflexivity|]. right. unfold long_name. rewrite H. f_equal. apply (kebab_iff (sa_id a) t). exact Hs.
Qed.
Theorem any_value_name (a : sarg V) t : am_value_name (sa_meta a) = None -> Spec.value_name a = t <-> spelled screaming [] (sa_id a) t.
Proof. intros H. unfold Spec.value_name. rewrite H. exact (screaming_iff (sa_id a) t). Qed.
Theorem any_subcommand (v : ident * variant_decl V) t : sub_name v = t <-> spelled kebab [] (fst v) t.
Proof. exact (kebab_iff (fst v) t). Qed.
End Names.
