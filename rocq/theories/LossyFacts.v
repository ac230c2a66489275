(** Proofs about errors in UTF-8: where they are, and what replaces them. *)
From Verif Require Import Bytes BytesFacts Utf8 Utf8Facts Refl Error Values Places Heck Decl Spec Derive Generated
  Observe EnumDerive Parts PartsFacts WriteFacts.
Local Open Scope N_scope.

Lemma starts_app p q : starts_char (p ++ q) -> starts_char p.
Proof. intros (c & r & Hc & E). exists c, (q ++ r). rewrite app_assoc. auto. Qed.

(** ** What begins a character *)

Definition starts2 (b0 b1 : byte) : bool :=
  (in_range 194 223 b0 && is_cont b1) || (in_range 224 239 b0 && second_ok3 b0 b1) || (in_range 240 244 b0 && second_ok4 b0 b1).
Definition starts3 (b0 b1 b2 : byte) : bool :=
  (in_range 224 239 b0 && second_ok3 b0 b1 && is_cont b2) || (in_range 240 244 b0 && second_ok4 b0 b1 && is_cont b2).

Lemma starts_decode p : starts_char p -> exists r c, decode1 (p ++ r) = Some (c, []).
Proof. intros (c & r & Hc & E). exists r, c. rewrite <- E, <- (app_nil_r (utf8_encode c)). apply decode1_complete. apply scalar_spec. exact Hc. Qed.
Lemma decode_starts p r c : decode1 (p ++ r) = Some (c, []) -> starts_char p.
Proof. intros E. apply decode1_sound in E. rewrite app_nil_r in E. destruct E as [E Hc]. exists c, r. split; [apply scalar_spec; exact Hc|symmetry; exact E]. Qed.

Definition cont0 : byte := n2b 128.
Lemma cont0_ok : is_cont cont0 = true.
Proof. reflexivity. Qed.

Lemma starts1_char b0 : in_range 194 244 b0 = true -> starts_char [b0].
Proof.
  intros H. rewrite in_range_spec in H.
  destruct (in_range 194 223 b0) eqn:E1.
  { apply (decode_starts _ [cont0] ((b2n b0 - 192) * 64 + (b2n cont0 - 128))). cbn [app decode1]. rewrite E1, cont0_ok.
    destruct (N.ltb_spec (b2n b0) 128); [lia|reflexivity]. }
  destruct (in_range 224 239 b0) eqn:E2.
  { set (b1 := if b2n b0 =? 224 then n2b 160 else cont0).
    assert (Hb : second_ok3 b0 b1 = true).
    { unfold second_ok3, b1. destruct (b2n b0 =? 224); [reflexivity|]. destruct (b2n b0 =? 237); reflexivity. }
    eapply (decode_starts _ [b1; cont0]). cbn [app decode1]. rewrite E1, E2, Hb, cont0_ok.
    destruct (N.ltb_spec (b2n b0) 128); [lia|reflexivity]. }
  set (b1 := if b2n b0 =? 240 then n2b 144 else cont0).
  assert (Hb : second_ok4 b0 b1 = true).
  { unfold second_ok4, b1. destruct (b2n b0 =? 240); [reflexivity|]. destruct (b2n b0 =? 244); reflexivity. }
  assert (E3 : in_range 240 244 b0 = true).
  { apply in_range_spec. apply not_true_iff_false in E1, E2. rewrite in_range_spec in E1, E2. lia. }
  eapply (decode_starts _ [b1; cont0; cont0]). cbn [app decode1]. rewrite E1, E2, E3, Hb, cont0_ok.
  destruct (N.ltb_spec (b2n b0) 128); [lia|reflexivity].
Qed.

Lemma high b0 lo hi : in_range lo hi b0 = true -> 128 <= lo -> (b2n b0 <? 128) = false.
Proof. intros H Hl. rewrite in_range_spec in H. apply N.ltb_ge. lia. Qed.
Lemma apart b0 lo hi lo' hi' : in_range lo hi b0 = true -> hi < lo' \/ hi' < lo -> in_range lo' hi' b0 = false.
Proof. intros H Hl. rewrite in_range_spec in H. apply not_true_iff_false. rewrite in_range_spec. lia. Qed.

Lemma starts2_iff b0 b1 : 128 <= b2n b0 -> starts_char [b0; b1] <-> starts2 b0 b1 = true.
Proof.
  intros H0. assert (L : (b2n b0 <? 128) = false) by (apply N.ltb_ge; exact H0). unfold starts2. rewrite !orb_true_iff. split.
  - intros H. apply starts_decode in H. destruct H as (r & c & H). cbn [app decode1] in H. rewrite L in H.
    destruct (in_range 194 223 b0); [destruct (is_cont b1); [auto|discriminate]|].
    destruct r as [|b2 r]; [discriminate|]. destruct (in_range 224 239 b0).
    { destruct (second_ok3 b0 b1); [auto|discriminate]. }
    destruct r as [|b3 r]; [discriminate|]. destruct (in_range 240 244 b0); [|discriminate].
    destruct (second_ok4 b0 b1); [auto|discriminate].
  - intros [[H|H]|H]; apply andb_true_iff in H; destruct H as [Ha Hb].
    + eapply (decode_starts _ []). cbn [app decode1]. rewrite L, Ha, Hb. reflexivity.
    + eapply (decode_starts _ [cont0]). cbn [app decode1]. rewrite L, (apart _ _ _ 194 223 Ha), Ha, Hb, cont0_ok by lia. reflexivity.
    + eapply (decode_starts _ [cont0; cont0]). cbn [app decode1].
      rewrite L, (apart _ _ _ 194 223 Ha), (apart _ _ _ 224 239 Ha), Ha, Hb, cont0_ok by lia. reflexivity.
Qed.
Lemma starts3_iff b0 b1 b2 : 128 <= b2n b0 -> starts_char [b0; b1; b2] <-> starts3 b0 b1 b2 = true.
Proof.
  intros H0. assert (L : (b2n b0 <? 128) = false) by (apply N.ltb_ge; exact H0). unfold starts3. rewrite orb_true_iff. split.
  - intros H. apply starts_decode in H. destruct H as (r & c & H). cbn [app decode1] in H. rewrite L in H.
    destruct (in_range 194 223 b0); [destruct (is_cont b1); discriminate|].
    destruct (in_range 224 239 b0).
    { destruct (second_ok3 b0 b1 && is_cont b2) eqn:E; [|discriminate]. left. cbn [andb]. exact E. }
    destruct r as [|b3 r]; [discriminate|]. destruct (in_range 240 244 b0); [|discriminate]. right. cbn [andb] in H |- *.
    destruct (second_ok4 b0 b1 && is_cont b2); [reflexivity|discriminate].
  - intros [H|H]; rewrite !andb_true_iff in H; destruct H as [[Ha Hb] Hc].
    + eapply (decode_starts _ []). cbn [app decode1]. rewrite L, (apart _ _ _ 194 223 Ha), Ha, Hb, Hc by lia. reflexivity.
    + eapply (decode_starts _ [cont0]). cbn [app decode1].
      rewrite L, (apart _ _ _ 194 223 Ha), (apart _ _ _ 224 239 Ha), Ha, Hb, Hc, cont0_ok by lia. reflexivity.
Qed.
(** Four bytes are all of a character. *)
Lemma starts4_char b0 b1 b2 b3 s : 128 <= b2n b0 -> starts_char [b0; b1; b2; b3] -> ~ no_char (b0 :: b1 :: b2 :: b3 :: s).
Proof.
  intros H0 H N. apply decode1_none in N. assert (L : (b2n b0 <? 128) = false) by (apply N.ltb_ge; exact H0).
  apply starts_decode in H. destruct H as (r & c & H). cbn [app decode1] in H, N. rewrite L in H, N.
  destruct (in_range 194 223 b0); [destruct (is_cont b1); discriminate|].
  destruct (in_range 224 239 b0); [destruct (second_ok3 b0 b1 && is_cont b2); discriminate|].
  destruct (in_range 240 244 b0 && second_ok4 b0 b1 && is_cont b2 && is_cont b3); discriminate.
Qed.

(** ** The part that counts as an error *)

Lemma no_char_high b0 r : no_char (b0 :: r) -> 128 <= b2n b0.
Proof. intros N. apply decode1_none in N. cbn [decode1] in N. destruct (N.ltb_spec (b2n b0) 128); [discriminate|assumption]. Qed.

Lemma invalid_broken r : r <> [] -> no_char r -> broken (firstn (invalid_len r) r) (skipn (invalid_len r) r).
Proof.
  intros Hr N. destruct r as [|b0 r]; [contradiction|]. pose proof (no_char_high b0 r N) as H0.
  destruct r as [|b1 r].
  { cbn. constructor; [discriminate|exact N|left; reflexivity|discriminate]. }
  assert (D := N). apply decode1_none in D. cbn [decode1] in D. destruct (N.ltb_spec (b2n b0) 128) as [|_]; [lia|].
  cbn [invalid_len]. destruct (in_range 224 239 b0 && second_ok3 b0 b1) eqn:E3.
  { cbn [firstn skipn]. constructor; [discriminate|exact N| |].
    - right. apply starts2_iff; [exact H0|]. unfold starts2. rewrite E3, orb_true_r. reflexivity.
    - intros b s' -> H. cbn [app] in H. apply starts3_iff in H; [|exact H0]. unfold starts3 in H.
      apply andb_true_iff in E3. destruct E3 as [Ea Eb].
      rewrite (apart _ _ _ 194 223 Ea), Ea in D by lia. rewrite Ea, Eb, (apart _ _ _ 240 244 Ea) in H by lia. rewrite Eb in D.
      cbn [andb orb] in H, D. rewrite orb_false_r in H. rewrite H in D. discriminate. }
  destruct (in_range 240 244 b0 && second_ok4 b0 b1) eqn:E4.
  { apply andb_true_iff in E4. destruct E4 as [Ea Eb].
    assert (S2 : starts_char [b0; b1]).
    { apply starts2_iff; [exact H0|]. unfold starts2. rewrite Ea, Eb, !orb_true_r. reflexivity. }
    destruct r as [|b2 r]; [cbn [firstn skipn]; constructor; [discriminate|exact N|right; exact S2|discriminate]|].
    destruct (is_cont b2) eqn:Ec.
    - cbn [firstn skipn]. constructor; [discriminate|exact N| |].
      + right. apply starts3_iff; [exact H0|]. unfold starts3. rewrite Ea, Eb, Ec, orb_true_r. reflexivity.
      + intros b s' -> H. cbn [app] in H. exact (starts4_char b0 b1 b2 b s' H0 H N).
    - cbn [firstn skipn]. constructor; [discriminate|exact N|right; exact S2|].
      intros b s' Es H. injection Es as <- <-. cbn [app] in H. apply starts3_iff in H; [|exact H0]. unfold starts3 in H.
      rewrite Ec, !andb_false_r in H. discriminate. }
  cbn [firstn skipn]. constructor; [discriminate|exact N|left; reflexivity|].
  intros b s' Es H. injection Es as <- <-. cbn [app] in H. apply starts2_iff in H; [|exact H0]. unfold starts2 in H.
  rewrite E3, E4, !orb_false_r in H. apply andb_true_iff in H. destruct H as [Ha Hb]. rewrite Ha, Hb in D. discriminate.
Qed.

(** It is determined. *)
Lemma broken_shorter p s p' s' : broken p s -> broken p' s' -> p ++ s = p' ++ s' -> (length p <= length p')%nat -> p = p' /\ s = s'.
Proof.
  intros B B' E Hl.
  destruct (app_eq_app _ _ _ _ E) as (m & [[Ep Es]|[Ep Es]]).
  - assert (m = []) as ->. { apply (f_equal (@length byte)) in Ep. rewrite app_length in Ep. apply length_zero_iff_nil. lia. }
    rewrite app_nil_r in Ep. cbn in Es. auto.
  - destruct m as [|b m]; [rewrite app_nil_r in Ep; cbn in Es; auto|]. exfalso.
    apply (brk_longest _ _ B b (m ++ s')); [exact Es|]. destruct (brk_begins _ _ B') as [H1|H1].
    + rewrite Ep, app_length in H1. cbn in H1. pose proof (brk_nonempty _ _ B) as Hn. destruct p; [contradiction|]. cbn in H1. lia.
    + rewrite Ep in H1. apply (starts_app (p ++ [b]) m). rewrite <- app_assoc. exact H1.
Qed.
Lemma broken_unique p s p' s' : broken p s -> broken p' s' -> p ++ s = p' ++ s' -> p = p' /\ s = s'.
Proof.
  intros B B' E. destruct (Nat.le_ge_cases (length p) (length p')) as [H|H].
  - exact (broken_shorter p s p' s' B B' E H).
  - destruct (broken_shorter p' s' p s B' B (eq_sym E) H). auto.
Qed.

(** ** Lossy conversion *)

Lemma lossily_text cs s t : Forall scalar cs -> lossily s t -> lossily (text cs ++ s) (text cs ++ t).
Proof.
  intros Hc H. induction Hc as [|c cs Hs _ IH]; [exact H|]. unfold text in *. cbn [flat_map]. rewrite <- !app_assoc. constructor; assumption.
Qed.
Lemma lossy_aux_lossily fuel : forall s, (length s < fuel)%nat -> lossily s (utf8_lossy_aux fuel s).
Proof.
  induction fuel as [|fuel IH]; intros s Hl; [lia|]. cbn [utf8_lossy_aux]. destruct (utf8_prefix s) as [cs r] eqn:E.
  apply utf8_prefix_iff in E. destruct E as (Hc & Hn & ->). destruct r as [|b r].
  - rewrite <- text_all. rewrite <- (app_nil_r (text cs)) at 2. apply lossily_text; [exact Hc|constructor].
  - rewrite <- text_all. apply lossily_text; [exact Hc|]. set (k := invalid_len (b :: r)).
    assert (B := invalid_broken (b :: r) ltac:(discriminate) Hn). fold k in B.
    rewrite <- (firstn_skipn k (b :: r)) at 1. constructor; [exact B|]. apply IH.
    pose proof (brk_nonempty _ _ B) as Hne. rewrite app_length in Hl.
    pose proof (f_equal (@length byte) (firstn_skipn k (b :: r))) as Hk. rewrite app_length in Hk.
    destruct (firstn k (b :: r)); [contradiction|]. cbn [length] in Hk, Hl. lia.
Qed.
Lemma lossily_unique s t : lossily s t -> forall t', lossily s t' -> t = t'.
Proof.
  induction 1 as [|c s t Hc H IH|p s t B H IH]; intros t' H'.
  - inversion H' as [|c s' t0 Hc' _ E|p s' t0 B _ E]; [reflexivity| |]; exfalso.
    + apply app_eq_nil in E. destruct E as [E _]. exact (utf8_encode_not_nil c E).
    + apply app_eq_nil in E. destruct E as [E _]. exact (brk_nonempty _ _ B E).
  - inversion H' as [E|c' s' t0 Hc' H0 E|p s' t0 B H0 E]; subst.
    + symmetry in E. apply app_eq_nil in E. destruct E as [E _]. destruct (utf8_encode_not_nil c E).
    + apply utf8_encode_prefix in E; [|apply scalar_spec; assumption|apply scalar_spec; assumption]. destruct E as [-> ->]. f_equal. apply IH. exact H0.
    + destruct (brk_no_char _ _ B c s Hc). exact E.
  - inversion H' as [E|c' s' t0 Hc' H0 E|p' s' t0 B' H0 E]; subst.
    + symmetry in E. apply app_eq_nil in E. destruct E as [E _]. destruct (brk_nonempty _ _ B E).
    + destruct (brk_no_char _ _ B c' s' Hc'). symmetry. exact E.
    + destruct (broken_unique _ _ _ _ B' B E) as [-> ->]. f_equal. apply IH. exact H0.
Qed.
Theorem lossy_iff s t : to_string_lossy s = t <-> lossily s t.
Proof.
  assert (H : lossily s (to_string_lossy s)) by (apply lossy_aux_lossily; lia).
  split; [intros <-; exact H|]. intros H'. exact (lossily_unique _ _ H _ H').
Qed.

(** ** The text of the error *)

Lemma nat_digits_aux_spec fuel : forall n acc, (n < fuel)%nat ->
  exists ds, nat_digits_aux fuel n acc = ds ++ acc /\ decimal n ds.
Proof.
  induction fuel as [|fuel IH]; intros n acc Hn; [lia|]. cbn [nat_digits_aux].
  pose proof (Nat.mod_upper_bound n 10 ltac:(lia)) as Hm.
  assert (Hd : b2n (n2b (48 + N.of_nat (n mod 10))) = 48 + N.of_nat (n mod 10)) by (apply b2n_n2b; lia).
  destruct (Nat.ltb_spec n 10) as [Hs|Hs].
  - exists [n2b (48 + N.of_nat (n mod 10))]. split; [reflexivity|]. rewrite Nat.mod_small in * by exact Hs.
    split; [constructor; [lia|constructor]|]. split; [unfold digits_value; cbn [fold_left]; rewrite Hd; lia|]. split; [discriminate|]. intros b r E _. injection E as <- <-. reflexivity.
  - assert (Hq : (n / 10 < fuel)%nat) by (pose proof (Nat.div_lt n 10); lia).
    destruct (IH (n / 10)%nat (n2b (48 + N.of_nat (n mod 10)) :: acc) Hq) as (ds & E & H1 & H2 & H3 & H4).
    exists (ds ++ [n2b (48 + N.of_nat (n mod 10))]). split; [rewrite E, <- app_assoc; reflexivity|].
    split; [apply Forall_app; split; [exact H1|constructor; [lia|constructor]]|]. split; [|split].
    + unfold digits_value in *. rewrite fold_left_app, H2. cbn [fold_left]. rewrite Hd.
      pose proof (Nat.div_mod n 10). lia.
    + destruct ds; discriminate.
    + intros b r Er Hb. destruct ds as [|d ds]; [contradiction|]. injection Er as -> <-. pose proof (H4 b ds eq_refl Hb) as ->.
      exfalso. assert (Hz : digits_value [b] = 0%nat) by (unfold digits_value; cbn [fold_left]; rewrite Hb; reflexivity).
      pose proof (Nat.div_str_pos n 10). lia.
Qed.
Lemma nat_digits_decimal n : decimal n (nat_digits n).
Proof. unfold nat_digits. destruct (nat_digits_aux_spec (S n) n [] ltac:(lia)) as (ds & E & H). rewrite E, app_nil_r. exact H. Qed.

Lemma decimal_step ds d : digits_value (ds ++ [d]) = (10 * digits_value ds + (N.to_nat (b2n d) - 48))%nat.
Proof. unfold digits_value. rewrite fold_left_app. reflexivity. Qed.
Lemma digits_positive ds : Forall (fun b => 48 <= b2n b <= 57) ds -> (forall b r, ds = b :: r -> b2n b <> 48) -> ds <> [] -> (0 < digits_value ds)%nat.
Proof.
  induction ds as [|d ds IH] using rev_ind; [contradiction|]. intros H1 H2 _. rewrite decimal_step. apply Forall_app in H1. destruct H1 as [H1 Hd].
  pose proof (Forall_inv Hd) as Hx. cbn beta in Hx. destruct ds as [|e ds]; [pose proof (H2 d [] eq_refl); cbn; lia|].
  assert (0 < digits_value (e :: ds))%nat; [|lia]. apply IH; [exact H1| |discriminate]. intros b r E. injection E as -> ->. exact (H2 b (r ++ [d]) eq_refl).
Qed.
Lemma decimal_unique n t : decimal n t -> forall t', decimal n t' -> t = t'.
Proof.
  revert n. induction t as [|d t IH] using rev_ind; intros n (H1 & H2 & H3 & H4) t'; [contradiction|].
  destruct t' as [|d' t' _] using rev_ind; intros (G1 & G2 & G3 & G4); [contradiction|].
  apply Forall_app in H1, G1. destruct H1 as [H1 Hd], G1 as [G1 Gd]. pose proof (Forall_inv Hd) as Hx. cbn beta in Hx. pose proof (Forall_inv Gd) as Gx. cbn beta in Gx.
  rewrite decimal_step in H2, G2.
  assert (Ed : N.to_nat (b2n d) = N.to_nat (b2n d')) by lia. assert (Ev : digits_value t = digits_value t') by lia.
  apply N2Nat.inj in Ed. apply b2n_inj in Ed. subst d'. f_equal.
  assert (Z : forall l e, Forall (fun b => 48 <= b2n b <= 57) l ->
    (forall b r, l ++ [e] = b :: r -> b2n b = 48 -> r = []) -> digits_value l = 0%nat -> l = []).
  { intros l e Hl He Hv. destruct l as [|x l]; [reflexivity|]. exfalso.
    assert (0 < digits_value (x :: l))%nat; [|lia]. apply digits_positive; [exact Hl| |discriminate].
    intros b r E Hb. injection E as -> ->. specialize (He b (r ++ [e]) eq_refl Hb). destruct r; discriminate. }
  destruct (Nat.eq_dec (digits_value t) 0) as [E0|E0].
  - rewrite (Z t d H1 H4 E0), (Z t' d G1 G4) by congruence. reflexivity.
  - assert (K : forall l e, (forall b r, l ++ [e] = b :: r -> b2n b = 48 -> r = []) -> l <> [] ->
      forall b r, l = b :: r -> b2n b = 48 -> r = []).
    { intros l e He _ b r -> Hb. specialize (He b (r ++ [e]) eq_refl Hb). destruct r; discriminate. }
    assert (Ht : t <> []) by (intros ->; apply E0; reflexivity).
    assert (Ht' : t' <> []) by (intros ->; apply E0; rewrite Ev; reflexivity).
    apply (IH (digits_value t)).
    + split; [exact H1|]. split; [reflexivity|]. split; [exact Ht|]. exact (K t d H4 Ht).
    + split; [exact G1|]. split; [symmetry; exact Ev|]. split; [exact Ht'|]. exact (K t' d G4 Ht').
Qed.
Lemma digits_of n t : decimal n t -> nat_digits n = t.
Proof. intros H. exact (decimal_unique n _ (nat_digits_decimal n) t H). Qed.

(** Whether the end of the value cuts a character off. *)
Lemma begins_or_byte b0 r : no_char (b0 :: r) -> starts_char [b0] <-> in_range 194 244 b0 = true.
Proof.
  intros N. split; [|apply starts1_char]. intros H. pose proof (no_char_high b0 r N) as H0.
  apply starts_decode in H. destruct H as (t & c & H). cbn [app decode1] in H. destruct (N.ltb_spec (b2n b0) 128); [lia|].
  apply in_range_spec. destruct t as [|b1 t]; [discriminate|].
  destruct (in_range 194 223 b0) eqn:E1; [apply in_range_spec in E1; lia|]. destruct t as [|b2 t]; [discriminate|].
  destruct (in_range 224 239 b0) eqn:E2; [apply in_range_spec in E2; lia|]. destruct t as [|b3 t]; [discriminate|].
  destruct (in_range 240 244 b0) eqn:E3; [apply in_range_spec in E3; lia|discriminate].
Qed.
Lemma split_prefix cs p s : Forall scalar cs -> broken p s -> utf8_prefix (text cs ++ p ++ s) = (cs, p ++ s).
Proof. intros Hc B. apply utf8_prefix_iff. split; [exact Hc|]. split; [exact (brk_no_char _ _ B)|reflexivity]. Qed.
Lemma broken_len p s : broken p s -> invalid_len (p ++ s) = length p /\ firstn (length p) (p ++ s) = p.
Proof.
  intros B. assert (Hne : p ++ s <> []) by (intros E; apply app_eq_nil in E; destruct E as [E _]; exact (brk_nonempty _ _ B E)).
  pose proof (invalid_broken _ Hne (brk_no_char _ _ B)) as B'.
  destruct (broken_unique _ _ _ _ B' B (firstn_skipn _ _)) as [E1 E2].
  assert (H : firstn (length p) (p ++ s) = p) by (rewrite firstn_app, firstn_all, Nat.sub_diag; cbn; apply app_nil_r).
  split; [|exact H]. apply (f_equal (@length byte)) in E1, E2. rewrite firstn_length, app_length in E1. rewrite skipn_length, app_length in E2.
  assert (Hp : (1 <= length p)%nat) by (pose proof (brk_nonempty _ _ B); destruct p; [contradiction|cbn; lia]).
  assert (invalid_len (p ++ s) <= length (p ++ s))%nat; [|rewrite app_length in *; lia].
  destruct (p ++ s) as [|x [|y l]]; [contradiction|cbn; lia|]. cbn [invalid_len]. destruct (_ && _); [cbn; lia|].
  destruct (_ && _); [|cbn; lia]. destruct l as [|z l]; [cbn; lia|]. destruct (is_cont z); cbn; lia.
Qed.
Theorem cut_off_text cs p at_ : Forall scalar cs -> broken p [] -> starts_char p -> decimal (length (text cs)) at_ ->
  utf8_error_text (text cs ++ p) = bs "incomplete utf-8 byte sequence from index " ++ at_.
Proof.
  intros Hc B Hs Hn. unfold utf8_error_text. rewrite <- (app_nil_r p) at 1. rewrite (split_prefix cs p [] Hc B).
  destruct (broken_len p [] B) as [Hl _]. rewrite app_nil_r in *. rewrite Hl, Nat.leb_refl, app_length.
  rewrite Nat.add_sub, (digits_of _ _ Hn). destruct p as [|b0 r]; [destruct (brk_nonempty _ _ B eq_refl)|].
  assert (N := brk_no_char _ _ B). rewrite app_nil_r in N.
  assert (R : in_range 194 244 b0 = true) by (apply (begins_or_byte b0 r N); exact (starts_app [b0] r Hs)).
  rewrite R. reflexivity.
Qed.
Theorem ill_formed_text cs p s len at_ : Forall scalar cs -> broken p s -> s <> [] \/ ~ starts_char p ->
  decimal (length p) len -> decimal (length (text cs)) at_ ->
  utf8_error_text (text cs ++ p ++ s) = bs "invalid utf-8 sequence of " ++ len ++ bs " bytes from index " ++ at_.
Proof.
  intros Hc B Hs Hk Hn. unfold utf8_error_text. rewrite (split_prefix cs p s Hc B). destruct (broken_len p s B) as [Hl _].
  rewrite Hl, (app_length (text cs)), Nat.add_sub, (digits_of _ _ Hn), (digits_of _ _ Hk).
  match goal with |- (if ?t then _ else _) = _ => assert (t = false) as -> end; [|reflexivity].
  apply andb_false_iff. destruct Hs as [Hs|Hs].
  - left. apply Nat.leb_gt. rewrite app_length. destruct s; [contradiction|cbn; lia].
  - right. destruct p as [|b0 r]; [destruct (brk_nonempty _ _ B eq_refl)|]. cbn [app].
    apply not_true_iff_false. intros R. apply Hs. destruct (brk_begins _ _ B) as [H1|H1]; [|exact H1].
    destruct r; [|discriminate]. exact (starts1_char b0 R).
Qed.

Lemma broken_invalid cs p s : Forall scalar cs -> broken p s -> utf8_valid (text cs ++ p ++ s) = false.
Proof.
  intros Hc B. unfold utf8_valid. rewrite (split_prefix cs p s Hc B). cbn [snd].
  destruct (p ++ s) eqn:E; [|reflexivity]. apply app_eq_nil in E. destruct E as [E _]. destruct (brk_nonempty _ _ B E).
Qed.

(** C30 *)
Theorem not_utf8_where {V : Type} (d : args_decl V) (argv0 : bytes) (pre : list bytes) (os : list (occ V))
    (stk : list (scope V)) (rem : list (sarg V)) (toks : list bytes) (ad : addr) (a : sarg V) (v : bytes) (post : list bytes)
    (cs : list N) (p s len at_ : bytes) :
  valid d -> at_option d pre os stk rem -> no_error_in os -> writes stk toks ad a (Some v) -> takes_value a = true ->
  many a = false -> given os ad = false ->
  vt_value_enum (value_of_ty (sa_ty a)) <> None \/
    vt_try_from_os (value_of_ty (sa_ty a)) = None /\ vt_from_str (value_of_ty (sa_ty a)) <> None ->
  text_of a v = text cs ++ p ++ s -> Forall scalar cs -> broken p s -> decimal (length p) len -> decimal (length (text cs)) at_ ->
  exists e t, try_parse_from d (argv0 :: pre ++ toks ++ post) = Err e /\ error_source e = Some t /\
    (s = [] -> starts_char p -> t = bs "incomplete utf-8 byte sequence from index " ++ at_) /\
    (s <> [] \/ ~ starts_char p -> t = bs "invalid utf-8 sequence of " ++ len ++ bs " bytes from index " ++ at_).
Proof.
  intros Hd H Hn Hw Ht Hm Hg Ho E Hc B Hl Ha.
  destruct (not_utf8_source d argv0 pre os stk rem toks ad a v post Hd H Hn Hw Ht Hm Hg Ho) as (e & E1 & E2).
  { rewrite E. apply broken_invalid; assumption. }
  exists e, (utf8_error_text (text_of a v)). split; [exact E1|]. split; [exact E2|]. rewrite E. split.
  - intros -> Hs. rewrite app_nil_r. apply cut_off_text; assumption.
  - intros Hs. apply ill_formed_text; assumption.
Qed.

(** ** Some errors *)

Lemma euro_starts : starts_char (map n2b [226; 130]).
Proof. exists 8364, [n2b 172]. split; [unfold scalar; lia|reflexivity]. Qed.
Lemma cut_euro : broken (map n2b [226; 130]) [].
Proof. exact (invalid_broken (map n2b [226; 130]) ltac:(discriminate) ltac:(apply decode1_none; reflexivity)). Qed.
Lemma lone_255 : broken ["255"%byte] ["1"%byte].
Proof. exact (invalid_broken ["255"%byte; "1"%byte] ltac:(discriminate) ltac:(apply decode1_none; reflexivity)). Qed.
