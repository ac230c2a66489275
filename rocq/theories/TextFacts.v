(** Proofs about the texts of errors. *)
From Verif Require Import Bytes BytesFacts Utf8 Utf8Facts Refl Error Values Places Heck Decl Spec Derive
  Generated Observe Refine SafeFacts ResultFacts EnumDerive Parts PartsFacts.

(** ** Lossy conversion *)

Theorem lossy_text cs : Forall scalar cs -> to_string_lossy (text cs) = text cs.
Proof.
  intros H. unfold to_string_lossy. cbn [utf8_lossy_aux].
  assert (E : utf8_prefix (text cs) = (cs, [])).
  { apply utf8_prefix_iff. split; [exact H|]. split; [|rewrite app_nil_r; reflexivity].
    intros c r _ E. destruct (utf8_encode_nonempty c) as (b & t & Eb). rewrite Eb in E. discriminate. }
  rewrite E. symmetry. apply text_all.
Qed.
Lemma lossy_aux_valid fuel : forall s, exists cs, Forall scalar cs /\ utf8_lossy_aux fuel s = text cs.
Proof.
  induction fuel as [|fuel IH]; intros s; [exists []; split; [constructor|reflexivity]|].
  cbn [utf8_lossy_aux]. destruct (utf8_prefix s) as [cs r] eqn:E. apply utf8_prefix_iff in E. destruct E as (Hc & _ & _).
  rewrite <- text_all. destruct r as [|b r]; [eauto|].
  destruct (IH (skipn (invalid_len (b :: r)) (b :: r))) as (cs' & Hc' & E').
  exists (cs ++ 65533%N :: cs'). split.
  - apply Forall_app. split; [exact Hc|]. constructor; [unfold scalar; lia|exact Hc'].
  - rewrite E', text_app. f_equal.
Qed.
Theorem lossy_valid s : exists cs, Forall scalar cs /\ to_string_lossy s = text cs.
Proof. apply lossy_aux_valid. Qed.

(** ** The quoted form is injective *)

Section Quoted.
Context (esc : escapes).
Local Notation escape_char := (escape_char esc).
Local Notation os_debug_aux := (os_debug_aux esc).
Local Notation os_debug := (os_debug esc).

Inductive item := IChar (c : N) | IByte (b : byte).
Definition raw (x : item) : bytes := match x with IChar c => utf8_encode c | IByte b => [b] end.
Definition code (x : item) : bytes := match x with IChar c => escape_char c | IByte b => escape_byte b end.
Definition item_ok (x : item) : Prop := match x with IChar c => scalar c | IByte _ => True end.

Definition unhex (b : byte) : N :=
  let n := b2n b in
  (if n <? 58 then n - 48 else if n <? 71 then n - 55 else n - 87)%N.
Definition hexval (l : bytes) : N := fold_left (fun a b => (16 * a + unhex b)%N) l 0%N.
Fixpoint until_brace (s : bytes) : option (bytes * bytes) :=
  match s with
  | [] => None
  | b :: r =>
      if N.eqb (b2n b) 125 then Some ([], r)
      else match until_brace r with Some (l, r') => Some (b :: l, r') | None => None end
  end.
Definition is_b (b : byte) (n : N) : bool := N.eqb (b2n b) n.
Definition dec (s : bytes) : option (item * bytes) :=
  match s with
  | [] => None
  | b :: s1 =>
      if is_b b 92 then
        match s1 with
        | [] => None
        | k :: r =>
            if is_b k 48 then Some (IChar 0, r)
            else if is_b k 116 then Some (IChar 9, r)
            else if is_b k 110 then Some (IChar 10, r)
            else if is_b k 114 then Some (IChar 13, r)
            else if is_b k 34 then Some (IChar 34, r)
            else if is_b k 39 then Some (IChar 39, r)
            else if is_b k 92 then Some (IChar 92, r)
            else if is_b k 120 then
              match r with
              | x :: y :: r' => Some (IByte (n2b (16 * unhex x + unhex y)), r')
              | _ => None
              end
            else
              match r with
              | _ :: r' =>
                  match until_brace r' with
                  | Some (l, r'') => Some (IChar (hexval l), r'')
                  | None => None
                  end
              | [] => None
              end
        end
      else match decode1 s with Some (c, r) => Some (IChar c, r) | None => None end
  end.

Lemma small_cases (P : N -> Prop) : (forall b : byte, (b2n b < 128)%N -> P (b2n b)) -> forall c, (c < 128)%N -> P c.
Proof. intros H c Hc. rewrite <- (b2n_n2b c) by lia. apply H. rewrite b2n_n2b; lia. Qed.

Lemma escape_ascii_dec c : (c < 128)%N -> forall r, dec (escape_char c ++ r) = Some (IChar c, r).
Proof.
  revert c. apply (small_cases (fun c => forall r, dec (escape_char c ++ r) = Some (IChar c, r))).
  intros b Hb r. destruct b; first [reflexivity|vm_compute in Hb; discriminate|unfold Error.escape_char; cbn; destruct (es_single esc); reflexivity].
Qed.
Lemma escape_byte_dec b : forall r, dec (escape_byte b ++ r) = Some (IByte b, r).
Proof. destruct b; reflexivity. Qed.
Lemma escape_other c : (128 <= c)%N ->
  escape_char c = if es_unprintable esc c then bs "\u{" ++ hex c ++ bs "}" else utf8_encode c.
Proof.
  intros H. unfold Error.escape_char.
  replace (c =? 0)%N with false by lia. replace (c =? 9)%N with false by lia. replace (c =? 10)%N with false by lia.
  replace (c =? 13)%N with false by lia. replace (c =? 34)%N with false by lia. replace (c =? 92)%N with false by lia.
  replace (c =? 39)%N with false by lia. replace (c <? 32)%N with false by lia. replace (c =? 127)%N with false by lia.
  replace (128 <=? c)%N with true by lia. cbn [andb orb]. reflexivity.
Qed.
Lemma digit_cases (P : N -> Prop) : P 0%N -> P 1%N -> P 2%N -> P 3%N -> P 4%N -> P 5%N -> P 6%N -> P 7%N ->
  P 8%N -> P 9%N -> P 10%N -> P 11%N -> P 12%N -> P 13%N -> P 14%N -> P 15%N -> forall c, (c < 16)%N -> P c.
Proof.
  intros. assert (E : (c = 0 \/ c = 1 \/ c = 2 \/ c = 3 \/ c = 4 \/ c = 5 \/ c = 6 \/ c = 7 \/ c = 8 \/ c = 9 \/ c = 10
    \/ c = 11 \/ c = 12 \/ c = 13 \/ c = 14 \/ c = 15)%N) by lia.
  repeat (destruct E as [-> | E]; [assumption|]). rewrite E. assumption.
Qed.
Definition is_hex (b : byte) : Prop := (48 <= b2n b <= 57)%N \/ (97 <= b2n b <= 102)%N.
Lemma hex_digit_spec c : (c < 16)%N -> unhex (hex_digit c) = c /\ is_hex (hex_digit c).
Proof.
  apply (digit_cases (fun c => unhex (hex_digit c) = c /\ is_hex (hex_digit c)));
    (split; [reflexivity|unfold is_hex, hex_digit; cbn; lia]).
Qed.
Lemma hex_aux_digits n : forall c acc, Forall is_hex acc -> Forall is_hex (hex_aux n c acc).
Proof.
  induction n as [|n IH]; intros c acc Ha; [exact Ha|]. cbn [hex_aux].
  assert (Hd : Forall is_hex (hex_digit (c mod 16) :: acc)).
  { constructor; [|exact Ha]. apply hex_digit_spec. apply N.mod_lt. discriminate. }
  destruct (c / 16 =? 0)%N; [exact Hd|]. apply IH. exact Hd.
Qed.
Lemma hex_aux_value n : forall c acc, (c < 16 ^ N.of_nat n)%N ->
  fold_left (fun a b => (16 * a + unhex b)%N) (hex_aux n c acc) 0%N = fold_left (fun a b => (16 * a + unhex b)%N) acc c.
Proof.
  induction n as [|n IH]; intros c acc Hc.
  - change (16 ^ N.of_nat 0)%N with 1%N in Hc. replace c with 0%N by lia. reflexivity.
  - cbn [hex_aux]. rewrite Nat2N.inj_succ, N.pow_succ_r' in Hc.
    assert (Hm : (c = 16 * (c / 16) + c mod 16)%N) by (apply N.div_mod; discriminate).
    assert (Hl : (c mod 16 < 16)%N) by (apply N.mod_lt; discriminate).
    destruct (hex_digit_spec (c mod 16) Hl) as [Hd _].
    destruct (c / 16 =? 0)%N eqn:E.
    + apply N.eqb_eq in E. cbn [fold_left]. rewrite Hd. f_equal. lia.
    + rewrite IH by (apply N.div_lt_upper_bound; [discriminate|exact Hc]). cbn [fold_left]. rewrite Hd. f_equal. lia.
Qed.
Lemma until_brace_hex l r : Forall is_hex l -> until_brace (l ++ bs "}" ++ r) = Some (l, r).
Proof.
  induction 1 as [|b l Hb _ IH]; [reflexivity|]. cbn [app until_brace].
  replace (b2n b =? 125)%N with false by (unfold is_hex in Hb; lia). cbn [app] in IH. rewrite IH. reflexivity.
Qed.
Lemma dec_code x r : item_ok x -> dec (code x ++ r) = Some (x, r).
Proof.
  destruct x as [c|b]; [|intros _; apply escape_byte_dec]. cbn [code item_ok]. intros Hs.
  destruct (N.lt_ge_cases c 128) as [Hc|Hc]; [apply escape_ascii_dec; exact Hc|].
  rewrite escape_other by exact Hc. destruct (es_unprintable esc c).
  { rewrite <- !app_assoc. assert (E : until_brace (hex c ++ bs "}" ++ r) = Some (hex c, r)).
    { apply until_brace_hex, hex_aux_digits. constructor. }
    change (match until_brace (hex c ++ bs "}" ++ r) with Some (l, r'') => Some (IChar (hexval l), r'') | None => None end
            = Some (IChar c, r)).
    rewrite E. unfold hexval, hex. rewrite hex_aux_value; [reflexivity|].
    change (16 ^ N.of_nat 6)%N with 16777216%N. unfold scalar in Hs. lia. }
  apply scalar_spec in Hs. pose proof (decode1_complete c r Hs) as D.
  destruct (utf8_encode_nonempty c) as (b & t & E). assert (Hb : (128 <= b2n b)%N).
  { apply (utf8_encode_not_ascii c); [exact Hs|exact Hc|]. rewrite E. left. reflexivity. }
  rewrite E in *. cbn [app dec] in *. unfold is_b. replace (b2n b =? 92)%N with false by lia.
  cbn [app] in D. rewrite D. reflexivity.
Qed.

Lemma code_not_quote x r t : item_ok x -> c_quote :: t <> code x ++ r.
Proof.
  intros Hx E. pose proof (dec_code x r Hx) as D. rewrite <- E in D. cbn in D. injection D as <- _. discriminate.
Qed.
Lemma codes_inj xs : forall ys, Forall item_ok xs -> Forall item_ok ys ->
  flat_map code xs ++ [c_quote] = flat_map code ys ++ [c_quote] -> xs = ys.
Proof.
  induction xs as [|x xs IH]; intros [|y ys] Hx Hy E.
  - reflexivity.
  - inversion_clear Hy. cbn [flat_map] in E. rewrite <- app_assoc in E. exfalso. revert E. apply code_not_quote. assumption.
  - inversion_clear Hx. cbn [flat_map] in E. rewrite <- app_assoc in E. symmetry in E. exfalso. revert E. apply code_not_quote. assumption.
  - inversion_clear Hx. inversion_clear Hy. cbn [flat_map] in E. rewrite <- !app_assoc in E.
    pose proof (f_equal dec E) as D. rewrite !dec_code in D by assumption. injection D as -> D. f_equal. apply IH; assumption.
Qed.

Lemma invalid_len_pos r : 1 <= invalid_len r.
Proof.
  unfold invalid_len. destruct r as [|b0 [|b1 r]]; try lia. destruct (_ && _); [lia|]. destruct (_ && _); [|lia].
  destruct r as [|b2 r]; [lia|]. destruct (is_cont b2); lia.
Qed.
Lemma debug_items fuel : forall s, length s < fuel ->
  exists xs, Forall item_ok xs /\ os_debug_aux fuel s = flat_map code xs /\ flat_map raw xs = s.
Proof.
  induction fuel as [|fuel IH]; intros s Hl; [lia|]. cbn [os_debug_aux]. destruct (utf8_prefix s) as [cs r] eqn:E.
  apply utf8_prefix_iff in E. destruct E as (Hc & _ & Es).
  assert (G : exists xs, Forall item_ok xs /\
    match r with [] => [] | _ => concat (map escape_byte (firstn (invalid_len r) r)) ++ os_debug_aux fuel (skipn (invalid_len r) r) end
    = flat_map code xs /\ flat_map raw xs = r).
  { destruct r as [|b r0]; [exists []; split; [constructor|auto]|]. set (r := b :: r0) in *.
    destruct (IH (skipn (invalid_len r) r)) as (xs & Hx & E1 & E2).
    { rewrite skipn_length. pose proof (invalid_len_pos r). assert (length r <= length s) by (rewrite Es, app_length; lia).
      assert (0 < length r) by (unfold r; cbn; lia). lia. }
    exists (map IByte (firstn (invalid_len r) r) ++ xs). split; [|split].
    - apply Forall_app. split; [|exact Hx]. apply Forall_forall. intros x Hi. apply in_map_iff in Hi. destruct Hi as (y & <- & _). exact I.
    - rewrite E1, flat_map_app. f_equal. rewrite <- flat_map_concat_map.
      induction (firstn (invalid_len r) r) as [|z l IHl]; [reflexivity|]. cbn [flat_map map code]. rewrite IHl. reflexivity.
    - rewrite flat_map_app, E2. transitivity (firstn (invalid_len r) r ++ skipn (invalid_len r) r); [|apply firstn_skipn]. f_equal.
      induction (firstn (invalid_len r) r) as [|z l IHl]; [reflexivity|]. cbn [flat_map map raw app]. rewrite IHl. reflexivity. }
  destruct G as (xs & Hx & E1 & E2). exists (map IChar cs ++ xs). split; [|split].
  - apply Forall_app. split; [|exact Hx]. clear -Hc. induction Hc; cbn; constructor; assumption.
  - rewrite E1, flat_map_app. f_equal. rewrite <- flat_map_concat_map.
    clear. induction cs as [|z l IHl]; [reflexivity|]. cbn [flat_map map code]. rewrite IHl. reflexivity.
  - rewrite flat_map_app, E2, Es. f_equal. unfold text. clear. induction cs as [|z l IHl]; [reflexivity|]. cbn [flat_map map raw]. rewrite IHl. reflexivity.
Qed.

Theorem os_debug_inj s t : os_debug s = os_debug t -> s = t.
Proof.
  unfold Error.os_debug. intros E. apply app_inv_head in E.
  destruct (debug_items (S (length s)) s) as (xs & Hx & E1 & E2); [lia|].
  destruct (debug_items (S (length t)) t) as (ys & Hy & F1 & F2); [lia|].
  rewrite E1, F1 in E. apply codes_inj in E; [|assumption|assumption]. congruence.
Qed.

Lemma code_clean x b : item_ok x -> In b (code x) -> ~ control b.
Proof.
  destruct x as [c|y]; cbn [code item_ok].
  - intros Hs. destruct (N.lt_ge_cases c 128) as [Hc|Hc].
    + clear Hs. revert c Hc b. apply (small_cases (fun c => forall b, In b (escape_char c) -> ~ control b)).
      intros x Hx b Hb Hctl. apply control_spec in Hctl. revert Hctl. apply not_true_iff_false.
      assert (G : forallb (fun b => negb (is_ascii_control b)) (escape_char (b2n x)) = true)
        by (destruct x; first [reflexivity|vm_compute in Hx; discriminate|unfold Error.escape_char; cbn; destruct (es_single esc); reflexivity]).
      rewrite forallb_forall in G. apply negb_true_iff. apply G. exact Hb.
    + rewrite escape_other by exact Hc. destruct (es_unprintable esc c).
      { assert (Hh : Forall is_hex (hex c)) by (apply hex_aux_digits; constructor).
        rewrite !in_app_iff. intros [Hb|[Hb|Hb]].
        - unfold control. cbn in Hb. destruct Hb as [<-|[<-|[<-|[]]]]; cbn; lia.
        - rewrite Forall_forall in Hh. apply Hh in Hb. unfold control. unfold is_hex in Hb. lia.
        - unfold control. cbn in Hb. destruct Hb as [<-|[]]; cbn; lia. }
      intros Hb. apply (utf8_encode_not_ascii c) in Hb; [|apply scalar_spec; exact Hs|exact Hc].
      unfold control. lia.
  - intros _ Hb Hctl. apply control_spec in Hctl. revert Hctl. apply not_true_iff_false.
    assert (G : forallb (fun b => negb (is_ascii_control b)) (escape_byte y) = true) by (destruct y; reflexivity).
    rewrite forallb_forall in G. apply negb_true_iff. apply G. exact Hb.
Qed.
Theorem os_debug_clean s : Forall (fun b => ~ control b) (os_debug s).
Proof.
  unfold Error.os_debug. destruct (debug_items (S (length s)) s) as (xs & Hx & -> & _); [lia|].
  assert (Q : Forall (fun b => ~ control b) [c_quote]).
  { constructor; [|constructor]. unfold control. change (b2n c_quote) with 34%N. lia. }
  apply Forall_app. split; [exact Q|]. apply Forall_app. split; [|exact Q].
  apply Forall_forall. intros b Hb. apply in_flat_map in Hb. destruct Hb as (x & Hi & Hb).
  rewrite Forall_forall in Hx. exact (code_clean x b (Hx x Hi) Hb).
Qed.
(** What is printable is shown as it is, and a byte that is no character by its
    two digits. *)
Lemma escape_plain c : plain_char esc c -> escape_char c = utf8_encode c.
Proof.
  intros (Hlo & Hn & Hhi). unfold Error.escape_char. cbn [In] in Hn.
  destruct (N.eqb_spec c 0); [lia|]. destruct (N.eqb_spec c 9); [lia|]. destruct (N.eqb_spec c 10); [lia|].
  destruct (N.eqb_spec c 13); [lia|]. destruct (N.eqb_spec c 34); [exfalso; apply Hn; auto|].
  destruct (N.eqb_spec c 92); [exfalso; apply Hn; auto|]. destruct (N.eqb_spec c 39); [exfalso; apply Hn; auto|].
  cbn [andb]. destruct (N.ltb_spec c 32) as [Hx|Hx]; [lia|]. destruct (N.eqb_spec c 127); [exfalso; apply Hn; auto|]. cbn [orb].
  destruct (N.leb_spec 128 c) as [Hc|Hc]; [rewrite (Hhi Hc)|]; reflexivity.
Qed.
Lemma escape_plains cs : Forall (plain_char esc) cs -> concat (map escape_char cs) = text cs.
Proof.
  unfold text. induction 1 as [|c cs Hc _ IH]; [reflexivity|]. cbn [map concat flat_map]. rewrite IH, escape_plain by exact Hc. reflexivity.
Qed.
Theorem os_debug_plain cs : Forall scalar cs -> Forall (plain_char esc) cs -> os_debug (text cs) = [c_quote] ++ text cs ++ [c_quote].
Proof.
  intros Hs Hp. unfold Error.os_debug. cbn [Error.os_debug_aux].
  assert (E : utf8_prefix (text cs) = (cs, [])).
  { apply utf8_prefix_iff. split; [exact Hs|]. split; [|rewrite app_nil_r; reflexivity].
    intros c r _ E. destruct (utf8_encode_nonempty c) as (b & t & Eb). rewrite Eb in E. discriminate. }
  rewrite E, app_nil_r, escape_plains by exact Hp. reflexivity.
Qed.
Theorem os_debug_byte cs b hi lo : Forall scalar cs -> Forall (plain_char esc) cs -> (128 <= b2n b)%N ->
  nth_error (bs "0123456789ABCDEF") (N.to_nat (b2n b / 16)) = Some hi ->
  nth_error (bs "0123456789ABCDEF") (N.to_nat (b2n b mod 16)) = Some lo ->
  os_debug (text cs ++ [b]) = [c_quote] ++ text cs ++ bs "\x" ++ [hi; lo] ++ [c_quote].
Proof.
  intros Hs Hp Hb Hhi Hlo. unfold Error.os_debug.
  assert (Ex : escape_byte b = bs "\x" ++ [hi; lo]).
  { enough (H : forall x : byte, nth_error (bs "0123456789ABCDEF") (N.to_nat (b2n x / 16)) = Some (hex_digit_upper (b2n x / 16))
      /\ nth_error (bs "0123456789ABCDEF") (N.to_nat (b2n x mod 16)) = Some (hex_digit_upper (b2n x mod 16))).
    { destruct (H b) as [H1 H2]. rewrite H1 in Hhi. rewrite H2 in Hlo. injection Hhi as <-. injection Hlo as <-. reflexivity. }
    intros x. destruct x; split; reflexivity. }
  assert (D : decode1 [b] = None) by (cbn [decode1]; destruct (N.ltb_spec (b2n b) 128); [lia|reflexivity]).
  assert (E : utf8_prefix (text cs ++ [b]) = (cs, [b])).
  { apply utf8_prefix_iff. split; [exact Hs|]. split; [apply decode1_none; exact D|reflexivity]. }
  rewrite app_length. cbn [length]. rewrite Nat.add_1_r. cbn [Error.os_debug_aux]. rewrite E, escape_plains by exact Hp.
  cbn [invalid_len firstn skipn map concat utf8_prefix]. rewrite Ex, !app_nil_r, <- !app_assoc. reflexivity.
Qed.
End Quoted.

(** ** [Debug] of an error *)

Theorem error_debug_inj esc e e' : error_debug esc e = error_debug esc e' -> error_display esc e = error_display esc e'.
Proof.
  unfold error_debug. intros E. apply app_inv_head in E. apply app_inv_tail in E.
  exact (os_debug_inj (mkEscapes false (es_unprintable esc)) _ _ E).
Qed.
