(** UTF-8 encoding and decoding are inverse. *)
From Verif Require Import Bytes BytesFacts Utf8.
From Coq Require Import ZifyBool ZifyNat ZifyN.
Ltac Zify.zify_post_hook ::= Z.div_mod_to_equations.
Local Open Scope N_scope.

Lemma n2b_eq n b : n = b2n b -> n2b n = b.
Proof. intros ->. apply n2b_b2n. Qed.

Lemma in_range_spec lo hi b : in_range lo hi b = true <-> lo <= b2n b <= hi.
Proof. unfold in_range. lia. Qed.

(** The decoder takes one character at a time. *)
Definition decode1 (s : bytes) : option (N * bytes) :=
  match s with
  | [] => None
  | b0 :: s1 =>
      if b2n b0 <? 128 then Some (b2n b0, s1)
      else
        match s1 with
        | [] => None
        | b1 :: s2 =>
            if in_range 194 223 b0 then
              if is_cont b1 then Some ((b2n b0 - 192) * 64 + (b2n b1 - 128), s2) else None
            else
              match s2 with
              | [] => None
              | b2 :: s3 =>
                  if in_range 224 239 b0 then
                    if second_ok3 b0 b1 && is_cont b2 then
                      Some ((b2n b0 - 224) * 4096 + (b2n b1 - 128) * 64 + (b2n b2 - 128), s3)
                    else None
                  else
                    match s3 with
                    | [] => None
                    | b3 :: s4 =>
                        if in_range 240 244 b0 && second_ok4 b0 b1 && is_cont b2 && is_cont b3 then
                          Some ((b2n b0 - 240) * 262144 + (b2n b1 - 128) * 4096
                                + (b2n b2 - 128) * 64 + (b2n b3 - 128), s4)
                        else None
                    end
              end
        end
  end.

Lemma utf8_prefix_decode1 s :
  utf8_prefix s = match decode1 s with
                  | Some (c, s') => let '(cs, r) := utf8_prefix s' in (c :: cs, r)
                  | None => ([], s)
                  end.
Proof.
  destruct s as [|b0 s1]; [reflexivity|]. cbn [utf8_prefix decode1].
  destruct (b2n b0 <? 128); [reflexivity|].
  destruct s1 as [|b1 s2]; [reflexivity|].
  destruct (in_range 194 223 b0); [destruct (is_cont b1); reflexivity|].
  destruct s2 as [|b2 s3]; [reflexivity|].
  destruct (in_range 224 239 b0); [destruct (second_ok3 b0 b1 && is_cont b2); reflexivity|].
  destruct s3 as [|b3 s4]; [reflexivity|].
  destruct (in_range 240 244 b0 && second_ok4 b0 b1 && is_cont b2 && is_cont b3); reflexivity.
Qed.

Ltac some_inj H := injection H as <- <-.

Lemma decode1_sound s c s' :
  decode1 s = Some (c, s') -> s = utf8_encode c ++ s' /\ is_scalar c = true.
Proof.
  destruct s as [|b0 s1]; [discriminate|]. cbn [decode1].
  destruct (b2n b0 <? 128) eqn:E0.
  { intros H. some_inj H. unfold utf8_encode, is_scalar. rewrite E0. rewrite n2b_b2n.
    split; [reflexivity|]. lia. }
  destruct s1 as [|b1 s2]; [discriminate|].
  destruct (in_range 194 223 b0) eqn:E1.
  { destruct (is_cont b1) eqn:E2; [|discriminate]. intros H. some_inj H.
    unfold is_cont in E2. rewrite in_range_spec in E1, E2.
    set (c := (b2n b0 - 192) * 64 + (b2n b1 - 128)).
    unfold utf8_encode, is_scalar.
    destruct (c <? 128) eqn:C1; [unfold c in C1; lia|].
    destruct (c <? 2048) eqn:C2; [|unfold c in C2; lia].
    split; [|unfold c in *; lia].
    rewrite (n2b_eq (192 + c / 64) b0), (n2b_eq (128 + c mod 64) b1); [reflexivity| |];
      unfold c; lia. }
  destruct s2 as [|b2 s3]; [discriminate|].
  destruct (in_range 224 239 b0) eqn:E2.
  { destruct (second_ok3 b0 b1 && is_cont b2) eqn:E3; [|discriminate]. intros H. some_inj H.
    apply andb_true_iff in E3. destruct E3 as [E3 E4].
    unfold is_cont in E4. rewrite in_range_spec in E2, E4.
    set (c := (b2n b0 - 224) * 4096 + (b2n b1 - 128) * 64 + (b2n b2 - 128)).
    assert (128 <= b2n b1 <= 191 /\ (b2n b0 = 224 -> 160 <= b2n b1)
            /\ (b2n b0 = 237 -> b2n b1 <= 159)) as (H1 & H2 & H3).
    { unfold second_ok3, is_cont, in_range in E3.
      destruct (b2n b0 =? 224) eqn:X; [lia|]. destruct (b2n b0 =? 237) eqn:Y; lia. }
    unfold utf8_encode, is_scalar.
    destruct (c <? 128) eqn:C1; [unfold c in C1; lia|].
    destruct (c <? 2048) eqn:C2; [unfold c in C2; lia|].
    destruct (c <? 65536) eqn:C3; [|unfold c in C3; lia].
    split; [|unfold c in *; lia].
    rewrite (n2b_eq (224 + c / 4096) b0), (n2b_eq (128 + (c / 64) mod 64) b1),
      (n2b_eq (128 + c mod 64) b2); [reflexivity| | |]; unfold c; lia. }
  destruct s3 as [|b3 s4]; [discriminate|].
  destruct (in_range 240 244 b0 && second_ok4 b0 b1 && is_cont b2 && is_cont b3) eqn:E3; [|discriminate].
  intros H. some_inj H. rewrite !andb_true_iff in E3. destruct E3 as [[[E3 E4] E5] E6].
  unfold is_cont in E5, E6. rewrite in_range_spec in E3, E5, E6.
  set (c := (b2n b0 - 240) * 262144 + (b2n b1 - 128) * 4096 + (b2n b2 - 128) * 64 + (b2n b3 - 128)).
  assert (128 <= b2n b1 <= 191 /\ (b2n b0 = 240 -> 144 <= b2n b1)
          /\ (b2n b0 = 244 -> b2n b1 <= 143)) as (H1 & H2 & H3).
  { unfold second_ok4, is_cont, in_range in E4.
    destruct (b2n b0 =? 240) eqn:X; [lia|]. destruct (b2n b0 =? 244) eqn:Y; lia. }
  unfold utf8_encode, is_scalar.
  destruct (c <? 128) eqn:C1; [unfold c in C1; lia|].
  destruct (c <? 2048) eqn:C2; [unfold c in C2; lia|].
  destruct (c <? 65536) eqn:C3; [unfold c in C3; lia|].
  split; [|unfold c in *; lia].
  rewrite (n2b_eq (240 + c / 262144) b0), (n2b_eq (128 + (c / 4096) mod 64) b1),
    (n2b_eq (128 + (c / 64) mod 64) b2), (n2b_eq (128 + c mod 64) b3);
    [reflexivity| | | |]; unfold c; lia.
Qed.

Lemma decode1_complete c s : is_scalar c = true -> decode1 (utf8_encode c ++ s) = Some (c, s).
Proof.
  intros Hc. unfold is_scalar in Hc. unfold utf8_encode.
  destruct (c <? 128) eqn:C1.
  { cbn [app decode1]. rewrite b2n_n2b by lia. rewrite C1. reflexivity. }
  destruct (c <? 2048) eqn:C2.
  { cbn [app decode1]. unfold is_cont, in_range. rewrite !b2n_n2b by lia.
    destruct (192 + c / 64 <? 128) eqn:X1; [lia|].
    destruct ((194 <=? 192 + c / 64) && (192 + c / 64 <=? 223)) eqn:X2; [|lia].
    destruct ((128 <=? 128 + c mod 64) && (128 + c mod 64 <=? 191)) eqn:X3; [|lia].
    f_equal. f_equal. lia. }
  destruct (c <? 65536) eqn:C3.
  { cbn [app decode1]. unfold second_ok3, is_cont, in_range. rewrite !b2n_n2b by lia.
    destruct (224 + c / 4096 <? 128) eqn:X1; [lia|].
    destruct ((194 <=? 224 + c / 4096) && (224 + c / 4096 <=? 223)) eqn:X2; [lia|].
    destruct ((224 <=? 224 + c / 4096) && (224 + c / 4096 <=? 239)) eqn:X3; [|lia].
    match goal with |- (if ?t then _ else _) = _ => assert (t = true) as -> end.
    { destruct (224 + c / 4096 =? 224) eqn:Y1; [lia|].
      destruct (224 + c / 4096 =? 237) eqn:Y2; lia. }
    f_equal. f_equal. lia. }
  cbn [app decode1]. unfold second_ok4, is_cont, in_range. rewrite !b2n_n2b by lia.
  destruct (240 + c / 262144 <? 128) eqn:X1; [lia|].
  destruct ((194 <=? 240 + c / 262144) && (240 + c / 262144 <=? 223)) eqn:X2; [lia|].
  destruct ((224 <=? 240 + c / 262144) && (240 + c / 262144 <=? 239)) eqn:X3; [lia|].
  match goal with |- (if ?t then _ else _) = _ => assert (t = true) as -> end.
  { destruct (240 + c / 262144 =? 240) eqn:Y1; [lia|].
    destruct (240 + c / 262144 =? 244) eqn:Y2; lia. }
  f_equal. f_equal. lia.
Qed.

Lemma utf8_encode_nonempty c : exists b r, utf8_encode c = b :: r.
Proof.
  unfold utf8_encode. destruct (c <? 128); [eauto|]. destruct (c <? 2048); [eauto|].
  destruct (c <? 65536); eauto.
Qed.
Lemma utf8_encode_not_nil c : utf8_encode c <> [].
Proof. destruct (utf8_encode_nonempty c) as (b & r & ->). discriminate. Qed.

Lemma decode1_shorter s c s' : decode1 s = Some (c, s') -> (length s' < length s)%nat.
Proof.
  intros H. apply decode1_sound in H. destruct H as [-> _]. rewrite app_length.
  destruct (utf8_encode_nonempty c) as (b & r & ->). simpl. lia.
Qed.

(** What [utf8_prefix] returns: scalar values whose encoding starts the input,
    as many as possible. *)
Lemma utf8_prefix_spec s cs r :
  utf8_prefix s = (cs, r) ->
  s = encode_all cs ++ r /\ forallb is_scalar cs = true /\ decode1 r = None.
Proof.
  remember (length s) as n eqn:Hn. revert s cs r Hn.
  induction n as [n IH] using lt_wf_ind. intros s cs r Hn.
  rewrite utf8_prefix_decode1. destruct (decode1 s) as [[c s']|] eqn:E.
  - pose proof (decode1_shorter _ _ _ E) as Hlt. apply decode1_sound in E. destruct E as [-> Hc].
    destruct (utf8_prefix s') as [cs' r'] eqn:E'. intros H. injection H as <- <-.
    destruct (IH (length s') ltac:(lia) s' cs' r' eq_refl E') as (-> & Hs & Hd).
    unfold encode_all. cbn [map concat forallb]. rewrite Hc, Hs, app_assoc. auto.
  - intros H. injection H as <- <-. auto.
Qed.

Lemma utf8_prefix_cons c s :
  is_scalar c = true ->
  utf8_prefix (utf8_encode c ++ s) = (c :: fst (utf8_prefix s), snd (utf8_prefix s)).
Proof.
  intros Hc. rewrite utf8_prefix_decode1, decode1_complete by exact Hc.
  destruct (utf8_prefix s); reflexivity.
Qed.
Lemma utf8_prefix_encode_all cs s :
  forallb is_scalar cs = true ->
  utf8_prefix (encode_all cs ++ s) = (cs ++ fst (utf8_prefix s), snd (utf8_prefix s)).
Proof.
  induction cs as [|c cs IH]; intros H.
  - simpl. destruct (utf8_prefix s); reflexivity.
  - cbn [forallb] in H. apply andb_true_iff in H. destruct H as [Hc H].
    unfold encode_all. cbn [map concat]. fold (encode_all cs).
    rewrite <- app_assoc, utf8_prefix_cons by exact Hc. rewrite IH by exact H. reflexivity.
Qed.
Lemma utf8_prefix_junk r : decode1 r = None -> utf8_prefix r = ([], r).
Proof. intros H. rewrite utf8_prefix_decode1, H. reflexivity. Qed.

Lemma encode_all_app a b : encode_all (a ++ b) = encode_all a ++ encode_all b.
Proof. unfold encode_all. rewrite map_app, concat_app. reflexivity. Qed.

(** Being UTF-8 means being the encoding of some scalar values. *)
Lemma utf8_valid_spec s :
  utf8_valid s = true <-> exists cs, forallb is_scalar cs = true /\ s = encode_all cs.
Proof.
  unfold utf8_valid. split.
  - destruct (utf8_prefix s) as [cs r] eqn:E. apply utf8_prefix_spec in E. simpl.
    destruct E as (-> & Hs & _). destruct r; [|discriminate]. intros _. exists cs.
    rewrite app_nil_r. auto.
  - intros (cs & Hs & ->). rewrite <- (app_nil_r (encode_all cs)), utf8_prefix_encode_all by exact Hs.
    reflexivity.
Qed.
Lemma utf8_valid_encode c : is_scalar c = true -> utf8_valid (utf8_encode c) = true.
Proof.
  intros H. apply utf8_valid_spec. exists [c]. simpl. rewrite H. unfold encode_all. simpl.
  rewrite app_nil_r. auto.
Qed.

Lemma utf8_encode_inj c c' :
  is_scalar c = true -> is_scalar c' = true -> utf8_encode c = utf8_encode c' -> c = c'.
Proof.
  intros H H' E. pose proof (decode1_complete c [] H) as D. pose proof (decode1_complete c' [] H') as D'.
  rewrite E in D. congruence.
Qed.
Lemma utf8_encode_prefix c c' s s' :
  is_scalar c = true -> is_scalar c' = true ->
  utf8_encode c ++ s = utf8_encode c' ++ s' -> c = c' /\ s = s'.
Proof.
  intros H H' E. pose proof (decode1_complete c s H) as D. pose proof (decode1_complete c' s' H') as D'.
  rewrite E in D. split; congruence.
Qed.

Lemma utf8_encode_ascii c : c < 128 -> utf8_encode c = [n2b c].
Proof. intros H. unfold utf8_encode. destruct (c <? 128) eqn:E; [reflexivity|lia]. Qed.
(** A character that is not ASCII has no ASCII byte. *)
Lemma utf8_encode_not_ascii c b :
  is_scalar c = true -> 128 <= c -> In b (utf8_encode c) -> 128 <= b2n b.
Proof.
  intros Hs Hc. unfold is_scalar in Hs. unfold utf8_encode. destruct (c <? 128) eqn:E1; [lia|].
  destruct (c <? 2048) eqn:E2; [|destruct (c <? 65536) eqn:E3]; cbn [In]; intros H;
    repeat (destruct H as [<-|H]; [rewrite b2n_n2b by lia; lia|]); contradiction.
Qed.
