(** Facts about byte strings. *)
From Verif Require Import Bytes.
From Coq Require Import Permutation Sorted.

Lemma byte_eqb_eq x y : Byte.eqb x y = true <-> x = y.
Proof.
  split; [apply Byte.byte_dec_bl|apply Byte.byte_dec_lb].
Qed.
Lemma byte_eqb_refl x : Byte.eqb x x = true.
Proof. apply byte_eqb_eq. reflexivity. Qed.
Lemma byte_eqb_neq x y : Byte.eqb x y = false <-> x <> y.
Proof.
  split.
  - intros H E. subst. rewrite byte_eqb_refl in H. discriminate.
  - intros H. destruct (Byte.eqb x y) eqn:E; [apply byte_eqb_eq in E; contradiction|reflexivity].
Qed.
Lemma byte_eqb_sym x y : Byte.eqb x y = Byte.eqb y x.
Proof.
  destruct (Byte.eqb x y) eqn:E.
  - apply byte_eqb_eq in E. subst. symmetry. apply byte_eqb_refl.
  - apply byte_eqb_neq in E. symmetry. apply byte_eqb_neq. congruence.
Qed.

Lemma b2n_inj x y : b2n x = b2n y -> x = y.
Proof.
  unfold b2n. intros H.
  assert (Some x = Some y) as E by (rewrite <- !Byte.of_to_N, H; reflexivity).
  congruence.
Qed.
Lemma b2n_lt x : (b2n x < 256)%N.
Proof. unfold b2n. pose proof (Byte.to_N_bounded x). lia. Qed.
Lemma n2b_b2n x : n2b (b2n x) = x.
Proof. unfold n2b, b2n. rewrite Byte.of_to_N. reflexivity. Qed.
Lemma b2n_n2b n : (n < 256)%N -> b2n (n2b n) = n.
Proof.
  intros H. unfold n2b, b2n.
  destruct (Byte.of_N n) as [b|] eqn:E.
  - apply Byte.to_of_N in E. exact E.
  - apply Byte.of_N_None_iff in E. lia.
Qed.

Lemma beqb_eq a b : beqb a b = true <-> a = b.
Proof.
  revert b. induction a as [|x a IH]; intros [|y b]; simpl; try (split; congruence).
  rewrite andb_true_iff, byte_eqb_eq, IH. split; [intros [-> ->]; reflexivity|].
  intros E. injection E. auto.
Qed.
Lemma beqb_refl a : beqb a a = true.
Proof. apply beqb_eq. reflexivity. Qed.
Lemma beqb_neq a b : beqb a b = false <-> a <> b.
Proof.
  rewrite <- beqb_eq. destruct (beqb a b); split; congruence.
Qed.
Lemma beqb_sym a b : beqb a b = beqb b a.
Proof.
  destruct (beqb a b) eqn:E.
  - apply beqb_eq in E. subst. symmetry. apply beqb_refl.
  - apply beqb_neq in E. symmetry. apply beqb_neq. congruence.
Qed.
Lemma bytes_eq_dec (a b : bytes) : {a = b} + {a <> b}.
Proof.
  destruct (beqb a b) eqn:E; [left; apply beqb_eq; exact E|right; apply beqb_neq; exact E].
Qed.

Lemma existsb_beqb_In s l : existsb (beqb s) l = true <-> In s l.
Proof.
  rewrite existsb_exists. split.
  - intros (x & Hx & E). apply beqb_eq in E. subst. exact Hx.
  - intros H. exists s. split; [exact H|apply beqb_refl].
Qed.
Lemma existsb_beqb_nIn s l : existsb (beqb s) l = false <-> ~ In s l.
Proof.
  rewrite <- existsb_beqb_In. destruct (existsb (beqb s) l); split; congruence.
Qed.

(** ** Order *)

Lemma bcompare_refl a : bcompare a a = Eq.
Proof. induction a as [|x a IH]; simpl; [reflexivity|]. rewrite N.compare_refl. exact IH. Qed.
Lemma bcompare_eq a b : bcompare a b = Eq <-> a = b.
Proof.
  split; [|intros ->; apply bcompare_refl].
  revert b. induction a as [|x a IH]; intros [|y b]; simpl; try congruence.
  destruct (N.compare (b2n x) (b2n y)) eqn:E; try discriminate.
  apply N.compare_eq in E. apply b2n_inj in E. subst. intros H. apply IH in H. congruence.
Qed.
Lemma bcompare_antisym a b : bcompare b a = CompOpp (bcompare a b).
Proof.
  revert b. induction a as [|x a IH]; intros [|y b]; simpl; try reflexivity.
  rewrite (N.compare_antisym (b2n x) (b2n y)).
  destruct (N.compare (b2n x) (b2n y)); simpl; auto.
Qed.
Lemma bcompare_lt_trans a b c : bcompare a b = Lt -> bcompare b c = Lt -> bcompare a c = Lt.
Proof.
  revert b c. induction a as [|x a IH]; intros [|y b] [|z c]; simpl; try congruence.
  destruct (N.compare (b2n x) (b2n y)) eqn:E1; try discriminate;
  destruct (N.compare (b2n y) (b2n z)) eqn:E2; try discriminate; intros H1 H2;
  try rewrite N.compare_eq_iff in *; try rewrite N.compare_lt_iff in *.
  - rewrite E1, E2, N.compare_refl. eauto.
  - rewrite E1. apply N.compare_lt_iff in E2. rewrite E2. reflexivity.
  - rewrite <- E2. apply N.compare_lt_iff in E1. rewrite E1. reflexivity.
  - assert (b2n x < b2n z)%N as E by lia. apply N.compare_lt_iff in E. rewrite E. reflexivity.
Qed.
Definition ble a b : Prop := bcompare a b <> Gt.
Lemma ble_refl a : ble a a.
Proof. unfold ble. rewrite bcompare_refl. discriminate. Qed.
Lemma ble_trans a b c : ble a b -> ble b c -> ble a c.
Proof.
  unfold ble. intros H1 H2.
  destruct (bcompare a b) eqn:E1; [|destruct (bcompare b c) eqn:E2|contradiction].
  - apply bcompare_eq in E1. subst. exact H2.
  - apply bcompare_eq in E2. subst. rewrite E1. discriminate.
  - rewrite (bcompare_lt_trans _ _ _ E1 E2). discriminate.
  - contradiction.
Qed.
Lemma bcompare_gt_ble a b : bcompare a b = Gt -> ble b a.
Proof. unfold ble. intros H. rewrite (bcompare_antisym a b), H. discriminate. Qed.
Lemma ble_antisym a b : ble a b -> ble b a -> a = b.
Proof.
  unfold ble. rewrite (bcompare_antisym a b). destruct (bcompare a b) eqn:E; simpl; try congruence.
  intros _ _. apply bcompare_eq. exact E.
Qed.

(** ** Prefixes and cuts *)

Lemma strip_prefix_Some p s r : strip_prefix p s = Some r <-> s = p ++ r.
Proof.
  revert s. induction p as [|x p IH]; intros s; simpl.
  - split; congruence.
  - destruct s as [|y s]; [split; discriminate|].
    destruct (Byte.eqb x y) eqn:E.
    + apply byte_eqb_eq in E. subst. rewrite IH. split; [intros ->; reflexivity|].
      intros H. injection H. auto.
    + apply byte_eqb_neq in E. split; [discriminate|]. intros H. injection H. congruence.
Qed.
Lemma strip_prefix_app p r : strip_prefix p (p ++ r) = Some r.
Proof. apply strip_prefix_Some. reflexivity. Qed.
Lemma starts_with_true p s : starts_with p s = true <-> exists r, s = p ++ r.
Proof.
  unfold starts_with. destruct (strip_prefix p s) as [r|] eqn:E.
  - split; [|reflexivity]. intros _. exists r. apply strip_prefix_Some. exact E.
  - split; [discriminate|]. intros [r Hr]. apply strip_prefix_Some in Hr. congruence.
Qed.
Lemma starts_with_false p s : starts_with p s = false <-> forall r, s <> p ++ r.
Proof.
  destruct (starts_with p s) eqn:E.
  - apply starts_with_true in E. destruct E as [r E].
    split; [discriminate|]. intros H. exfalso. exact (H r E).
  - split; [|reflexivity]. intros _ r Hr.
    assert (starts_with p s = true) by (apply starts_with_true; eauto). congruence.
Qed.
Lemma starts_with_app p r : starts_with p (p ++ r) = true.
Proof. apply starts_with_true. eauto. Qed.

Lemma split_once_Some c s l r :
  split_once c s = Some (l, r) <-> s = l ++ c :: r /\ ~ In c l.
Proof.
  revert l. induction s as [|x s IH]; intros l; simpl.
  - split; [discriminate|]. intros [H _]. destruct l; discriminate.
  - destruct (Byte.eqb x c) eqn:E.
    + apply byte_eqb_eq in E. subst x. split.
      * intros H. injection H as <- <-. split; [reflexivity|]. intros [].
      * intros [H Hn]. destruct l as [|y l]; simpl in H; [injection H as ->; reflexivity|].
        injection H as H1 H2. exfalso. apply Hn. left. symmetry. exact H1.
    + apply byte_eqb_neq in E. destruct (split_once c s) as [[l0 r0]|] eqn:Es.
      * split.
        -- intros H. injection H as <- <-. destruct (proj1 (IH l0) eq_refl) as [-> Hn].
           split; [reflexivity|]. intros [H|H]; [congruence|contradiction].
        -- intros [H Hn]. destruct l as [|y l]; simpl in H; [congruence|].
           injection H as <- ->. assert (Some (l0, r0) = Some (l, r)) as H2.
           { apply IH. split; [reflexivity|]. intros Hi. apply Hn. right. exact Hi. }
           injection H2 as -> ->. reflexivity.
      * split; [discriminate|]. intros [H Hn]. destruct l as [|y l]; simpl in H; [congruence|].
        injection H as <- ->. exfalso.
        assert (None = Some (l, r)) as H2.
        { apply IH. split; [reflexivity|]. intros Hi. apply Hn. right. exact Hi. }
        discriminate.
Qed.
Lemma split_once_None c s : split_once c s = None <-> ~ In c s.
Proof.
  induction s as [|x s IH]; simpl.
  - split; auto.
  - destruct (Byte.eqb x c) eqn:E.
    + apply byte_eqb_eq in E. subst. split; [discriminate|]. intros H. exfalso. auto.
    + apply byte_eqb_neq in E. destruct (split_once c s) as [[l r]|].
      * split; [discriminate|]. intros H. exfalso.
        assert (Some (l, r) = None) by (apply IH; intros Hi; apply H; auto). discriminate.
      * split; [|reflexivity]. intros _ [H|H]; [congruence|]. apply IH in H; auto.
Qed.
Lemma split_once_app c l r : ~ In c l -> split_once c (l ++ c :: r) = Some (l, r).
Proof. intros H. apply split_once_Some. auto. Qed.

Lemma split_terminator_app c w s acc :
  ~ In c w ->
  split_terminator c (w ++ c :: s) acc = (rev acc ++ w) :: split_terminator c s [].
Proof.
  revert acc. induction w as [|x w IH]; intros acc H; simpl.
  - rewrite byte_eqb_refl, app_nil_r. reflexivity.
  - destruct (Byte.eqb x c) eqn:E.
    + apply byte_eqb_eq in E. exfalso. apply H. left. exact E.
    + rewrite IH by (intros Hi; apply H; right; exact Hi). simpl. rewrite <- app_assoc. reflexivity.
Qed.
Lemma split_terminator_concat c (ws : list bytes) :
  (forall w, In w ws -> ~ In c w) ->
  split_terminator c (concat (map (fun w => w ++ [c]) ws)) [] = ws.
Proof.
  induction ws as [|w ws IH]; intros H; simpl; [reflexivity|].
  rewrite <- app_assoc. simpl. rewrite split_terminator_app by (apply H; left; reflexivity).
  simpl. rewrite IH; [reflexivity|]. intros w' Hw. apply H. right. exact Hw.
Qed.
