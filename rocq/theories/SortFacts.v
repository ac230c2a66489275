(** Sorting and binary search. *)
From Verif Require Import Bytes BytesFacts Refl Error Values.
From Coq Require Import Permutation Sorted.

Section Sort.
Context {A : Type} (key : A -> bytes).

Lemma insert_by_perm x l : Permutation (insert_by key x l) (x :: l).
Proof.
  induction l as [|y l IH]; simpl; [reflexivity|].
  destruct (bcompare (key x) (key y)); try reflexivity.
  rewrite IH. apply perm_swap.
Qed.
Lemma sort_by_perm l : Permutation (sort_by key l) l.
Proof.
  induction l as [|x l IH]; simpl; [reflexivity|].
  rewrite insert_by_perm, IH. reflexivity.
Qed.
Definition kle (x y : A) : Prop := ble (key x) (key y).
Lemma insert_by_sorted x l : StronglySorted kle l -> StronglySorted kle (insert_by key x l).
Proof.
  induction l as [|y l IH]; intros H; simpl.
  - repeat constructor.
  - inversion H as [|? ? Hs Hf]; subst. destruct (bcompare (key x) (key y)) eqn:E.
    3: { constructor; [auto|]. apply Forall_forall. intros z Hz.
         apply (Permutation_in z (insert_by_perm x l)) in Hz. destruct Hz as [<-|Hz].
         - apply bcompare_gt_ble. exact E.
         - rewrite Forall_forall in Hf. auto. }
    all: constructor; [assumption|]; constructor.
    1,3: unfold kle, ble; congruence.
    all: eapply Forall_impl; [|exact Hf]; intros z Hz; eapply ble_trans; [|exact Hz];
      unfold ble; congruence.
Qed.
Lemma sort_by_sorted l : StronglySorted kle (sort_by key l).
Proof. induction l as [|x l IH]; simpl; [constructor|]. apply insert_by_sorted. exact IH. Qed.
Lemma sort_by_In x l : In x (sort_by key l) <-> In x l.
Proof.
  split; apply Permutation_in; [|apply Permutation_sym]; apply sort_by_perm.
Qed.

Lemma sorted_nth l i j x y :
  StronglySorted kle l -> nth_error l i = Some x -> nth_error l j = Some y -> i <= j -> kle x y.
Proof.
  intros Hs. revert i j. induction Hs as [|z l Hs IH Hf]; intros i j Hi Hj Hij.
  - destruct i; discriminate.
  - destruct i as [|i], j as [|j]; simpl in *.
    + injection Hi as ->. injection Hj as ->. apply ble_refl.
    + injection Hi as ->. apply nth_error_In in Hj. rewrite Forall_forall in Hf. auto.
    + lia.
    + eapply IH; eauto. lia.
Qed.
End Sort.

(** ** Binary search *)

Lemma bsearch_loop_spec {A} (cmp : A -> comparison) (l : list A) (j : nat) :
  (forall i x, nth_error l i = Some x -> i <= j <-> cmp x <> Gt) ->
  j < length l ->
  forall fuel size base,
    size <= fuel -> base <= j < base + size -> base + size <= length l ->
    bsearch_loop cmp l fuel size base = j.
Proof.
  intros Hm Hj. induction fuel as [|fuel IH]; intros size base Hf Hb Hl.
  - lia.
  - cbn [bsearch_loop]. destruct (Nat.leb_spec size 1); [lia|].
    set (half := size / 2).
    assert (1 <= half /\ 2 * half <= size) as Hh.
    { unfold half. split.
      - apply Nat.div_le_lower_bound; lia.
      - apply Nat.mul_div_le. lia. }
    destruct (nth_error l (base + half)) as [x|] eqn:E.
    + specialize (Hm _ _ E). destruct (cmp x).
      1,2: apply IH; [lia| |lia]; assert (base + half <= j) by (apply Hm; discriminate); lia.
      apply IH; [lia| |lia].
      assert (~ base + half <= j) by (intros Hc; apply Hm in Hc; congruence). lia.
    + apply nth_error_None in E. lia.
Qed.

Lemma last_index (P : nat -> bool) n :
  (exists i, i < n /\ P i = true) ->
  exists j, j < n /\ P j = true /\ forall i, j < i -> i < n -> P i = false.
Proof.
  induction n as [|n IH]; intros (i & Hi & Hp); [lia|].
  destruct (P n) eqn:E.
  - exists n. split; [lia|]. split; [exact E|]. intros; lia.
  - destruct IH as (j & Hj & Hpj & Hmax).
    { exists i. split; [|exact Hp]. assert (i <> n) by congruence. lia. }
    exists j. split; [lia|]. split; [exact Hpj|]. intros k Hk Hkn.
    destruct (Nat.eq_dec k n) as [->|]; [exact E|]. apply Hmax; lia.
Qed.

Lemma bsearch_key_sound {A} (key : A -> bytes) k l i :
  bsearch_key key k l = Some i -> exists x, nth_error l i = Some x /\ key x = k.
Proof.
  unfold bsearch_key, bsearch_by. destruct l as [|a l]; [discriminate|].
  set (base := bsearch_loop _ _ _ _ _). destruct (nth_error (a :: l) base) as [x|] eqn:E; [|discriminate].
  destruct (bcompare (key x) k) eqn:Ec; try discriminate. intros H. injection H as <-.
  exists x. split; [exact E|]. apply bcompare_eq. exact Ec.
Qed.

Lemma bsearch_key_complete {A} (key : A -> bytes) k l x :
  StronglySorted (kle key) l -> In x l -> key x = k -> exists i, bsearch_key key k l = Some i.
Proof.
  intros Hs Hx Hk. apply In_nth_error in Hx. destruct Hx as [ix Hx].
  set (P := fun i => match nth_error l i with
                     | Some y => match bcompare (key y) k with Gt => false | _ => true end
                     | None => false end).
  assert (Hlt : ix < length l) by (apply nth_error_Some; congruence).
  destruct (last_index P (length l)) as (j & Hj & Hp & Hmax).
  { exists ix. split; [exact Hlt|]. unfold P. rewrite Hx, Hk, bcompare_refl. reflexivity. }
  destruct (nth_error l j) as [y|] eqn:Ey; [|apply nth_error_None in Ey; lia].
  assert (Hloop : bsearch_loop (fun x => bcompare (key x) k) l (length l) (length l) 0 = j).
  { apply bsearch_loop_spec; try lia.
    intros i z Hz. unfold P in *. rewrite Ey in Hp. split.
    - intros Hij Hg.
      assert (Hle : kle key z y) by (eapply sorted_nth; eauto).
      unfold kle in Hle.
      assert (ble (key y) k) as Hyk.
      { unfold ble. destruct (bcompare (key y) k); congruence. }
      apply (ble_trans _ _ _ Hle) in Hyk. contradiction.
    - intros Hg. destruct (Nat.le_gt_cases i j) as [|Hgt]; [assumption|].
      assert (Hi : i < length l) by (apply nth_error_Some; congruence).
      specialize (Hmax i Hgt Hi). rewrite Hz in Hmax.
      destruct (bcompare (key z) k); congruence. }
  assert (Hij : ix <= j).
  { destruct (Nat.le_gt_cases ix j) as [|Hgt]; [assumption|]. specialize (Hmax ix Hgt Hlt).
    unfold P in Hmax. rewrite Hx, Hk, bcompare_refl in Hmax. discriminate. }
  exists j. unfold bsearch_key, bsearch_by. destruct l as [|a l]; [simpl in Hlt; lia|].
  rewrite Hloop, Ey.
  assert (key y = k) as ->.
  { apply ble_antisym.
    - unfold P in Hp. rewrite Ey in Hp. unfold ble. destruct (bcompare (key y) k); congruence.
    - rewrite <- Hk. exact (sorted_nth key _ _ _ _ _ Hs Hx Ey Hij). }
  rewrite bcompare_refl. reflexivity.
Qed.

(** On a sorted table with distinct keys the search is a lookup. *)
Lemma bsearch_key_None {A} (key : A -> bytes) k l :
  StronglySorted (kle key) l -> bsearch_key key k l = None <-> ~ In k (map key l).
Proof.
  intros Hs. split.
  - intros H Hi. apply in_map_iff in Hi. destruct Hi as (x & Hk & Hx).
    destruct (bsearch_key_complete key k l x Hs Hx Hk) as [i E]. congruence.
  - intros H. destruct (bsearch_key key k l) as [i|] eqn:E; [|reflexivity].
    apply bsearch_key_sound in E. destruct E as (x & Hx & Hk). exfalso. apply H.
    apply in_map_iff. exists x. split; [exact Hk|]. eapply nth_error_In; eauto.
Qed.
