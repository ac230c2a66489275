(** Packed attributes: every flag can be read back, and so can the index. *)
From Verif Require Import Bytes Utf8 Attrs Refl Error Values Places Heck Decl Derive.
Local Open Scope N_scope.

Lemma contains_pow2 a n : contains a (2 ^ n) = N.testbit a n.
Proof.
  unfold contains.
  assert (N.land a (2 ^ n) = if N.testbit a n then 2 ^ n else 0) as ->.
  { apply N.bits_inj. intros i. rewrite N.land_spec, N.pow2_bits_eqb.
    destruct (N.eqb_spec n i) as [->|Hne].
    - destruct (N.testbit a i) eqn:E; cbn [andb].
      + rewrite N.pow2_bits_true. reflexivity.
      + rewrite N.bits_0. reflexivity.
    - rewrite andb_false_r. destruct (N.testbit a n).
      + rewrite N.pow2_bits_false by exact Hne. reflexivity.
      + rewrite N.bits_0. reflexivity. }
  destruct (N.testbit a n).
  - apply N.eqb_refl.
  - apply N.eqb_neq. intros H. symmetry in H. revert H. apply N.pow_nonzero. discriminate.
Qed.

Lemma at_set_testbit a o v n : N.testbit (at_set a o v) n = N.testbit a n || (v && N.testbit o n).
Proof.
  unfold at_set. destruct v; simpl; [apply N.lor_spec|rewrite orb_false_r; reflexivity].
Qed.
Lemma at_union_testbit a b n : N.testbit (at_union a b) n = N.testbit a n || N.testbit b n.
Proof. apply N.lor_spec. Qed.

Lemma small_testbit i n : i < 256 -> 8 <= n -> N.testbit i n = false.
Proof.
  intros Hi Hn. rewrite <- (N.mod_small i 256) by exact Hi. change 256 with (2 ^ 8).
  apply N.mod_pow2_bits_high. exact Hn.
Qed.

(** No flag lives in the byte of the index. *)
Definition low_clear (a : attrs) : Prop := forall n, n < 8 -> N.testbit a n = false.

Lemma get_index_set a i : low_clear a -> i < 256 -> get_index (at_set a (at_index i) true) = i.
Proof.
  intros Ha Hi. unfold get_index, at_index. change 256 with (2 ^ 8). apply N.bits_inj. intros n.
  destruct (N.lt_ge_cases n 8) as [Hn|Hn].
  - rewrite N.mod_pow2_bits_low by exact Hn. rewrite at_set_testbit, Ha by exact Hn. reflexivity.
  - rewrite N.mod_pow2_bits_high by exact Hn. rewrite (small_testbit i) by assumption. reflexivity.
Qed.
Lemma contains_set_index a i n : i < 256 -> 8 <= n ->
  contains (at_set a (at_index i) true) (2 ^ n) = contains a (2 ^ n).
Proof.
  intros Hi Hn. rewrite !contains_pow2, at_set_testbit. unfold at_index.
  rewrite (small_testbit i) by assumption. rewrite andb_false_r, orb_false_r. reflexivity.
Qed.

Section Fields.
Context {V : Type}.

Ltac unflag := unfold REQUIRE_VALUE, REQUIRE_EQ, ACCEPT_HYPHEN_ANY, ACCEPT_HYPHEN_NUM, GLOBAL,
  MAKE_LOWERCASE, VAR_ARG, GREEDY, LAST in *.

Lemma accept_hyphen_testbit (m : arg_meta V) n :
  N.testbit (accept_hyphen_of m) n =
    match am_allow_hyphen_values m, am_allow_negative_numbers m with
    | true, false => n =? 18
    | false, true => n =? 19
    | _, _ => false
    end.
Proof.
  unfold accept_hyphen_of. unflag. 
  destruct (am_allow_hyphen_values m), (am_allow_negative_numbers m); try apply N.bits_0;
    rewrite N.pow2_bits_eqb, N.eqb_sym; reflexivity.
Qed.

Lemma base_attrs_testbit k (m : arg_meta V) n :
  N.testbit (base_attrs k m) n =
    N.testbit (accept_hyphen_of m) n
    || (require_value k && (16 =? n)) || (am_require_equals m && (17 =? n))
    || (am_global m && (20 =? n)) || (am_ignore_case m && (21 =? n)).
Proof.
  unfold base_attrs. rewrite !at_set_testbit, at_union_testbit, N.bits_0. unflag.
  rewrite !N.pow2_bits_eqb. reflexivity.
Qed.
Lemma positional_attrs_testbit k (m : arg_meta V) n :
  N.testbit (positional_attrs_of k m) n =
    N.testbit (base_attrs k m) n
    || (accepts_multiple_values k && (22 =? n)) || (am_last m && (24 =? n))
    || ((am_trailing_var_arg m || am_last m) && (23 =? n)).
Proof.
  unfold positional_attrs_of. rewrite !at_set_testbit. unflag.
  rewrite !N.pow2_bits_eqb. reflexivity.
Qed.

Lemma base_attrs_low k (m : arg_meta V) : low_clear (base_attrs k m).
Proof.
  intros n Hn. rewrite base_attrs_testbit, accept_hyphen_testbit.
  destruct (N.eqb_spec 16 n); [lia|]. destruct (N.eqb_spec 17 n); [lia|].
  destruct (N.eqb_spec 20 n); [lia|]. destruct (N.eqb_spec 21 n); [lia|].
  destruct (N.eqb_spec n 18); [lia|]. destruct (N.eqb_spec n 19); [lia|].
  rewrite !andb_false_r. destruct (am_allow_hyphen_values m), (am_allow_negative_numbers m); reflexivity.
Qed.
Lemma positional_attrs_low k (m : arg_meta V) : low_clear (positional_attrs_of k m).
Proof.
  intros n Hn. rewrite positional_attrs_testbit, base_attrs_low by exact Hn.
  destruct (N.eqb_spec 22 n); [lia|]. destruct (N.eqb_spec 23 n); [lia|].
  destruct (N.eqb_spec 24 n); [lia|]. rewrite !andb_false_r. reflexivity.
Qed.

(** Reading the flags of an option. *)
Ltac flag_tac :=
  unflag; rewrite contains_pow2, ?positional_attrs_testbit, ?base_attrs_testbit,
    ?accept_hyphen_testbit; simpl N.eqb;
  rewrite ?andb_true_r, ?andb_false_r, ?orb_false_r; simpl.

Variable k : magic_kind.
Variable m : arg_meta V.
Lemma base_REQUIRE_VALUE : contains (base_attrs k m) REQUIRE_VALUE = require_value k.
Proof. flag_tac. destruct (am_allow_hyphen_values m), (am_allow_negative_numbers m); reflexivity. Qed.
Lemma base_REQUIRE_EQ : contains (base_attrs k m) REQUIRE_EQ = am_require_equals m.
Proof. flag_tac. destruct (am_allow_hyphen_values m), (am_allow_negative_numbers m); reflexivity. Qed.
Lemma base_GLOBAL : contains (base_attrs k m) GLOBAL = am_global m.
Proof. flag_tac. destruct (am_allow_hyphen_values m), (am_allow_negative_numbers m); reflexivity. Qed.
Lemma base_LOWER : contains (base_attrs k m) MAKE_LOWERCASE = am_ignore_case m.
Proof. flag_tac. destruct (am_allow_hyphen_values m), (am_allow_negative_numbers m); reflexivity. Qed.
Lemma base_ANY :
  contains (base_attrs k m) ACCEPT_HYPHEN_ANY
  = am_allow_hyphen_values m && negb (am_allow_negative_numbers m).
Proof. flag_tac. destruct (am_allow_hyphen_values m), (am_allow_negative_numbers m); reflexivity. Qed.
Lemma base_NUM :
  contains (base_attrs k m) ACCEPT_HYPHEN_NUM
  = am_allow_negative_numbers m && negb (am_allow_hyphen_values m).
Proof. flag_tac. destruct (am_allow_hyphen_values m), (am_allow_negative_numbers m); reflexivity. Qed.
Lemma base_LAST : contains (base_attrs k m) LAST = false.
Proof. flag_tac. destruct (am_allow_hyphen_values m), (am_allow_negative_numbers m); reflexivity. Qed.
Lemma base_VAR_ARG : contains (base_attrs k m) VAR_ARG = false.
Proof. flag_tac. destruct (am_allow_hyphen_values m), (am_allow_negative_numbers m); reflexivity. Qed.
Lemma base_GREEDY : contains (base_attrs k m) GREEDY = false.
Proof. flag_tac. destruct (am_allow_hyphen_values m), (am_allow_negative_numbers m); reflexivity. Qed.
Lemma pos_VAR_ARG : contains (positional_attrs_of k m) VAR_ARG = accepts_multiple_values k.
Proof. flag_tac. destruct (am_allow_hyphen_values m), (am_allow_negative_numbers m); reflexivity. Qed.
Lemma pos_LAST : contains (positional_attrs_of k m) LAST = am_last m.
Proof. flag_tac. destruct (am_allow_hyphen_values m), (am_allow_negative_numbers m); reflexivity. Qed.
Lemma pos_GREEDY :
  contains (positional_attrs_of k m) GREEDY = am_trailing_var_arg m || am_last m.
Proof. flag_tac. destruct (am_allow_hyphen_values m), (am_allow_negative_numbers m); reflexivity. Qed.
End Fields.
