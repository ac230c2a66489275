(** Consequences for options written on the command line: what an occurrence
    does to its field, and the errors it can be. *)
From Verif Require Import Bytes BytesFacts Utf8 Utf8Facts Error Values Places PlaceFacts Heck Decl Spec Derive Generated CompileFacts InfoFacts
  TableFacts ScopeFacts NamedFacts WordFacts FinishFacts ReadFacts SimFacts Refine Observe ContextFacts SafeFacts FieldFacts ResultFacts
  ValueFacts OptionFacts SameFacts.

Section Writes.
Context {V : Type}.
Local Notation args_decl := (args_decl V).
Local Notation sarg := (sarg V).
Local Notation scope := (scope V).
Local Notation occ := (occ V).
Implicit Types (d : args_decl) (a b : sarg) (stk : list scope) (os : list occ) (v : option bytes) (rem : list sarg).

Lemma writes_reads stk rem toks ad a v : stack_ok stk -> writes stk toks ad a v ->
  read first_named (Normal stk rem) toks = ([Occ ad a v], Go (Normal stk rem)).
Proof.
  intros Hok Hw. destruct Hw as [n ad a v toks Hr Ht Hg|n ad a Hr Ht|s ad a v Hr Ht].
  - apply (gives_value_reads stk rem n); assumption.
  - rewrite read_one, (step_bare _ _ _ _ _ Hok Hr). unfold bare. rewrite Ht. reflexivity.
  - rewrite read_one. apply step_eq_value; [exact Hok|exact Hr|exact I].
Qed.
Lemma writes_arg stk toks ad a v : stack_ok stk -> writes stk toks ad a v ->
  In (ad, a) (stack_args stk) /\ is_option a = true.
Proof.
  intros Hok Hw. destruct Hw as [n ad a v toks Hr Ht Hg|n ad a Hr Ht|s ad a v Hr Ht];
    destruct (resolve_sound _ _ _ _ Hok Hr) as (Hin & (Ho & _) & _); auto.
Qed.
Theorem writes_occ d pre os stk rem toks ad a v :
  valid d -> at_option d pre os stk rem -> writes stk toks ad a v ->
  at_option d (pre ++ toks) (os ++ [Occ ad a v]) stk rem.
Proof.
  intros Hd H Hw. eapply at_option_more; [exact H|]. apply writes_reads; [|exact Hw]. eapply at_option_stack; eauto.
Qed.

(** A successful parse has the occurrence. *)
Theorem written d (argv0 : bytes) pre os stk rem toks ad a v post o :
  valid d -> at_option d pre os stk rem -> writes stk toks ad a v ->
  try_parse_from d (argv0 :: pre ++ toks ++ post) = Ok o ->
  exists os2 stk2, reads d (pre ++ toks ++ post) (os ++ Occ ad a v :: os2) stk2 /\ In (ad, a) (stack_args stk2).
Proof.
  intros Hd H Hw Hp. destruct (success _ _ _ _ Hd Hp) as (os' & stk' & Hr & _). destruct Hr as (st & Hr & Hc & <-).
  pose proof (at_option_ok _ _ _ _ _ Hd H) as (Hok & Hrem & _).
  rewrite (at_option_app _ _ _ _ _ _ H), read_app, (writes_reads _ _ _ _ _ _ Hok Hw) in Hr. unfold then_read in Hr.
  cbn [fst snd] in Hr. destruct (read first_named (Normal stk rem) post) as [os2 out] eqn:E2. cbn [fst snd app] in Hr.
  injection Hr as <- ->. exists os2, (state_stack st). split.
  - exists st. split; [|auto]. rewrite (at_option_app _ _ _ _ _ _ H), read_app, (writes_reads _ _ _ _ _ _ Hok Hw). unfold then_read.
    cbn [fst snd]. rewrite E2. reflexivity.
  - destruct (read_ok first_named first_named_in _ _ _ _ (conj Hok Hrem : state_ok (Normal stk rem)) E2) as (_ & _ & inner & E).
    cbn [state_stack] in E. rewrite E. apply stack_args_app. apply (writes_arg _ _ _ _ _ Hok Hw).
Qed.

(** An occurrence that is an error. *)
Theorem bad_occ d (argv0 : bytes) pre os stk rem toks ad a v e post :
  valid d -> at_option d pre os stk rem -> no_error_in os -> writes stk toks ad a v ->
  occ_error a (given os ad) v = Some e ->
  try_parse_from d (argv0 :: pre ++ toks ++ post) = Err e.
Proof.
  intros Hd H Hn Hw He. pose proof (at_option_ok _ _ _ _ _ Hd H) as (Hok & _).
  rewrite (after_prefix _ _ _ _ _ _ _ Hd H), read_app, (writes_reads _ _ _ _ _ _ Hok Hw). unfold then_read. cbn [fst snd].
  destruct (read first_named (Normal stk rem) post) as [os2 out]. cbn [fst snd app]. unfold conclude.
  rewrite first_bad_app, Hn. cbn [app first_bad oc_arg oc_addr oc_val]. rewrite He. reflexivity.
Qed.

(** C09 *)
Lemma dup_error a v : many a = false -> is_option a = true -> (shape_a a = ShFlag -> v = None) ->
  occ_error a true v = Some (error_about DuplicatedNamedArgument a).
Proof.
  intros Hm Ho Hf. unfold occ_error, value_error. rewrite Ho. unfold many in Hm.
  destruct (shape_a a) eqn:E; try discriminate; try reflexivity. rewrite Hf by reflexivity. reflexivity.
Qed.
Theorem duplicate d (argv0 : bytes) pre os stk rem toks ad a v post :
  valid d -> at_option d pre os stk rem -> no_error_in os -> writes stk toks ad a v ->
  many a = false -> given os ad = true -> (shape_a a = ShFlag -> v = None) ->
  try_parse_from d (argv0 :: pre ++ toks ++ post) = Err (error_about DuplicatedNamedArgument a).
Proof.
  intros Hd H Hn Hw Hm Hg Hf. eapply bad_occ; eauto. rewrite Hg. pose proof (at_option_stack _ _ _ _ _ Hd H) as Hok.
  apply dup_error; [exact Hm|apply (writes_arg _ _ _ _ _ Hok Hw)|exact Hf].
Qed.
Theorem at_most_once d (argv0 : bytes) toks o os stk ad a :
  valid d -> try_parse_from d (argv0 :: toks) = Ok o -> reads d toks os stk -> In (ad, a) (stack_args stk) ->
  many a = false -> length (values_of os ad) <= 1.
Proof.
  intros Hd H Hr Hin Hm. destruct (given os ad) eqn:Hg.
  - destruct (given_value _ _ _ _ _ _ _ _ Hd H Hr Hin Hg) as (fv & _ & Hdn). remember (map (option_map (text_of a)) (values_of os ad)) as l eqn:El.
    rewrite <- (map_length (option_map (text_of a))), <- El. unfold many in Hm. destruct Hdn; cbn; try lia; match goal with E : shape_a a = _ |- _ => rewrite E in Hm end; discriminate.
  - unfold given in Hg. destruct (values_of os ad); [cbn; lia|discriminate].
Qed.

(** C10 *)
Lemma texts_of a (vals : list (option bytes)) texts : map (option_map (text_of a)) vals = map Some texts ->
  exists raw, vals = map Some raw /\ texts = map (text_of a) raw.
Proof.
  revert texts. induction vals as [|w vals IH]; intros texts E.
  - exists []. destruct texts; [auto|discriminate].
  - destruct texts as [|t texts]; [discriminate|]. cbn in E. injection E as E1 E2. destruct w as [w|]; [|discriminate].
    destruct (IH _ E2) as (raw & -> & ->). injection E1 as <-. exists (w :: raw). auto.
Qed.
Theorem vec_value d (argv0 : bytes) toks o os stk ad a :
  valid d -> try_parse_from d (argv0 :: toks) = Ok o -> reads d toks os stk -> In (ad, a) (stack_args stk) ->
  shape_a a = ShMany -> given os ad = true \/ has_default a = false ->
  exists texts xs, values_of os ad = map Some texts /\ field_at ad o = Some (FvVec xs) /\
    reads_as (value_of_ty (sa_ty a)) (flat_map (pieces a) (map (text_of a) texts)) xs.
Proof.
  intros Hd H Hr Hin Hs Hg. destruct (given os ad) eqn:E.
  - destruct (given_value _ _ _ _ _ _ _ _ Hd H Hr Hin E) as (fv & Hf & Hdn).
    remember (map (option_map (text_of a)) (values_of os ad)) as l eqn:El.
    destruct Hdn as [|? ? Hs'|? ? Hs'| |? ? Hs'|texts xs _ Hra|? ? Hs']; try congruence. symmetry in El.
    destruct (texts_of _ _ _ El) as (raw & E1 & ->). exists raw, xs. auto.
  - destruct Hg as [Hg|Hg]; [discriminate|]. destruct (absent_value _ _ _ _ _ _ _ _ Hd H Hr Hin E) as (fv & Hf & Hdn).
    exists [], []. unfold given in E. destruct (values_of os ad) eqn:Ev; [|discriminate]. split; [reflexivity|]. split; [|reflexivity].
    unfold has_default in Hg. destruct (am_default_value (sa_meta a)) eqn:E1; [discriminate|]. destruct (am_default_value_t (sa_meta a)) eqn:E2; [discriminate|].
    destruct Hdn; try congruence.
Qed.
Theorem optvec_value d (argv0 : bytes) toks o os stk ad a :
  valid d -> try_parse_from d (argv0 :: toks) = Ok o -> reads d toks os stk -> In (ad, a) (stack_args stk) ->
  shape_a a = ShOptMany -> given os ad = true ->
  exists texts xs, values_of os ad = map Some texts /\ field_at ad o = Some (FvOptionVec (Some xs)) /\
    reads_as (value_of_ty (sa_ty a)) (flat_map (pieces a) (map (text_of a) texts)) xs.
Proof.
  intros Hd H Hr Hin Hs E.
  destruct (given_value _ _ _ _ _ _ _ _ Hd H Hr Hin E) as (fv & Hf & Hdn).
  remember (map (option_map (text_of a)) (values_of os ad)) as l eqn:El.
  destruct Hdn as [|? ? Hs'|? ? Hs'| |? ? Hs'|? ? Hs'|texts xs _ Hra]; try congruence. symmetry in El.
  destruct (texts_of _ _ _ El) as (raw & E1 & ->). exists raw, xs. auto.
Qed.
(** One more occurrence adds its value at the end, and changes nothing else. *)
Theorem written_values d pre os stk rem toks ad a v : 
  valid d -> at_option d pre os stk rem -> writes stk toks ad a v ->
  exists os', at_option d (pre ++ toks) os' stk rem /\
  values_of os' ad = values_of os ad ++ [v] /\ forall ad', ad' <> ad -> values_of os' ad' = values_of os ad'.
Proof.
  intros Hd H Hw. exists (os ++ [Occ ad a v]). split; [exact (writes_occ _ _ _ _ _ _ _ _ _ Hd H Hw)|].
  split; [exact (values_of_same os (Occ ad a v))|]. intros ad' Hne. exact (values_of_other os (Occ ad a v) ad' Hne).
Qed.

(** C23 *)
Theorem text_default d (argv0 : bytes) toks o os stk ad a s :
  valid d -> try_parse_from d (argv0 :: toks) = Ok o -> reads d toks os stk -> In (ad, a) (stack_args stk) ->
  given os ad = false -> am_default_value (sa_meta a) = Some s -> am_default_value_t (sa_meta a) = None ->
  exists fv, field_at ad o = Some fv /\ denotes a [Some s] fv.
Proof.
  intros Hd H Hr Hin Hg Hs Ht. destruct (absent_value _ _ _ _ _ _ _ _ Hd H Hr Hin Hg) as (fv & Hf & Hdn). exists fv. split; [exact Hf|].
  destruct Hdn; try congruence; unfold has_default in *; rewrite Hs in *; discriminate.
Qed.

(** C25 *)
Theorem optopt_field d (argv0 : bytes) toks o os stk ad a :
  valid d -> try_parse_from d (argv0 :: toks) = Ok o -> reads d toks os stk -> In (ad, a) (stack_args stk) ->
  shape_a a = ShOptOpt -> has_default a = false ->
  (values_of os ad = [] /\ field_at ad o = Some (FvOptionOption None)) \/
  (values_of os ad = [None] /\ field_at ad o = Some (FvOptionOption (Some None))) \/
  (exists (b : bytes) x, values_of os ad = [Some b] /\ reads_as (value_of_ty (sa_ty a)) [text_of a b] [x] /\
     field_at ad o = Some (FvOptionOption (Some (Some x)))).
Proof.
  intros Hd H Hr Hin Hs Hnd. destruct (given os ad) eqn:Hg.
  - destruct (given_value _ _ _ _ _ _ _ _ Hd H Hr Hin Hg) as (fv & Hf & Hdn).
    remember (map (option_map (text_of a)) (values_of os ad)) as l eqn:El. destruct Hdn; try congruence.
    + right. left. split; [|exact Hf]. destruct (values_of os ad) as [|[w|] [|]]; try discriminate. reflexivity.
    + right. right. destruct (values_of os ad) as [|[w|] [|]]; try discriminate. exists w, x. cbn in El. injection El as <-. auto.
  - left. destruct (absent_value _ _ _ _ _ _ _ _ Hd H Hr Hin Hg) as (fv & Hf & Hdn). unfold given in Hg.
    split; [destruct (values_of os ad); [reflexivity|discriminate]|]. unfold has_default in Hnd.
    destruct (am_default_value (sa_meta a)) eqn:E1; [discriminate|]. destruct (am_default_value_t (sa_meta a)) eqn:E2; [discriminate|].
    destruct Hdn; congruence.
Qed.

(** C30 *)
Theorem written_value d (argv0 : bytes) pre os stk rem toks ad a (v : bytes) post o :
  valid d -> at_option d pre os stk rem -> writes stk toks ad a (Some v) -> takes_value a = true -> many a = false ->
  try_parse_from d (argv0 :: pre ++ toks ++ post) = Ok o ->
  exists x, read_value (value_of_ty (sa_ty a)) (text_of a v) = inl x /\
    field_at ad o = Some (if match shape_a a with ShOne => true | _ => false end then FvVal x else FvOption (Some x)).
Proof.
  intros Hd H Hw Ht Hm Hp. destruct (written _ _ _ _ _ _ _ _ _ _ _ _ Hd H Hw Hp) as (os2 & stk2 & Hr & Hin).
  assert (Hg : given (os ++ Occ ad a (Some v) :: os2) ad = true).
  { rewrite given_values, values_of_app. cbn [values_of]. unfold values_of at 2. cbn [filter oc_addr]. rewrite (proj2 (addr_eqb_eq ad ad) eq_refl).
    cbn [map]. destruct (values_of os ad); reflexivity. }
  pose proof (at_most_once _ _ _ _ _ _ _ _ Hd Hp Hr Hin Hm) as H1.
  destruct (given_value _ _ _ _ _ _ _ _ Hd Hp Hr Hin Hg) as (fv & Hf & Hdn).
  assert (Ev : values_of (os ++ Occ ad a (Some v) :: os2) ad = [Some v]).
  { rewrite values_of_app in *. unfold values_of at 2 in H1. unfold values_of at 2. cbn [filter oc_addr map] in *.
    rewrite (proj2 (addr_eqb_eq ad ad) eq_refl) in *. cbn [map oc_val] in *. rewrite app_length in H1. cbn [length] in H1.
    destruct (values_of os ad); [|cbn in H1; lia]. destruct (map oc_val _); [reflexivity|cbn in H1; lia]. }
  rewrite Ev in Hdn. cbn [map option_map] in Hdn. unfold takes_value in Ht. unfold many in Hm.
  inversion Hdn as [Hs|b x Hs Hra|b x Hs Hra|Hs|b x Hs Hra|texts xs Hs Hra|texts xs Hs Hra]; rewrite Hs in *; try discriminate;
    exists x; subst; (split; [|exact Hf]); unfold reads_as in Hra; cbn [map] in Hra; injection Hra as Hra; exact Hra.
Qed.

Theorem unreadable_value d (argv0 : bytes) pre os stk rem toks ad a (v : bytes) e post :
  valid d -> at_option d pre os stk rem -> no_error_in os -> writes stk toks ad a (Some v) -> takes_value a = true -> many a = false ->
  given os ad = false -> read_value (value_of_ty (sa_ty a)) (text_of a v) = inr e ->
  try_parse_from d (argv0 :: pre ++ toks ++ post) =
  Err (mkError (e_kind e) (Some (describe a)) (e_input e) (e_source e) (e_context e) (e_help e)).
Proof.
  intros Hd H Hn Hw Ht Hm Hg He. pose proof (at_option_stack _ _ _ _ _ Hd H) as Hok. eapply bad_occ; eauto.
  unfold occ_error. rewrite (proj2 (writes_arg _ _ _ _ _ Hok Hw)). rewrite Hg. unfold takes_value in Ht. unfold many in Hm.
  change (folded a (Some v)) with (Some (text_of a v)). unfold value_error. destruct (shape_a a); try discriminate; cbn [first_error]; rewrite He; reflexivity.
Qed.
(** C19-C22 *)
Theorem must_fail d (argv0 : bytes) toks os stk :
  valid d -> defaults_readable d = true -> reads d toks os stk -> ~ satisfied os stk ->
  exists e, try_parse_from d (argv0 :: toks) = Err e.
Proof.
  intros Hd Hdr Hr Hs. destruct (try_parse_from d (argv0 :: toks)) as [o|e|p] eqn:E; [|eauto|].
  - elim Hs. apply (success_reads _ _ _ _ _ _ Hd E Hr).
  - elim (no_panic d (argv0 :: toks) p (proj1 Hd) Hdr E).
Qed.

Theorem required_given d (argv0 : bytes) toks o os stk ad a :
  valid d -> try_parse_from d (argv0 :: toks) = Ok o -> reads d toks os stk ->
  In (ad, a) (stack_args stk) -> is_required a = true -> given os ad = true.
Proof. intros Hd H Hr. apply (success_reads _ _ _ _ _ _ Hd H Hr). Qed.
Theorem required_fails d (argv0 : bytes) toks os stk ad a :
  valid d -> defaults_readable d = true -> reads d toks os stk ->
  In (ad, a) (stack_args stk) -> is_required a = true -> given os ad = false ->
  exists e, try_parse_from d (argv0 :: toks) = Err e.
Proof. intros Hd Hdr Hr Hin Hq Hg. eapply must_fail; eauto. intros Hs. rewrite (sat_required _ _ Hs _ _ Hin Hq) in Hg. discriminate. Qed.
Theorem subcommand_given d (argv0 : bytes) toks o os s outer id vs :
  valid d -> try_parse_from d (argv0 :: toks) = Ok o -> reads d toks os (s :: outer) -> subcommand (sc_decl s) <> Some (id, false, vs).
Proof. intros Hd H Hr. destruct (success_reads _ _ _ _ _ _ Hd H Hr) as (_ & Hs & _). exact (sat_subcommand _ _ Hs _ _ id vs eq_refl). Qed.
Theorem subcommand_fails d (argv0 : bytes) toks os s outer id vs :
  valid d -> defaults_readable d = true -> reads d toks os (s :: outer) -> subcommand (sc_decl s) = Some (id, false, vs) ->
  exists e, try_parse_from d (argv0 :: toks) = Err e.
Proof. intros Hd Hdr Hr E. eapply must_fail; eauto. intros Hs. exact (sat_subcommand _ _ Hs _ _ id vs eq_refl E). Qed.

Theorem conflicts_apart d (argv0 : bytes) toks o os stk ad a id :
  valid d -> try_parse_from d (argv0 :: toks) = Ok o -> reads d toks os stk ->
  In (ad, a) (stack_args stk) -> In id (am_conflicts_with (sa_meta a)) -> given os ad = true -> given os (sibling ad id) = false.
Proof. intros Hd H Hr Hin Hi Hg. destruct (success_reads _ _ _ _ _ _ Hd H Hr) as (_ & Hs & _). exact (sat_conflicts _ _ Hs _ _ _ Hin Hg Hi). Qed.
Theorem conflicts_fail d (argv0 : bytes) toks os stk ad a id :
  valid d -> defaults_readable d = true -> reads d toks os stk ->
  In (ad, a) (stack_args stk) -> In id (am_conflicts_with (sa_meta a)) -> given os ad = true -> given os (sibling ad id) = true ->
  exists e, try_parse_from d (argv0 :: toks) = Err e.
Proof.
  intros Hd Hdr Hr Hin Hi Hg Hg'. eapply must_fail; eauto. intros Hs. rewrite (sat_conflicts _ _ Hs _ _ _ Hin Hg Hi) in Hg'. discriminate.
Qed.

Theorem requires_given d (argv0 : bytes) toks o os stk ad a id :
  valid d -> try_parse_from d (argv0 :: toks) = Ok o -> reads d toks os stk ->
  In (ad, a) (stack_args stk) -> In id (am_requires (sa_meta a)) -> given os ad = true -> given os (sibling ad id) = true.
Proof. intros Hd H Hr Hin Hi Hg. destruct (success_reads _ _ _ _ _ _ Hd H Hr) as (_ & Hs & _). exact (sat_requires _ _ Hs _ _ _ Hin Hg Hi). Qed.
Theorem requires_fail d (argv0 : bytes) toks os stk ad a id :
  valid d -> defaults_readable d = true -> reads d toks os stk ->
  In (ad, a) (stack_args stk) -> In id (am_requires (sa_meta a)) -> given os ad = true -> given os (sibling ad id) = false ->
  exists e, try_parse_from d (argv0 :: toks) = Err e.
Proof.
  intros Hd Hdr Hr Hin Hi Hg Hg'. eapply must_fail; eauto. intros Hs. rewrite (sat_requires _ _ Hs _ _ _ Hin Hg Hi) in Hg'. discriminate.
Qed.

Theorem exclusive_alone d (argv0 : bytes) toks o os stk ad a :
  valid d -> try_parse_from d (argv0 :: toks) = Ok o -> reads d toks os stk ->
  In (ad, a) (stack_args stk) -> am_exclusive (sa_meta a) = true -> given os ad = true ->
  (forall ad' b, In (ad', b) (stack_args stk) -> same_struct ad ad' -> given os ad' = true -> ad' = ad) /\
  (own_field ad -> S (ad_level ad) = length stk).
Proof.
  intros Hd H Hr Hin He Hg. destruct (success_reads _ _ _ _ _ _ Hd H Hr) as (_ & Hs & _). split.
  - intros ad' b Hin' Hss Hg'. destruct (addr_eqb ad' ad) eqn:E; [apply addr_eqb_eq; exact E|].
    assert (ad' <> ad) by (intros C; apply addr_eqb_eq in C; congruence).
    rewrite (sat_exclusive _ _ Hs _ _ _ _ Hin Hin' He Hg Hss) in Hg' by assumption. discriminate.
  - exact (sat_exclusive_sub _ _ Hs _ _ Hin He Hg).
Qed.
Theorem exclusive_fails d (argv0 : bytes) toks os stk ad a :
  valid d -> defaults_readable d = true -> reads d toks os stk ->
  In (ad, a) (stack_args stk) -> am_exclusive (sa_meta a) = true -> given os ad = true ->
  (exists ad' b, In (ad', b) (stack_args stk) /\ same_struct ad ad' /\ given os ad' = true /\ ad' <> ad) \/
  (own_field ad /\ S (ad_level ad) < length stk) ->
  exists e, try_parse_from d (argv0 :: toks) = Err e.
Proof.
  intros Hd Hdr Hr Hin He Hg Hx. eapply must_fail; eauto. intros Hs. destruct Hx as [(ad' & b & Hin' & Hss & Hg' & Hne)|[Ho Hl]].
  - rewrite (sat_exclusive _ _ Hs _ _ _ _ Hin Hin' He Hg Hss Hne) in Hg'. discriminate.
  - rewrite (sat_exclusive_sub _ _ Hs _ _ Hin He Hg Ho) in Hl. lia.
Qed.

(** C17 *)
Theorem outer_global d pre os stk rem n ad a :
  valid d -> at_option d pre os stk rem -> resolve stk n = Some (ad, a) -> S (ad_level ad) < length stk -> is_global a = true.
Proof.
  intros Hd H Hr Hl. destruct (resolve_sound _ _ _ _ (at_option_stack _ _ _ _ _ Hd H) Hr) as (_ & _ & [E|E]); [lia|exact E].
Qed.
Theorem outer_hidden d pre os stk rem n :
  valid d -> at_option d pre os stk rem ->
  (forall ad a, In (ad, a) (stack_args stk) -> has_name a n -> S (ad_level ad) < length stk /\ is_global a = false) ->
  resolve stk n = None.
Proof.
  intros Hd H Hall. destruct (resolve stk n) as [[ad a]|] eqn:E; [|reflexivity].
  destruct (resolve_sound _ _ _ _ (at_option_stack _ _ _ _ _ Hd H) E) as (Hin & Hn & Hg). destruct (Hall _ _ Hin Hn) as [Hl Hng].
  destruct Hg as [Hg|Hg]; [lia|congruence].
Qed.

Theorem written_field d (argv0 : bytes) pre os stk rem toks ad a v post o :
  valid d -> at_option d pre os stk rem -> writes stk toks ad a v ->
  try_parse_from d (argv0 :: pre ++ toks ++ post) = Ok o ->
  exists vals fv, In v vals /\ field_at ad o = Some fv /\ denotes a (map (option_map (text_of a)) vals) fv.
Proof.
  intros Hd H Hw Hp. destruct (written _ _ _ _ _ _ _ _ _ _ _ _ Hd H Hw Hp) as (os2 & stk2 & Hr & Hin).
  assert (Hv : In v (values_of (os ++ Occ ad a v :: os2) ad)).
  { unfold values_of. apply in_map_iff. exists (Occ ad a v). split; [reflexivity|]. apply filter_In. split; [apply in_elt|].
    apply addr_eqb_eq. reflexivity. }
  destruct (given_value _ _ _ _ _ _ _ _ Hd Hp Hr Hin) as (fv & Hf & Hdn).
  - unfold given. destruct (values_of (os ++ Occ ad a v :: os2) ad); [contradiction|reflexivity].
  - eauto.
Qed.

(** C29 *)
Lemma lower_exact (x : byte) :
  (65 <= b2n x <= 90 -> b2n (ascii_lower x) = b2n x + 32)%N /\ (~ (65 <= b2n x <= 90)%N -> ascii_lower x = x).
Proof. destruct x; vm_compute; (split; [intros [H1 H2]|intros H]); try reflexivity; try (elim H1; reflexivity); try (elim H2; reflexivity);
  elim H; split; discriminate. Qed.
Theorem fold_case d (argv0 : bytes) pre os stk rem t1 t2 ad a (v w : bytes) post :
  valid d -> at_option d pre os stk rem -> writes stk t1 ad a (Some v) -> writes stk t2 ad a (Some w) ->
  am_ignore_case (sa_meta a) = true -> map ascii_lower v = map ascii_lower w ->
  try_parse_from d (argv0 :: pre ++ t1 ++ post) = try_parse_from d (argv0 :: pre ++ t2 ++ post).
Proof.
  intros Hd H H1 H2 Hi E. pose proof (at_option_stack _ _ _ _ _ Hd H) as Hok.
  exact (case_insensitive d argv0 pre os stk rem t1 t2 ad a v w post Hd H Hi E (writes_reads _ _ _ _ _ _ Hok H1) (writes_reads _ _ _ _ _ _ Hok H2)).
Qed.
Lemma position_nth (b : bytes) l i : position b l = Some i -> nth_error l i = Some b.
Proof.
  revert i. induction l as [|x l IH]; intros i; cbn; [discriminate|]. destruct (beqb b x) eqn:E.
  - intros H. injection H as <-. apply beqb_eq in E. subst. reflexivity.
  - destruct (position b l) as [j|] eqn:Ej; [|discriminate]. intros H. injection H as <-. cbn. apply IH. reflexivity.
Qed.
Lemma position_None (b : bytes) l : position b l = None <-> ~ In b l.
Proof.
  induction l as [|x l IH]; cbn; [tauto|]. destruct (beqb b x) eqn:E.
  - apply beqb_eq in E. subst. split; [discriminate|]. intros H. elim H. auto.
  - assert (x <> b) by (intros ->; rewrite beqb_refl in E; discriminate). destruct (position b l); cbn.
    + split; [discriminate|]. intros H'. assert (Some n = None) by (apply IH; tauto). discriminate.
    + split; [|reflexivity]. intros _. tauto.
Qed.
Theorem enum_fold d (argv0 : bytes) pre os stk rem toks ad a (v : bytes) names inj post o :
  valid d -> at_option d pre os stk rem -> writes stk toks ad a (Some v) -> takes_value a = true -> many a = false ->
  vt_value_enum (value_of_ty (sa_ty a)) = Some (names, inj) ->
  try_parse_from d (argv0 :: pre ++ toks ++ post) = Ok o ->
  exists i, nth_error names i = Some (text_of a v) /\
    field_at ad o = Some (if match shape_a a with ShOne => true | _ => false end then FvVal (inj i) else FvOption (Some (inj i))).
Proof.
  intros Hd H Hw Ht Hm He Hp. destruct (written_value _ _ _ _ _ _ _ _ _ _ _ _ Hd H Hw Ht Hm Hp) as (x & Hx & Hf).
  unfold read_value in Hx. rewrite He in Hx. destruct (utf8_valid (text_of a v)); [|discriminate].
  destruct (position (text_of a v) names) as [i|] eqn:E; [|discriminate]. injection Hx as <-. exists i. split; [exact (position_nth _ _ _ E)|exact Hf].
Qed.
Theorem enum_unknown d (argv0 : bytes) pre os stk rem toks ad a (v : bytes) names inj post :
  valid d -> at_option d pre os stk rem -> no_error_in os -> writes stk toks ad a (Some v) -> takes_value a = true -> many a = false ->
  given os ad = false -> vt_value_enum (value_of_ty (sa_ty a)) = Some (names, inj) -> ~ In (text_of a v) names ->
  exists e, try_parse_from d (argv0 :: pre ++ toks ++ post) = Err e /\ e_kind e = InvalidValue /\
    e_arg_desc e = Some (describe a) /\ e_input e = Some (text_of a v) /\
    e_context e = bs "[possible values: " ++ join (bs ", ") (sort_by (fun n => n) names) ++ bs "]".
Proof.
  intros Hd H Hn Hw Ht Hm Hg He Hni. apply position_None in Hni.
  destruct (read_value (value_of_ty (sa_ty a)) (text_of a v)) as [x|e] eqn:E.
  - unfold read_value in E. rewrite He, Hni in E. destruct (utf8_valid (text_of a v)); discriminate.
  - rewrite (unreadable_value d argv0 pre os stk rem toks ad a v e post Hd H Hn Hw Ht Hm Hg E). eexists. split; [reflexivity|].
    unfold read_value in E. rewrite He, Hni in E. destruct (utf8_valid (text_of a v)); injection E as <-; auto.
Qed.

Theorem taken d pre os stk rem toks ad a (v : bytes) x :
  valid d -> at_option d pre os stk rem -> no_error_in os -> writes stk toks ad a (Some v) -> takes_value a = true -> many a = false ->
  given os ad = false -> read_value (value_of_ty (sa_ty a)) (text_of a v) = inl x ->
  at_option d (pre ++ toks) (os ++ [Occ ad a (Some v)]) stk rem /\ no_error_in (os ++ [Occ ad a (Some v)]).
Proof.
  intros Hd H Hn Hw Ht Hm Hg Hx. split; [exact (writes_occ d pre os stk rem toks ad a (Some v) Hd H Hw)|].
  unfold no_error_in in *. rewrite first_bad_app, Hn. cbn [app first_bad oc_arg oc_addr oc_val]. rewrite Hg.
  unfold occ_error, value_error. rewrite folded_text. cbn [option_map]. unfold takes_value in Ht. unfold many in Hm.
  destruct (shape_a a); try discriminate; cbn [first_error]; rewrite Hx; reflexivity.
Qed.
Theorem enum_taken d pre os stk rem toks ad a (v : bytes) names inj :
  valid d -> at_option d pre os stk rem -> no_error_in os -> writes stk toks ad a (Some v) -> takes_value a = true -> many a = false ->
  given os ad = false -> vt_value_enum (value_of_ty (sa_ty a)) = Some (names, inj) ->
  In (text_of a v) names -> utf8_valid (text_of a v) = true ->
  at_option d (pre ++ toks) (os ++ [Occ ad a (Some v)]) stk rem /\ no_error_in (os ++ [Occ ad a (Some v)]).
Proof.
  intros Hd H Hn Hw Ht Hm Hg He Hi Hu. destruct (position (text_of a v) names) as [i|] eqn:E; [|apply position_None in E; contradiction].
  apply (taken d pre os stk rem toks ad a v (inj i) Hd H Hn Hw Ht Hm Hg). unfold read_value. rewrite He, Hu, E. reflexivity.
Qed.

(** C30 *)
Theorem os_taken d pre os stk rem toks ad a (v : bytes) f x :
  valid d -> at_option d pre os stk rem -> no_error_in os -> writes stk toks ad a (Some v) -> takes_value a = true -> many a = false ->
  given os ad = false -> am_ignore_case (sa_meta a) = false -> vt_value_enum (value_of_ty (sa_ty a)) = None ->
  vt_try_from_os (value_of_ty (sa_ty a)) = Some f \/
  (vt_try_from_os (value_of_ty (sa_ty a)) = None /\ vt_from_str (value_of_ty (sa_ty a)) = Some f /\ utf8_valid v = true) ->
  f v = inl x ->
  at_option d (pre ++ toks) (os ++ [Occ ad a (Some v)]) stk rem /\ no_error_in (os ++ [Occ ad a (Some v)]).
Proof.
  intros Hd H Hn Hw Ht Hm Hg Hi He Hf Hx. apply (taken d pre os stk rem toks ad a v x Hd H Hn Hw Ht Hm Hg).
  unfold text_of. rewrite Hi. unfold read_value. rewrite He. destruct Hf as [->|(-> & -> & ->)]; rewrite Hx; reflexivity.
Qed.
Theorem os_bytes d (argv0 : bytes) pre os stk rem toks ad a (v : bytes) f post o :
  valid d -> at_option d pre os stk rem -> writes stk toks ad a (Some v) -> takes_value a = true -> many a = false ->
  am_ignore_case (sa_meta a) = false -> vt_value_enum (value_of_ty (sa_ty a)) = None -> vt_try_from_os (value_of_ty (sa_ty a)) = Some f ->
  try_parse_from d (argv0 :: pre ++ toks ++ post) = Ok o ->
  exists x, f v = inl x /\
    field_at ad o = Some (if match shape_a a with ShOne => true | _ => false end then FvVal x else FvOption (Some x)).
Proof.
  intros Hd H Hw Ht Hm Hi He Hf Hp. destruct (written_value _ _ _ _ _ _ _ _ _ _ _ _ Hd H Hw Ht Hm Hp) as (x & Hx & Hfx).
  unfold text_of in Hx. rewrite Hi in Hx. unfold read_value in Hx. rewrite He, Hf in Hx. destruct (f v) as [y|m] eqn:E; [|discriminate].
  injection Hx as <-. eauto.
Qed.
Theorem str_bytes d (argv0 : bytes) pre os stk rem toks ad a (v : bytes) f post o :
  valid d -> at_option d pre os stk rem -> writes stk toks ad a (Some v) -> takes_value a = true -> many a = false ->
  am_ignore_case (sa_meta a) = false -> vt_value_enum (value_of_ty (sa_ty a)) = None -> vt_try_from_os (value_of_ty (sa_ty a)) = None ->
  vt_from_str (value_of_ty (sa_ty a)) = Some f ->
  try_parse_from d (argv0 :: pre ++ toks ++ post) = Ok o ->
  utf8_valid v = true /\ exists x, f v = inl x /\
    field_at ad o = Some (if match shape_a a with ShOne => true | _ => false end then FvVal x else FvOption (Some x)).
Proof.
  intros Hd H Hw Ht Hm Hi He Hn Hf Hp. destruct (written_value _ _ _ _ _ _ _ _ _ _ _ _ Hd H Hw Ht Hm Hp) as (x & Hx & Hfx).
  unfold text_of in Hx. rewrite Hi in Hx. unfold read_value in Hx. rewrite He, Hn, Hf in Hx.
  destruct (utf8_valid v); [|discriminate]. split; [reflexivity|]. destruct (f v) as [y|m] eqn:E; [|discriminate].
  injection Hx as <-. eauto.
Qed.
Theorem str_not_utf8 d (argv0 : bytes) pre os stk rem toks ad a (v : bytes) post :
  valid d -> at_option d pre os stk rem -> no_error_in os -> writes stk toks ad a (Some v) -> takes_value a = true -> many a = false ->
  given os ad = false -> vt_try_from_os (value_of_ty (sa_ty a)) = None -> utf8_valid (text_of a v) = false ->
  exists e, try_parse_from d (argv0 :: pre ++ toks ++ post) = Err e /\ e_kind e = InvalidValue /\
    e_arg_desc e = Some (describe a) /\ e_input e = Some (text_of a v).
Proof.
  intros Hd H Hn Hw Ht Hm Hg Ho Hu.
  destruct (read_value (value_of_ty (sa_ty a)) (text_of a v)) as [x|e] eqn:E; unfold read_value in E; rewrite Ho, Hu in E.
  - destruct (vt_value_enum (value_of_ty (sa_ty a))) as [[? ?]|]; [discriminate|]. destruct (vt_from_str _); discriminate.
  - rewrite (unreadable_value d argv0 pre os stk rem toks ad a v e post); try assumption;
      [|unfold read_value; rewrite Ho, Hu; exact E].
    eexists. split; [reflexivity|].
    destruct (vt_value_enum (value_of_ty (sa_ty a))) as [[? ?]|]; [injection E as <-; auto|].
    destruct (vt_from_str (value_of_ty (sa_ty a))); injection E as <-; auto.
Qed.

Theorem not_utf8_source d (argv0 : bytes) pre os stk rem toks ad a (v : bytes) post :
  valid d -> at_option d pre os stk rem -> no_error_in os -> writes stk toks ad a (Some v) -> takes_value a = true -> many a = false ->
  given os ad = false -> vt_value_enum (value_of_ty (sa_ty a)) <> None \/
    vt_try_from_os (value_of_ty (sa_ty a)) = None /\ vt_from_str (value_of_ty (sa_ty a)) <> None ->
  utf8_valid (text_of a v) = false ->
  exists e, try_parse_from d (argv0 :: pre ++ toks ++ post) = Err e /\ error_source e = Some (utf8_error_text (text_of a v)).
Proof.
  intros Hd H Hn Hw Ht Hm Hg Ho Hu.
  destruct (read_value (value_of_ty (sa_ty a)) (text_of a v)) as [x|e] eqn:E.
  - exfalso. unfold read_value in E. rewrite Hu in E. destruct (vt_value_enum (value_of_ty (sa_ty a))) as [[? ?]|]; [discriminate|].
    destruct Ho as [Ho|[Ho Hf]]; [contradiction|]. rewrite Ho in E. destruct (vt_from_str _); discriminate.
  - rewrite (unreadable_value d argv0 pre os stk rem toks ad a v e post); try assumption.
    eexists. split; [reflexivity|]. unfold read_value in E. rewrite Hu in E.
    destruct (vt_value_enum (value_of_ty (sa_ty a))) as [[? ?]|]; [injection E as <-; reflexivity|].
    destruct Ho as [Ho|[Ho Hf]]; [contradiction|]. rewrite Ho in E.
    destruct (vt_from_str (value_of_ty (sa_ty a))); [injection E as <-; reflexivity|contradiction].
Qed.

(** C39 *)
Theorem exchange d (argv0 : bytes) pre os stk rem t1 t2 ad1 a1 v1 ad2 a2 v2 post o :
  valid d -> at_option d pre os stk rem -> writes stk t1 ad1 a1 v1 -> writes stk t2 ad2 a2 v2 -> ad1 <> ad2 ->
  try_parse_from d (argv0 :: pre ++ t1 ++ t2 ++ post) = Ok o ->
  try_parse_from d (argv0 :: pre ++ t2 ++ t1 ++ post) = Ok o.
Proof.
  intros Hd H H1 H2 Hne. pose proof (at_option_stack _ _ _ _ _ Hd H) as Hok.
  exact (commute d argv0 pre os stk rem t1 t2 (Occ ad1 a1 v1) (Occ ad2 a2 v2) post o Hd H
    (writes_reads _ _ _ _ _ _ Hok H1) (writes_reads _ _ _ _ _ _ Hok H2) Hne).
Qed.
End Writes.
