(** Which arguments go together, in terms of the declaration and of what was given. *)
From Verif Require Import Bytes Utf8 Error Values Heck Places Decl Spec Derive Generated Observe TableFacts ScopeFacts WordFacts NamedFacts
  ResultFacts WriteFacts UsageFacts.

Section Facts.
Context {V : Type}.
Implicit Types (d : args_decl V) (a : sarg V) (stk : list (scope V)) (os : list (occ V)) (o : outval V) (x y : occ V).

Lemma given_in x os : In x os -> given os (oc_addr x) = true.
Proof. intros H. apply given_true_iff. exists x. split; [exact H|reflexivity]. Qed.
Lemma known_in d toks os stk x : valid d -> reads d toks os stk -> In x os -> In (oc_addr x, oc_arg x) (stack_args stk).
Proof. intros Hd Hr Hx. destruct (reads_ok _ _ _ _ Hd Hr) as (_ & _ & Hk). rewrite Forall_forall in Hk. exact (Hk x Hx). Qed.
Lemma sibling_addr x l p i id : oc_addr x = Addr l (p ++ [i]) -> sibling (oc_addr x) id = Addr l (p ++ [id]).
Proof. intros ->. unfold sibling. cbn [ad_level ad_path]. rewrite removelast_last. reflexivity. Qed.

Theorem required_declared d (argv0 : bytes) toks o os stk ad a :
  valid d -> try_parse_from d (argv0 :: toks) = Ok o -> reads d toks os stk -> In (ad, a) (stack_args stk) ->
  am_required (sa_meta a) = true \/ (exists u, sa_ty a = TyOther u) ->
  am_default_value (sa_meta a) = None -> am_default_value_t (sa_meta a) = None ->
  exists v, In (Occ ad a v) os.
Proof.
  intros Hd H Hr Hin Hq H1 H2.
  assert (Hreq : is_required a = true).
  { unfold is_required, has_default, shape_a. rewrite H1, H2. destruct Hq as [->|[u ->]]; [reflexivity|]. apply Bool.orb_true_r. }
  pose proof (required_given d argv0 toks o os stk ad a Hd H Hr Hin Hreq) as Hg. apply given_true_iff in Hg.
  destruct Hg as ([ad' b v] & Ho & E). cbn [oc_addr] in E. subst ad'.
  pose proof (known_in _ _ _ _ _ Hd Hr Ho) as Hb. cbn [oc_addr oc_arg] in Hb. destruct (reads_ok _ _ _ _ Hd Hr) as (_ & Hok & _).
  rewrite (stack_args_unique _ _ _ _ Hok Hb Hin) in Ho. exists v. exact Ho.
Qed.

Theorem conflicts_declared d (argv0 : bytes) toks o os stk x y l p i id :
  valid d -> try_parse_from d (argv0 :: toks) = Ok o -> reads d toks os stk -> In x os -> In y os ->
  oc_addr x = Addr l (p ++ [i]) -> In id (am_conflicts_with (sa_meta (oc_arg x))) -> oc_addr y <> Addr l (p ++ [id]).
Proof.
  intros Hd H Hr Hx Hy Ea Hc E.
  pose proof (conflicts_apart d argv0 toks o os stk _ _ id Hd H Hr (known_in _ _ _ _ _ Hd Hr Hx) Hc (given_in _ _ Hx)) as Hg.
  rewrite (sibling_addr _ _ _ _ _ Ea), <- E, (given_in _ _ Hy) in Hg. discriminate.
Qed.
Theorem requires_declared d (argv0 : bytes) toks o os stk x l p i id :
  valid d -> try_parse_from d (argv0 :: toks) = Ok o -> reads d toks os stk -> In x os ->
  oc_addr x = Addr l (p ++ [i]) -> In id (am_requires (sa_meta (oc_arg x))) -> exists y, In y os /\ oc_addr y = Addr l (p ++ [id]).
Proof.
  intros Hd H Hr Hx Ea Hc.
  pose proof (requires_given d argv0 toks o os stk _ _ id Hd H Hr (known_in _ _ _ _ _ Hd Hr Hx) Hc (given_in _ _ Hx)) as Hg.
  rewrite (sibling_addr _ _ _ _ _ Ea) in Hg. apply given_true_iff in Hg. exact Hg.
Qed.
Theorem exclusive_declared d (argv0 : bytes) toks o os stk x l p i :
  valid d -> try_parse_from d (argv0 :: toks) = Ok o -> reads d toks os stk -> In x os ->
  oc_addr x = Addr l (p ++ [i]) -> am_exclusive (sa_meta (oc_arg x)) = true ->
  (forall y j, In y os -> oc_addr y = Addr l (p ++ [j]) -> j = i) /\ (p = [] -> length stk = S l).
Proof.
  intros Hd H Hr Hx Ea Hc.
  destruct (exclusive_alone d argv0 toks o os stk _ _ Hd H Hr (known_in _ _ _ _ _ Hd Hr Hx) Hc (given_in _ _ Hx)) as [H1 H2]. split.
  - intros y j Hy Ey. assert (E : oc_addr y = oc_addr x).
    { apply (H1 _ _ (known_in _ _ _ _ _ Hd Hr Hy)); [|exact (given_in _ _ Hy)].
      unfold same_struct. rewrite Ea, Ey. cbn [ad_level ad_path]. rewrite !removelast_last. auto. }
    rewrite Ea, Ey in E. injection E as E. apply app_inj_tail in E. tauto.
  - intros ->. rewrite Ea in H2. symmetry. apply H2. reflexivity.
Qed.
End Facts.
