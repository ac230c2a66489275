(** Which words go to which positionals. *)
From Verif Require Import Bytes BytesFacts Utf8 Utf8Facts Attrs AttrFacts Refl Error Values SortFacts
  Places Help Runtime Heck HeckFacts Decl Spec Derive Generated Observe CompileFacts InfoFacts TableFacts PlaceFacts
  ScopeFacts NamedFacts WordFacts FinishFacts ReadFacts SimFacts HelpFacts Refine ContextFacts SafeFacts
  FieldFacts ResultFacts ValueFacts OptionFacts SameFacts WriteFacts Grammar GrammarFacts.

Section Positional.
Context {V : Type}.
Local Notation args_decl := (args_decl V).
Local Notation sarg := (sarg V).
Local Notation scope := (scope V).
Local Notation occ := (occ V).
Implicit Types (d : args_decl) (a p : sarg) (stk outer : list scope) (os : list occ) (o : occ) (rem ps : list sarg) (s : scope).

Definition not_last a : bool := negb (is_last a).

Lemma ordinary_positionals d : filter not_last (positionals d) = ordinary d.
Proof.
  unfold positionals, ordinary, not_last. rewrite filter_app.
  replace (filter (fun a => negb (is_last a)) (filter is_last (filter (fun a => negb (is_option a)) (own_args d)))) with (@nil sarg).
  - rewrite app_nil_r. induction (own_args d) as [|a l IH]; [reflexivity|]. cbn [filter].
    destruct (is_option a) eqn:Eo; cbn [negb andb]; [exact IH|]. cbn [filter].
    destruct (is_last a) eqn:El; cbn [negb filter]; rewrite ?El; cbn [negb]; [exact IH|]. f_equal. exact IH.
  - induction (filter (fun a => negb (is_option a)) (own_args d)) as [|a l IH]; [reflexivity|]. cbn [filter].
    destruct (is_last a) eqn:El; [|exact IH]. cbn [filter]. rewrite El. exact IH.
Qed.

Lemma positionals_split d : positionals d = ordinary d ++ filter is_last (positionals d).
Proof.
  rewrite <- ordinary_positionals. unfold positionals, not_last. rewrite !filter_app.
  set (l := filter (fun a => negb (is_option a)) (own_args d)).
  assert (H1 : forall m : list sarg, filter (fun a => negb (is_last a)) (filter is_last m) = []).
  { induction m as [|a m IH]; [reflexivity|]. cbn [filter]. destruct (is_last a) eqn:E; [|exact IH]. cbn [filter]. rewrite E. exact IH. }
  assert (H2 : forall m : list sarg, filter is_last (filter (fun a => negb (is_last a)) m) = []).
  { induction m as [|a m IH]; [reflexivity|]. cbn [filter]. destruct (is_last a) eqn:E; [exact IH|]. cbn [filter negb]. rewrite E. exact IH. }
  assert (H3 : forall (f : sarg -> bool) (m : list sarg), filter f (filter f m) = filter f m).
  { intros f. induction m as [|a m IH]; [reflexivity|]. cbn [filter]. destruct (f a) eqn:E; [|exact IH]. cbn [filter]. rewrite E, IH. reflexivity. }
  rewrite H1, H2, !H3, app_nil_r. reflexivity.
Qed.

(** *** Words among occurrences *)

Definition is_word (level : nat) (o : occ) : bool :=
  Nat.eqb (ad_level (oc_addr o)) level && negb (is_option (oc_arg o)) && negb (is_last (oc_arg o)).
Lemma words_at_app level os os' : words_at level (os ++ os') = words_at level os ++ words_at level os'.
Proof. apply filter_app. Qed.
Lemma words_at_options level os : Forall (fun o => is_option (oc_arg o) = true) os -> words_at level os = [].
Proof.
  induction 1 as [|o os Ho _ IH]; [reflexivity|]. unfold words_at in *. cbn [filter]. rewrite Ho, andb_false_r. exact IH.
Qed.
Lemma words_at_last level os : Forall (fun o => is_last (oc_arg o) = true) os -> words_at level os = [].
Proof.
  induction 1 as [|o os Ho _ IH]; [reflexivity|]. unfold words_at in *. cbn [filter]. rewrite Ho, andb_false_r. exact IH.
Qed.
Lemma words_at_other level os : Forall (fun o => ad_level (oc_addr o) <> level) os -> words_at level os = [].
Proof.
  induction 1 as [|o os Ho _ IH]; [reflexivity|]. unfold words_at in *. cbn [filter].
  apply Nat.eqb_neq in Ho. rewrite Ho. exact IH.
Qed.
Lemma words_at_word level p (w : option bytes) : is_option p = false -> is_last p = false ->
  words_at level [Occ (Addr level [sa_id p]) p w] = [Occ (Addr level [sa_id p]) p w].
Proof. intros Ho Hl. unfold words_at. cbn [filter oc_addr oc_arg ad_level]. rewrite Nat.eqb_refl, Ho, Hl. reflexivity. Qed.

Lemma target_after p ps j : greedy p = false -> target (if many p then p :: ps else ps) j = target (p :: ps) (S j).
Proof. intros Hg. cbn [target]. rewrite Hg, orb_false_r. destruct (many p) eqn:E; [|reflexivity]. cbn [target]. rewrite Hg, E. reflexivity. Qed.
Lemma target_greedy p ps j : greedy p = true -> target (p :: ps) j = Some p.
Proof. intros Hg. cbn [target]. rewrite Hg, orb_true_r. reflexivity. Qed.
Lemma target_first p ps : target (p :: ps) 0 = Some p.
Proof. cbn [target]. destruct (many p || greedy p); reflexivity. Qed.

(** *** The invariant *)

Definition next_ok s outer os rem : Prop :=
  (exists used, positionals (sc_decl s) = used ++ rem) /\
  forall j, target (filter not_last rem) j = target (ordinary (sc_decl s)) (length (words_at (length outer) os) + j).

Record WI (st : state V) os : Prop := {
  wi_level : forall o, In o os -> is_option (oc_arg o) = false -> ad_level (oc_addr o) < length (state_stack st);
  wi_word : forall level s, nth_error (rev (state_stack st)) level = Some s ->
    forall k o, nth_error (words_at level os) k = Some o -> target (ordinary (sc_decl s)) k = Some (oc_arg o);
  wi_next : match st with
    | Normal (s :: outer) rem => next_ok s outer os rem
    | Await (s :: outer) rem ad a => next_ok s outer os rem /\ is_option a = true
    | Verbatim (s :: outer) rem =>
        Forall (fun p => is_last p = true) rem /\ last_args (s :: outer) <> [] \/ last_args (s :: outer) = [] /\ next_ok s outer os rem
    | Drain (s :: outer) p =>
        is_last p = true \/ forall j, target (ordinary (sc_decl s)) (length (words_at (length outer) os) + j) = Some p
    | _ => False
    end
}.

Lemma WI_start d : WI (start d) [].
Proof.
  split.
  - contradiction.
  - intros level s _ k o H. destruct k; discriminate.
  - cbn. split; [exists []; reflexivity|]. intros j. rewrite ordinary_positionals. reflexivity.
Qed.

Lemma WI_options stk rem os os1 st' : WI (Normal stk rem) os -> Forall (fun o => is_option (oc_arg o) = true) os1 ->
  (st' = Normal stk rem \/ exists ad a, st' = Await stk rem ad a /\ is_option a = true) -> WI st' (os ++ os1).
Proof.
  intros [H1 H2 H3] Ho Hs.
  assert (Es : state_stack st' = stk) by (destruct Hs as [->|(ad & a & -> & _)]; reflexivity).
  cbn [state_stack] in *. split.
  - rewrite Es. intros o Hi Ha. apply in_app_iff in Hi. destruct Hi as [Hi|Hi]; [apply H1; assumption|].
    rewrite Forall_forall in Ho. rewrite (Ho o Hi) in Ha. discriminate.
  - rewrite Es. intros level s Hn k o. rewrite words_at_app, (words_at_options level os1 Ho), app_nil_r. apply H2. exact Hn.
  - assert (Hx : forall s outer, stk = s :: outer -> next_ok s outer (os ++ os1) rem).
    { intros s outer ->. destruct H3 as [Hu Hj]. split; [exact Hu|]. intros j.
      rewrite words_at_app, (words_at_options _ os1 Ho), app_nil_r. apply Hj. }
    destruct Hs as [->|(ad & a & -> & Ha)]; (destruct stk as [|s outer]; [contradiction|]).
    + apply Hx. reflexivity.
    + split; [apply Hx; reflexivity|exact Ha].
Qed.

Lemma resolve_option stk n ad a : resolve stk n = Some (ad, a) -> is_option a = true.
Proof. intros H. apply resolve_in in H. destruct H as [_ H]. apply has_nameb_spec in H. apply H. Qed.

Definition options_out stk rem (x : list occ * outcome V) : Prop :=
  Forall (fun o => is_option (oc_arg o) = true) (fst x) /\
  match snd x with
  | Stop _ => True
  | Go st => st = Normal stk rem \/ exists ad a, st = Await stk rem ad a /\ is_option a = true
  end.
Lemma bare_options stk rem ad a : is_option a = true -> options_out stk rem (bare stk rem ad a).
Proof.
  intros H. unfold bare. destruct (takes_value a); [destruct (needs_equals a)|]; split; cbn; eauto.
Qed.
Lemma read_long_options stk rem (s : bytes) v : options_out stk rem (read_long stk rem s v).
Proof.
  unfold read_long. destruct (resolve stk (Long s)) as [[ad a]|] eqn:E; [|split; cbn; auto].
  apply resolve_option in E. destruct v; [split; cbn; auto|]. apply bare_options. exact E.
Qed.
Lemma read_bundle_options stk rem cs junk : options_out stk rem (read_bundle stk rem cs junk).
Proof.
  induction cs as [|c cs IH].
  - cbn. destruct junk; split; cbn; auto.
  - rewrite read_bundle_cons. destruct (resolve stk (Short c)) as [[ad a]|] eqn:E; [|split; cbn; auto].
    apply resolve_option in E.
    assert (Hc : forall v, options_out stk rem (let '(os, out) := read_bundle stk rem cs junk in (Occ ad a v :: os, out))).
    { intros v. destruct (read_bundle stk rem cs junk) as [os out]. destruct IH as [I1 I2]. split; cbn in *; auto. }
    destruct (strip_prefix [c_eq] (encode_all cs ++ junk)) as [v|].
    + destruct (takes_value a); [split; cbn; auto|]. apply Hc.
    + destruct (encode_all cs ++ junk); [apply bare_options; exact E|].
      destruct (needs_equals a); [split; cbn; auto|]. destruct (takes_value a); [split; cbn; auto|]. apply Hc.
Qed.

Lemma nth_error_rev_inner s outer : nth_error (rev (s :: outer)) (length outer) = Some s.
Proof. cbn [rev]. rewrite nth_error_app2 by (rewrite rev_length; lia). rewrite rev_length, Nat.sub_diag. reflexivity. Qed.

(** A word for a positional of the innermost command. *)
Lemma WI_word_level s outer os p (w : option bytes) : 
  (forall o, In o os -> is_option (oc_arg o) = false -> ad_level (oc_addr o) < S (length outer)) ->
  forall o, In o (os ++ [Occ (Addr (length outer) [sa_id p]) p w]) -> is_option (oc_arg o) = false ->
  ad_level (oc_addr o) < length (s :: outer).
Proof.
  intros H o Hi Ho. apply in_app_iff in Hi. destruct Hi as [Hi|[<-|[]]]; [apply H; assumption|]. cbn. lia.
Qed.
Lemma WI_word_word s outer os p (w : option bytes) :
  (forall level s', nth_error (rev (s :: outer)) level = Some s' ->
    forall k o, nth_error (words_at level os) k = Some o -> target (ordinary (sc_decl s')) k = Some (oc_arg o)) ->
  is_option p = false ->
  is_last p = true \/ target (ordinary (sc_decl s)) (length (words_at (length outer) os)) = Some p ->
  forall level s', nth_error (rev (s :: outer)) level = Some s' ->
  forall k o, nth_error (words_at level (os ++ [Occ (Addr (length outer) [sa_id p]) p w])) k = Some o ->
  target (ordinary (sc_decl s')) k = Some (oc_arg o).
Proof.
  intros H Hp Hl level s' Hn k o. rewrite words_at_app. destruct (is_last p) eqn:El.
  - rewrite (words_at_last level [Occ (Addr (length outer) [sa_id p]) p w]), app_nil_r by (constructor; [exact El|constructor]). apply H. exact Hn.
  - destruct Hl as [Hl|Hl]; [discriminate|]. destruct (Nat.eq_dec level (length outer)) as [->|Hne].
    + rewrite nth_error_rev_inner in Hn. injection Hn as <-. rewrite words_at_word by assumption. intros Hk.
      destruct (Nat.lt_ge_cases k (length (words_at (length outer) os))) as [Hlt|Hge].
      * rewrite nth_error_app1 in Hk by exact Hlt. apply (H (length outer) s); [apply nth_error_rev_inner|exact Hk].
      * rewrite nth_error_app2 in Hk by exact Hge. destruct (k - length (words_at (length outer) os)) eqn:Ek.
        -- injection Hk as <-. cbn [oc_arg]. replace k with (length (words_at (length outer) os)) by lia. exact Hl.
        -- destruct n; discriminate.
    + rewrite (words_at_other level [Occ (Addr (length outer) [sa_id p]) p w]), app_nil_r; [apply H; exact Hn|]. constructor; [|constructor]. cbn. auto.
Qed.

Lemma WI_word (sep : bool) stk rem os (tok : bytes) os1 st' :
  rem_ok stk rem -> WI (if sep then Verbatim stk rem else Normal stk rem) os ->
  take_word sep stk rem tok = (os1, Go st') -> WI st' (os ++ os1).
Proof.
  intros Hr HW E. destruct stk as [|s outer]; [destruct sep; destruct (wi_next _ _ HW)|].
  assert (HW' : (forall o, In o os -> is_option (oc_arg o) = false -> ad_level (oc_addr o) < S (length outer)) /\
    (forall level s', nth_error (rev (s :: outer)) level = Some s' ->
     forall k o, nth_error (words_at level os) k = Some o -> target (ordinary (sc_decl s')) k = Some (oc_arg o)) /\
    (Forall (fun p => is_last p = true) rem /\ last_args (s :: outer) <> [] /\ sep = true
     \/ (sep = true -> last_args (s :: outer) = []) /\ next_ok s outer os rem)).
  { destruct HW as [H1 H2 H3]. destruct sep; cbn [state_stack] in *; (split; [exact H1|split; [exact H2|]]).
    - destruct H3 as [[H3 H4]|[H3 H4]]; auto.
    - right. split; [discriminate|exact H3]. }
  clear HW. destruct HW' as (H1 & H2 & H3). unfold take_word in E. destruct rem as [|p rem]; [discriminate|].
  destruct (sep || negb (is_last p)) eqn:Es; [|discriminate].
  assert (Hp : In p (positionals (sc_decl s))) by (apply Hr; left; reflexivity).
  apply positional_not_option in Hp. destruct Hp as [Hpos Hown].
  cbn [length] in E. rewrite Nat.sub_succ, Nat.sub_0_r in E. injection E as <- <-.
  assert (Ht : is_last p = true \/ (is_last p = false /\ next_ok s outer os (p :: rem))).
  { destruct H3 as [[Hf _]|[_ Hn]].
    - inversion Hf. left. assumption.
    - destruct (is_last p); auto. }
  assert (Ht0 : is_last p = true \/ target (ordinary (sc_decl s)) (length (words_at (length outer) os)) = Some p).
  { destruct Ht as [Ht|[El [_ Hn]]]; [auto|]. right. specialize (Hn 0). rewrite Nat.add_0_r in Hn. rewrite <- Hn.
    cbn [filter]. unfold not_last at 1. rewrite El. cbn [negb]. apply target_first. }
  assert (Est : state_stack (if greedy p then Drain (s :: outer) p
    else if sep then Verbatim (s :: outer) (if many p then p :: rem else rem) else Normal (s :: outer) (if many p then p :: rem else rem)) = s :: outer)
    by (destruct (greedy p); [|destruct sep]; reflexivity).
  split.
  - rewrite Est. apply WI_word_level. exact H1.
  - rewrite Est. apply WI_word_word; assumption.
  - destruct (greedy p) eqn:Eg.
    + destruct Ht as [Ht|[El [_ Hn]]]; [auto|]. right. intros j. rewrite words_at_app, words_at_word by assumption.
      rewrite app_length. cbn [length]. rewrite <- Nat.add_assoc. rewrite <- Hn. cbn [filter]. unfold not_last at 1. rewrite El. cbn [negb].
      apply target_greedy. exact Eg.
    + assert (Hnl : is_last p = false).
      { unfold greedy, is_last in *. destruct (am_last (sa_meta p)); [rewrite orb_true_r in Eg; discriminate|reflexivity]. }
      destruct Ht as [Ht|[_ [[used Hu] Hn]]]; [congruence|].
      assert (Hok : next_ok s outer (os ++ [Occ (Addr (length outer) [sa_id p]) p (Some tok)]) (if many p then p :: rem else rem)).
      { split.
        - destruct (many p); [exists used; exact Hu|]. exists (used ++ [p]). rewrite <- app_assoc. exact Hu.
        - intros j. rewrite words_at_app, words_at_word by assumption. rewrite app_length. cbn [length].
          rewrite <- Nat.add_assoc. change (1 + j) with (S j). rewrite <- Hn. cbn [filter]. unfold not_last at 2. rewrite Hnl. cbn [negb].
          rewrite <- (target_after p _ j Eg). destruct (many p); [|reflexivity]. cbn [filter]. unfold not_last at 1. rewrite Hnl. reflexivity. }
      destruct sep.
      * right. split; [|exact Hok]. destruct H3 as [[Hf _]|[H3 _]]; [inversion Hf; congruence|auto].
      * exact Hok.
Qed.

Lemma WI_step st os (tok : bytes) os1 st' : state_ok st -> WI st os -> step first_named st tok = (os1, Go st') -> WI st' (os ++ os1).
Proof.
  intros [Hok Hst] HW E. destruct st as [stk rem|stk rem ad a|stk rem|stk p]; cbn [step state_stack] in *.
  - destruct (form_of tok) as [|n v|b|].
    + injection E as <- <-. rewrite app_nil_r. destruct HW as [H1 H2 H3]. cbn [state_stack] in *. split; [exact H1|exact H2|].
      destruct stk as [|s outer]; [contradiction|]. cbn [after_sep last_args].
      destruct (filter is_last (positionals (sc_decl s))) as [|l ls] eqn:El; [right; auto|]. left. split; [|discriminate].
      rewrite <- El. apply Forall_forall. intros q Hq. apply filter_In in Hq. apply Hq.
    + pose proof (read_long_options stk rem n v) as Ho. rewrite E in Ho. eapply WI_options; [exact HW| |]; apply Ho.
    + destruct (utf8_prefix b) as [cs junk]. pose proof (read_bundle_options stk rem cs junk) as Ho. rewrite E in Ho.
      eapply WI_options; [exact HW| |]; apply Ho.
    + destruct (first_named (sub_variants stk) tok) as [v|] eqn:Ev.
      * injection E as <- <-. rewrite app_nil_r. destruct HW as [H1 H2 H3]. cbn [state_stack] in *.
        assert (Hw0 : words_at (length stk) os = []).
        { unfold words_at. clear -H1. induction os as [|o os IH]; [reflexivity|]. cbn [filter].
          destruct (is_option (oc_arg o)) eqn:Eo; [rewrite andb_false_r; apply IH; intros; apply H1; [right|]; assumption|].
          assert (ad_level (oc_addr o) < length stk) by (apply H1; [left; reflexivity|exact Eo]).
          replace (ad_level (oc_addr o) =? length stk) with false by (symmetry; apply Nat.eqb_neq; lia).
          apply IH; intros; apply H1; [right|]; assumption. }
        split; cbn [state_stack].
        -- intros o Hi Ho. specialize (H1 o Hi Ho). cbn. lia.
        -- intros level s Hn k o Hk. cbn [rev] in Hn. destruct (Nat.lt_ge_cases level (length stk)) as [Hl|Hl].
           ++ rewrite nth_error_app1 in Hn by (rewrite rev_length; exact Hl). eapply H2; eauto.
           ++ assert (level = length stk) as ->.
              { assert (Hlt : level < length (rev stk ++ [variant_scope v])) by (apply nth_error_Some; rewrite Hn; discriminate).
                rewrite app_length, rev_length in Hlt. cbn in Hlt. lia. }
              rewrite Hw0 in Hk. destruct k; discriminate.
        -- split; [exists []; reflexivity|]. intros j. rewrite Hw0, ordinary_positionals. reflexivity.
      * exact (WI_word false stk rem os tok os1 st' Hst HW E).
  - destruct (may_follow a tok); [|discriminate]. injection E as <- <-.
    destruct stk as [|s outer]; [destruct (wi_next _ _ HW)|]. pose proof (wi_next _ _ HW) as [Hn Ho].
    apply WI_options with (stk := s :: outer) (rem := rem).
    + destruct HW as [H1 H2 _]. split; [exact H1|exact H2|exact Hn].
    + constructor; [exact Ho|constructor].
    + left. reflexivity.
  - exact (WI_word true stk rem os tok os1 st' Hst HW E).
  - injection E as <- <-. destruct stk as [|s outer]; [destruct (wi_next _ _ HW)|]. destruct HW as [H1 H2 H3]. cbn [state_stack] in *.
    assert (Hp : In p (positionals (sc_decl s))) by (apply Hst; left; reflexivity).
    apply positional_not_option in Hp. destruct Hp as [Hpos Hown].
    cbn [length]. rewrite Nat.sub_succ, Nat.sub_0_r. split; cbn [state_stack].
    + apply WI_word_level. exact H1.
    + apply WI_word_word; try assumption. destruct H3 as [H3|H3]; [auto|]. right. rewrite <- (H3 0). f_equal. lia.
    + destruct (is_last p) eqn:El; [auto|]. right. intros j. destruct H3 as [H3|H3]; [congruence|].
      rewrite words_at_app, app_length, <- Nat.add_assoc. apply H3.
Qed.

Lemma WI_read toks : forall st os os1 st', state_ok st -> WI st os -> read first_named st toks = (os1, Go st') -> WI st' (os ++ os1).
Proof.
  induction toks as [|tok toks IH]; intros st os os1 st' Hok HW H.
  - injection H as <- <-. rewrite app_nil_r. exact HW.
  - rewrite read_cons in H. destruct (step first_named st tok) as [oa [sa|sp]] eqn:Es; unfold then_read in H; cbn [fst snd] in H; [|discriminate].
    destruct (read first_named sa toks) as [ob out] eqn:Er. injection H as <- ->. rewrite app_assoc.
    apply (IH sa (os ++ oa) ob st'); [|exact (WI_step _ _ _ _ _ Hok HW Es)|exact Er].
    pose proof (read_ok first_named first_named_in [tok] st oa sa Hok) as Hr. rewrite read_one in Hr. apply Hr. exact Es.
Qed.

Lemma WI_reads d toks os st : valid d -> read first_named (start d) toks = (os, Go st) -> WI st os.
Proof. intros [Hd _] H. exact (WI_read toks (start d) [] os st (start_ok d Hd) (WI_start d) H). Qed.

(** *** As stated in the properties *)

Lemma in_positionals d a : In a (own_args d) -> is_option a = false -> In a (positionals d).
Proof.
  intros Hi Ho. unfold positionals. apply in_app_iff. destruct (is_last a) eqn:El.
  - right. apply filter_In. split; [|exact El]. apply filter_In. rewrite Ho. auto.
  - left. apply filter_In. rewrite El. split; [|reflexivity]. apply filter_In. rewrite Ho. auto.
Qed.
Lemma reach_option d : forall q a, accepted d -> positionals d = [] -> In (q, a) (reach d) -> is_option a = true.
Proof.
  induction d as [d IH _] using decl_induction. intros q a Hd Hp Hi. rewrite reach_eq in Hi. apply in_app_iff in Hi.
  destruct Hi as [Hi|Hi].
  - apply in_map_iff in Hi. destruct Hi as (b & E & Hb). injection E as _ ->.
    destruct (is_option a) eqn:Eo; [reflexivity|]. pose proof (in_positionals d a Hb Eo) as H. rewrite Hp in H. contradiction.
  - apply in_flat_map in Hi. destruct Hi as ([id x] & Hx & Hi). apply in_map_iff in Hi. destruct Hi as ([q' b] & E & Hq).
    injection E as _ ->. destruct (accepted_flat _ id x Hd Hx) as (Hax & Hpos & _).
    apply (IH id x (proj1 (in_flattened d id x) Hx) q' a Hax Hpos Hq).
Qed.

(** The positionals of the commands, and where they are. *)
Lemma word_addr d toks os stk : valid d -> reads d toks os stk ->
  Forall (fun o => is_option (oc_arg o) = false -> oc_addr o = Addr (ad_level (oc_addr o)) [sa_id (oc_arg o)]) os.
Proof.
  intros Hd H. apply Forall_forall. intros o Hi Ho.
  destruct (reads_ok _ _ _ _ Hd H) as (_ & Hok & Hk). rewrite Forall_forall in Hk. specialize (Hk o Hi). unfold known in Hk.
  revert Hk Hok. clear -Ho. induction stk as [|s outer IH]; [contradiction|]. intros Hk Hok. inversion Hok as [|? ? [Hs _] Hok']; subst.
  cbn [stack_args] in Hk. apply in_app_iff in Hk. destruct Hk as [Hk|Hk]; [|exact (IH Hk Hok')].
  unfold scope_args in Hk. apply in_map_iff in Hk. destruct Hk as ([path a] & E & Hp). cbn [fst snd] in E.
  destruct o as [ad a' v]. cbn [oc_addr oc_arg] in *. injection E as <- <-. cbn [ad_level]. f_equal.
  rewrite reach_eq in Hp. apply in_app_iff in Hp. destruct Hp as [Hp|Hp].
  - apply in_map_iff in Hp. destruct Hp as (b & E & _). injection E as <- <-. reflexivity.
  - exfalso. apply in_flat_map in Hp. destruct Hp as ([id x] & Hx & Hp). apply in_map_iff in Hp.
    destruct Hp as ([q b] & E & Hq). injection E as _ ->. destruct (accepted_flat _ id x Hs Hx) as (Hax & Hpos & _).
    rewrite (reach_option x q a Hax Hpos Hq) in Ho. discriminate.
Qed.

(** C12: the words of a command. *)
Theorem kth_word d toks os stk level s k o : valid d -> reads d toks os stk ->
  nth_error (rev stk) level = Some s -> nth_error (words_at level os) k = Some o ->
  target (ordinary (sc_decl s)) k = Some (oc_arg o) /\ oc_addr o = Addr level [sa_id (oc_arg o)].
Proof.
  intros Hd H Hn Hk. pose proof H as (st & Hr & Hc & <-). pose proof (WI_reads _ _ _ _ Hd Hr) as HW. split.
  - eapply (wi_word _ _ HW); eauto.
  - apply nth_error_In in Hk. unfold words_at in Hk. apply filter_In in Hk. destruct Hk as [Hi Hk].
    apply andb_true_iff in Hk. destruct Hk as [Hk _]. apply andb_true_iff in Hk. destruct Hk as [Hl Ho].
    apply Nat.eqb_eq in Hl. pose proof (word_addr _ _ _ _ Hd H) as Hw. rewrite Forall_forall in Hw.
    rewrite (Hw o Hi), Hl; [reflexivity|]. destruct (is_option (oc_arg o)); [discriminate|reflexivity].
Qed.

(** The positional for the next word is the first one that remains. *)
Lemma next_rem d pre os stk rem : valid d -> at_option d pre os stk rem ->
  match next_word stk os with
  | Some p => exists rem', rem = p :: rem' /\ is_last p = false /\ is_option p = false
  | None => match rem with [] => True | p :: _ => is_last p = true end
  end.
Proof.
  intros Hd H. pose proof (WI_reads _ _ _ _ Hd H) as HW. pose proof (wi_next _ _ HW) as Hn.
  destruct stk as [|s outer]; [contradiction|]. destruct Hn as [[used Hu] Hj]. cbn [next_word]. specialize (Hj 0).
  rewrite Nat.add_0_r in Hj. rewrite <- Hj.
  assert (Hsplit : forall p rem', rem = p :: rem' -> is_last p = true -> filter not_last rem = []).
  { intros p rem' -> Hl. rewrite positionals_split in Hu.
    assert (Hall : Forall (fun q => is_last q = true) (p :: rem')).
    { destruct (app_eq_app _ _ _ _ Hu) as (x & [[E1 E2]|[E1 E2]]).
      - destruct x as [|q x]; [cbn in E2; rewrite E2; apply Forall_forall; intros z Hz; apply filter_In in Hz; apply Hz|].
        injection E2 as -> _. assert (Hq : In q (ordinary (sc_decl s))) by (rewrite E1; apply in_app_iff; right; left; reflexivity).
        unfold ordinary in Hq. apply filter_In in Hq. rewrite Hl in Hq. destruct Hq as [_ Hq]. rewrite andb_false_r in Hq. discriminate.
      - apply Forall_forall. intros z Hz. assert (Hz' : In z (filter is_last (positionals (sc_decl s)))) by (rewrite E2; apply in_app_iff; auto).
        apply filter_In in Hz'. apply Hz'. }
    clear -Hall. induction Hall as [|q l Hq _ IH]; [reflexivity|]. cbn [filter]. unfold not_last at 1. rewrite Hq. exact IH. }
  destruct rem as [|p rem]; [exact I|]. destruct (is_last p) eqn:El.
  - rewrite (Hsplit p rem eq_refl El). reflexivity.
  - cbn [filter]. unfold not_last at 1. rewrite El. cbn [negb]. rewrite target_first. exists rem. split; [reflexivity|].
    split; [exact El|]. assert (Hp : In p (positionals (sc_decl s))) by (rewrite Hu; apply in_app_iff; right; left; reflexivity).
    apply positional_not_option in Hp. apply Hp.
Qed.

Lemma step_word stk rem (w : bytes) : word w -> no_subcommand stk w ->
  step first_named (Normal stk rem) w = take_word false stk rem w.
Proof.
  intros Hw Hn. cbn [step]. rewrite (proj2 (form_word w) Hw), (proj2 (first_named_none stk w) Hn). reflexivity.
Qed.

Theorem word_taken d pre os stk rem (w : bytes) p : valid d -> at_option d pre os stk rem -> word w -> no_subcommand stk w ->
  next_word stk os = Some p -> greedy p = false ->
  exists rem', at_option d (pre ++ [w]) (os ++ [word_occ stk p w]) stk rem'.
Proof.
  intros Hd H Hw Hn Hp Hg. pose proof (next_rem _ _ _ _ _ Hd H) as Hx. rewrite Hp in Hx. destruct Hx as (rem' & -> & Hl & _).
  eexists. unfold at_option. rewrite (at_option_app _ _ _ _ _ _ H), read_one, step_word by assumption.
  unfold take_word. rewrite Hl, Hg. cbn [orb negb fst snd]. reflexivity.
Qed.

Theorem word_drains d pre os stk rem (w : bytes) p (ws : list bytes) : valid d -> at_option d pre os stk rem -> word w -> no_subcommand stk w ->
  next_word stk os = Some p -> greedy p = true ->
  reads d (pre ++ w :: ws) (os ++ map (word_occ stk p) (w :: ws)) stk.
Proof.
  intros Hd H Hw Hn Hp Hg. pose proof (next_rem _ _ _ _ _ Hd H) as Hx. rewrite Hp in Hx. destruct Hx as (rem' & -> & Hl & _).
  exists (Drain stk p). split; [|split; [exact I|reflexivity]].
  rewrite (at_option_app _ _ _ _ _ _ H), read_cons, step_word by assumption.
  unfold take_word. rewrite Hl, Hg. cbn [orb negb]. unfold then_read. cbn [fst snd]. rewrite drain_words. reflexivity.
Qed.

Theorem word_extra d (argv0 : bytes) pre os stk rem (w : bytes) post : valid d -> at_option d pre os stk rem -> no_error_in os ->
  word w -> no_subcommand stk w -> next_word stk os = None ->
  try_parse_from d (argv0 :: pre ++ w :: post) = Err (extra_word stk w).
Proof.
  intros Hd H Hb Hw Hn Hp. pose proof (next_rem _ _ _ _ _ Hd H) as Hx. rewrite Hp in Hx.
  rewrite (after_prefix _ _ _ _ _ _ _ Hd H), read_cons, step_word by assumption.
  assert (E : take_word false stk rem w = ([], Stop (SErr (extra_word stk w)))).
  { unfold take_word. destruct rem as [|q rem]; [reflexivity|]. rewrite Hx. reflexivity. }
  rewrite E. unfold then_read. cbn [fst snd]. rewrite app_nil_r. unfold conclude. rewrite Hb. reflexivity.
Qed.

(** *** After [--] *)

Lemma fills_nth stk ps ws os : fills stk ps ws os ->
  length os = length ws /\
  forall k w, nth_error ws k = Some w -> exists p, target ps k = Some p /\ nth_error os k = Some (word_occ stk p w).
Proof.
  induction 1 as [ps|p ps w ws os Hg _ [IL IH]|p ps w ws Hg].
  - split; [reflexivity|]. intros [|k] w E; discriminate.
  - split; [cbn; lia|]. intros [|k] x E; cbn [nth_error] in E.
    + injection E as <-. exists p. split; [apply target_first|reflexivity].
    + destruct (IH k x E) as (q & Hq & Ho). exists q. split; [|exact Ho]. rewrite <- (target_after p ps k Hg). exact Hq.
  - split; [rewrite map_length; reflexivity|]. intros k x E. exists p. split; [apply target_greedy; exact Hg|].
    rewrite nth_error_map, E. reflexivity.
Qed.
Lemma fills_ex stk ws : forall ps, (forall k, k < length ws -> target ps k <> None) -> exists os, fills stk ps ws os.
Proof.
  induction ws as [|w ws IH]; intros ps H; [exists []; constructor|].
  destruct ps as [|p ps]; [elim (H 0); [cbn; lia|reflexivity]|]. destruct (greedy p) eqn:Eg.
  - eexists. apply fills_greedy. exact Eg.
  - destruct (IH (if many p then p :: ps else ps)) as (os & Hf).
    + intros k Hk. rewrite (target_after p ps k Eg). apply H. cbn. lia.
    + eexists. apply fills_word; [exact Eg|exact Hf].
Qed.
Lemma fills_none stk ps ws : forall os, fills stk ps ws os -> target ps (length ws) = None ->
  exists rem, read first_named (Verbatim stk ps) ws = (os, Go (Verbatim stk rem)) /\ rem = [].
Proof.
  intros os Hf. induction Hf as [ps|p ps w ws os Hg _ IH|p ps w ws Hg]; intros Ht.
  - exists ps. split; [reflexivity|]. destruct ps as [|p ps]; [reflexivity|]. cbn [length] in Ht. rewrite target_first in Ht. discriminate.
  - cbn [length] in Ht. rewrite <- (target_after p ps _ Hg) in Ht. destruct (IH Ht) as (rem & E & ->). exists []. split; [|reflexivity].
    rewrite read_cons. cbn [step]. unfold take_word. cbn [orb]. rewrite Hg. unfold then_read. cbn [fst snd]. rewrite E. reflexivity.
  - rewrite (target_greedy p ps _ Hg) in Ht. discriminate.
Qed.

(** The positionals after [--] by number. *)
Lemma verbatim_targets d pre os stk rem : valid d -> at_option d pre os stk rem ->
  forall k, target (after_sep stk rem) k = next_verbatim stk os k.
Proof.
  intros Hd H k. pose proof (WI_reads _ _ _ _ Hd H) as HW. pose proof (wi_next _ _ HW) as Hn.
  destruct stk as [|s outer]; [contradiction|]. destruct Hn as [[used Hu] Hj]. unfold next_verbatim. cbn [after_sep last_args].
  destruct (filter is_last (positionals (sc_decl s))) as [|l ls] eqn:El; [|reflexivity].
  rewrite <- Hj. f_equal. rewrite Hu, filter_app in El. apply app_eq_nil in El. destruct El as [_ El].
  clear -El. induction rem as [|p rem IH]; [reflexivity|]. cbn [filter] in *. unfold not_last at 1.
  destruct (is_last p); [discriminate|]. cbn [negb]. f_equal. apply IH. exact El.
Qed.
Lemma read_sep stk rem ws : read first_named (Normal stk rem) (bs "--" :: ws) = read first_named (Verbatim stk (after_sep stk rem)) ws.
Proof.
  rewrite read_cons. cbn [step]. change (form_of (bs "--")) with FSep. unfold then_read. cbn [fst snd].
  destruct (read first_named (Verbatim stk (after_sep stk rem)) ws). reflexivity.
Qed.

Theorem sep_words d pre os stk rem (ws : list bytes) os2 stk2 : valid d -> at_option d pre os stk rem ->
  reads d (pre ++ bs "--" :: ws) os2 stk2 ->
  stk2 = stk /\ exists os', os2 = os ++ os' /\ length os' = length ws /\
  forall k w, nth_error ws k = Some w -> exists p, next_verbatim stk os k = Some p /\ nth_error os' k = Some (word_occ stk p w).
Proof.
  intros Hd H (st & Hr & Hc & <-). rewrite (at_option_app _ _ _ _ _ _ H), read_sep in Hr.
  destruct (read first_named (Verbatim stk (after_sep stk rem)) ws) as [os' out] eqn:E. cbn [fst snd] in Hr. injection Hr as <- ->.
  destruct (read_fills _ _ _ _ _ E) as (Hf & Hs & _). split; [exact Hs|]. exists os'. split; [reflexivity|].
  destruct (fills_nth _ _ _ _ Hf) as [Hl Hk]. split; [exact Hl|]. intros k w Hw. destruct (Hk k w Hw) as (p & Hp & Ho). exists p. split; [|exact Ho].
  rewrite <- (verbatim_targets d pre os stk rem Hd H). exact Hp.
Qed.
Theorem sep_reads d pre os stk rem (ws : list bytes) : valid d -> at_option d pre os stk rem ->
  (forall k, k < length ws -> next_verbatim stk os k <> None) -> exists os', reads d (pre ++ bs "--" :: ws) (os ++ os') stk.
Proof.
  intros Hd H Hk. destruct (fills_ex stk ws (after_sep stk rem)) as (os' & Hf).
  { intros k Hl. rewrite (verbatim_targets d pre os stk rem Hd H). apply Hk. exact Hl. }
  destruct (fills_read _ _ _ _ Hf) as (st & E & Hc & Hs). exists os', st. split; [|auto].
  rewrite (at_option_app _ _ _ _ _ _ H), read_sep, E. reflexivity.
Qed.
Theorem sep_extra d (argv0 : bytes) pre os stk rem (ws : list bytes) (w : bytes) post os' : valid d -> at_option d pre os stk rem ->
  reads d (pre ++ bs "--" :: ws) (os ++ os') stk -> no_error_in (os ++ os') -> next_verbatim stk os (length ws) = None ->
  try_parse_from d (argv0 :: pre ++ bs "--" :: ws ++ w :: post) = Err (extra_word stk w).
Proof.
  intros Hd H (st & Hr & Hc & Hs) Hb Hn. rewrite (at_option_app _ _ _ _ _ _ H), read_sep in Hr.
  destruct (read first_named (Verbatim stk (after_sep stk rem)) ws) as [osx out] eqn:E. cbn [fst snd] in Hr. injection Hr as Hx ->.
  apply app_inv_head in Hx. subst osx. destruct (read_fills _ _ _ _ _ E) as (Hf & _).
  rewrite <- (verbatim_targets d pre os stk rem Hd H) in Hn.
  destruct (fills_none _ _ _ _ Hf Hn) as (rem' & E' & ->). rewrite E in E'. injection E' as ->.
  rewrite (after_prefix _ _ _ _ _ _ _ Hd H), read_sep, read_app, E. unfold then_read. cbn [fst snd].
  rewrite read_cons. cbn [step]. unfold take_word. unfold then_read. cbn [fst snd]. rewrite app_nil_r. unfold conclude. rewrite Hb. reflexivity.
Qed.

(** *** The values of positionals *)

Lemma values_words level p os :
  is_option p = false -> is_last p = false ->
  Forall (fun o => oc_addr o = Addr level [sa_id p] -> oc_arg o = p) os ->
  values_of os (Addr level [sa_id p]) = values_of (words_at level os) (Addr level [sa_id p]).
Proof.
  intros Ho Hl H. unfold values_of. f_equal. induction H as [|x os Hx _ IH]; [reflexivity|]. unfold words_at in *. cbn [filter].
  destruct (addr_eqb (Addr level [sa_id p]) (oc_addr x)) eqn:E.
  - apply addr_eqb_eq in E. symmetry in E. rewrite (Hx E), E, Ho, Hl. cbn [ad_level]. rewrite Nat.eqb_refl. cbn [negb andb filter].
    rewrite E. rewrite (proj2 (addr_eqb_eq _ _) eq_refl). f_equal. exact IH.
  - destruct (_ && _ && _); [|exact IH]. cbn [filter]. rewrite E. exact IH.
Qed.

Lemma target_singles ps p qs : Forall (fun q => many q || greedy q = false) ps ->
  target (ps ++ p :: qs) (length ps) = Some p /\ forall k, k < length ps -> target (ps ++ p :: qs) k = nth_error ps k.
Proof.
  intros H. induction H as [|q ps Hq _ [I1 I2]].
  - split; [apply target_first|]. intros k Hk. inversion Hk.
  - split.
    + cbn [app length target]. rewrite Hq. exact I1.
    + intros [|k] Hk; [cbn [app]; rewrite target_first; reflexivity|]. cbn [app target nth_error]. rewrite Hq. apply I2. cbn in Hk. lia.
Qed.
Lemma target_many ps p k : Forall (fun q => many q || greedy q = false) ps -> many p || greedy p = true -> length ps <= k ->
  target (ps ++ [p]) k = Some p.
Proof.
  intros H Hp. revert k. induction H as [|q ps Hq _ IH]; intros k Hk.
  - cbn [app target]. rewrite Hp. reflexivity.
  - destruct k as [|k]; [inversion Hk|]. cbn [app target]. rewrite Hq. apply IH. cbn in Hk. lia.
Qed.

Lemma known_arg d toks os stk ad a : valid d -> reads d toks os stk -> In (ad, a) (stack_args stk) ->
  Forall (fun o => oc_addr o = ad -> oc_arg o = a) os.
Proof.
  intros Hd H Hi. destruct (reads_ok _ _ _ _ Hd H) as (_ & Hok & Hk). apply Forall_forall. intros o Ho E.
  rewrite Forall_forall in Hk. specialize (Hk o Ho). unfold known in Hk. rewrite E in Hk. exact (stack_args_unique _ _ _ _ Hok Hk Hi).
Qed.
Lemma own_known stk level s a : nth_error (rev stk) level = Some s -> In a (own_args (sc_decl s)) ->
  In (Addr level [sa_id a], a) (stack_args stk).
Proof.
  revert level. induction stk as [|t outer IH]; intros level Hn Ha; [destruct level; discriminate|].
  assert (Hl : level < length (t :: outer)) by (rewrite <- rev_length; apply nth_error_Some; rewrite Hn; discriminate). cbn [length] in Hl.
  destruct (Nat.eq_dec level (length outer)) as [->|Hne].
  - rewrite nth_error_rev_inner in Hn. injection Hn as <-. apply head_arg_known. exact Ha.
  - cbn [rev] in Hn. rewrite nth_error_app1 in Hn by (rewrite rev_length; lia). cbn [stack_args]. apply in_app_iff. right. apply IH; assumption.
Qed.
Lemma stack_nth stk level s : stack_ok stk -> nth_error (rev stk) level = Some s -> accepted (sc_decl s).
Proof. intros Hok Hn. apply nth_error_In in Hn. apply in_rev in Hn. unfold stack_ok in Hok. rewrite Forall_forall in Hok. apply (Hok s Hn). Qed.

Lemma NoDup_parts {A} (l m : list A) : NoDup (l ++ m) -> NoDup l /\ NoDup m.
Proof.
  induction l as [|x l IH]; intros H; [split; [constructor|exact H]|]. inversion H as [|? ? Hx Hl]; subst. destruct (IH Hl) as [I1 I2].
  split; [|exact I2]. constructor; [|exact I1]. intros Hi. apply Hx. apply in_app_iff. auto.
Qed.
Lemma ordinary_ids d : accepted d -> NoDup (map sa_id (ordinary d)).
Proof.
  intros Hd. pose proof (checked_ids d Hd) as H. unfold checked in H. rewrite map_app in H. apply NoDup_parts, proj2 in H.
  rewrite positionals_split, map_app in H. apply NoDup_parts, proj1 in H. exact H.
Qed.
Lemma in_ordinary d a : In a (ordinary d) -> In a (own_args d) /\ is_option a = false /\ is_last a = false.
Proof.
  unfold ordinary. intros H. apply filter_In in H. destruct H as [H1 H2]. apply andb_true_iff in H2.
  destruct (is_option a), (is_last a); destruct H2; try discriminate. auto.
Qed.

Lemma values_index level p (W : list occ) n :
  (forall k o, nth_error W k = Some o -> k < n -> oc_addr o <> Addr level [sa_id p]) ->
  (forall k o, nth_error W k = Some o -> n <= k -> oc_addr o = Addr level [sa_id p]) ->
  values_of W (Addr level [sa_id p]) = skipn n (map oc_val W).
Proof.
  revert n. induction W as [|x W IH]; intros n H1 H2; [destruct n; reflexivity|]. destruct n as [|n].
  - cbn [skipn map]. unfold values_of in *. cbn [filter]. rewrite (H2 0 x eq_refl (le_n 0)) at 1.
    rewrite (proj2 (addr_eqb_eq _ _) eq_refl). cbn [map]. f_equal. apply (IH 0).
    + intros k o _ Hk. lia.
    + intros k o Hk _. apply (H2 (S k) o Hk). lia.
  - cbn [skipn map]. unfold values_of in *. cbn [filter].
    destruct (addr_eqb (Addr level [sa_id p]) (oc_addr x)) eqn:E.
    + apply addr_eqb_eq in E. elim (H1 0 x eq_refl); [lia|]. auto.
    + apply (IH n).
      * intros k o Hk Hl. apply (H1 (S k) o Hk). lia.
      * intros k o Hk Hl. apply (H2 (S k) o Hk). lia.
Qed.

(** C13: the variadic positional gets all the words after the single ones. *)
Theorem variadic_values d toks os stk level s singles p : valid d -> reads d toks os stk ->
  nth_error (rev stk) level = Some s -> ordinary (sc_decl s) = singles ++ [p] ->
  Forall (fun q => many q || greedy q = false) singles -> many p = true ->
  values_of os (Addr level [sa_id p]) = skipn (length singles) (map oc_val (words_at level os)).
Proof.
  intros Hd H Hn Ho Hs Hm. destruct (reads_ok _ _ _ _ Hd H) as (_ & Hok & _). pose proof (stack_nth _ _ _ Hok Hn) as Hacc.
  assert (Hp : In p (ordinary (sc_decl s))) by (rewrite Ho; apply in_app_iff; right; left; reflexivity).
  destruct (in_ordinary _ _ Hp) as (Hown & Hpo & Hpl).
  rewrite (values_words level p os Hpo Hpl (known_arg _ _ _ _ _ _ Hd H (own_known _ _ _ _ Hn Hown))).
  pose proof (ordinary_ids _ Hacc) as Hids. rewrite Ho, map_app in Hids.
  apply values_index; intros k o Hk Hl; destruct (kth_word _ _ _ _ _ _ _ _ Hd H Hn Hk) as [Ht ->].
  - intros E. injection E as E. rewrite Ho in Ht. rewrite (proj2 (target_singles singles p [] Hs) k Hl) in Ht.
    apply nth_error_In in Ht. apply (in_map sa_id) in Ht. cbn [map] in Hids. apply NoDup_remove_2 in Hids. rewrite app_nil_r in Hids.
    apply Hids. rewrite <- E. exact Ht.
  - rewrite Ho, target_many in Ht; [injection Ht as <-; reflexivity|exact Hs|rewrite Hm; reflexivity|exact Hl].
Qed.

(** C12: a single positional gets the word of its number. *)
Theorem single_value d toks os stk level s singles p rest : valid d -> reads d toks os stk ->
  nth_error (rev stk) level = Some s -> ordinary (sc_decl s) = singles ++ p :: rest ->
  Forall (fun q => many q || greedy q = false) (singles ++ [p]) ->
  values_of os (Addr level [sa_id p]) = match nth_error (words_at level os) (length singles) with Some o => [oc_val o] | None => [] end.
Proof.
  intros Hd H Hn Ho Hs. destruct (reads_ok _ _ _ _ Hd H) as (_ & Hok & _). pose proof (stack_nth _ _ _ Hok Hn) as Hacc.
  assert (Hp : In p (ordinary (sc_decl s))) by (rewrite Ho; apply in_app_iff; right; left; reflexivity).
  destruct (in_ordinary _ _ Hp) as (Hown & Hpo & Hpl).
  rewrite (values_words level p os Hpo Hpl (known_arg _ _ _ _ _ _ Hd H (own_known _ _ _ _ Hn Hown))).
  pose proof (ordinary_ids _ Hacc) as Hids. rewrite Ho, map_app in Hids. cbn [map] in Hids.
  apply Forall_app in Hs. destruct Hs as [Hs Hps]. inversion Hps as [|? ? Hp1 _]; subst.
  assert (Hk : forall k o, nth_error (words_at level os) k = Some o -> oc_addr o = Addr level [sa_id p] <-> k = length singles).
  { intros k o Hk. destruct (kth_word _ _ _ _ _ _ _ _ Hd H Hn Hk) as [Ht ->]. rewrite Ho in Ht.
    destruct (target_singles singles p rest Hs) as [T1 T2]. split.
    - intros E. injection E as E. destruct (Nat.lt_trichotomy k (length singles)) as [Hl|[Hl|Hl]]; [|exact Hl|].
      + rewrite (T2 k Hl) in Ht. apply nth_error_In in Ht. apply NoDup_remove_2 in Hids. elim Hids.
        apply in_app_iff. left. rewrite <- E. apply in_map. exact Ht.
      + assert (Ht' : target rest (k - S (length singles)) = Some (oc_arg o)).
        { rewrite <- Ht. clear -Hs Hp1 Hl. revert k Hl. induction Hs as [|q l Hq _ IH]; intros k Hl.
          - destruct k as [|k]; [inversion Hl|]. cbn [app target length]. rewrite Hp1. rewrite Nat.sub_succ, Nat.sub_0_r. reflexivity.
          - destruct k as [|k]; [inversion Hl|]. cbn [app target length] in *. rewrite Hq. rewrite <- IH by lia. f_equal. }
        assert (Hin : forall (l : list sarg) j q, target l j = Some q -> In q l).
        { clear. induction l as [|x l IH]; intros j q E; [discriminate|]. cbn [target] in E.
          destruct (many x || greedy x); [injection E as <-; left; reflexivity|]. destruct j; [injection E as <-; left; reflexivity|].
          right. exact (IH _ _ E). }
        apply Hin in Ht'. apply NoDup_remove_2 in Hids. elim Hids. apply in_app_iff. right. rewrite <- E. apply in_map. exact Ht'.
    - intros ->. rewrite T1 in Ht. injection Ht as <-. reflexivity. }
  revert Hk. generalize (words_at level os) as W. generalize (length singles) as n. clear. induction n as [|n IH]; intros W Hk.
  - destruct W as [|x W]; [reflexivity|]. cbn [nth_error]. unfold values_of. cbn [filter].
    rewrite (proj2 (Hk 0 x eq_refl) eq_refl) at 1. rewrite (proj2 (addr_eqb_eq _ _) eq_refl). cbn [map]. f_equal.
    assert (HW : forall o, In o W -> oc_addr o <> Addr level [sa_id p]).
    { intros o Hi E. apply In_nth_error in Hi. destruct Hi as [k Hi]. pose proof (proj1 (Hk (S k) o Hi) E). discriminate. }
    clear Hk. induction W as [|y W IHW]; [reflexivity|]. cbn [filter].
    destruct (addr_eqb (Addr level [sa_id p]) (oc_addr y)) eqn:E; [apply addr_eqb_eq in E; elim (HW y (or_introl eq_refl)); auto|].
    apply IHW. intros o Hi. apply HW. right. exact Hi.
  - destruct W as [|x W]; [reflexivity|]. cbn [nth_error]. unfold values_of in *. cbn [filter].
    destruct (addr_eqb (Addr level [sa_id p]) (oc_addr x)) eqn:E.
    + apply addr_eqb_eq in E. symmetry in E. apply (Hk 0 x eq_refl) in E. discriminate.
    + apply IH. intros k o Hi. pose proof (Hk (S k) o Hi) as HH. split; [intros E'; apply HH in E'; lia|intros ->; apply HH; reflexivity].
Qed.

(** *** The [last] argument *)

Definition no_last_state (st : state V) : Prop :=
  match st with Verbatim _ _ => False | Drain _ p => is_last p = false | _ => True end.
Definition not_last_occ (o : occ) : Prop := is_last (oc_arg o) = false.

Lemma option_not_last stk ad a : stack_ok stk -> In (ad, a) (stack_args stk) -> is_option a = true -> is_last a = false.
Proof. intros Hok Hi Ho. pose proof (arg_in_stack _ _ _ Hok Hi) as Ha. apply (ar_named a Ha Ho). Qed.

Lemma no_last_step st (tok : bytes) os1 st' : state_ok st -> no_last_state st \/ no_last_state st' -> (tok <> bs "--" \/ no_last_state st') ->
  (match st with Await _ _ _ a => is_option a = true | _ => True end) ->
  step first_named st tok = (os1, Go st') ->
  Forall not_last_occ os1 /\ no_last_state st' /\ (match st' with Await _ _ _ a => is_option a = true | _ => True end).
Proof.
  intros [Hok Hst] Hn Ht Ha E. destruct st as [stk rem|stk rem ad a|stk rem|stk p]; cbn [step state_stack] in *.
  - assert (Hopt : forall x, x = (os1, Go st') -> options_out stk rem x -> good_out stk rem x ->
      Forall not_last_occ os1 /\ no_last_state st' /\ (match st' with Await _ _ _ a => is_option a = true | _ => True end)).
    { intros x -> [O1 O2] [G1 _]. cbn [fst snd] in *. split.
      - rewrite Forall_forall in *. intros o Hi. exact (option_not_last _ _ _ Hok (G1 o Hi) (O1 o Hi)).
      - destruct O2 as [->|(ad & a & -> & Ho)]; split; try exact I. exact Ho. }
    destruct (form_of tok) as [|n v|b|] eqn:Ef.
    + injection E as <- <-. apply form_sep in Ef. subst tok. destruct Ht as [Ht|[]]. elim Ht. reflexivity.
    + apply (Hopt _ E); [apply read_long_options|apply read_long_good].
    + destruct (utf8_prefix b) as [cs junk]. apply (Hopt _ E); [apply read_bundle_options|apply read_bundle_good].
    + destruct (first_named (sub_variants stk) tok) as [v|].
      * injection E as <- <-. split; [constructor|]. split; exact I.
      * unfold take_word in E. destruct rem as [|p rem]; [discriminate|]. cbn [orb] in E. destruct (is_last p) eqn:El; [discriminate|].
        injection E as <- <-. split; [constructor; [exact El|constructor]|]. destruct (greedy p); split; try exact I. exact El.
  - destruct (may_follow a tok); [|discriminate]. injection E as <- <-. split; [|split; exact I].
    constructor; [|constructor]. exact (option_not_last _ _ _ Hok (proj2 Hst) Ha).
  - destruct Hn as [[]|Hn]. unfold take_word in E. destruct rem as [|p rem]; [discriminate|]. injection E as <- <-.
    destruct (greedy p); [|destruct Hn]. cbn in Hn. split; [|split; [exact Hn|exact I]]. constructor; [exact Hn|constructor].
  - injection E as <- <-. assert (Hp : is_last p = false) by (destruct Hn as [Hn|Hn]; exact Hn).
    split; [|split; [exact Hp|exact I]]. constructor; [exact Hp|constructor].
Qed.

Lemma no_last_read toks : forall st os st', state_ok st -> no_last_state st ->
  (match st with Await _ _ _ a => is_option a = true | _ => True end) -> ~ In (bs "--") toks ->
  read first_named st toks = (os, Go st') -> Forall not_last_occ os.
Proof.
  induction toks as [|tok toks IH]; intros st os st' Hok Hn Ha Ht H.
  - injection H as <- <-. constructor.
  - rewrite read_cons in H. destruct (step first_named st tok) as [oa [sa|sp]] eqn:Es; unfold then_read in H; cbn [fst snd] in H; [|discriminate].
    destruct (read first_named sa toks) as [ob out] eqn:Er. injection H as <- ->.
    assert (Htok : tok <> bs "--") by (intros ->; apply Ht; left; reflexivity).
    destruct (no_last_step st tok oa sa Hok (or_introl Hn) (or_introl Htok) Ha Es) as (H1 & H2 & H3).
    apply Forall_app. split; [exact H1|]. eapply IH; [|exact H2|exact H3| |exact Er].
    + pose proof (read_ok first_named first_named_in [tok] st oa sa Hok) as Hr. rewrite read_one in Hr. apply Hr. exact Es.
    + intros Hi. apply Ht. right. exact Hi.
Qed.

Lemma values_not_last d toks os stk ad a : valid d -> reads d toks os stk -> In (ad, a) (stack_args stk) -> is_last a = true ->
  Forall not_last_occ os -> values_of os ad = [].
Proof.
  intros Hd H Hi Hl Hf. pose proof (known_arg _ _ _ _ _ _ Hd H Hi) as Hk. unfold values_of. clear H. induction os as [|o os IH]; [reflexivity|].
  inversion Hf as [|? ? Ho Hf']; subst. inversion Hk as [|? ? Ho' Hk']; subst. cbn [filter].
  destruct (addr_eqb ad (oc_addr o)) eqn:E; [|apply IH; assumption]. apply addr_eqb_eq in E. unfold not_last_occ in Ho.
  rewrite (Ho' (eq_sym E)) in Ho. congruence.
Qed.

Theorem last_absent d toks os stk ad a : valid d -> reads d toks os stk -> In (ad, a) (stack_args stk) -> is_last a = true ->
  ~ In (bs "--") toks -> values_of os ad = [].
Proof.
  intros Hd H Hi Hl Ht. apply (values_not_last d toks os stk ad a); try assumption. destruct H as (st & Hr & _).
  eapply (no_last_read toks (start d)); try exact Hr; try exact I; [apply start_ok; apply Hd|exact Ht].
Qed.

(** Verbatim is never left for option position. *)
Lemma verbatim_stays toks : forall st os st', (match st with Verbatim _ _ | Drain _ _ => True | _ => False end) ->
  read first_named st toks = (os, Go st') -> match st' with Verbatim _ _ | Drain _ _ => True | _ => False end.
Proof.
  induction toks as [|tok toks IH]; intros st os st' Hs H; [injection H as <- <-; exact Hs|].
  rewrite read_cons in H. destruct (step first_named st tok) as [oa [sa|sp]] eqn:Es; unfold then_read in H; cbn [fst snd] in H; [|discriminate].
  destruct (read first_named sa toks) as [ob out] eqn:Er. injection H as <- ->. apply (IH sa ob st'); [|exact Er].
  destruct st as [| |stk rem|stk p]; try contradiction; cbn [step] in Es.
  - unfold take_word in Es. destruct rem as [|p rem]; [discriminate|]. injection Es as <- <-. destruct (greedy p); exact I.
  - injection Es as <- <-. exact I.
Qed.
Lemma at_option_not_last toks : forall st os stk rem, state_ok st -> no_last_state st ->
  (match st with Await _ _ _ a => is_option a = true | _ => True end) ->
  read first_named st toks = (os, Go (Normal stk rem)) -> Forall not_last_occ os.
Proof.
  induction toks as [|tok toks IH]; intros st os stk rem Hok Hn Ha H.
  - injection H as <- _. constructor.
  - rewrite read_cons in H. destruct (step first_named st tok) as [oa [sa|sp]] eqn:Es; unfold then_read in H; cbn [fst snd] in H; [|discriminate].
    destruct (read first_named sa toks) as [ob out] eqn:Er. injection H as <- ->.
    assert (Hsa : no_last_state sa).
    { destruct sa as [| |stk1 rem1|stk1 p1]; try exact I; exfalso; refine (verbatim_stays toks _ _ _ _ Er); exact I. }
    destruct (no_last_step st tok oa sa Hok (or_introl Hn) (or_intror Hsa) Ha Es) as (H1 & H2 & H3).
    apply Forall_app. split; [exact H1|]. eapply IH; [|exact H2|exact H3|exact Er].
    pose proof (read_ok first_named first_named_in [tok] st oa sa Hok) as Hr. rewrite read_one in Hr. apply Hr. exact Es.
Qed.

Lemma last_greedy a : is_last a = true -> greedy a = true.
Proof. unfold is_last, greedy. intros ->. apply orb_true_r. Qed.

Theorem last_exact d pre os stk rem l (ws : list bytes) : valid d -> at_option d pre os stk rem -> last_args stk = [l] ->
  exists os', reads d (pre ++ bs "--" :: ws) os' stk /\
  values_of os' (Addr (length stk - 1) [sa_id l]) = map Some ws /\
  forall ad, ad <> Addr (length stk - 1) [sa_id l] -> values_of os' ad = values_of os ad.
Proof.
  intros Hd H Hl. exists (os ++ map (word_occ stk l) ws).
  assert (Hll : is_last l = true).
  { destruct stk as [|s outer]; [discriminate|]. cbn [last_args] in Hl. assert (Hx : In l (filter is_last (positionals (sc_decl s)))) by (rewrite Hl; left; reflexivity).
    apply filter_In in Hx. apply Hx. }
  assert (Hr : reads d (pre ++ bs "--" :: ws) (os ++ map (word_occ stk l) ws) stk).
  { assert (Hf : fills stk [l] ws (map (word_occ stk l) ws)).
    { destruct ws as [|w ws]; [constructor|]. apply fills_greedy. apply last_greedy. exact Hll. }
    destruct (fills_read _ _ _ _ Hf) as (st & E & Hc & Hs). exists st. split; [|auto].
    rewrite (at_option_app _ _ _ _ _ _ H), read_sep. replace (after_sep stk rem) with [l]; [rewrite E; reflexivity|].
    destruct stk as [|s outer]; [discriminate|]. cbn [after_sep last_args] in *. rewrite Hl. reflexivity. }
  split; [exact Hr|].
  assert (Hin : In (Addr (length stk - 1) [sa_id l], l) (stack_args stk)).
  { destruct stk as [|s outer]; [discriminate|]. cbn [length]. rewrite Nat.sub_succ, Nat.sub_0_r. apply pos_known.
    cbn [last_args] in Hl. assert (Hx : In l (filter is_last (positionals (sc_decl s)))) by (rewrite Hl; left; reflexivity).
    apply filter_In in Hx. apply Hx. }
  split.
  - rewrite values_of_app. rewrite (values_not_last d pre os stk _ l Hd); try assumption.
    + cbn [app]. unfold values_of. clear. induction ws as [|w ws IH]; [reflexivity|]. cbn [map filter word_occ oc_addr].
      rewrite (proj2 (addr_eqb_eq _ _) eq_refl). cbn [map]. f_equal. exact IH.
    + exists (Normal stk rem). split; [exact H|]. split; [exact I|reflexivity].
    + eapply (at_option_not_last pre (start d)); try exact H; try exact I. apply start_ok. apply Hd.
  - intros ad Hne. apply values_of_none. apply Forall_forall. intros o Ho. apply in_map_iff in Ho. destruct Ho as (w & <- & _).
    cbn. auto.
Qed.

(** *** Subcommands *)

Theorem sub_enters d pre os stk rem v : valid d -> at_option d pre os stk rem -> In v (sub_variants stk) ->
  at_option d (pre ++ [sub_name v]) os (variant_scope v :: stk) (positionals (sc_decl (variant_scope v))).
Proof.
  intros Hd H Hv. unfold at_option. rewrite (at_option_app _ _ _ _ _ _ H), read_one. cbn [step].
  rewrite (proj2 (form_word _) (sub_name_word v)), first_named_distinct; [|exact (at_option_distinct _ _ _ _ _ Hd H)|exact Hv].
  cbn [fst snd]. rewrite app_nil_r. reflexivity.
Qed.

Lemma resolve_belongs stk n ad a v level : resolve stk n = Some (ad, a) -> level < length stk -> belongs level (Occ ad a v).
Proof.
  intros H Hl. pose proof (resolve_option _ _ _ _ H) as Ho. unfold resolve in H. apply find_some in H. destruct H as [H _].
  destruct stk as [|s outer]; [contradiction|]. cbn [in_scope length] in *. apply in_app_iff in H. destruct H as [H|H].
  - left. unfold scope_args in H. apply in_map_iff in H. destruct H as (pa & E & _). injection E as <- <-. cbn. lia.
  - right. apply filter_In in H. split; [exact Ho|apply H].
Qed.

Lemma accounts_belong stk ps toks os stk' level : accounts stk ps toks os stk' -> level < length stk ->
  Forall (belongs level) os /\ exists inner, stk' = inner ++ stk.
Proof.
  assert (Hw : forall stk p w, level < length stk -> belongs level (word_occ stk p w)).
  { intros stk0 p w Hl. left. cbn. lia. }
  assert (Hf : forall stk ps ws os, fills stk ps ws os -> level < length stk -> Forall (belongs level) os).
  { intros stk0 ps0 ws0 os0 HF Hl. induction HF as [ps0|p ps0 w ws0 os0 _ _ IH|p ps0 w ws0 _]; [constructor|constructor; auto|].
    apply Forall_forall. intros o Ho. apply in_map_iff in Ho. destruct Ho as (x & <- & _). auto. }
  induction 1 as [stk ps|stk ps toks ad a v post os stk' Hwr _ IH|stk ps c ad a t post os stk' Hr Ht Hq H1 H2 H3 _ IH
    |stk ps v post os stk' Hv _ IH|stk ps p w post os stk' Hwd Hn Hl Hg _ IH|stk ps p w ws Hwd Hn Hl Hg
    |stk ps ws os Hl Hff|stk ps ws os Hl Hff]; intros Hlt.
  - split; [constructor|]. exists []. reflexivity.
  - destruct (IH Hlt) as [I1 I2]. split; [|exact I2]. constructor; [|exact I1]. inversion Hwr; subst; eapply resolve_belongs; eauto.
  - destruct (IH Hlt) as [I1 I2]. split; [|exact I2]. constructor; [|exact I1]. eapply resolve_belongs; eauto.
  - destruct IH as [I1 [inner I2]]; [cbn; lia|]. split; [exact I1|]. exists (inner ++ [variant_scope v]). rewrite <- app_assoc. exact I2.
  - destruct (IH Hlt) as [I1 I2]. split; [|exact I2]. constructor; auto.
  - split; [|exists []; reflexivity]. apply Forall_forall. intros o Ho. apply in_map_iff in Ho. destruct Ho as (x & <- & _). auto.
  - split; [eapply Hf; eauto|exists []; reflexivity].
  - split; [eapply Hf; eauto|exists []; reflexivity].
Qed.

Theorem sub_rest d pre os stk rem v post os2 stk2 : valid d -> at_option d pre os stk rem -> In v (sub_variants stk) ->
  reads d (pre ++ sub_name v :: post) os2 stk2 ->
  exists os' inner, os2 = os ++ os' /\ stk2 = inner ++ variant_scope v :: stk /\ Forall (belongs (length stk)) os'.
Proof.
  intros Hd H Hv Hr. pose proof (sub_enters _ _ _ _ _ _ Hd H Hv) as Hs.
  replace (pre ++ sub_name v :: post) with ((pre ++ [sub_name v]) ++ post) in Hr by (rewrite <- app_assoc; reflexivity).
  assert (Hos : exists os', os2 = os ++ os').
  { destruct Hr as (st & Hr & _). rewrite (at_option_app _ _ _ _ _ _ Hs) in Hr. injection Hr as <- _. eauto. }
  destruct Hos as (os' & ->). apply (accounts_at _ _ _ _ _ _ _ _ Hd Hs) in Hr.
  destruct (accounts_belong _ _ _ _ _ (length stk) Hr ltac:(cbn; lia)) as [Hf [inner ->]]. exists os', inner. auto.
Qed.
End Positional.
