(** Facts about reading: what a step leaves invariant. *)
From Verif Require Import Bytes BytesFacts Utf8 Utf8Facts Attrs AttrFacts Refl Error Values SortFacts
  Places Help Runtime Heck Decl Spec Derive Generated CompileFacts InfoFacts TableFacts PlaceFacts UnwindFacts
  ScopeFacts NamedFacts WordFacts.

Section Reading.
Context {V : Type}.
Local Notation args_decl := (args_decl V).
Local Notation sarg := (sarg V).
Local Notation scope := (scope V).
Local Notation occ := (occ V).
Implicit Types (d : args_decl) (a p : sarg) (s : scope) (stk : list scope) (os : list occ).

Lemma form_of_eq tok :
  form_of tok =
  if beqb tok [c_dash; c_dash] then FSep
  else match strip_prefix [c_dash; c_dash] tok with
       | Some b => let '(s, v) := cut_eq b in FLong s v
       | None => match as_bundle tok with Some b => FBundle b | None => FWord end
       end.
Proof.
  destruct tok as [|x t]; [reflexivity|]. destruct x; try reflexivity.
  destruct t as [|y b]; [reflexivity|]. destruct y; try reflexivity. destruct b; reflexivity.
Qed.

(** ** The outcome of a token that gives options *)

Definition good_out stk (rem : list sarg) (x : list occ * outcome V) : Prop :=
  Forall (known stk) (fst x) /\
  match snd x with
  | Stop _ => True
  | Go st => st = Normal stk rem \/ exists ad a, st = Await stk rem ad a /\ In (ad, a) (stack_args stk)
  end.

Lemma bare_good stk rem ad a : In (ad, a) (stack_args stk) -> good_out stk rem (bare stk rem ad a).
Proof.
  intros H. unfold bare. destruct (takes_value a); [destruct (needs_equals a)|]; split; cbn; eauto.
Qed.
Lemma read_long_good stk rem (s : bytes) v : good_out stk rem (read_long stk rem s v).
Proof.
  unfold read_long. destruct (resolve stk (Long s)) as [[ad a]|] eqn:E; [|split; cbn; auto].
  apply resolve_in in E. destruct E as [E _]. destruct v; [split; cbn; auto|]. apply bare_good. exact E.
Qed.
Lemma read_bundle_good stk rem cs junk : good_out stk rem (read_bundle stk rem cs junk).
Proof.
  induction cs as [|c cs IH].
  - cbn. destruct junk; split; cbn; auto.
  - rewrite read_bundle_cons. destruct (resolve stk (Short c)) as [[ad a]|] eqn:E; [|split; cbn; auto].
    apply resolve_in in E. destruct E as [E _].
    assert (Hc : forall v, good_out stk rem (let '(os, out) := read_bundle stk rem cs junk in (Occ ad a v :: os, out))).
    { intros v. destruct (read_bundle stk rem cs junk) as [os out]. destruct IH as [I1 I2]. split; cbn in *; auto. }
    destruct (strip_prefix [c_eq] (encode_all cs ++ junk)) as [v|].
    + destruct (takes_value a); [split; cbn; auto|]. apply Hc.
    + destruct (encode_all cs ++ junk); [apply bare_good; exact E|].
      destruct (needs_equals a); [split; cbn; auto|]. destruct (takes_value a); [split; cbn; auto|]. apply Hc.
Qed.

Lemma after_Inv prog stk rem os x it os' it' :
  Inv stk os -> good_out stk rem x -> after prog os x it = Ok (os', it') ->
  Inv stk os' /\ length it' <= length it.
Proof.
  intros HI [Hk Ho] E. destruct x as [os1 out]. cbn [fst snd] in *. unfold after in E.
  destruct (first_bad os os1) eqn:Eb; [discriminate|]. pose proof (Inv_app stk os os1 HI Hk Eb) as HI'.
  destruct out as [st|sp]; [|discriminate].
  destruct Ho as [->|(ad & a & -> & Ha)].
  - injection E as <- <-. auto.
  - destruct it as [|raw it]; [discriminate|]. destruct (may_follow a raw); [|discriminate].
    destruct (occ_error a (given (os ++ os1) ad) (Some raw)) eqn:Eo; [discriminate|]. injection E as <- <-.
    split; [|simpl; lia]. rewrite app_assoc. apply Inv_snoc; assumption.
Qed.

(** ** States *)

Definition rem_ok stk (rem : list sarg) : Prop :=
  match stk with s :: _ => forall p, In p rem -> In p (positionals (sc_decl s)) | [] => False end.
Definition state_ok (st : state V) : Prop :=
  stack_ok (state_stack st) /\
  match st with
  | Normal stk rem | Verbatim stk rem => rem_ok stk rem
  | Await stk rem ad a => rem_ok stk rem /\ In (ad, a) (stack_args stk)
  | Drain stk p => rem_ok stk [p]
  end.

Variable choose : list (ident * variant_decl V) -> bytes -> option (ident * variant_decl V).
Hypothesis choose_in : forall vs tok v, choose vs tok = Some v -> In v vs.

Lemma variant_unit (v : ident * variant_decl V) : unit_scope_ok (variant_scope v).
Proof. unfold unit_scope_ok, variant_scope. destruct (snd v); cbn; intros H; try discriminate. reflexivity. Qed.

Lemma choose_ok stk tok v : stack_ok stk -> choose (sub_variants stk) tok = Some v -> stack_ok (variant_scope v :: stk).
Proof.
  intros Hs Hc. constructor; [|exact Hs]. split; [|apply variant_unit].
  apply choose_in in Hc. destruct stk as [|s outer]; [contradiction|]. cbn [sub_variants] in Hc.
  destruct (subcommand (sc_decl s)) as [[[id o] vs]|] eqn:E; [|contradiction].
  inversion Hs as [|? ? [Hd _] _]; subst. eapply accepted_variant; eauto.
Qed.

Lemma after_sep_ok stk rem : rem_ok stk rem -> rem_ok stk (after_sep stk rem).
Proof.
  intros H. destruct stk as [|s outer]; [exact H|]. unfold rem_ok, after_sep in *.
  destruct (filter is_last (positionals (sc_decl s))) as [|l ls] eqn:E; [exact H|].
  intros p Hp. rewrite <- E in Hp. apply filter_In in Hp. apply Hp.
Qed.

Lemma take_word_ok sep stk rem tok :
  stack_ok stk -> rem_ok stk rem ->
  Forall (known stk) (fst (take_word sep stk rem tok)) /\
  match snd (take_word sep stk rem tok) with
  | Stop _ => True
  | Go st => state_ok st /\ state_stack st = stk
  end.
Proof.
  intros Hs Hr. destruct stk as [|s outer]; [contradiction|]. unfold take_word.
  destruct rem as [|p rem]; [split; cbn; auto|].
  assert (Hp : In p (positionals (sc_decl s))) by (apply Hr; left; reflexivity).
  destruct (sep || negb (is_last p)); [|split; cbn; auto]. cbn [fst snd]. split.
  - constructor; [|constructor]. unfold known. cbn [oc_addr oc_arg length]. rewrite Nat.sub_succ, Nat.sub_0_r.
    apply pos_known. exact Hp.
  - assert (Hrest : rem_ok (s :: outer) (if many p then p :: rem else rem)).
    { destruct (many p); [exact Hr|]. intros q Hq. apply Hr. right. exact Hq. }
    destruct (greedy p); [|destruct sep]; (split; [split; [exact Hs|]|reflexivity]); try exact Hrest.
    intros q [<-|[]]. exact Hp.
Qed.

Lemma good_out_ok stk rem x :
  stack_ok stk -> rem_ok stk rem -> good_out stk rem x ->
  Forall (known stk) (fst x) /\
  match snd x with
  | Stop _ => True
  | Go st => state_ok st /\ state_stack st = stk
  end.
Proof.
  intros Hs Hr [H1 H2]. split; [exact H1|]. destruct (snd x) as [st|]; [|exact I].
  destruct H2 as [->|(ad & a & -> & Ha)]; (split; [split; auto|reflexivity]).
Qed.

Lemma step_ok st tok : state_ok st ->
  Forall (known (state_stack st)) (fst (step choose st tok)) /\
  match snd (step choose st tok) with
  | Stop _ => True
  | Go st' => state_ok st' /\ exists inner, state_stack st' = inner ++ state_stack st
  end.
Proof.
  intros [Hs Hst].
  assert (Hsame : forall (x : list occ * outcome V) stk,
    Forall (known stk) (fst x) /\
    match snd x with Stop _ => True | Go st => state_ok st /\ state_stack st = stk end ->
    Forall (known stk) (fst x) /\
    match snd x with
    | Stop _ => True
    | Go st' => state_ok st' /\ exists inner, state_stack st' = inner ++ stk
    end).
  { intros x stk [H1 H2]. split; [exact H1|]. destruct (snd x); [|exact I]. destruct H2 as [H2 H3].
    split; [exact H2|]. exists []. exact H3. }
  destruct st as [stk rem|stk rem ad a|stk rem|stk p]; cbn [state_stack] in *; cbn [step].
  - destruct (form_of tok) as [|s v|b|].
    + apply Hsame. cbn. split; [constructor|]. split; [|reflexivity]. split; [exact Hs|]. apply after_sep_ok. exact Hst.
    + apply Hsame. apply (good_out_ok stk rem); auto. apply read_long_good.
    + destruct (utf8_prefix b) as [cs junk]. apply Hsame. apply (good_out_ok stk rem); auto. apply read_bundle_good.
    + destruct (choose (sub_variants stk) tok) as [v|] eqn:Ec.
      * cbn. split; [constructor|]. split; [|exists [variant_scope v]; reflexivity].
        split; [eapply choose_ok; eauto|]. intros p Hp. exact Hp.
      * apply Hsame. apply take_word_ok; assumption.
  - destruct Hst as [Hr Ha]. apply Hsame. destruct (may_follow a tok); cbn.
    + split; [constructor; [exact Ha|constructor]|]. split; [|reflexivity]. split; assumption.
    + split; constructor.
  - apply Hsame. apply take_word_ok; assumption.
  - apply Hsame. cbn. split; [|split; [split; assumption|reflexivity]]. constructor; [|constructor].
    destruct stk as [|s outer]; [contradiction|]. unfold known. cbn [oc_addr oc_arg length].
    rewrite Nat.sub_succ, Nat.sub_0_r. apply pos_known. apply Hst. left. reflexivity.
Qed.

Lemma Inv_push s stk os : Inv stk os -> stack_ok (s :: stk) -> Inv (s :: stk) os.
Proof.
  intros [H1 H2 H3] Hs. constructor; [exact Hs| |].
  - intros o Ho. apply H2 in Ho. simpl. lia.
  - intros ad a Ha. cbn [stack_args] in Ha. apply in_app_iff in Ha. destruct Ha as [Ha|Ha]; [|auto].
    assert (E : folded_values os ad a = []).
    { unfold folded_values. rewrite values_of_fresh; [reflexivity|]. intros o Ho E. apply H2 in Ho.
      unfold scope_args in Ha. apply in_map_iff in Ha. destruct Ha as (pa & E' & _). injection E' as E' _.
      rewrite E, <- E' in Ho. cbn [ad_level] in Ho. lia. }
    rewrite E. apply vals_ok_nil.
Qed.
Lemma Inv_push_all inner stk os : Inv stk os -> stack_ok (inner ++ stk) -> Inv (inner ++ stk) os.
Proof.
  intros HI. induction inner as [|s inner IH]; intros Hs; [exact HI|]. cbn [app] in *.
  apply Inv_push; [|exact Hs]. apply IH. inversion Hs. assumption.
Qed.

Lemma stack_args_app inner stk x : In x (stack_args stk) -> In x (stack_args (inner ++ stk)).
Proof. intros H. induction inner as [|s inner IH]; [exact H|]. cbn [app stack_args]. apply in_app_iff. right. exact IH. Qed.

Lemma read_inv toks : forall st os os1 st',
  state_ok st -> Inv (state_stack st) os -> read choose st toks = (os1, Go st') -> first_bad os os1 = None ->
  state_ok st' /\ Inv (state_stack st') (os ++ os1) /\ exists inner, state_stack st' = inner ++ state_stack st.
Proof.
  induction toks as [|tok toks IH]; intros st os os1 st' Hok HI Hr Hb.
  - cbn in Hr. injection Hr as <- <-. rewrite app_nil_r. split; [exact Hok|]. split; [exact HI|]. exists []. reflexivity.
  - cbn [read] in Hr. pose proof (step_ok st tok Hok) as [Hk Hs].
    destruct (step choose st tok) as [o1 out]. cbn [fst snd] in *.
    destruct out as [st1|sp]; [|discriminate]. destruct (read choose st1 toks) as [o2 out2] eqn:E2.
    injection Hr as <- ->. rewrite first_bad_app in Hb. destruct (first_bad os o1) eqn:Eb1; [discriminate|].
    destruct Hs as [Hok1 [inner1 Ei1]].
    assert (HI1 : Inv (state_stack st1) (os ++ o1)).
    { rewrite Ei1. apply Inv_push_all; [|rewrite <- Ei1; apply Hok1]. apply Inv_app; assumption. }
    destruct (IH st1 (os ++ o1) o2 st' Hok1 HI1 E2 Hb) as (Hok' & HI' & inner & Ei).
    split; [exact Hok'|]. split; [rewrite app_assoc; exact HI'|]. exists (inner ++ inner1).
    rewrite Ei, Ei1, app_assoc. reflexivity.
Qed.

Lemma start_ok d : accepted d -> state_ok (start d).
Proof.
  intros Hd. split.
  - constructor; [|constructor]. split; [exact Hd|]. intros E. discriminate.
  - intros p Hp. exact Hp.
Qed.
Lemma Inv_nil stk : stack_ok stk -> Inv stk [].
Proof.
  intros H. constructor; [exact H|intros o []|]. intros ad a _. apply vals_ok_nil.
Qed.
End Reading.
