(** The parser's loop does what reading, checking and finishing say. *)
From Verif Require Import Bytes BytesFacts Utf8 Utf8Facts Attrs AttrFacts Refl Error Values SortFacts
  Places Help Runtime Heck Decl Spec Derive Generated CompileFacts InfoFacts TableFacts PlaceFacts UnwindFacts
  ScopeFacts NamedFacts WordFacts FinishFacts ReadFacts.

Section Sim.
Context {V : Type}.
Local Notation args_decl := (args_decl V).
Local Notation sarg := (sarg V).
Local Notation scope := (scope V).
Local Notation occ := (occ V).
Implicit Types (d : args_decl) (a p : sarg) (s : scope) (stk : list scope) (os : list occ).

Local Notation read := (read (V:=V) code_choice).
Local Notation step := (step (V:=V) code_choice).

Lemma code_choice_in (vs : list (ident * variant_decl V)) tok v : code_choice vs tok = Some v -> In v vs.
Proof. intros H. apply code_choice_sound in H. apply H. Qed.

(** Finishing the commands above the first [n]. *)
Fixpoint finish_above (n : nat) os stk (sub : option (subval V)) : res (option (subval V)) :=
  if length stk <=? n then Ok sub
  else
    match stk with
    | [] => Ok sub
    | s :: outer =>
        let* o := finish_args os (length outer) [] (sc_decl s) sub in
        finish_above n os outer (Some (SubV (sc_ident s) (if sc_unit s then None else Some o)))
    end.

Lemma finish_above_here os stk sub : finish_above (length stk) os stk sub = Ok sub.
Proof. destruct stk; cbn [finish_above]; rewrite Nat.leb_refl; reflexivity. Qed.

Lemma finish_above_split os inner s outer sub :
  finish_above (length outer) os (inner ++ s :: outer) sub =
  let* sub' := finish_above (S (length outer)) os (inner ++ s :: outer) sub in
  let* o := finish_args os (length outer) [] (sc_decl s) sub' in
  Ok (Some (SubV (sc_ident s) (if sc_unit s then None else Some o))).
Proof.
  revert sub. induction inner as [|t inner IH]; intros sub.
  - cbn [app finish_above length].
    assert (E1 : (S (length outer) <=? length outer) = false) by (apply Nat.leb_gt; lia).
    rewrite E1, Nat.leb_refl. cbn [bind].
    destruct (finish_args os (length outer) [] (sc_decl s) sub); cbn [bind]; [|reflexivity|reflexivity].
    apply finish_above_here.
  - cbn [app finish_above].
    assert (E1 : (length (t :: inner ++ s :: outer) <=? length outer) = false)
      by (apply Nat.leb_gt; simpl; rewrite app_length; simpl; lia).
    assert (E2 : (length (t :: inner ++ s :: outer) <=? S (length outer)) = false)
      by (apply Nat.leb_gt; simpl; rewrite app_length; simpl; lia).
    rewrite E1, E2. destruct (finish_args os _ [] (sc_decl t) sub); cbn [bind]; [|reflexivity|reflexivity].
    apply IH.
Qed.

Definition sim (prog : bytes) (base : nat) os (x : list occ * outcome V) : res (list occ * option (subval V)) :=
  let '(os1, out) := x in
  match first_bad os os1 with
  | Some e => Err e
  | None =>
      match out with
      | Stop sp => Err (stop_error prog sp)
      | Go (Await _ _ _ a) => Err (error_about MissingValue a)
      | Go st =>
          let* sub := finish_above base (os ++ os1) (state_stack st) None in
          Ok (os ++ os1, sub)
      end
  end.

Lemma sim_app prog base os o1 o2 out :
  sim prog base os (o1 ++ o2, out) =
  match first_bad os o1 with Some e => Err e | None => sim prog base (os ++ o1) (o2, out) end.
Proof.
  unfold sim. rewrite first_bad_app. destruct (first_bad os o1); [reflexivity|].
  rewrite app_assoc. reflexivity.
Qed.
Lemma sim_cons prog base os st tok it o1 st' :
  step st tok = (o1, Go st') ->
  sim prog base os (read st (tok :: it)) =
  match first_bad os o1 with Some e => Err e | None => sim prog base (os ++ o1) (read st' it) end.
Proof.
  intros H. cbn [Spec.read]. rewrite H. destruct (read st' it) as [o2 out]. apply sim_app.
Qed.
Lemma sim_stop prog base os st tok it o1 sp :
  step st tok = (o1, Stop sp) ->
  sim prog base os (read st (tok :: it)) =
  match first_bad os o1 with Some e => Err e | None => Err (stop_error prog sp) end.
Proof. intros H. cbn [Spec.read]. rewrite H. reflexivity. Qed.

Lemma after_link prog base os stk rem tok it x :
  step (Normal stk rem) tok = x -> good_out stk rem x ->
  sim prog base os (read (Normal stk rem) (tok :: it)) =
  let* (os', it') := after prog os x it in sim prog base os' (read (Normal stk rem) it').
Proof.
  intros Hst [_ Ho]. destruct x as [o1 out]. cbn [snd] in Ho. destruct out as [st|sp].
  - rewrite (sim_cons _ _ _ _ _ _ _ _ Hst). unfold after. destruct (first_bad os o1); [reflexivity|].
    destruct Ho as [->|(ad & a & -> & Ha)]; [reflexivity|]. destruct it as [|raw it]; [reflexivity|].
    cbn [bind]. destruct (may_follow a raw) eqn:Em.
    + rewrite (sim_cons prog base (os ++ o1) (Await stk rem ad a) raw it [Occ ad a (Some raw)] (Normal stk rem))
        by (cbn [Spec.step]; rewrite Em; reflexivity).
      cbn [first_bad oc_arg oc_addr oc_val]. destruct (occ_error a (given (os ++ o1) ad) (Some raw)); [reflexivity|].
      cbn [bind]. rewrite <- app_assoc. reflexivity.
    + rewrite (sim_stop prog base (os ++ o1) (Await stk rem ad a) raw it [] (SErr (error_about MissingValue a)))
        by (cbn [Spec.step]; rewrite Em; reflexivity).
      reflexivity.
  - rewrite (sim_stop _ _ _ _ _ _ _ _ Hst). unfold after. destruct (first_bad os o1); reflexivity.
Qed.

(** Giving everything to one positional. *)
Lemma read_drain stk p it : read (Drain stk p) it =
  (map (fun t => Occ (Addr (length stk - 1) [sa_id p]) p (Some t)) it, Go (Drain stk p)).
Proof. induction it as [|t it IH]; [reflexivity|]. cbn [Spec.read Spec.step]. rewrite IH. reflexivity. Qed.

Lemma word_spec prog base os sep s outer np nps tok it
    (step_eq : step ((if sep : bool then Verbatim else Normal) (s :: outer)
                      (skipn (N.to_nat np) (positionals (sc_decl s)))) tok
               = take_word sep (s :: outer) (skipn (N.to_nat np) (positionals (sc_decl s))) tok) :
  base = length (s :: outer) -> Inv (s :: outer) os ->
  match visit_positional (chain_of os prog (s :: outer) (np :: nps)) sep tok it with
  | Ok (ch, it') => exists np' os', ch = chain_of os' prog (s :: outer) (np' :: nps) /\ Inv (s :: outer) os' /\
      length it' <= length it /\
      sim prog base os (read ((if sep then Verbatim else Normal) (s :: outer)
                               (skipn (N.to_nat np) (positionals (sc_decl s)))) (tok :: it))
      = sim prog base os' (read ((if sep then Verbatim else Normal) (s :: outer)
                               (skipn (N.to_nat np') (positionals (sc_decl s)))) it')
  | Err e => sim prog base os (read ((if sep then Verbatim else Normal) (s :: outer)
                               (skipn (N.to_nat np) (positionals (sc_decl s)))) (tok :: it)) = Err e
  | Panic _ => False
  end.
Proof.
  intros Hbase HI. rewrite visit_positional_spec by exact HI. unfold take_word in step_eq.
  destruct (skipn (N.to_nat np) (positionals (sc_decl s))) as [|p rem] eqn:Er.
  { rewrite (sim_stop _ _ _ _ _ _ _ _ step_eq). reflexivity. }
  destruct (sep || negb (is_last p)) eqn:El.
  2:{ rewrite (sim_stop _ _ _ _ _ _ _ _ step_eq). reflexivity. }
  assert (Hp : In p (positionals (sc_decl s))).
  { pose proof (nth_error_skipn (N.to_nat np) 0 (positionals (sc_decl s))) as Hn. rewrite Er in Hn. cbn in Hn.
    eapply nth_error_In. symmetry. exact Hn. }
  pose proof (pos_known s outer p Hp) as Hk.
  assert (Had : Addr (length (s :: outer) - 1) [sa_id p] = pos_addr outer p).
  { cbn [length]. rewrite Nat.sub_succ, Nat.sub_0_r. reflexivity. }
  rewrite Had in step_eq. rewrite (sim_cons _ _ _ _ _ _ _ _ step_eq). cbn zeta.
  destruct (greedy p) eqn:Egr.
  - rewrite read_drain, Had. cbn [first_bad oc_arg oc_addr oc_val].
    destruct (occ_error p (given os (pos_addr outer p)) (Some tok)) eqn:Eo; [reflexivity|].
    change (map (fun t => Occ (pos_addr outer p) p (Some t)) it) with (drained outer p it).
    unfold sim at 2. destruct (first_bad (os ++ [Occ (pos_addr outer p) p (Some tok)]) (drained outer p it)) eqn:Eb.
    { unfold sim. rewrite Eb. reflexivity. }
    exists (if many p then np else np + 1)%N, (os ++ Occ (pos_addr outer p) p (Some tok) :: drained outer p it).
    split; [reflexivity|]. split; [|split; [simpl; lia|]].
    + apply Inv_app; [exact HI| |].
      * constructor; [exact Hk|]. apply Forall_forall. intros o Ho. apply in_map_iff in Ho. destruct Ho as (t & <- & _).
        exact Hk.
      * cbn [first_bad oc_arg oc_addr oc_val]. rewrite Eo. exact Eb.
    + unfold sim. rewrite Eb. cbn [state_stack]. subst base. rewrite finish_above_here.
      cbn [Spec.read]. destruct sep; cbn [first_bad state_stack]; rewrite app_nil_r, finish_above_here, <- app_assoc; reflexivity.
  - cbn [first_bad oc_arg oc_addr oc_val].
    destruct (occ_error p (given os (pos_addr outer p)) (Some tok)) eqn:Eo; [reflexivity|].
    exists (if many p then np else np + 1)%N, (os ++ [Occ (pos_addr outer p) p (Some tok)]).
    split; [reflexivity|]. split; [apply Inv_snoc; assumption|]. split; [lia|].
    assert (Hrem : (if many p then p :: rem else rem)
                   = skipn (N.to_nat (if many p then np else np + 1)) (positionals (sc_decl s))).
    { destruct (many p); [symmetry; exact Er|]. replace (N.to_nat (np + 1)) with (N.to_nat np + 1) by lia.
      rewrite skipn_add, Er. reflexivity. }
    rewrite <- Hrem. destruct sep; reflexivity.
Qed.

(** *** After the separator *)
Lemma positional_loop_spec prog s outer nps it : forall fuel os np,
  length it <= fuel -> Inv (s :: outer) os ->
  exists np', positional_loop fuel (chain_of os prog (s :: outer) (np :: nps)) it = (
    let* (os', sub) := sim prog (length (s :: outer)) os
        (read (Verbatim (s :: outer) (skipn (N.to_nat np) (positionals (sc_decl s)))) it) in
    Ok (chain_of os' prog (s :: outer) (np' :: nps))) /\
    (forall os' sub, sim prog (length (s :: outer)) os
        (read (Verbatim (s :: outer) (skipn (N.to_nat np) (positionals (sc_decl s)))) it) = Ok (os', sub) -> sub = None).
Proof.
  remember (length it) as n eqn:Hn. assert (Hle : length it <= n) by lia. clear Hn. revert it Hle.
  induction n as [n IH] using lt_wf_ind. intros it Hle fuel os np Hf HI.
  destruct it as [|tok it].
  - exists np. cbn [Spec.read]. unfold sim. cbn [first_bad state_stack]. rewrite app_nil_r, finish_above_here.
    cbn [bind]. split; [destruct fuel; reflexivity|]. intros os' sub E. injection E as _ <-. reflexivity.
  - destruct n as [|n]; [simpl in Hle; lia|]. destruct fuel as [|fuel]; [lia|]. cbn [positional_loop].
    pose proof (word_spec prog (length (s :: outer)) os true s outer np nps tok it eq_refl eq_refl HI) as Hw.
    cbn iota in Hw. destruct (visit_positional _ true tok it) as [[ch it']|e|q]; [| |contradiction].
    + destruct Hw as (np' & os' & -> & HI' & Hl & ->). cbn [bind].
      apply (IH n); [lia|simpl in Hle; lia|lia|exact HI'].
    + exists np. rewrite Hw. split; [reflexivity|]. discriminate.
Qed.

(** *** Entering a subcommand *)

Lemma fields_init d k l : map initializer (fields_from d k l) = map (fun a => place_of a []) l.
Proof.
  revert k. induction l as [|a l IH]; intros k; [reflexivity|]. cbn [fields_from map]. f_equal; [|apply IH].
  rewrite initializer_final. apply initializer_place.
Qed.

Lemma frames_fresh os level d : forall path,
  accepted d -> (forall o, In o os -> ad_level (oc_addr o) <> level) ->
  frames (impl d) = map (item_frame os) (unit_items level (units path d)).
Proof.
  induction d as [d IH _] using decl_induction. intros path Hd Hfresh.
  rewrite frames_eq, units_eq, unit_items_cons. cbn [map item_frame fst snd]. f_equal.
  - f_equal. unfold frame0, frame_of. cbn [u_decl u_info u_np]. f_equal.
    rewrite ai_direct_impl by exact Hd. rewrite direct_fields, fields_init. apply map_ext. intros a.
    unfold place_at, folded_values. rewrite values_of_fresh; [reflexivity|]. intros o Ho E.
    apply (Hfresh o Ho). rewrite E. reflexivity.
  - rewrite (ai_flat_impl d Hd). unfold flat_frames.
    assert (G : forall l, (forall fa, In fa l -> In fa (flattened d)) ->
      flat_map (fun fa : ident * args_impl V => let '(_, fa) := fa in frames fa)
        (map (fun fa => (fst fa, impl (snd fa))) l)
      = map (item_frame os) (unit_items level (flat_map (fun fa => units (path ++ [fst fa]) (snd fa)) l))).
    { induction l as [|[id x] l IHl]; intros Hl; [reflexivity|]. cbn [map flat_map fst snd].
      rewrite unit_items_app, map_app. f_equal.
      - assert (Hx : In (id, x) (flattened d)) by (apply Hl; left; reflexivity).
        destruct (accepted_flat d id x Hd Hx) as (Hax & _). apply (IH id x); auto. apply in_flattened. exact Hx.
      - apply IHl. intros fa Hfa. apply Hl. right. exact Hfa. }
    apply G. auto.
Qed.

Lemma enter_chain os prog s stk nps : stk <> [] -> sc_unit s = false -> accepted (sc_decl s) ->
  (forall o, In o os -> ad_level (oc_addr o) < length stk) ->
  frames (impl (sc_decl s)) ++ CF (kebab_case (sc_ident s)) :: chain_of os prog stk nps
  = chain_of os prog (s :: stk) (0%N :: nps).
Proof.
  intros Hne Hu Hd Hlev. unfold chain_of. cbn [stack_items].
  destruct stk as [|t stk]; [contradiction|].
  rewrite map_app. cbn [map item_frame]. f_equal.
  rewrite (frames_fresh os (length (t :: stk)) (sc_decl s) [] Hd)
    by (intros o Ho E; apply Hlev in Ho; lia).
  unfold scope_items. rewrite units_eq, unit_items_cons. cbn [fst snd app]. unfold head_unit, scope_info.
  rewrite Hu. reflexivity.
Qed.

Lemma leave_chain os prog s stk np nps sub : stk <> [] -> stack_ok (s :: stk) ->
  (forall ad a, In (ad, a) (stack_args (s :: stk)) -> vals_ok a (folded_values os ad a)) ->
  unwind (impl (sc_decl s)) (chain_of os prog (s :: stk) (np :: nps)) sub =
  let* o := finish_args os (length stk) [] (sc_decl s) sub in
  Ok (o, CF (kebab_case (sc_ident s)) :: chain_of os prog stk nps).
Proof.
  intros Hne Hs Hv. unfold chain_of at 1. cbn [stack_items]. destruct stk as [|t stk]; [contradiction|].
  unfold scope_items. cbn [app map item_frame]. rewrite map_app.
  inversion Hs as [|? ? [Hd _] _]; subst.
  pose proof (unwind_spec os (length (t :: stk)) (sc_decl s) []
    (frame_of os (head_unit (length (t :: stk)) s np))
    (map (item_frame os) (IC (kebab_case (sc_ident s)) :: stack_items prog (t :: stk) nps)) sub Hd) as H.
  apply H; [|reflexivity].
  intros u a Hua Ha. apply Hv. cbn [stack_args]. apply in_app_iff. left.
  rewrite scope_args_units. apply in_flat_map. exists u. split; [exact Hua|]. unfold unit_args.
  apply in_map_iff. exists a. auto.
Qed.

Definition sub_of s : option (subparser (V:=V) (S:=subval V)) :=
  if sc_unit s then None else subp (impl (sc_decl s)).

Lemma subp_impl d : accepted d -> subp (impl d) =
  match subcommand d with
  | Some (_, _, vs) => Some (sub_parse (fst (compile_sub (MkSubDecl vs))))
  | None => None
  end.
Proof. intros Hd. unfold subp. rewrite (ai_sub_impl d Hd). destruct (subcommand d) as [[[? ?] ?]|]; reflexivity. Qed.

(** The code finds the variant that the specification chooses. *)
Lemma match_sub_spec os s outer np tok : stack_ok (s :: outer) ->
  match code_choice (sub_variants (s :: outer)) tok with
  | Some v => exists idx vs id o, subcommand (sc_decl s) = Some (id, o, vs) /\ nth_error vs idx = Some v /\
      sub_name v = tok /\
      match_subcommand (sub_of s) (frame_of os (head_unit (length outer) s np)) tok
      = Some (sub_parse (fst (compile_sub (MkSubDecl vs))), tok, idx)
  | None => match_subcommand (sub_of s) (frame_of os (head_unit (length outer) s np)) tok = None
  end.
Proof.
  intros Hs. inversion Hs as [|? ? [Hd Hu] _]; subst. unfold match_subcommand, sub_of.
  destruct (scope_info_tables s Hu) as (_ & _ & _ & Hsi). cbn [frame_of af_info head_unit u_info].
  rewrite Hsi, (subcmd_info _ Hd), (subp_impl _ Hd). cbn [sub_variants].
  destruct (sc_unit s) eqn:Eu.
  - specialize (Hu Eu). unfold subcommand. rewrite Hu. cbn. reflexivity.
  - destruct (subcommand (sc_decl s)) as [[[id o] vs]|]; [|reflexivity].
    unfold code_choice. pose proof (sub_search_spec vs tok) as Hss.
    destruct (sub_search (sub_info_of (fst (compile_sub (MkSubDecl vs)))) tok) as [[n i]|]; [|reflexivity].
    destruct Hss as (-> & v & Hv & Hn). rewrite Hv. exists i, vs, id, o. auto.
Qed.

Lemma sub_parse_nth vs idx v ch it : nth_error vs idx = Some v ->
  sub_parse (V:=V) (fst (compile_sub (MkSubDecl vs))) idx ch it
  = variant_parse (snd (variant_impl v)) (fst (variant_impl v)) ch it.
Proof.
  intros H. rewrite compile_sub_eq. cbn [fst sub_parse]. fold (variant_parse (V:=V)).
  rewrite map_map, nth_error_map, H. cbn [option_map]. destruct (variant_impl v); reflexivity.
Qed.

Lemma finish_unit os level s sub : unit_scope_ok s -> sc_unit s = true ->
  finish_args os level [] (sc_decl s) sub = Ok (Out [] [] None).
Proof.
  intros Hu E. specialize (Hu E). destruct (sc_decl s) as [at_ fs]. cbn [fields_of] in Hu. subst fs. reflexivity.
Qed.

Theorem run_sim prog n : forall it, length it <= n ->
  forall fuel s outer np nps os, length it <= fuel -> Inv (s :: outer) os -> length nps = length outer ->
  exists np', run_loop fuel (sub_of s) (chain_of os prog (s :: outer) (np :: nps)) it =
    let* (osf, sub) := sim prog (length (s :: outer)) os
        (read (Normal (s :: outer) (skipn (N.to_nat np) (positionals (sc_decl s)))) it) in
    Ok (chain_of osf prog (s :: outer) (np' :: nps), sub, []).
Proof.
  induction n as [n IH] using lt_wf_ind. intros it Hn fuel s outer np nps os Hf HI Hl.
  pose proof (inv_stack _ _ HI) as Hs.
  assert (Hlen : length (np :: nps) = length (s :: outer)) by (simpl; lia).
  destruct it as [|tok it].
  { exists np. cbn [Spec.read]. unfold sim. cbn [first_bad state_stack]. rewrite app_nil_r, finish_above_here.
    destruct fuel; reflexivity. }
  destruct n as [|n]; [simpl in Hn; lia|]. destruct fuel as [|fuel]; [simpl in Hf; lia|].
  simpl in Hn, Hf. cbn [run_loop].
  set (rem := skipn (N.to_nat np) (positionals (sc_decl s))).
  pose proof (form_of_eq tok) as Hform.
  destruct (beqb tok [c_dash; c_dash]) eqn:Esep.
  { (* the separator *)
    destruct (jump_spec os prog s outer np nps Hs) as (np1 & -> & Erem). cbn [bind].
    destruct (positional_loop_spec prog s outer nps it (length it) os np1 (le_n _) HI) as (np' & -> & Hnone).
    exists np'. rewrite (sim_cons prog _ os (Normal (s :: outer) rem) tok it [] (Verbatim (s :: outer) (after_sep (s :: outer) rem)))
      by (cbn [Spec.step]; rewrite Hform; reflexivity).
    cbn [first_bad]. rewrite app_nil_r. unfold rem. rewrite Erem.
    destruct (sim prog _ os _) as [[os' sub]|e|p]; [|reflexivity|reflexivity].
    rewrite (Hnone os' sub eq_refl). reflexivity. }
  destruct (starts_with [c_dash; c_dash] tok) eqn:Elong.
  { (* a long option *)
    unfold starts_with in Elong. destruct (strip_prefix [c_dash; c_dash] tok) as [b|] eqn:Eb; [|discriminate].
    apply strip_prefix_Some in Eb. cbn [app] in Eb. subst tok.
    rewrite (visit_long_spec os prog (s :: outer) (np :: nps) rem b it HI Hlen) by discriminate.
    destruct (cut_eq b) as [x v] eqn:Ec.
    assert (Hst : step (Normal (s :: outer) rem) (c_dash :: c_dash :: b) = read_long (s :: outer) rem x v)
      by (cbn [Spec.step]; rewrite Hform; reflexivity).
    rewrite (after_link _ _ _ _ _ _ _ _ Hst (read_long_good _ _ _ _)).
    pose proof (fun os' it' => after_Inv prog (s :: outer) rem os _ it os' it' HI (read_long_good _ rem x v)) as Hai.
    destruct (after prog os (read_long (s :: outer) rem x v) it) as [[os' it']|e|p]; cbn [on_chain bind].
    - destruct (Hai os' it' eq_refl) as [HI' Hl'].
      apply (IH n); [lia|lia|lia|exact HI'|exact Hl].
    - exists np. reflexivity.
    - exists np. reflexivity. }
  unfold starts_with in Elong. destruct (strip_prefix [c_dash; c_dash] tok); [discriminate|]. clear Elong.
  destruct (as_bundle tok) as [b|].
  { (* short options *)
    rewrite (visit_bundle_spec os prog (s :: outer) (np :: nps) rem b it HI Hlen) by discriminate.
    destruct (utf8_prefix b) as [cs junk] eqn:Eu.
    assert (Hst : step (Normal (s :: outer) rem) tok = read_bundle (s :: outer) rem cs junk)
      by (cbn [Spec.step]; rewrite Hform, Eu; reflexivity).
    rewrite (after_link _ _ _ _ _ _ _ _ Hst (read_bundle_good _ _ _ _)).
    pose proof (fun os' it' => after_Inv prog (s :: outer) rem os _ it os' it' HI (read_bundle_good _ rem cs junk)) as Hai.
    destruct (after prog os (read_bundle (s :: outer) rem cs junk) it) as [[os' it']|e|p]; cbn [on_chain bind].
    - destruct (Hai os' it' eq_refl) as [HI' Hl'].
      apply (IH n); [lia|lia|lia|exact HI'|exact Hl].
    - exists np. reflexivity.
    - exists np. reflexivity. }
  (* a word *)
  rewrite chain_head. cbn [head_frame bind]. rewrite <- chain_head.
  pose proof (match_sub_spec os s outer np tok Hs) as Hm.
  destruct (code_choice (sub_variants (s :: outer)) tok) as [v|] eqn:Ech.
  - (* a subcommand *)
    destruct Hm as (idx & vs & id & o & Hsub & Hnth & Hname & ->).
    rewrite (sub_parse_nth vs idx v _ it Hnth).
    set (s' := variant_scope v).
    assert (Hs' : stack_ok (s' :: s :: outer)) by (eapply (choose_ok code_choice code_choice_in); eauto).
    pose proof (Inv_push s' (s :: outer) os HI Hs') as HI'.
    assert (Hst : step (Normal (s :: outer) rem) tok = ([], Go (Normal (s' :: s :: outer) (positionals (sc_decl s')))))
      by (cbn [Spec.step]; rewrite Hform, Ech; reflexivity).
    rewrite (sim_cons _ _ _ _ _ _ _ _ Hst). cbn [first_bad]. rewrite app_nil_r.
    destruct (IH n (le_n _) it ltac:(lia) (length it) s' (s :: outer) 0%N (np :: nps) os (le_n _) HI' Hlen)
      as (np' & Hrun). cbn [skipn N.to_nat] in Hrun.
    exists np.
    assert (Hki : tok = kebab_case (sc_ident s')).
    { unfold s', variant_scope. rewrite <- Hname. unfold sub_name. destruct (snd v); reflexivity. }
    assert (Hsplit : forall os1 st, read (Normal (s' :: s :: outer) (positionals (sc_decl s'))) it = (os1, Go st) ->
              first_bad os os1 = None ->
              (forall ad a, In (ad, a) (stack_args (s' :: s :: outer)) -> vals_ok a (folded_values (os ++ os1) ad a)) /\
              finish_above (length (s :: outer)) (os ++ os1) (state_stack st) None
              = let* sub' := finish_above (length (s' :: s :: outer)) (os ++ os1) (state_stack st) None in
                let* o := finish_args (os ++ os1) (length (s :: outer)) [] (sc_decl s') sub' in
                Ok (Some (SubV (sc_ident s') (if sc_unit s' then None else Some o)))).
    { intros os1 st Er Eb.
      destruct (read_inv code_choice code_choice_in it (Normal (s' :: s :: outer) (positionals (sc_decl s'))) os os1 st)
        as (Hok & HIf & inner & Ei); [split; [exact Hs'|intros q Hq; exact Hq]|exact HI'|exact Er|exact Eb|].
      cbn [state_stack] in Ei. split.
      - intros ad a Ha. apply (inv_vals _ _ HIf). rewrite Ei. apply stack_args_app. exact Ha.
      - rewrite Ei. apply finish_above_split. }
    assert (Hrel : sim prog (length (s :: outer)) os (read (Normal (s' :: s :: outer) (positionals (sc_decl s'))) it)
      = let* (osf, sub') := sim prog (length (s' :: s :: outer)) os
                              (read (Normal (s' :: s :: outer) (positionals (sc_decl s'))) it) in
        let* o := finish_args osf (length (s :: outer)) [] (sc_decl s') sub' in
        Ok (osf, Some (SubV (sc_ident s') (if sc_unit s' then None else Some o)))).
    { destruct (read (Normal (s' :: s :: outer) (positionals (sc_decl s'))) it) as [os1 out]. unfold sim.
      destruct (first_bad os os1) eqn:Eb; [reflexivity|].
      destruct out as [st|sp]; [|reflexivity]. destruct (Hsplit os1 st eq_refl Eb) as [_ E]. clear Hrun Hsplit.
      destruct st; try reflexivity; rewrite E;
        (destruct (finish_above (length (s' :: s :: outer)) (os ++ os1) _ None) as [sub'|e|q]; [|reflexivity|reflexivity]);
        cbn [bind]; (destruct (finish_args _ _ _ _ _); reflexivity). }
    assert (Hvals : forall osf sub', sim prog (length (s' :: s :: outer)) os
                              (read (Normal (s' :: s :: outer) (positionals (sc_decl s'))) it) = Ok (osf, sub') ->
      forall ad a, In (ad, a) (stack_args (s' :: s :: outer)) -> vals_ok a (folded_values osf ad a)).
    { destruct (read (Normal (s' :: s :: outer) (positionals (sc_decl s'))) it) as [os1 out]. unfold sim.
      destruct (first_bad os os1) eqn:Eb; [discriminate|].
      destruct out as [st|sp]; [|discriminate]. destruct (Hsplit os1 st eq_refl Eb) as [Hv _]. clear Hrun Hsplit Hrel.
      intros osf sub'. destruct st; try discriminate;
        (destruct (finish_above _ _ _ _); [|discriminate|discriminate]; intros E; injection E as <- _; exact Hv). }
    rewrite Hrel. clear Hsplit Hrel.
    destruct (sc_unit s') eqn:Eu.
    + assert (Hv : exists id at_, v = (id, VDUnit at_)).
      { subst s'. destruct v as [w [at_|at_ x|x]]; [eauto|discriminate|discriminate]. }
      destruct Hv as (w & at_ & Hv).
      assert (Hfin : forall osf sub, finish_args osf (length (s :: outer)) [] (sc_decl s') sub = Ok (Out [] [] None)).
      { intros osf sub. apply finish_unit; [apply variant_unit|exact Eu]. }
      assert (Hch : forall os1 k, chain_of os1 prog (s' :: s :: outer) (k :: np :: nps)
                = AF (mkFrame [] (unit_info (V:=V) at_) k) :: CF tok :: chain_of os1 prog (s :: outer) (np :: nps)).
      { intros os1 k. rewrite Hki. unfold s'. rewrite Hv. reflexivity. }
      rewrite Hch in Hrun.
      assert (Hsub0 : sub_of s' = None) by (unfold sub_of; rewrite Eu; reflexivity). rewrite Hsub0 in Hrun.
      rewrite Hv at 1 2. cbn [variant_impl fst snd variant_parse]. fold (unit_info (V:=V) at_).
      unfold raw_run, run_parser. rewrite Hrun.
      destruct (sim prog (length (s' :: s :: outer)) os _) as [[osf sub']|e|q]; [|reflexivity|reflexivity].
      cbn [bind]. rewrite Hfin, Hch. cbn [bind pop_frame head_frame]. unfold s'. rewrite Hv. reflexivity.
    + assert (Hv : variant_parse (snd (variant_impl v)) (fst (variant_impl v))
                     (CF tok :: chain_of os prog (s :: outer) (np :: nps)) it
                   = let* (out, ch, it, _) := args_parse (impl (sc_decl s')) unit raw_run
                        (CF tok :: chain_of os prog (s :: outer) (np :: nps)) it in
                     Ok (ch, SubV (sc_ident s') (Some out), it)).
      { subst s'. destruct v as [w [at_|at_ x|x]]; [discriminate|reflexivity|reflexivity]. }
      rewrite Hv, args_parse_spec. clear Hv.
      assert (Hd' : accepted (sc_decl s')) by (inversion Hs' as [|? ? [Hd _] _]; exact Hd).
      rewrite Hki, enter_chain; [|discriminate|exact Eu|exact Hd'|apply (inv_level _ _ HI)].
      assert (Hsub1 : sub_of s' = subp (impl (sc_decl s'))) by (unfold sub_of; rewrite Eu; reflexivity).
      unfold raw_run, run_parser. rewrite <- Hsub1, Hrun.
      destruct (sim prog (length (s' :: s :: outer)) os _) as [[osf sub']|e|q]; [|reflexivity|reflexivity].
      cbn [bind]. rewrite leave_chain; [|discriminate|exact Hs'|apply (Hvals osf sub' eq_refl)].
      destruct (finish_args osf (length (s :: outer)) [] (sc_decl s') sub') as [o'|e|q]; reflexivity.
  - (* a positional value *)
    rewrite Hm.
    assert (Hst : step (Normal (s :: outer) rem) tok = take_word false (s :: outer) rem tok)
      by (cbn [Spec.step]; rewrite Hform, Ech; reflexivity).
    pose proof (word_spec prog (length (s :: outer)) os false s outer np nps tok it Hst eq_refl HI) as Hw.
    cbn iota in Hw. fold rem in Hw.
    destruct (visit_positional _ false tok it) as [[ch it']|e|q]; [| |contradiction].
    + destruct Hw as (np1 & os' & -> & HI' & Hle & ->). cbn [bind].
      apply (IH n); [lia|lia|lia|exact HI'|exact Hl].
    + exists np. rewrite Hw. reflexivity.
Qed.
End Sim.
