(** A subcommand as a program of its own: proofs. *)
From Verif Require Import Bytes BytesFacts Utf8 Utf8Facts Attrs AttrFacts Refl Error Values SortFacts
  Places Help Runtime Heck Decl Spec Derive Generated CompileFacts InfoFacts TableFacts PlaceFacts UnwindFacts
  ScopeFacts NamedFacts WordFacts FinishFacts ReadFacts SimFacts HelpFacts Refine Observe ContextFacts GrammarFacts SafeFacts EnumDerive Parts WellFormed WellFormedFacts OrderFacts Compose.

Section Facts.
Context {V : Type}.
Local Notation args_decl := (args_decl V).
Local Notation sarg := (sarg V).
Local Notation scope := (scope V).
Local Notation occ := (occ V).
Implicit Types (d : args_decl) (a : sarg) (s : scope) (stk : list scope) (os : list occ).

(** ** Reading above another command *)

Section Above.
Variables (s0 sv : scope).
Hypothesis Hg : no_globals (sc_decl s0).
Definition bottom : scope := Scope (sc_decl sv) [] false.

Definition up (x : addr) : addr := Addr (S (ad_level x)) (ad_path x).
Definition up_occ (o : occ) : occ := Occ (up (oc_addr o)) (oc_arg o) (oc_val o).
Definition up_arg (x : addr * sarg) : addr * sarg := (up (fst x), snd x).
Definition above stk : list scope := removelast stk ++ [sv; s0].
Definition ends stk : Prop := exists l, stk = l ++ [bottom].
Definition up_state (st : state V) : state V :=
  match st with
  | Normal stk rem => Normal (above stk) rem
  | Await stk rem ad a => Await (above stk) rem (up ad) a
  | Verbatim stk rem => Verbatim (above stk) rem
  | Drain stk p => Drain (above stk) p
  end.
Definition up_out (out : outcome V) : outcome V :=
  match out with
  | Go st => Go (up_state st)
  | Stop (SErr e) => Stop (SErr e)
  | Stop (SHelp stk) => Stop (SHelp (above stk))
  end.
Definition up_read (x : list occ * outcome V) : list occ * outcome V := (map up_occ (fst x), up_out (snd x)).

Lemma above_eq l : above (l ++ [bottom]) = l ++ [sv; s0].
Proof. unfold above. rewrite removelast_last. reflexivity. Qed.
Lemma ends_cons s stk : ends stk -> ends (s :: stk).
Proof. intros (l & ->). exists (s :: l). reflexivity. Qed.
Lemma above_cons s stk : ends stk -> above (s :: stk) = s :: above stk.
Proof. intros (l & ->). rewrite above_eq. change (s :: l ++ [bottom]) with ((s :: l) ++ [bottom]). rewrite above_eq. reflexivity. Qed.
Lemma above_length stk : ends stk -> length (above stk) = S (length stk).
Proof. intros (l & ->). rewrite above_eq, !app_length. cbn [length]. lia. Qed.
(** The innermost command: its declaration is the same. *)
Lemma above_head stk : ends stk -> exists s r s' r', stk = s :: r /\ above stk = s' :: r' /\ sc_decl s = sc_decl s'.
Proof.
  intros (l & ->). rewrite above_eq. destruct l as [|s l]; [exists bottom, [], sv, [s0]; repeat split|].
  exists s, (l ++ [bottom]), s, (l ++ [sv; s0]). repeat split.
Qed.
Lemma up_scope_args n s : scope_args (S n) s = map up_arg (scope_args n s).
Proof. unfold scope_args. rewrite map_map. reflexivity. Qed.
Lemma up_stack_args stk : ends stk -> stack_args (above stk) = map up_arg (stack_args stk) ++ scope_args 0 s0.
Proof.
  intros (l & ->). rewrite above_eq. induction l as [|s l IH].
  - cbn [app stack_args length]. rewrite !app_nil_r. rewrite (up_scope_args 0 sv). reflexivity.
  - cbn [app stack_args]. rewrite IH, !app_length. cbn [length]. replace (length l + 2) with (S (length l + 1)) by lia.
    rewrite up_scope_args, map_app, app_assoc. reflexivity.
Qed.
Lemma no_global_args : filter (fun x : addr * sarg => is_global (snd x)) (scope_args 0 s0) = [].
Proof.
  unfold scope_args. unfold no_globals in Hg. induction (reach (sc_decl s0)) as [|pa l IH]; [reflexivity|]. cbn [map filter snd].
  rewrite (Hg pa (or_introl eq_refl)). apply IH. intros x Hx. apply Hg. right. exact Hx.
Qed.
Lemma filter_map_up (p : sarg -> bool) l : filter (fun x : addr * sarg => p (snd x)) (map up_arg l) = map up_arg (filter (fun x => p (snd x)) l).
Proof. induction l as [|x l IH]; [reflexivity|]. cbn [map filter]. cbn [up_arg snd]. destruct (p (snd x)); cbn [map]; rewrite IH; reflexivity. Qed.
Lemma up_in_scope stk : ends stk -> in_scope (above stk) = map up_arg (in_scope stk).
Proof.
  intros (l & ->). rewrite above_eq. destruct l as [|s l].
  - cbn [app in_scope length stack_args]. rewrite (up_scope_args 0 sv), app_nil_r. cbn [filter]. rewrite no_global_args, !app_nil_r. reflexivity.
  - cbn [app in_scope]. rewrite <- above_eq, (up_stack_args (l ++ [bottom])), above_length by (exists l; reflexivity).
    rewrite up_scope_args, filter_app, filter_map_up, no_global_args, app_nil_r, map_app. reflexivity.
Qed.
Lemma up_resolve stk n : ends stk -> resolve (above stk) n = option_map up_arg (resolve stk n).
Proof. intros Hn. unfold resolve. rewrite up_in_scope by exact Hn. rewrite find_map'. reflexivity. Qed.

Lemma up_bare stk rem ad a : bare (above stk) rem (up ad) a = up_read (bare stk rem ad a).
Proof. unfold bare. destruct (takes_value a); [destruct (needs_equals a)|]; reflexivity. Qed.
Lemma up_long stk rem (s : bytes) v : ends stk -> read_long (above stk) rem s v = up_read (read_long stk rem s v).
Proof.
  intros Hn. unfold read_long. rewrite (up_resolve stk (Long s) Hn). destruct (resolve stk (Long s)) as [[ad a]|]; cbn [option_map up_arg fst snd].
  - destruct v; [reflexivity|apply up_bare].
  - unfold unknown_long. destruct (beqb s (bs "help")); reflexivity.
Qed.
Lemma up_bundle stk rem junk cs : ends stk -> read_bundle (above stk) rem cs junk = up_read (read_bundle stk rem cs junk).
Proof.
  intros Hn. induction cs as [|c cs IH]; cbn [read_bundle]; [destruct junk; reflexivity|].
  rewrite (up_resolve stk (Short c) Hn). destruct (resolve stk (Short c)) as [[ad a]|]; cbn [option_map up_arg fst snd].
  - rewrite IH. assert (K : forall o, (let '(os, out) := up_read (read_bundle stk rem cs junk) in (up_occ o :: os, out)) =
                                     up_read (let '(os, out) := read_bundle stk rem cs junk in (o :: os, out))).
    { intros o. destruct (read_bundle stk rem cs junk). reflexivity. }
    destruct (encode_all cs ++ junk) as [|x v]; [apply up_bare|].
    assert (N : (if needs_equals a then ([], Stop (SErr (error_about MissingEq a)))
                 else if takes_value a then ([Occ (up ad) a (Some (x :: v))], Go (Normal (above stk) rem))
                 else let '(os, out) := up_read (read_bundle stk rem cs junk) in (Occ (up ad) a None :: os, out))
                = up_read (if needs_equals a then ([], Stop (SErr (error_about MissingEq a)))
                   else if takes_value a then ([Occ ad a (Some (x :: v))], Go (Normal stk rem))
                   else let '(os, out) := read_bundle stk rem cs junk in (Occ ad a None :: os, out))).
    { destruct (needs_equals a); [reflexivity|]. destruct (takes_value a); [reflexivity|]. apply (K (Occ ad a None)). }
    destruct x; try exact N. destruct (takes_value a); [reflexivity|]. apply (K (Occ ad a (Some v))).
  - unfold unknown_short. destruct (c =? b2n "h")%N; reflexivity.
Qed.
Lemma up_sub stk : ends stk -> sub_variants (above stk) = sub_variants stk /\ has_subcommand (above stk) = has_subcommand stk /\ forall rem, after_sep (above stk) rem = after_sep stk rem.
Proof.
  intros He. destruct (above_head stk He) as (s & r & s' & r' & -> & -> & E). cbn [sub_variants has_subcommand after_sep]. rewrite E. repeat split.
Qed.
Lemma up_level stk : ends stk -> length (above stk) - 1 = S (length stk - 1).
Proof. intros He. rewrite (above_length stk He). destruct He as (l & ->). rewrite app_length. cbn [length]. lia. Qed.
Lemma up_word sep stk rem tok : ends stk -> take_word sep (above stk) rem tok = up_read (take_word sep stk rem tok).
Proof.
  intros Hn. unfold take_word. rewrite (up_level stk Hn). destruct (up_sub stk Hn) as (_ & -> & _).
  destruct rem as [|p rem]; [reflexivity|]. destruct (sep || negb (is_last p)); [|reflexivity].
  unfold up_read. cbn [fst snd map up_out]. f_equal. f_equal. destruct (greedy p); [reflexivity|]. destruct sep; reflexivity.
Qed.
Lemma up_step st tok : ends (state_stack st) -> step first_named (up_state st) tok = up_read (step first_named st tok).
Proof.
  destruct st as [stk rem|stk rem ad a|stk rem|stk p]; cbn [state_stack up_state step]; intros Hn.
  - destruct (up_sub stk Hn) as (Ev & _ & Es). destruct (form_of tok) as [|s v|b|].
    + rewrite Es. reflexivity.
    + apply up_long. exact Hn.
    + destruct (utf8_prefix b) as [cs junk]. apply up_bundle. exact Hn.
    + rewrite Ev. destruct (first_named (sub_variants stk) tok) as [v|]; [|apply up_word; exact Hn].
      unfold up_read. cbn [fst snd map up_out up_state]. rewrite (above_cons _ _ Hn). reflexivity.
  - destruct (may_follow a tok); reflexivity.
  - apply up_word. exact Hn.
  - rewrite (up_level stk Hn). reflexivity.
Qed.
Lemma up_reading toks : forall st, ends (state_stack st) -> read first_named (up_state st) toks = up_read (read first_named st toks).
Proof.
  induction toks as [|tok toks IH]; intros st Hn; [reflexivity|]. cbn [read]. rewrite up_step by exact Hn.
  destruct (step first_named st tok) as [os out] eqn:E. unfold up_read at 1. cbn [fst snd]. destruct out as [st1|[e|stk]]; cbn [up_out]; [|reflexivity|reflexivity].
  rewrite IH. 2: { destruct (step_stack _ _ _ _ _ E) as [->|(v & Hv & ->)]; [exact Hn|apply ends_cons; exact Hn]. }
  destruct (read first_named st1 toks) as [os1 out1]. unfold up_read. cbn [fst snd]. rewrite map_app. reflexivity.
Qed.

(** ** Values above another command *)

Variable pre : list occ.
Hypothesis Hpre : Forall (fun o => ad_level (oc_addr o) = 0) pre.

Lemma up_eqb x y : addr_eqb (up x) (up y) = addr_eqb x y.
Proof. reflexivity. Qed.
Lemma values_up_pre ad : values_of pre (up ad) = [].
Proof.
  unfold values_of. clear - Hpre. induction Hpre as [|o l E _ IH]; [reflexivity|]. cbn [filter]. unfold addr_eqb at 1. rewrite E. cbn [up ad_level Nat.eqb andb]. apply IH. inversion Hpre. assumption.
Qed.
Lemma values_up os ad : values_of (pre ++ map up_occ os) (up ad) = values_of os ad.
Proof.
  unfold values_of. rewrite filter_app, map_app. change (map oc_val (filter (fun o => addr_eqb (up ad) (oc_addr o)) pre)) with (values_of pre (up ad)).
  rewrite values_up_pre. cbn [app]. induction os as [|o os IH]; [reflexivity|]. cbn [map filter up_occ oc_addr]. rewrite up_eqb.
  destruct (addr_eqb ad (oc_addr o)); cbn [map]; rewrite IH; reflexivity.
Qed.
Lemma values_down os ad : ad_level ad = 0 -> values_of (pre ++ map up_occ os) ad = values_of pre ad.
Proof.
  intros E. unfold values_of. rewrite filter_app, map_app. replace (filter (fun o => addr_eqb ad (oc_addr o)) (map up_occ os)) with (@nil occ); [rewrite app_nil_r; reflexivity|].
  induction os as [|o os IH]; [reflexivity|]. cbn [map filter]. unfold addr_eqb at 1. rewrite E. exact IH.
Qed.
Lemma bad_up os : forall before, first_bad (pre ++ map up_occ before) (map up_occ os) = first_bad before os.
Proof.
  induction os as [|o os IH]; intros before; [reflexivity|]. cbn [map first_bad]. cbn [up_occ oc_arg oc_addr oc_val].
  unfold given at 1. rewrite values_up. fold (given before (oc_addr o)). destruct (occ_error (oc_arg o) (given before (oc_addr o)) (oc_val o)); [reflexivity|].
  rewrite <- IH, map_app, app_assoc. reflexivity.
Qed.
Lemma bad_app before l m : first_bad before l = None -> first_bad (V:=V) before (l ++ m) = first_bad (before ++ l) m.
Proof.
  revert before. induction l as [|o l IH]; intros before H; [rewrite app_nil_r; reflexivity|]. cbn [first_bad app] in *.
  destruct (occ_error (oc_arg o) (given before (oc_addr o)) (oc_val o)); [discriminate|]. rewrite (IH _ H), <- app_assoc. reflexivity.
Qed.
Lemma bad_app_Some before l m e : first_bad before l = Some e -> first_bad (V:=V) before (l ++ m) = Some e.
Proof.
  revert before. induction l as [|o l IH]; intros before H; [discriminate|]. cbn [first_bad app] in *.
  destruct (occ_error (oc_arg o) (given before (oc_addr o)) (oc_val o)); [exact H|]. apply IH. exact H.
Qed.

(** Two lists of occurrences that agree on a level. *)
Section Agree.
Variables (os os' : list occ) (level level' : nat).
Hypothesis Ha : forall path, values_of os (Addr level path) = values_of os' (Addr level' path).

Lemma agree_given path id : is_given os level path id = is_given os' level' path id.
Proof. unfold is_given, given, at_field. rewrite Ha. reflexivity. Qed.
Lemma agree_violation path d sub a : violation os level path d sub a = violation os' level' path d sub a.
Proof.
  unfold violation. cbn zeta. rewrite agree_given. destruct (is_given os' level' path (sa_id a)); [|reflexivity].
  replace (existsb (fun b => negb (beqb (sa_id b) (sa_id a)) && is_given os level path (sa_id b)) (own_args d))
    with (existsb (fun b => negb (beqb (sa_id b) (sa_id a)) && is_given os' level' path (sa_id b)) (own_args d))
    by (induction (own_args d) as [|b l IH]; [reflexivity|]; cbn [existsb]; rewrite IH, agree_given; reflexivity).
  replace (find (fun id => negb (is_given os level path id)) (am_requires (sa_meta a)))
    with (find (fun id => negb (is_given os' level' path id)) (am_requires (sa_meta a)))
    by (induction (am_requires (sa_meta a)) as [|b l IH]; [reflexivity|]; cbn [find]; rewrite IH, agree_given; reflexivity).
  replace (find (is_given os level path) (am_conflicts_with (sa_meta a))) with (find (is_given os' level' path) (am_conflicts_with (sa_meta a)))
    by (induction (am_conflicts_with (sa_meta a)) as [|b l IH]; [reflexivity|]; cbn [find]; rewrite IH, agree_given; reflexivity).
  reflexivity.
Qed.
Lemma agree_struct path d flats sub : finish_struct os level path d flats sub = finish_struct os' level' path d flats sub.
Proof.
  unfold finish_struct.
  replace (first_violation os level path d (is_some sub) (checked d)) with (first_violation os' level' path d (is_some sub) (checked d))
    by (induction (checked d) as [|a l IH]; [reflexivity|]; cbn [first_violation]; rewrite IH, agree_violation; reflexivity).
  replace (check_absent os level path (checked d)) with (check_absent os' level' path (checked d))
    by (induction (checked d) as [|a l IH]; [reflexivity|]; cbn [check_absent]; rewrite IH, agree_given; reflexivity).
  replace (direct_values os level path d) with (direct_values os' level' path d); [reflexivity|].
  unfold direct_values. apply flat_map_ext. intros a. unfold at_field. rewrite Ha. reflexivity.
Qed.
Lemma agree_args d : forall path sub, finish_args os level path d sub = finish_args os' level' path d sub.
Proof.
  induction d as [d IH _] using decl_induction. intros path sub. rewrite !finish_args_eq.
  replace (finish_flats os level path (flattened d) (Ok [])) with (finish_flats os' level' path (flattened d) (Ok [])).
  - destruct (finish_flats os' level' path (flattened d) (Ok [])); cbn [bind]; [apply agree_struct|reflexivity|reflexivity].
  - assert (G : forall l acc, (forall fx, In fx l -> In fx (flattened d)) -> finish_flats os' level' path l acc = finish_flats os level path l acc).
    { induction l as [|[id x] l IHl]; intros acc Hl; [reflexivity|]. unfold finish_flats in *. cbn [fold_left fst snd].
      rewrite (IH id x) by (apply in_flattened, Hl; left; reflexivity). apply IHl. intros fx Hx. apply Hl. right. exact Hx. }
    apply G. auto.
Qed.
End Agree.

Lemma up_finish os l : forall sub,
  finish_stack (pre ++ map up_occ os) (l ++ [sv; s0]) sub =
  let* o := finish_stack os (l ++ [bottom]) sub in
  finish_args (pre ++ map up_occ os) 0 [] (sc_decl s0) (Some (SubV (sc_ident sv) (if sc_unit sv then None else Some o))).
Proof.
  induction l as [|s l IH]; intros sub.
  - cbn [app finish_stack length].
    rewrite (agree_args (pre ++ map up_occ os) os 1 0 (fun path => values_up os (Addr 0 path))).
    cbn [bottom sc_decl]. destruct (finish_args os 0 [] (sc_decl sv) sub) as [o|e|q]; cbn [bind]; [|reflexivity|reflexivity].
    destruct (finish_args (pre ++ map up_occ os) 0 [] (sc_decl s0) (Some (SubV (sc_ident sv) (if sc_unit sv then None else Some o)))); reflexivity.
  - cbn [app finish_stack]. rewrite !app_length. cbn [length]. replace (length l + 2) with (S (length l + 1)) by lia.
    rewrite (agree_args (pre ++ map up_occ os) os (S (length l + 1)) (length l + 1) (fun path => values_up os (Addr _ path))).
    destruct (finish_args os (length l + 1) [] (sc_decl s) sub) as [o|e|q]; cbn [bind]; [|reflexivity|reflexivity].
    pose proof (IH (Some (SubV (sc_ident s) (if sc_unit s then None else Some o)))) as H. destruct l as [|s1 l]; exact H.
Qed.
End Above.

(** ** The result *)

Definition outer_of os d : res (list (ident * fval V) * list (ident * outval V) * ident) :=
  let* o := finish_args os 0 [] d (Some (SubV [] None)) in
  match o with Out l f (Some (c, _)) => Ok (l, f, c) | _ => Panic PShape end.
Lemma outer_finish os d sv c o vs : subcommand d = Some (c, o, vs) ->
  finish_args os 0 [] d (Some sv) = let* (l, f, c) := outer_of os d in Ok (Out l f (Some (c, Some sv))).
Proof.
  intros Hs. unfold outer_of. rewrite !finish_args_eq. destruct (finish_flats os 0 [] (flattened d) (Ok [])) as [fl|e|q]; cbn [bind]; [|reflexivity|reflexivity].
  unfold finish_struct. cbn [is_some]. rewrite Hs. destruct (first_violation os 0 [] d true (checked d)); [reflexivity|].
  destruct (check_absent os 0 [] (checked d)); [|reflexivity|reflexivity]. cbn [bind]. destruct o; reflexivity.
Qed.
Lemma known_zero d (o : occ) : known [Scope d [] false] o -> ad_level (oc_addr o) = 0.
Proof.
  unfold known. cbn [stack_args length]. rewrite app_nil_r. unfold scope_args. intros H. apply in_map_iff in H. destruct H as (pa & E & _).
  injection E as E _. rewrite <- E. reflexivity.
Qed.
Lemma command_scope (v : ident * variant_decl V) : sc_decl (variant_scope v) = command_of v.
Proof. destruct v as [id [at_|at_ x|x]]; reflexivity. Qed.

(** The pages of help. *)
Lemma names_cons s stk : stk <> [] -> command_names (s :: stk) = command_names stk ++ [kebab_case (sc_ident s)].
Proof. destruct stk; [intros H; elim H; reflexivity|reflexivity]. Qed.
Lemma names_above s0 v l :
  command_names (l ++ [variant_scope v; s0]) = sub_name v :: command_names (l ++ [bottom (variant_scope v)]).
Proof.
  induction l as [|s l IH]; [destruct v as [id [at_|at_ y|y]]; reflexivity|].
  change ((s :: l) ++ ?x) with (s :: l ++ x). rewrite !names_cons by (destruct l; discriminate). rewrite IH. reflexivity.
Qed.
Lemma page_parts d : exists before after, forall argv0 s r, sc_decl s = d ->
  help_text argv0 (s :: r) = before ++ bs "Usage: " ++ to_string_lossy (shown_name argv0) ++
    flat_map (fun n => bs " " ++ n) (command_names (s :: r)) ++ after.
Proof.
  exists (match about (attrs_of d) with [] => [] | t => t ++ [c_nl; c_nl] end).
  eexists. intros argv0 s r Hd. unfold help_text. rewrite Hd. clear Hd. generalize (command_names (s :: r)). intros l.
  generalize (to_string_lossy (shown_name argv0)). intros n.
  apply f_equal. change (bs "Usage: ") with (bs "Usage:" ++ bs " "). cbn [flat_map]. rewrite <- !(app_assoc (bs "Usage:")), <- !(app_assoc (bs " ")), <- (app_assoc n).
  do 4 apply f_equal. reflexivity.
Qed.
Lemma page_above argv0 argv0' s0 v stk : ends (variant_scope v) stk ->
  page_renamed (to_string_lossy (shown_name argv0)) (to_string_lossy (shown_name argv0') ++ bs " " ++ sub_name v)
    (mkError Help None None None [] (Some (help_text argv0 stk)))
    (mkError Help None None None [] (Some (help_text argv0' (above s0 (variant_scope v) stk)))).
Proof.
  intros He. destruct (above_head s0 (variant_scope v) stk He) as (s & r & s' & r' & Es & Es' & Ed). destruct He as (l & El).
  assert (Hn : command_names (above s0 (variant_scope v) stk) = sub_name v :: command_names stk) by (rewrite El, above_eq; apply names_above).
  rewrite Es' in Hn. rewrite Es', Es. rewrite Es in Hn. destruct (page_parts (sc_decl s')) as (before & after & H).
  rewrite (H argv0 s r Ed), (H argv0' s' r' eq_refl), Hn. cbn [flat_map].
  exists before, (flat_map (fun n => bs " " ++ n) (command_names (s :: r)) ++ after). split; [reflexivity|].
  rewrite <- !app_assoc. reflexivity.
Qed.

Theorem subcommand_alone d pre os rem v :
  valid d -> no_globals d -> at_option d pre os [Scope d [] false] rem -> no_error_in os -> has_variant d v ->
  valid (command_of v) /\ exists outer, forall argv0 argv0' rest,
    as_subcommand argv0' argv0 v outer (try_parse_from (command_of v) (argv0' :: rest)) (try_parse_from d (argv0 :: pre ++ sub_name v :: rest)).
Proof.
  intros Hval Hg Hat Hbad Hv. destruct (at_option_ok d pre os _ rem Hval Hat) as (Hok & _ & Hk & _).
  assert (Hz : Forall (fun o => ad_level (oc_addr o) = 0) os) by (eapply Forall_impl; [|exact Hk]; intros o; apply known_zero).
  destruct Hv as (c & o & vs & Es & Hv).
  assert (Hx : valid (command_of v)).
  { destruct Hval as [A D]. apply accepted_well_formed in A. rewrite <- command_scope. split.
    - apply accepted_well_formed. apply (wf_subcommand d c o vs); assumption.
    - apply (distinct_sub d c o vs D Es). exact Hv. }
  split; [exact Hx|]. exists (outer_of os d). intros argv0 argv0' rest.
  rewrite (refines d _ Hval), (refines _ _ Hx). unfold spec_parse, spec_parse_with. rewrite read_app, Hat. unfold then_read. cbn [fst snd read].
  assert (Hstep : step first_named (Normal [Scope d [] false] rem) (sub_name v) =
    ([], Go (Normal [variant_scope v; Scope d [] false] (positionals (command_of v))))).
  { cbn [step]. rewrite (proj2 (form_word _) (sub_name_word v)).
    rewrite (first_named_distinct [Scope d [] false] v); [rewrite command_scope; reflexivity| |].
    - constructor; [exact (proj2 Hval)|constructor].
    - cbn [sub_variants sc_decl]. rewrite Es. exact Hv. }
  rewrite Hstep.
  pose proof (up_reading (Scope d [] false) (variant_scope v) Hg rest (Normal [bottom (variant_scope v)] (positionals (command_of v)))) as Hr.
  cbn [up_state] in Hr. change (above (Scope d [] false) (variant_scope v) [bottom (variant_scope v)]) with [variant_scope v; Scope d [] false] in Hr.
  rewrite Hr by (exists []; reflexivity). clear Hr. unfold bottom. rewrite command_scope. change (Normal [Scope (command_of v) [] false] (positionals (command_of v))) with (start (command_of v)).
  destruct (read first_named (start (command_of v)) rest) as [os1 out] eqn:Er. unfold up_read. cbn [fst snd app].
  rewrite (bad_app [] os _ Hbad). cbn [app]. pose proof (bad_up os Hz os1 []) as Hb. cbn [map] in Hb. rewrite app_nil_r in Hb. rewrite Hb.
  destruct (first_bad [] os1); [left; reflexivity|].
  destruct out as [st|[e|stk]]; cbn [up_out].
  - assert (He : ends (variant_scope v) (state_stack st)).
    { assert (He0 : ends (variant_scope v) (state_stack (start (command_of v)))) by (exists []; unfold bottom; rewrite command_scope; reflexivity).
      revert Er He0. clear. generalize (start (command_of v)). revert os1. induction rest as [|t toks IH]; intros os1 st0 H Hn; cbn [read] in H.
      - injection H as _ <-. exact Hn.
      - destruct (step first_named st0 t) as [o1 out] eqn:E1. destruct out as [st1|]; [|discriminate].
        destruct (read first_named st1 toks) as [o2 out2] eqn:E2. injection H as _ ->. eapply IH; [exact E2|].
        destruct (step_stack _ _ _ _ _ E1) as [->|(w & Hw & ->)]; [exact Hn|apply ends_cons; exact Hn]. }
    assert (G : as_subcommand argv0' argv0 v (outer_of os d) (finish_stack os1 (state_stack st) None)
              (finish_stack (os ++ map up_occ os1) (above (Scope d [] false) (variant_scope v) (state_stack st)) None)).
    { destruct He as (l & ->). rewrite above_eq, (up_finish (Scope d [] false) (variant_scope v) os Hz). cbn [sc_decl].
      destruct (finish_stack os1 (l ++ [bottom (variant_scope v)]) None) as [x|e|q]; cbn [bind as_subcommand]; [|left; reflexivity|reflexivity].
      rewrite (agree_args (os ++ map up_occ os1) os 0 0 (fun path => values_down os os1 (Addr 0 path) eq_refl)).
      rewrite (outer_finish os d _ c o vs Es). unfold variant_value. destruct v as [id [at_|at_ y|y]]; reflexivity. }
    destruct st; cbn [up_state state_stack] in *; try exact G. left. reflexivity.
  - left. reflexivity.
  - right. apply page_above. destruct (read_help first_named first_named_in rest (start (command_of v)) os1 stk (start_ok _ (proj1 Hx)) Er) as (_ & inner & ->).
    exists inner. unfold bottom. rewrite command_scope. reflexivity.
Qed.
End Facts.
