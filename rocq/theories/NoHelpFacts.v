(** With and without the feature "help": the two parsers in lockstep. *)
From Coq Require Import Lia.
From Verif Require Import Bytes Utf8 Attrs Refl Error Values Places Help Runtime Heck Decl Derive Generated NoHelp.
From Verif Require Import BytesFacts Utf8Facts.
Local Open Scope list_scope.

(** An error that has nothing to do with help. *)
Definition ordinary (e : error) : Prop := e_kind e <> Help /\ e_help e = None.

Definition ordinary_errors {A} (x : res A) : Prop := match x with Err e => ordinary e | _ => True end.

(** [x] is the result with the feature, [y] the one without. *)
Definition but_help {A} (x y : res A) : Prop :=
  match x with
  | Ok _ | Panic _ => y = x
  | Err e =>
      ordinary e /\ y = x \/
      e_kind e = Help /\ exists i, In i [bs "-h"; bs "--help"] /\ y = Err (with_input UnknownNamedArgument i)
  end.

Lemma but_help_refl {A} (x : res A) : ordinary_errors x -> but_help x x.
Proof. destruct x; cbn; auto. Qed.

Lemma but_help_bind {A B} (x y : res A) (f g : A -> res B) :
  but_help x y -> (forall a, x = Ok a -> but_help (f a) (g a)) -> but_help (bind x f) (bind y g).
Proof.
  intros Hxy Hfg. destruct x as [a|e|p]; cbn in *.
  - subst y. cbn. apply Hfg. reflexivity.
  - destruct Hxy as [[Ho ->]|(Hk & i & Hi & ->)]; cbn; eauto.
  - subst y. reflexivity.
Qed.

Lemma ordinary_bind {A B} (x : res A) (f : A -> res B) :
  ordinary_errors x -> (forall a, ordinary_errors (f a)) -> ordinary_errors (bind x f).
Proof. intros Hx Hf. destruct x; cbn in *; auto. Qed.

Lemma ordinary_kind k i : k <> Help -> ordinary (with_input k i).
Proof. intros H. split; [exact H|reflexivity]. Qed.

Section Facts.
Context {V : Type}.

(** ** The parts that are the same *)
Lemma ordinary_vp (p : value_parser V) b : ordinary_errors (vp_parse p b).
Proof.
  destruct p; cbn; repeat match goal with |- context [match ?x with _ => _ end] => destruct x end;
    cbn; try exact I; split; cbn; congruence.
Qed.
Lemma ordinary_all (p : value_parser V) l : forall acc, ordinary_errors (parse_all p l acc).
Proof.
  induction l as [|b l IH]; intros acc; [exact I|]. cbn [parse_all].
  apply ordinary_bind; [apply ordinary_vp|]. intros v. apply IH.
Qed.
Lemma ordinary_from (pl : place V) v : ordinary_errors (parse_from pl v).
Proof.
  destruct pl; cbn [parse_from];
    repeat match goal with
    | |- ordinary_errors (bind _ _) => apply ordinary_bind; [apply ordinary_vp || apply ordinary_all|intros]
    | |- ordinary_errors (match ?x with _ => _ end) => destruct x
    end; cbn; try exact I; split; cbn; congruence.
Qed.
Lemma ordinary_search (ch : chain V) name : forall g, ordinary_errors (search_named ch name g).
Proof.
  induction ch as [|[f|c] ch IH]; intros g; cbn [search_named]; [exact I| |].
  - repeat match goal with
    | |- ordinary_errors (match ?x with _ => _ end) => destruct x
    end; cbn; try exact I; apply ordinary_bind; auto; intros; exact I.
  - apply ordinary_bind; auto. intros; exact I.
Qed.
Lemma ordinary_named_value a iv it : ordinary_errors (named_value a iv it).
Proof.
  unfold named_value. repeat match goal with
    | |- ordinary_errors (match ?x with _ => _ end) => destruct x
    end; cbn; try exact I; split; cbn; congruence.
Qed.
Lemma ordinary_head (ch : chain V) : ordinary_errors (head_frame ch).
Proof. destruct ch as [|[f|c] ch]; exact I. Qed.
Lemma ordinary_drain it : forall pl : place V, ordinary_errors (greedy_drain pl it).
Proof.
  induction it as [|a it IH]; intros pl; [exact I|]. cbn [greedy_drain].
  apply ordinary_bind; [apply ordinary_from|]. intros. apply IH.
Qed.
Lemma ordinary_positional (ch : chain V) l arg it : ordinary_errors (visit_positional ch l arg it).
Proof.
  unfold visit_positional. apply ordinary_bind; [apply ordinary_head|]. intros [f parents].
  destruct (match nth_error _ _ with Some a => _ | None => _ end) as [a|].
  - apply ordinary_bind.
    { destruct (contains a VAR_ARG); [exact I|]. unfold incr_u8. destruct (_ <? _)%N; exact I. }
    intros np. destruct (nth_error _ _); [|exact I].
    apply ordinary_bind; [apply ordinary_from|]. intros pl. apply ordinary_bind.
    { destruct (contains a GREEDY); [|exact I]. apply ordinary_bind; [apply ordinary_drain|]. intros; exact I. }
    intros [pl2 it2]. exact I.
  - destruct (ri_subcmd_info _); split; cbn; congruence.
Qed.
Lemma ordinary_positionals fuel : forall (ch : chain V) it, ordinary_errors (positional_loop fuel ch it).
Proof.
  induction fuel as [|fuel IH]; intros ch [|arg it]; try exact I. cbn [positional_loop].
  apply ordinary_bind; [apply ordinary_positional|]. intros [ch2 it2]. apply IH.
Qed.
Lemma ordinary_jump (ch : chain V) : ordinary_errors (jump_to_last ch).
Proof.
  unfold jump_to_last. apply ordinary_bind; [apply ordinary_head|]. intros [f parents].
  destruct (ri_positional_attrs _); [exact I|]. destruct (contains _ _); [|exact I].
  destruct (_ =? _)%N; exact I.
Qed.

Lemma ordinary_arg_idx k info i : k <> Help -> ordinary (with_arg_idx k info i).
Proof. intros H. split; [exact H|reflexivity]. Qed.

Lemma ordinary_finish (a : args_impl V) pls sub flats : ordinary_errors (validate_finish a pls sub flats).
Proof.
  unfold validate_finish. apply ordinary_bind.
  { destruct (existsb _ _); [|exact I]. unfold total_args. destruct (_ <=? _)%N; exact I. }
  intros total. apply ordinary_bind.
  { induction (ai_direct a) as [|f fs IH]; [exact I|]. cbn [on_set_checks]. apply ordinary_bind; [|intros; exact IH].
    unfold on_set_check. repeat match goal with
      | |- ordinary_errors (match ?x with _ => _ end) => destruct x
      end; try exact I; apply ordinary_arg_idx; discriminate. }
  intros _. apply ordinary_bind.
  { revert pls. induction (ai_direct a) as [|f fs IH]; intros [|pl pls]; try exact I. cbn [on_unset_all].
    apply ordinary_bind.
    - unfold on_unset. destruct (is_set pl) eqn:Es; [exact I|]. destruct (fi_default f) as [[s|d ?]|].
      + unfold set_default_parse. rewrite Es. destruct (parse_from _ _); exact I.
      + unfold set_default. destruct pl, d; exact I.
      + destruct (fi_required f); [|exact I]. apply ordinary_arg_idx; discriminate.
    - intros pl2. apply ordinary_bind; [apply IH|]. intros; exact I. }
  intros pls2. apply ordinary_bind.
  { destruct (ai_sub a) as [[[? []] ?]|], sub; try exact I. split; cbn; congruence. }
  intros _. apply ordinary_bind.
  { generalize pls2. induction (ai_direct a) as [|f fs IH]; intros [|pl pls3]; try exact I. cbn [assert_set].
    destruct (_ && _); [exact I|apply IH]. }
  intros _. apply ordinary_bind; [|intros; exact I].
  generalize pls2. induction (ai_direct a) as [|f fs IH]; intros [|pl pls3]; try exact I. cbn [extract_all].
  apply ordinary_bind.
  - unfold extractor. repeat match goal with
      | |- ordinary_errors (match ?x with _ => _ end) => destruct x
      end; exact I.
  - intros v. apply ordinary_bind; [apply IH|]. intros; exact I.
Qed.

(** ** Named arguments *)

(** The names looked up: a character or rest of a bundle, or a word with two
    dashes. *)
Definition proper_name (is_short : bool) (name : bytes) : Prop :=
  if is_short then name <> bs "--help" else name <> bs "h".

Lemma named_but_help (ch : chain V) s name iv it : proper_name s name ->
  but_help (visit_named ch s name iv it) (nh_visit_named ch s name iv it).
Proof.
  intros Hn. unfold visit_named, nh_visit_named.
  apply but_help_bind; [apply but_help_refl, ordinary_search|].
  intros [[[[pos pl] info] a]|] _.
  - set (ret := bind _ _).
    assert (Hr : ordinary_errors ret).
    { apply ordinary_bind; [apply ordinary_named_value|]. intros [v it2].
      apply ordinary_bind; [apply ordinary_from|]. intros; exact I. }
    destruct ret as [[pl2 it2]|e|p]; try reflexivity. cbn in Hr. destruct Hr as [Hk Hh].
    unfold nh_maybe_render_help. left.
    assert (Ho : ordinary (with_arg_desc e (get_description info (get_index a)))) by (split; assumption).
    assert (Em : maybe_render_help (with_arg_desc e (get_description info (get_index a))) ch
                 = with_arg_desc e (get_description info (get_index a))).
    { unfold maybe_render_help. destruct Ho as [Hk' _].
      destruct (e_kind (with_arg_desc e _)); try reflexivity. congruence. }
    rewrite Em. auto.
  - unfold unknown_named, nh_unknown_named.
    destruct (beqb name (bs "h")) eqn:Eh; [apply beqb_eq in Eh; subst name|
      destruct (beqb name (bs "--help")) eqn:El; [apply beqb_eq in El; subst name|]].
    + cbn [orb]. right. destruct s; [|exfalso; exact (Hn eq_refl)]. split.
      * unfold maybe_render_help. cbn. destruct ch as [|[f|c] ch]; reflexivity.
      * exists (bs "-h"). split; [left; reflexivity|reflexivity].
    + cbn [orb]. right. destruct s; [exfalso; exact (Hn eq_refl)|]. split.
      * unfold maybe_render_help. cbn. destruct ch as [|[f|c] ch]; reflexivity.
      * exists (bs "--help"). split; [right; left; reflexivity|reflexivity].
    + cbn [orb]. left. split; [|reflexivity]. apply ordinary_kind. discriminate.
Qed.

Lemma char_proper c : is_scalar c = true -> proper_name true (utf8_encode c).
Proof.
  intros Hc E. assert (H := decode1_complete c [] Hc). rewrite app_nil_r, E in H. vm_compute in H. discriminate.
Qed.

Lemma bundle_but_help cs : forallb is_scalar cs = true -> forall (ch : chain V) it b off,
  but_help (bundle_loop ch it b off cs) (nh_bundle_loop ch it b off cs).
Proof.
  induction cs as [|c cs IH]; intros Hcs ch it b off; [reflexivity|].
  cbn [forallb] in Hcs. apply andb_true_iff in Hcs. destruct Hcs as [Hc Hcs].
  cbn [bundle_loop nh_bundle_loop]. apply but_help_bind; [apply named_but_help, char_proper, Hc|].
  intros [[ch2 it2] [|]] _; [reflexivity|]. apply IH. exact Hcs.
Qed.

Lemma visit_bundle_but_help (ch : chain V) it b :
  but_help (visit_bundle ch it b) (nh_visit_bundle ch it b).
Proof.
  unfold visit_bundle, nh_visit_bundle. destruct (utf8_prefix b) as [cs r] eqn:E.
  apply utf8_prefix_spec in E. destruct E as (_ & Hcs & Hr).
  apply but_help_bind; [apply bundle_but_help, Hcs|].
  intros [[ch2 it2] [|]] _; [reflexivity|]. destruct r as [|x r]; [reflexivity|].
  assert (Hn : proper_name true (x :: r)).
  { intros Ex. rewrite Ex in Hr. vm_compute in Hr. discriminate. }
  assert (H := named_but_help ch2 true (x :: r) IVNone it2 Hn).
  destruct (visit_named ch2 true (x :: r) IVNone it2) as [a|e|p]; cbn in H.
  - rewrite H. reflexivity.
  - destruct H as [[Ho ->]|(Hk & i & Hi & ->)]; [left; split; [exact Ho|reflexivity]|].
    right. split; [exact Hk|]. exists i. split; [exact Hi|reflexivity].
  - rewrite H. reflexivity.
Qed.

Lemma starts_dashes arg : starts_with [c_dash; c_dash] arg = true -> exists r, arg = c_dash :: c_dash :: r.
Proof. intros H. apply starts_with_true in H. exact H. Qed.

Lemma visit_long_but_help (ch : chain V) it arg : starts_with [c_dash; c_dash] arg = true ->
  but_help (visit_long ch it arg) (nh_visit_long ch it arg).
Proof.
  intros Hs. apply starts_dashes in Hs. destruct Hs as [r ->].
  unfold visit_long, nh_visit_long.
  destruct (split_once c_eq (c_dash :: c_dash :: r)) as [[n v]|] eqn:E.
  - apply but_help_bind; [|intros [[ch2 it2] b] _; reflexivity].
    apply named_but_help. cbn. intros ->. apply split_once_Some in E. destruct E as [E _]. discriminate E.
  - apply but_help_bind; [|intros [[ch2 it2] b] _; reflexivity].
    apply named_but_help. cbn. discriminate.
Qed.

(** ** The loop *)
Definition subs_but_help {S} (p q : option (subparser (V:=V) (S:=S))) : Prop :=
  match p, q with
  | Some p, Some q => forall idx ch it, but_help (p idx ch it) (q idx ch it)
  | None, None => True
  | _, _ => False
  end.

Lemma loop_but_help {S} (p q : option (subparser (V:=V) (S:=S))) : subs_but_help p q ->
  forall fuel ch it, but_help (run_loop fuel p ch it) (nh_run_loop fuel q ch it).
Proof.
  intros Hpq. induction fuel as [|fuel IH]; intros ch [|arg it]; try reflexivity.
  cbn [run_loop nh_run_loop]. destruct (beqb arg [c_dash; c_dash]).
  { apply but_help_bind; [apply but_help_refl, ordinary_jump|]. intros ch2 _.
    apply but_help_bind; [apply but_help_refl, ordinary_positionals|]. intros; reflexivity. }
  destruct (starts_with [c_dash; c_dash] arg) eqn:Es.
  { apply but_help_bind; [apply visit_long_but_help, Es|]. intros [ch2 it2] _. apply IH. }
  destruct (as_bundle arg) as [b|].
  { apply but_help_bind; [apply visit_bundle_but_help|]. intros [ch2 it2] _. apply IH. }
  apply but_help_bind; [apply but_help_refl, ordinary_head|]. intros [f parents] _.
  assert (Hm : match match_subcommand p f arg, match_subcommand q f arg with
               | Some (p', n, i), Some (q', n', i') =>
                   n = n' /\ i = i' /\ forall idx ch it, but_help (p' idx ch it) (q' idx ch it)
               | None, None => True
               | _, _ => False
               end).
  { unfold match_subcommand. destruct p as [p|], q as [q|]; cbn in Hpq; try contradiction; [|exact I].
    destruct (ri_subcmd_info _) as [si|]; [|exact I]. destruct (sub_search si arg) as [[n i]|]; [|exact I]. auto. }
  destruct (match_subcommand p f arg) as [[[p' n] i]|], (match_subcommand q f arg) as [[[q' n'] i']|]; try contradiction.
  - destruct Hm as (<- & <- & Hm). apply but_help_bind; [apply Hm|]. intros [[ch2 s] it2] _.
    destruct ch2 as [|[g|c] ch2]; reflexivity.
  - apply but_help_bind; [apply but_help_refl, ordinary_positional|]. intros [ch2 it2] _. apply IH.
Qed.

(** ** The generated code *)
Definition runs_but_help {R} (r1 r2 : run (V:=V) R) : Prop :=
  forall p q ch it, subs_but_help p q -> but_help (r1 p ch it) (r2 q ch it).

Lemma raw_runs : runs_but_help (raw_run (V:=V)) nh_raw_run.
Proof.
  intros p q ch it H. unfold raw_run, nh_raw_run, run_parser, nh_run_parser.
  apply but_help_bind; [apply loop_but_help, H|]. intros [[ch2 s] it2] _. reflexivity.
Qed.

Definition args_ok (a : args_impl V) : Prop := forall R (r1 r2 : run R) ch it,
  runs_but_help r1 r2 -> but_help (args_parse a R r1 ch it) (nh_args_parse a R r2 ch it).
Definition sub_ok (s : sub_impl V) : Prop := forall idx ch it,
  but_help (sub_parse s idx ch it) (nh_sub_parse s idx ch it).
Definition variant_ok (v : variant V) : Prop := forall id ch it,
  but_help (variant_parse v id ch it) (nh_variant_parse v id ch it).

Definition sub_place_ok (o : option (ident * bool * sub_impl V)) : Prop :=
  match o with Some x => sub_ok (snd x) | None => True end.

Lemma args_eq direct n flat sub meta R (r : run R) ch it :
  args_parse (MkArgs direct n flat sub meta) R r ch it =
  let a0 := MkArgs direct n flat sub meta in
  let* (ch, it, (outs, (f, s, r))) :=
    fold_left (fun inner (fa : ident * args_impl V) => let '(id, fa) := fa in wrap_flat (args_parse fa) id inner) flat
      (fun ch it =>
         let* (ch, s, it, r) := r (match sub with Some (_, _, s) => Some (sub_parse s) | None => None end) (AF (frame0 a0) :: ch) it in
         let* (f, ch) := pop_frame ch in
         Ok (ch, it, ([], (f, s, r)))) ch it in
  let* out := validate_finish a0 (af_fields f) s outs in Ok (out, ch, it, r).
Proof. reflexivity. Qed.
Lemma nh_args_eq direct n flat sub meta R (r : run R) ch it :
  nh_args_parse (MkArgs direct n flat sub meta) R r ch it =
  let a0 := MkArgs direct n flat sub meta in
  let* (ch, it, (outs, (f, s, r))) :=
    fold_left (fun inner (fa : ident * args_impl V) => let '(id, fa) := fa in wrap_flat (nh_args_parse fa) id inner) flat
      (fun ch it =>
         let* (ch, s, it, r) := r (match sub with Some (_, _, s) => Some (nh_sub_parse s) | None => None end) (AF (frame0 a0) :: ch) it in
         let* (f, ch) := pop_frame ch in
         Ok (ch, it, ([], (f, s, r)))) ch it in
  let* out := validate_finish a0 (af_fields f) s outs in Ok (out, ch, it, r).
Proof. reflexivity. Qed.

Lemma flats_step {X} flat : Forall (fun fa => args_ok (snd fa)) flat ->
  forall m1 m2 : chain V -> iter -> res (chain V * iter * (list (ident * outval V) * X)),
  (forall ch it, but_help (m1 ch it) (m2 ch it)) -> forall ch it,
  but_help
    (fold_left (fun inner (fa : ident * args_impl V) => let '(id, fa) := fa in wrap_flat (args_parse fa) id inner) flat m1 ch it)
    (fold_left (fun inner (fa : ident * args_impl V) => let '(id, fa) := fa in wrap_flat (nh_args_parse fa) id inner) flat m2 ch it).
Proof.
  intros Hflat. induction Hflat as [|[id fa] flat Hfa Hflat IH]; intros m1 m2 Hm ch it; cbn [fold_left]; [apply Hm|].
  apply IH. intros ch2 it2. unfold wrap_flat. apply but_help_bind.
  - apply Hfa. intros p q ch3 it3 _. apply but_help_bind; [apply Hm|]. intros [[ch4 it4] x] _. reflexivity.
  - intros [[[out ch3] it3] [outs x]] _. reflexivity.
Qed.

Lemma args_step direct n flat sub meta :
  Forall (fun fa => args_ok (snd fa)) flat ->
  sub_place_ok sub ->
  args_ok (MkArgs direct n flat sub meta).
Proof.
  intros Hflat Hsub R r1 r2 ch it Hr. rewrite args_eq, nh_args_eq. cbv zeta.
  apply but_help_bind.
  - apply flats_step; [exact Hflat|]. intros ch2 it2. apply but_help_bind.
    + apply Hr. destruct sub as [[[? ?] s]|]; cbn; [exact Hsub|exact I].
    + intros [[[ch3 s] it3] x] _. apply but_help_bind; [apply but_help_refl, ordinary_head|]. intros [f ch4] _. reflexivity.
  - intros [[ch2 it2] [outs [[f s] r]]] _.
    apply but_help_bind; [apply but_help_refl, ordinary_finish|]. intros; reflexivity.
Qed.

Lemma sub_step vs : Forall (fun v => variant_ok (snd v)) vs -> sub_ok (MkSub vs).
Proof.
  intros H idx ch it.
  change (but_help
    (match nth_error (map (fun (v : ident * variant V) => let '(id, v) := v in variant_parse v id) vs) idx with
     | Some p => p ch it | None => Panic PUnreachable end)
    (match nth_error (map (fun (v : ident * variant V) => let '(id, v) := v in nh_variant_parse v id) vs) idx with
     | Some p => p ch it | None => Panic PUnreachable end)).
  rewrite !nth_error_map. destruct (nth_error vs idx) as [[id v]|] eqn:E; cbn [option_map]; [|reflexivity].
  apply nth_error_In in E. rewrite Forall_forall in H. exact (H _ E id ch it).
Qed.

Lemma variant_unit meta : variant_ok (VUnit meta).
Proof.
  intros id ch it. cbn [variant_parse nh_variant_parse].
  apply but_help_bind; [apply raw_runs; exact I|]. intros [[[ch2 s] it2] x] _.
  apply but_help_bind; [apply but_help_refl, ordinary_head|]. intros [f ch3] _. reflexivity.
Qed.
Lemma variant_args v a : (v = VNewtype a \/ v = VStruct a) -> args_ok a -> variant_ok v.
Proof.
  intros [-> | ->] Ha id ch it; 
  change (but_help
    (let* (out, ch, it, _) := args_parse a unit raw_run ch it in Ok (ch, SubV id (Some out), it))
    (let* (out, ch, it, _) := nh_args_parse a unit nh_raw_run ch it in Ok (ch, SubV id (Some out), it)));
  (apply but_help_bind; [apply Ha, raw_runs|]; intros [[[out ch2] it2] x] _; reflexivity).
Qed.

Fixpoint args_but_help (a : args_impl V) : args_ok a :=
  match a with
  | MkArgs direct n flat sub meta =>
      args_step direct n flat sub meta
        ((fix go (l : list (ident * args_impl V)) : Forall (fun fa => args_ok (snd fa)) l :=
            match l with
            | [] => Forall_nil _
            | (id, fa) :: l => Forall_cons (id, fa) (args_but_help fa) (go l)
            end) flat)
        (match sub as o return sub_place_ok o with
         | Some (_, s) => sub_but_help s
         | None => I
         end)
  end
with sub_but_help (s : sub_impl V) : sub_ok s :=
  match s with
  | MkSub vs =>
      sub_step vs
        ((fix go (l : list (ident * variant V)) : Forall (fun v => variant_ok (snd v)) l :=
            match l with
            | [] => Forall_nil _
            | (id, v) :: l => Forall_cons (id, v) (variant_but_help v) (go l)
            end) vs)
  end
with variant_but_help (v : variant V) : variant_ok v :=
  match v with
  | VUnit meta => variant_unit meta
  | VNewtype a => variant_args (VNewtype a) a (or_introl eq_refl) (args_but_help a)
  | VStruct a => variant_args (VStruct a) a (or_intror eq_refl) (args_but_help a)
  end.

Lemma lockstep (d : args_decl V) argv : but_help (try_parse_from d argv) (try_parse_without_help d argv).
Proof.
  unfold try_parse_from, try_parse_impl, try_parse_without_help. destruct argv as [|arg0 it].
  - left. split; [|reflexivity]. split; cbn; congruence.
  - unfold run_struct_parser. apply but_help_bind; [apply args_but_help, raw_runs|].
    intros [[[out ch2] it2] x] _. reflexivity.
Qed.

(** ** For the properties *)
Lemma same_without_help (d : args_decl V) argv :
  (forall e, try_parse_from d argv = Err e -> e_kind e <> Help) ->
  try_parse_without_help d argv = try_parse_from d argv.
Proof.
  intros H. assert (L := lockstep d argv). destruct (try_parse_from d argv) as [o|e|p]; cbn in L; auto.
  destruct L as [[_ L]|[Hk _]]; [exact L|]. exfalso. exact (H e eq_refl Hk).
Qed.
Lemma help_is_unknown (d : args_decl V) argv e :
  try_parse_from d argv = Err e -> e_kind e = Help ->
  exists i, In i [bs "-h"; bs "--help"] /\ try_parse_without_help d argv = Err (with_input UnknownNamedArgument i).
Proof.
  intros E Hk. assert (L := lockstep d argv). rewrite E in L. destruct L as [[[Hn _] _]|[_ L]]; [contradiction|exact L].
Qed.
Lemma no_help_at_all (d : args_decl V) argv e :
  try_parse_without_help d argv = Err e -> e_kind e <> Help /\ try_into_help e = None.
Proof.
  intros E. assert (L := lockstep d argv).
  assert (Ho : ordinary e).
  { destruct (try_parse_from d argv) as [o|e'|p]; cbn in L; rewrite E in L; try discriminate.
    destruct L as [[Ho L]|(_ & i & _ & L)].
    - injection L as ->. exact Ho.
    - injection L as ->. apply ordinary_kind. discriminate. }
  destruct Ho as [Hk Hh]. split; [exact Hk|exact Hh].
Qed.
End Facts.
