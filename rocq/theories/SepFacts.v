(** [--] before words: proofs. *)
From Verif Require Import Bytes BytesFacts Utf8 Utf8Facts Attrs AttrFacts Refl Error Values SortFacts
  Places Help Runtime Heck HeckFacts Decl Spec Derive Generated Observe CompileFacts InfoFacts TableFacts PlaceFacts
  ScopeFacts NamedFacts WordFacts FinishFacts ReadFacts SimFacts HelpFacts Refine ContextFacts SafeFacts
  FieldFacts ResultFacts ValueFacts OptionFacts SameFacts WriteFacts Grammar GrammarFacts PositionalFacts
  EnumDerive Parts WellFormed.

Section Facts.
Context {V : Type}.
Local Notation args_decl := (args_decl V).
Local Notation sarg := (sarg V).
Local Notation scope := (scope V).
Local Notation occ := (occ V).
Implicit Types (d : args_decl) (a p : sarg) (s : scope) (stk outer : list scope) (os : list occ) (rem : list sarg).

Definition alike (x y : list occ * outcome V) : Prop :=
  fst x = fst y /\
  match snd x, snd y with
  | Stop s1, Stop s2 => s1 = s2
  | Go (Normal stk _ | Verbatim stk _ | Drain stk _), Go (Normal stk' _ | Verbatim stk' _ | Drain stk' _) => stk = stk'
  | _, _ => False
  end.
Lemma alike_conclude argv0 x y : alike x y -> conclude argv0 x = conclude argv0 y.
Proof.
  destruct x as [os out], y as [os' out']. intros [E H]. cbn [fst snd] in *. subst os'. unfold conclude.
  destruct (first_bad [] os); [reflexivity|]. destruct out as [st|sp], out' as [st'|sp']; try contradiction.
  - destruct st, st'; try contradiction; cbn [state_stack]; subst; reflexivity.
  - destruct st; contradiction.
  - subst. reflexivity.
Qed.
Lemma alike_refl_drain stk p ws : alike (read first_named (Drain stk p) ws) (read first_named (Drain stk p) ws).
Proof.
  induction ws as [|w ws IH]; [split; reflexivity|]. cbn [read step]. unfold alike in *.
  destruct (read first_named (Drain stk p) ws) as [os out]. cbn [fst snd] in *. split; [reflexivity|]. exact (proj2 IH).
Qed.

Lemma sep_alike stk ws : Forall (fun w => word w /\ no_subcommand stk w) ws -> forall rem,
  Forall (fun p => is_last p = false) rem -> alike (read first_named (Normal stk rem) ws) (read first_named (Verbatim stk rem) ws).
Proof.
  induction 1 as [|w ws [Hw Hs] F IH]; intros rem Hr; [split; reflexivity|]. cbn [read step].
  apply form_word in Hw. rewrite Hw.
  replace (first_named (sub_variants stk) w) with (None (A := ident * variant_decl V)).
  2: { symmetry. unfold first_named. destruct (find (fun v => beqb (sub_name v) w) (sub_variants stk)) as [v|] eqn:E; [|reflexivity].
       apply find_some in E. destruct E as [Hi E]. apply beqb_eq in E. elim Hs. rewrite <- E. apply in_map. exact Hi. }
  unfold take_word. destruct rem as [|p rem]; [split; reflexivity|]. inversion Hr as [|? ? Hp Hr1]; subst. rewrite Hp. cbn [orb negb].
  destruct (greedy p).
  - pose proof (alike_refl_drain stk p ws) as K. unfold alike in *. destruct (read first_named (Drain stk p) ws) as [os out]. cbn [fst snd] in *.
    split; [reflexivity|exact (proj2 K)].
  - assert (Hr2 : Forall (fun p => is_last p = false) (if many p then p :: rem else rem)) by (destruct (many p); assumption).
    specialize (IH _ Hr2). unfold alike in *. destruct (read first_named (Normal stk _) ws) as [os1 out1], (read first_named (Verbatim stk _) ws) as [os2 out2].
    cbn [fst snd] in *. destruct IH as [-> IH]. split; [reflexivity|exact IH].
Qed.

Lemma read_sep stk rem ws : read first_named (Normal stk rem) (bs "--" :: ws) = read first_named (Verbatim stk (after_sep stk rem)) ws.
Proof.
  cbn [read step]. change (form_of (bs "--")) with FSep. cbn iota beta.
  destruct (read first_named (Verbatim stk (after_sep stk rem)) ws). reflexivity.
Qed.

Lemma read_at d pre os stk rem ws : at_option d pre os stk rem ->
  read first_named (start d) (pre ++ ws) = (os ++ fst (read first_named (Normal stk rem) ws), snd (read first_named (Normal stk rem) ws)).
Proof. intros H. rewrite read_app. unfold at_option in H. rewrite H. unfold then_read. cbn [fst snd]. destruct (read first_named (Normal stk rem) ws). reflexivity. Qed.

Lemma alike_app os x y : alike x y -> alike (os ++ fst x, snd x) (os ++ fst y, snd y).
Proof. intros [E H]. split; [cbn [fst]; rewrite E; reflexivity|exact H]. Qed.

Theorem sep_inserted d (argv0 : bytes) pre os stk rem ws : valid d -> at_option d pre os stk rem ->
  match stk with s :: _ => last_positionals (sc_decl s) = [] | [] => True end ->
  Forall (fun w => word w /\ no_subcommand stk w) ws ->
  try_parse_from d (argv0 :: pre ++ bs "--" :: ws) = try_parse_from d (argv0 :: pre ++ ws).
Proof.
  intros Hd H Hl F. rewrite !parse_conclude by exact Hd. symmetry. apply alike_conclude. rewrite !(read_at _ _ _ _ _ _ H), read_sep.
  apply alike_app. destruct (at_option_ok _ _ _ _ _ Hd H) as (_ & Hrem & _). unfold rem_ok in Hrem. destruct stk as [|s outer]; [contradiction|].
  assert (Hnl : forall p, In p (positionals (sc_decl s)) -> is_last p = false).
  { intros p Hp. destruct (is_last p) eqn:E; [|reflexivity]. exfalso. unfold positionals in Hp.
    assert (Hp' : is_option p = false /\ In p (own_args (sc_decl s))).
    { apply in_app_iff in Hp. destruct Hp as [Hp|Hp]; apply filter_In in Hp; destruct Hp as [Hp _]; apply filter_In in Hp;
        destruct Hp as [Hp Ho]; split; try exact Hp; apply negb_true_iff; exact Ho. }
    destruct Hp' as [Ho Hi]. assert (K : In p (last_positionals (sc_decl s))) by (apply filter_In; rewrite Ho, E; split; [exact Hi|reflexivity]).
    rewrite Hl in K. destruct K. }
  assert (Ea : after_sep (s :: outer) rem = rem).
  { unfold after_sep. destruct (filter is_last (positionals (sc_decl s))) as [|p l] eqn:E; [reflexivity|].
    assert (K : In p (filter is_last (positionals (sc_decl s)))) by (rewrite E; left; reflexivity). apply filter_In in K.
    destruct K as [K1 K2]. rewrite (Hnl p K1) in K2. discriminate. }
  rewrite Ea. apply sep_alike; [exact F|]. apply Forall_forall. intros p Hp. apply Hnl, Hrem, Hp.
Qed.

Theorem sep_at_end d (argv0 : bytes) pre os stk rem : valid d -> at_option d pre os stk rem ->
  try_parse_from d (argv0 :: pre ++ [bs "--"]) = try_parse_from d (argv0 :: pre).
Proof.
  intros Hd H. rewrite !parse_conclude by exact Hd. symmetry. apply alike_conclude. rewrite <- (app_nil_r pre) at 1.
  rewrite !(read_at _ _ _ _ _ _ H), read_sep. apply alike_app. split; reflexivity.
Qed.
End Facts.
