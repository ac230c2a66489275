(** From the reader of the specification to the results of the parser. *)
From Verif Require Import Bytes BytesFacts Utf8 Utf8Facts Error Values SortFacts
  Places Help Heck Decl Spec Derive Generated Observe Grammar Outcome TableFacts
  ScopeFacts NamedFacts WordFacts FinishFacts ReadFacts SimFacts Refine ContextFacts SafeFacts FieldFacts
  ResultFacts OptionFacts ValueFacts WriteFacts GrammarFacts PositionalFacts WordValueFacts Refl Parts PartsFacts NameFacts PackFacts WellFormed WellFormedFacts.

Section Shows.
Context {V : Type}.
Local Notation args_decl := (args_decl V).
Local Notation sarg := (sarg V).
Local Notation scope := (scope V).
Local Notation occ := (occ V).
Implicit Types (d : args_decl) (a p : sarg) (s : scope) (stk : list scope) (os : list occ) (o : outval V)
  (toks pre post ws : list bytes) (w : bytes).

Theorem reads_shows d toks os stk : valid d -> reads d toks os stk -> shows d toks os stk.
Proof.
  intros Hd Hr argv0. destruct (first_bad [] os) as [e|] eqn:Eb.
  - rewrite parse_conclude by exact Hd. destruct Hr as (st & -> & _). unfold conclude. rewrite Eb. reflexivity.
  - destruct (try_parse_from d (argv0 :: toks)) as [o|e|q] eqn:E.
    + destruct (success_reads _ _ _ _ _ _ Hd E Hr) as (_ & Hs & Hf & He). split; [exact Hs|]. split; [|exact He].
      intros ad a Hi. exact (proj1 (Hf ad a Hi)).
    + intros Hdf Hs. destruct (proj2 (success_iff d argv0 toks Hd Hdf)) as [o Ho]; [exists os, stk; auto|]. congruence.
    + exact (proj2 (only_default_panics d _ q (proj1 Hd) E)).
Qed.

Lemma at_reads d pre os stk rem : at_option d pre os stk rem -> reads d pre os stk.
Proof. intros H. exists (Normal stk rem). split; [exact H|]. split; [exact I|reflexivity]. Qed.
Theorem at_shows d pre os stk rem : valid d -> at_option d pre os stk rem -> shows d pre os stk.
Proof. intros Hd H. exact (reads_shows _ _ _ _ Hd (at_reads _ _ _ _ _ H)). Qed.
Lemma at_both d pre os stk rem : valid d -> at_option d pre os stk rem -> at_option d pre os stk rem /\ shows d pre os stk.
Proof. intros Hd H. split; [exact H|exact (at_shows _ _ _ _ _ Hd H)]. Qed.
Lemma reads_both d toks os stk : valid d -> reads d toks os stk -> reads d toks os stk /\ shows d toks os stk.
Proof. intros Hd H. split; [exact H|exact (reads_shows _ _ _ _ Hd H)]. Qed.

(** A successful parse reads its tokens. *)
Lemma success_holds d (argv0 : bytes) toks o : valid d -> try_parse_from d (argv0 :: toks) = Ok o ->
  exists os stk, reads d toks os stk /\ holds o os stk.
Proof.
  intros Hd H. destruct (success _ _ _ _ Hd H) as (os & stk & Hr & _ & _ & Hf & He). exists os, stk.
  split; [exact Hr|]. split; [|exact He]. intros ad a Hi. exact (proj1 (Hf ad a Hi)).
Qed.

(** ** Words *)

Theorem sep_fields d (argv0 : bytes) pre os stk rem ws o : valid d -> at_option d pre os stk rem ->
  try_parse_from d (argv0 :: pre ++ bs "--" :: ws) = Ok o ->
  exists os', length os' = length ws /\
  (forall k w, nth_error ws k = Some w ->
     exists p, next_verbatim stk os k = Some p /\ nth_error os' k = Some (word_occ stk p w)) /\
  holds o (os ++ os') stk.
Proof.
  intros Hd Ha H. destruct (success_holds _ _ _ _ Hd H) as (os2 & stk2 & Hr & Hh).
  destruct (sep_words _ _ _ _ _ _ _ _ Hd Ha Hr) as (-> & os' & -> & Hl & Hk). exists os'. auto.
Qed.

Theorem sep_shows d pre os stk rem ws : valid d -> at_option d pre os stk rem ->
  (forall k, k < length ws -> next_verbatim stk os k <> None) ->
  exists os', length os' = length ws /\
  (forall k w, nth_error ws k = Some w ->
     exists p, next_verbatim stk os k = Some p /\ nth_error os' k = Some (word_occ stk p w)) /\
  reads d (pre ++ bs "--" :: ws) (os ++ os') stk /\ shows d (pre ++ bs "--" :: ws) (os ++ os') stk.
Proof.
  intros Hd Ha Hk. destruct (sep_reads _ _ _ _ _ _ Hd Ha Hk) as (os' & Hr).
  destruct (sep_words _ _ _ _ _ _ _ _ Hd Ha Hr) as (_ & os'' & E & Hl & Hw). apply app_inv_head in E. subst os''.
  exists os'. split; [exact Hl|]. split; [exact Hw|]. exact (reads_both _ _ _ _ Hd Hr).
Qed.

Theorem word_shows d pre os stk rem w p : valid d -> at_option d pre os stk rem -> word w -> no_subcommand stk w ->
  next_word stk os = Some p -> greedy p = false ->
  exists rem', at_option d (pre ++ [w]) (os ++ [word_occ stk p w]) stk rem' /\
               shows d (pre ++ [w]) (os ++ [word_occ stk p w]) stk.
Proof.
  intros Hd Ha Hw Hn Hp Hg. destruct (word_taken _ _ _ _ _ _ _ Hd Ha Hw Hn Hp Hg) as (rem' & H).
  exists rem'. exact (at_both _ _ _ _ _ Hd H).
Qed.

Lemma ordinary_in stk level s p : nth_error (rev stk) level = Some s -> In p (ordinary (sc_decl s)) ->
  In (Addr level [sa_id p], p) (stack_args stk).
Proof.
  intros Hn Hp. unfold ordinary in Hp. apply filter_In in Hp. destruct Hp as [Hp _].
  revert level Hn. induction stk as [|s' outer IH]; intros level Hn; [destruct level; discriminate|].
  cbn [rev stack_args] in *. destruct (Nat.lt_ge_cases level (length (rev outer))) as [Hl|Hl].
  - rewrite nth_error_app1 in Hn by exact Hl. apply in_or_app. right. exact (IH level Hn).
  - rewrite nth_error_app2 in Hn by exact Hl. apply in_or_app. left.
    destruct (level - length (rev outer)) as [|k] eqn:Ek; [|destruct k; discriminate]. injection Hn as ->.
    rewrite rev_length in *. replace level with (length outer) by lia. unfold scope_args. apply in_map_iff.
    exists ([sa_id p], p). split; [reflexivity|]. rewrite reach_eq. apply in_or_app. left. apply in_map_iff.
    exists p. auto.
Qed.

Theorem single_field d (argv0 : bytes) toks os stk level s singles p rest o : valid d ->
  try_parse_from d (argv0 :: toks) = Ok o -> reads d toks os stk ->
  nth_error (rev stk) level = Some s -> ordinary (sc_decl s) = singles ++ p :: rest -> Forall Grammar.single (singles ++ [p]) ->
  field_at (Addr level [sa_id p]) o =
  field_value p (match nth_error (words_at level os) (length singles) with Some x => [oc_val x] | None => [] end).
Proof.
  intros Hd H Hr Hn Ho Hs. destruct (success_reads _ _ _ _ _ _ Hd H Hr) as (_ & _ & Hf & _).
  assert (Hi : In (Addr level [sa_id p], p) (stack_args stk))
    by (apply (ordinary_in stk level s p Hn); rewrite Ho; apply in_elt).
  rewrite (proj1 (Hf _ _ Hi)). f_equal. exact (single_value _ _ _ _ _ _ _ _ _ Hd Hr Hn Ho Hs).
Qed.

Theorem variadic_field d (argv0 : bytes) toks os stk level s singles p o : valid d ->
  try_parse_from d (argv0 :: toks) = Ok o -> reads d toks os stk ->
  nth_error (rev stk) level = Some s -> ordinary (sc_decl s) = singles ++ [p] -> Forall Grammar.single singles -> many p = true ->
  field_at (Addr level [sa_id p]) o = field_value p (skipn (length singles) (map oc_val (words_at level os))).
Proof.
  intros Hd H Hr Hn Ho Hs Hm. destruct (success_reads _ _ _ _ _ _ Hd H Hr) as (_ & _ & Hf & _).
  assert (Hi : In (Addr level [sa_id p], p) (stack_args stk))
    by (apply (ordinary_in stk level s p Hn); rewrite Ho; apply in_elt).
  rewrite (proj1 (Hf _ _ Hi)). f_equal. exact (variadic_values _ _ _ _ _ _ _ _ Hd Hr Hn Ho Hs Hm).
Qed.

Theorem drain_shows d pre os stk rem w p ws : valid d -> at_option d pre os stk rem -> word w -> no_subcommand stk w ->
  next_word stk os = Some p -> greedy p = true ->
  reads d (pre ++ w :: ws) (os ++ map (word_occ stk p) (w :: ws)) stk /\
  shows d (pre ++ w :: ws) (os ++ map (word_occ stk p) (w :: ws)) stk.
Proof. intros Hd Ha Hw Hn Hp Hg. exact (reads_both _ _ _ _ Hd (word_drains _ _ _ _ _ _ _ ws Hd Ha Hw Hn Hp Hg)). Qed.

Theorem last_absent_field d (argv0 : bytes) toks os stk ad a o : valid d -> try_parse_from d (argv0 :: toks) = Ok o ->
  reads d toks os stk -> In (ad, a) (stack_args stk) -> is_last a = true -> ~ In (bs "--") toks ->
  field_at ad o = field_value a [].
Proof.
  intros Hd H Hr Hi Hl Hn. destruct (success_reads _ _ _ _ _ _ Hd H Hr) as (_ & _ & Hf & _).
  rewrite (proj1 (Hf _ _ Hi)). f_equal. exact (last_absent _ _ _ _ _ _ Hd Hr Hi Hl Hn).
Qed.

Theorem last_shows d pre os stk rem l ws : valid d -> at_option d pre os stk rem -> last_args stk = [l] ->
  exists os', reads d (pre ++ bs "--" :: ws) os' stk /\ shows d (pre ++ bs "--" :: ws) os' stk /\
  values_of os' (Addr (length stk - 1) [sa_id l]) = map Some ws /\
  forall ad, ad <> Addr (length stk - 1) [sa_id l] -> values_of os' ad = values_of os ad.
Proof.
  intros Hd Ha Hl. destruct (last_exact _ _ _ _ _ _ ws Hd Ha Hl) as (os' & Hr & H). exists os'.
  split; [exact Hr|]. split; [exact (reads_shows _ _ _ _ Hd Hr)|exact H].
Qed.

Theorem sub_shows d pre os stk rem v : valid d -> at_option d pre os stk rem -> In v (sub_variants stk) ->
  at_option d (pre ++ [sub_name v]) os (variant_scope v :: stk) (positionals (sc_decl (variant_scope v))) /\
  shows d (pre ++ [sub_name v]) os (variant_scope v :: stk).
Proof. intros Hd Ha Hv. exact (at_both _ _ _ _ _ Hd (sub_enters _ _ _ _ _ _ Hd Ha Hv)). Qed.

Theorem sub_fields d (argv0 : bytes) pre os stk rem v post o : valid d -> at_option d pre os stk rem -> In v (sub_variants stk) ->
  try_parse_from d (argv0 :: pre ++ sub_name v :: post) = Ok o ->
  (exists inner, entered o = tl (rev (map sc_ident stk)) ++ fst v :: inner) /\
  forall ad a, In (ad, a) (stack_args stk) -> is_option a = false \/ is_global a = false ->
  field_at ad o = field_value a (values_of os ad).
Proof.
  intros Hd Ha Hv H. destruct (success_holds _ _ _ _ Hd H) as (os2 & stk2 & Hr & Hf & He).
  pose proof (at_reads _ _ _ _ _ Ha) as Hr0.
  destruct (sub_rest _ _ _ _ _ _ _ _ _ Hd Ha Hv Hr) as (os' & inner & -> & -> & Hb). split.
  - exists (rev (map sc_ident inner)). rewrite He, map_app, rev_app_distr. cbn [map rev].
    destruct (at_option_ok _ _ _ _ _ Hd Ha) as (_ & _ & _ & base & ->).
    rewrite map_app. cbn [map]. rewrite !rev_app_distr. cbn [rev app tl]. rewrite <- !app_assoc. cbn [app].
    unfold variant_scope. destruct (snd v); reflexivity.
  - intros ad a Hi Hg. assert (Hi' : In (ad, a) (stack_args (inner ++ variant_scope v :: stk))).
    { apply stack_args_app. cbn [stack_args]. apply in_or_app. right. exact Hi. }
    rewrite (Hf _ _ Hi'). f_equal. rewrite values_of_app. rewrite <- (app_nil_r (values_of os ad)) at 2. f_equal.
    pose proof (stack_args_level _ _ _ Hi) as Hlev. unfold values_of.
    destruct (filter (fun x : occ => addr_eqb ad (oc_addr x)) os') as [|x xs] eqn:Ef; [reflexivity|exfalso].
    assert (Hx : In x (filter (fun x : occ => addr_eqb ad (oc_addr x)) os')) by (rewrite Ef; left; reflexivity).
    apply filter_In in Hx. destruct Hx as [Hx Hax]. apply addr_eqb_eq in Hax.
    rewrite Forall_forall in Hb. destruct (Hb x Hx) as [Hl|[Ho Hgl]]; [rewrite <- Hax in Hl; lia|].
    pose proof (known_arg _ _ _ _ _ _ Hd Hr Hi') as Hk.
    rewrite Forall_forall in Hk.
    assert (E : oc_arg x = a) by (apply Hk; [apply in_or_app; right; exact Hx|symmetry; exact Hax]).
    rewrite E in *. destruct Hg; congruence.
Qed.

Theorem dash_shows d (argv0 : bytes) pre os stk rem w post : valid d -> at_option d pre os stk rem -> w = bs "-" \/ w = [] ->
  (exists v, In v (sub_variants stk) /\ sub_name v = w /\
     at_option d (pre ++ [w]) os (variant_scope v :: stk) (positionals (sc_decl (variant_scope v))) /\
     shows d (pre ++ [w]) os (variant_scope v :: stk)) \/
  (exists p, next_word stk os = Some p /\ reads d (pre ++ [w]) (os ++ [word_occ stk p w]) stk /\
     shows d (pre ++ [w]) (os ++ [word_occ stk p w]) stk) \/
  (next_word stk os = None /\ (no_error_in os -> try_parse_from d (argv0 :: pre ++ w :: post) = Err (extra_word stk w))).
Proof.
  intros Hd Ha Hw. destruct (dash_empty d argv0 pre os stk rem w post Hd Ha Hw) as [(v & H1 & H2 & H3)|[(p & H1 & H2)|H]].
  - left. exists v. split; [exact H1|]. split; [exact H2|]. exact (at_both _ _ _ _ _ Hd H3).
  - right. left. exists p. split; [exact H1|]. exact (reads_both _ _ _ _ Hd H2).
  - right. right. exact H.
Qed.

(** ** Options *)

Theorem hidden_error d (argv0 : bytes) pre os stk rem n ad a post : valid d -> at_option d pre os stk rem -> no_error_in os ->
  In (ad, a) (stack_args stk) -> has_name a n ->
  (forall ad' b, In (ad', b) (stack_args stk) -> has_name b n -> S (ad_level ad') < length stk /\ is_global b = false) ->
  n <> Long (bs "help") -> n <> Short (b2n "h") ->
  try_parse_from d (argv0 :: pre ++ spell n :: post) = Err (error_on UnknownNamedArgument (spell n)).
Proof.
  intros Hd Ha Hb Hi Hn Hall Hlh Hsh.
  assert (Hu : unknown stk n).
  { intros ad' b Hi' Hs Hn'. destruct (Hall ad' b Hi' Hn') as [Hlt Hg]. destruct Hs as [Hs|Hs]; [lia|congruence]. }
  destruct (at_option_ok _ _ _ _ _ Hd Ha) as (Hok & _).
  pose proof (arg_in_stack _ _ _ Hok Hi) as Haf.
  assert (Hleg : legal_name n).
  { pose proof Hn as [Ho _]. destruct (InfoFacts.ar_named a Haf Ho) as (_ & _ & Hne). apply InfoFacts.names_facts_of in Hne.
    exact (proj1 (legal_names_iff a Ho) Hne n Hn). }
  destruct n as [s|c]; cbn [spell].
  - destruct Hleg as (Hne & _ & Hch & _).
    assert (Heq : ~ In c_eq s) by (intros C; rewrite Forall_forall in Hch; apply (proj1 (Hch _ C)); reflexivity).
    apply (unknown_long_error d argv0 pre os stk rem s (bs "--" ++ s)); try assumption.
    + left. split; [reflexivity|exact Hne].
    + intros C. apply Hlh. rewrite C. reflexivity.
  - destruct Hleg as (H1 & H2 & _).
    pose proof (unknown_short_error _ argv0 _ _ _ _ c [] post Hd Ha Hb) as H. rewrite app_nil_r in H.
    apply H; try assumption; [apply scalar_spec; exact H1|].
    intros C. apply Hsh. rewrite C. reflexivity.
Qed.

Theorem written_shows d pre os stk rem toks ad a v : valid d -> at_option d pre os stk rem -> writes stk toks ad a v ->
  exists os', at_option d (pre ++ toks) os' stk rem /\ shows d (pre ++ toks) os' stk /\ 
  values_of os' ad = values_of os ad ++ [v] /\ forall ad', ad' <> ad -> values_of os' ad' = values_of os ad'.
Proof.
  intros Hd Ha Hw. destruct (written_values _ _ _ _ _ _ _ _ _ Hd Ha Hw) as (os' & H & K). exists os'.
  split; [exact H|]. split; [exact (at_shows _ _ _ _ _ Hd H)|exact K].
Qed.

Theorem kth_word_field d toks os stk level s k (x : occ) : valid d -> reads d toks os stk ->
  nth_error (rev stk) level = Some s -> nth_error (words_at level os) k = Some x ->
  target (ordinary (sc_decl s)) k = Some (oc_arg x) /\ oc_addr x = Addr level [sa_id (oc_arg x)] /\
  forall (argv0 : bytes) o, try_parse_from d (argv0 :: toks) = Ok o ->
  exists vals fv, In (oc_val x) vals /\ field_at (oc_addr x) o = Some fv /\
    denotes (oc_arg x) (map (option_map (text_of (oc_arg x))) vals) fv.
Proof.
  intros Hd Hr Hn Hk. destruct (kth_word _ _ _ _ _ _ _ _ Hd Hr Hn Hk) as [H1 H2]. split; [exact H1|]. split; [exact H2|].
  intros argv0 o Ho. assert (Hi : In x os).
  { apply nth_error_In in Hk. unfold words_at in Hk. apply filter_In in Hk. apply Hk. }
  destruct (reads_ok _ _ _ _ Hd Hr) as (_ & _ & Hkn). rewrite Forall_forall in Hkn. pose proof (Hkn x Hi) as Hx.
  assert (Hv : In (oc_val x) (values_of os (oc_addr x))).
  { unfold values_of. apply in_map, filter_In. split; [exact Hi|]. apply addr_eqb_eq. reflexivity. }
  assert (Hg : given os (oc_addr x) = true) by (unfold given; destruct (values_of os (oc_addr x)); [contradiction|reflexivity]).
  destruct (given_value _ _ _ _ _ _ _ _ Hd Ho Hr Hx Hg) as (fv & Hf & Hdn).
  exists (values_of os (oc_addr x)), fv. auto.
Qed.

(** ** Default names *)

Lemma found_long d a (s : bytes) : accepted d -> In a (own_args d) -> has_name a (Long s) ->
  exists wd, get_named (info_of (fst (compile_args d))) (table_key (Long s)) = Some wd.
Proof. intros Hd Hi Hn. apply (option_table d (Long s) Hd); [discriminate|]. exists a. auto. Qed.

Theorem default_long_found a (ws : list bytes) : am_long (sa_meta a) = Some Inherit -> Forall snake_word ws ->
  sa_id a = glue (bs "_") ws -> has_name a (Long (glue (bs "-") ws)) /\
  forall d, accepted d -> In a (own_args d) ->
  exists wd, get_named (info_of (fst (compile_args d))) (table_key (Long (glue (bs "-") ws))) = Some wd.
Proof.
  intros H Hw E. pose proof (default_long a ws H Hw E) as Hn. split; [exact Hn|]. intros d Hd Hi.
  exact (found_long d a _ Hd Hi Hn).
Qed.

Theorem default_short_found a b r : am_short (sa_meta a) = Some Inherit -> sa_id a = b :: r -> has_name a (Short (b2n b)) /\
  forall d, accepted d -> In a (own_args d) ->
  exists wd, get_named (info_of (fst (compile_args d))) (table_key (Short (b2n b))) = Some wd.
Proof.
  intros H E. pose proof (default_short a b r H E) as Hn. split; [exact Hn|]. intros d Hd Hi.
  apply (option_table d (Short (b2n b)) Hd); [|exists a; auto].
  intros c Ec. injection Ec as <-. left. pose proof (b2n_lt b). lia.
Qed.

Theorem default_subcommand_found (v : ident * variant_decl V) (ws cs : list bytes) : Forall pascal_word ws ->
  Forall2 capitalized ws cs -> fst v = concat cs -> sub_name v = glue (bs "-") ws /\
  forall vs, In v vs -> exists i x,
  sub_search (sub_info_of (fst (compile_sub (MkSubDecl vs)))) (glue (bs "-") ws) = Some (glue (bs "-") ws, i) /\
  nth_error vs i = Some x /\ sub_name x = glue (bs "-") ws.
Proof.
  intros Hw Hc E. pose proof (default_subcommand v ws cs Hw Hc E) as Hn. split; [exact Hn|]. intros vs Hi.
  rewrite <- Hn. exact (sub_found vs v Hi).
Qed.
End Shows.
