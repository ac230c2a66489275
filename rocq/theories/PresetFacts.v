(** Default values and the help page. *)
From Verif Require Import Bytes BytesFacts Utf8 Utf8Facts Attrs AttrFacts Refl Error Values SortFacts
  Places Help Runtime Heck Decl Spec Derive Generated Observe CompileFacts InfoFacts TableFacts PlaceFacts
  ScopeFacts NamedFacts WordFacts FinishFacts ReadFacts SimFacts HelpFacts Refine ContextFacts SafeFacts
  FieldFacts ResultFacts ValueFacts OptionFacts SameFacts WriteFacts Parts WellFormed WellFormedFacts Page PageFacts
  Unsaid UnsaidFacts Preset.

Section Preset.
Context {V : Type}.
Local Notation args_decl := (args_decl V).
Local Notation sarg := (sarg V).
Local Notation scope := (scope V).
Local Notation occ := (occ V).
Implicit Types (d : args_decl) (a : sarg) (s : scope) (stk : list scope) (os : list occ) (o : outval V).

Lemma entry_described (argv0 : bytes) s outer t a lines :
  page argv0 (s :: outer) t -> listed (sc_decl s) a ->
  (match default_text a with
   | Some t => bs "          [default: " ++ t ++ bs "]" ++ [c_nl]
   | None => []
   end) = lines -> described a lines t.
Proof.
  intros Hp Hl <-. destruct (page_lists argv0 s outer t a Hp Hl) as (b & e & ->). unfold entry, described.
  generalize (match default_text a with Some t => bs "          [default: " ++ t ++ bs "]" ++ [c_nl] | None => [] end) as dl.
  intros dl. generalize (bs "  " ++ (if is_option a then match short_name a with None => bs "    " | Some _ => [] end else [])) as hd.
  assert (E : forall hd, exists doc, (doc = [] \/ doc = bs "          " ++ doc_process (am_doc (sa_meta a)) ++ nl) /\
    b ++ (hd ++ describe a ++ [c_nl] ++ match doc_process (am_doc (sa_meta a)) with
      | [] => []
      | t => bs "          " ++ t ++ [c_nl]
      end ++ dl ++ [c_nl]) ++ e = (b ++ hd) ++ describe a ++ nl ++ doc ++ dl ++ nl ++ e).
  { intros hd. destruct (doc_process (am_doc (sa_meta a))) as [|x t].
    - exists []. split; [left; reflexivity|]. rewrite <- !app_assoc. reflexivity.
    - exists (bs "          " ++ (x :: t) ++ nl). split; [right; reflexivity|]. rewrite <- !app_assoc. reflexivity. }
  intros _. destruct (E (bs "  " ++ (if is_option a then match short_name a with None => bs "    " | Some _ => [] end else []))) as (doc & Hdoc & E').
  eexists _, doc, e. split; [|exact Hdoc]. rewrite <- E'. rewrite <- !app_assoc. reflexivity.
Qed.

Lemma shows_default_text a t : shows a t -> default_text a = Some t.
Proof.
  unfold default_text, default_of. intros [t' H1 H2|t' [w H]|v n H Hl (names & inj & He & Hn & _)|v f H Hl He Hf|H Hs|H|H].
  - rewrite H1, H2. reflexivity.
  - rewrite H. reflexivity.
  - destruct H as [(H & Hs & Hv)|[l H]]; rewrite H.
    + destruct (shape_a a); try contradiction; rewrite Hv; unfold value_text; rewrite He, Hn; reflexivity.
    + destruct l as [l|]; [exfalso; exact (Hl l (ex_intro _ _ H))|]. cbn [dx_val]. unfold value_text. rewrite He, Hn. reflexivity.
  - destruct H as [(H & Hs & Hv)|[l H]]; rewrite H.
    + destruct (shape_a a); try contradiction; rewrite Hv; unfold value_text; rewrite He, Hf; reflexivity.
    + destruct l as [l|]; [exfalso; exact (Hl l (ex_intro _ _ H))|]. cbn [dx_val]. unfold value_text. rewrite He, Hf. reflexivity.
  - rewrite H, Hs. reflexivity.
  - rewrite H. reflexivity.
  - rewrite H. reflexivity.
Qed.

Theorem default_shown (argv0 : bytes) s outer t a (x : bytes) :
  page argv0 (s :: outer) t -> listed (sc_decl s) a -> shows a x -> described a (default_line x) t.
Proof.
  intros Hp Hl Hs. apply (entry_described argv0 s outer); [exact Hp|exact Hl|]. rewrite (shows_default_text _ _ Hs). reflexivity.
Qed.
Theorem no_default_shown (argv0 : bytes) s outer t a :
  page argv0 (s :: outer) t -> listed (sc_decl s) a -> has_default a = false -> described a [] t.
Proof.
  intros Hp Hl Hs. apply (entry_described argv0 s outer); [exact Hp|exact Hl|]. unfold has_default in Hs. unfold default_text.
  destruct (am_default_value (sa_meta a)); [discriminate|]. destruct (am_default_value_t (sa_meta a)) as [[|e]|]; [discriminate|discriminate|]. reflexivity.
Qed.

(** ** The default, spelled out *)

Lemma absent_is a v fv : default_is a v -> denotes_absent a fv -> arg_facts a -> 
  shape_a a = ShOne /\ fv = FvVal v \/ shape_a a = ShOpt /\ fv = FvOption (Some v).
Proof.
  intros Hv H Ha.
  assert (Hc : has_default a = true).
  { unfold has_default. destruct Hv as [(-> & _)|[l ->]]; destruct (am_default_value (sa_meta a)); reflexivity. }
  assert (Hx : forall fv, default_content a (DVal v) = Some fv ->
    shape_a a = ShOne /\ fv = FvVal v \/ shape_a a = ShOpt /\ fv = FvOption (Some v)).
  { intros x Hx. unfold default_content in Hx. destruct (shape_a a); try discriminate; injection Hx as <-; auto. }
  destruct H as [H _|H _|H _|H _|H _|s fv Hs Hd|v' H1 H2 H3 fv H4|H1 H2|e fv H1 H2]; try congruence.
  - exfalso. pose proof (one_default _ _ Ha Hs). destruct Hv as [(E & _)|[l E]]; congruence.
  - destruct Hv as [(_ & _ & E)|[l E]]; [|congruence]. apply Hx. congruence.
  - exfalso. destruct Hv as [(_ & E & _)|[l E]]; congruence.
  - destruct Hv as [(E & _)|[l E]]; [congruence|]. apply Hx. assert (e = mkDexpr (DVal v) l) by congruence. subst e. exact H2.
Qed.

Lemma value_said_if d (argv0 : bytes) pre os stk rem toks ad a (t : bytes) v post o os' stk' :
  valid d -> at_option d pre os stk rem -> writes stk toks ad a (Some t) ->
  try_parse_from d (argv0 :: pre ++ post) = Ok o -> reads d (pre ++ post) os' stk' -> given os' ad = false ->
  default_is a v -> (arg_facts a -> shape_a a <> ShFlag -> read_value (value_of_ty (sa_ty a)) (text_of a t) = inl v) ->
  match try_parse_from d (argv0 :: pre ++ toks ++ post) with
  | Ok o' => o' = o
  | Err e => about_company e
  | Panic _ => False
  end.
Proof.
  intros Hd Hat Hw Hp Hr Hg Hv Ht. pose proof (at_option_stack _ _ _ _ _ Hd Hat) as Hok0.
  pose proof (writes_arg _ _ _ _ _ Hok0 Hw) as [Hin0 _]. pose proof (arg_in_stack _ _ _ Hok0 Hin0) as Ha.
  assert (Hin : In (ad, a) (stack_args stk')).
  { destruct Hr as (st & Hr1 & _ & <-). rewrite (at_option_app _ _ _ _ _ _ Hat) in Hr1.
    destruct (read first_named (Normal stk rem) post) as [os2 out] eqn:Ep. cbn [fst snd] in Hr1.
    assert (E2 : out = Go st) by congruence. subst out. destruct (at_option_ok _ _ _ _ _ Hd Hat) as (_ & Hrem & _).
    destruct (read_ok first_named first_named_in _ (Normal stk rem) _ _ (conj Hok0 Hrem) Ep) as (_ & _ & inner & ->).
    apply stack_args_app. exact Hin0. }
  destruct (absent_value d argv0 _ o os' stk' ad a Hd Hp Hr Hin Hg) as (fv & Hf & Hab).
  apply (said d argv0 pre os stk rem toks ad a (Some t) post o fv) with (os' := os') (stk' := stk'); try assumption. cbn [option_map].
  assert (Hra : shape_a a <> ShFlag -> reads_as (value_of_ty (sa_ty a)) [text_of a t] [v])
    by (intros Hs; unfold reads_as; cbn [map]; rewrite (Ht Ha Hs); reflexivity).
  destruct (absent_is _ _ _ Hv Hab Ha) as [[Hs ->]|[Hs ->]]; [apply denotes_one|apply denotes_opt]; try assumption;
    apply Hra; congruence.
Qed.
Theorem value_said d (argv0 : bytes) pre os stk rem toks ad a (t : bytes) v post o os' stk' :
  valid d -> at_option d pre os stk rem -> writes stk toks ad a (Some t) ->
  try_parse_from d (argv0 :: pre ++ post) = Ok o -> reads d (pre ++ post) os' stk' -> given os' ad = false ->
  default_is a v -> read_value (value_of_ty (sa_ty a)) (text_of a t) = inl v ->
  match try_parse_from d (argv0 :: pre ++ toks ++ post) with
  | Ok o' => o' = o
  | Err e => about_company e
  | Panic _ => False
  end.
Proof.
  intros Hd Hat Hw Hp Hr Hg Hv Ht. apply (value_said_if d argv0 pre os stk rem toks ad a t v post o os' stk'); auto.
Qed.

Lemma not_upper_lower (x : byte) : ~ Parts.upper_letter x -> ascii_lower x = x.
Proof. intros H. apply lower_exact. exact H. Qed.

Lemma variant_text a v (n : bytes) : arg_facts a -> shape_a a <> ShFlag -> variant_named a v n ->
  read_value (value_of_ty (sa_ty a)) (text_of a n) = inl v.
Proof.
  intros Ha Hsh (names & inj & He & Hn & Hi & Hu).
  destruct (ar_parser _ Ha Hsh) as [p Hp]. unfold infer_parser in Hp. rewrite He in Hp.
  destruct (ve_expand names) as [vs|] eqn:E; [|discriminate]. pose proof (ve_expand_facts _ _ E) as Hve.
  assert (Et : text_of a n = n).
  { unfold text_of. destruct (am_ignore_case (sa_meta a)) eqn:Ei; [|reflexivity].
    destruct (ar_ignore _ Ha Ei) as (names' & inj' & vs' & He' & E' & Hup). rewrite He in He'. injection He' as <- <-.
    rewrite E in E'. injection E' as <-. apply (no_upper_iff names vs E) in Hup.
    pose proof (proj1 (Forall_forall _ _) Hup n (nth_error_In _ _ Hn)) as Hl. clear -Hl.
    induction Hl as [|x n Hx _ IH]; [reflexivity|]. cbn [map]. rewrite IH, (not_upper_lower x Hx). reflexivity. }
  rewrite Et. unfold read_value. rewrite He, Hu. destruct Hve as [_ _ H3 _ _].
  apply (position_Some n names) in Hn; [|exact H3]. rewrite Hn. rewrite Hi. reflexivity.
Qed.

Theorem variant_said d (argv0 : bytes) pre os stk rem toks ad a (n : bytes) v post o os' stk' :
  valid d -> at_option d pre os stk rem -> writes stk toks ad a (Some n) ->
  try_parse_from d (argv0 :: pre ++ post) = Ok o -> reads d (pre ++ post) os' stk' -> given os' ad = false ->
  default_is a v -> variant_named a v n ->
  match try_parse_from d (argv0 :: pre ++ toks ++ post) with
  | Ok o' => o' = o
  | Err e => about_company e
  | Panic _ => False
  end.
Proof.
  intros Hd Hat Hw Hp Hr Hg Hv Hn. apply (value_said_if d argv0 pre os stk rem toks ad a n v post o os' stk'); try assumption.
  intros Ha Hs. apply variant_text; assumption.
Qed.
End Preset.
