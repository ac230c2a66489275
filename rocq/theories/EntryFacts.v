(** The entries of the help page. *)
From Coq Require Import Lia.
From Verif Require Import Bytes BytesFacts Utf8 Error Values Heck Places Decl Spec Derive Generated Observe Page PageFacts Parts
  Preset PresetFacts Described DescribedFacts Entry.

Section Facts.
Context {V : Type}.
Local Notation scope := (scope V).
Implicit Types (d : args_decl V) (a : sarg V) (s : scope).

Lemma preset_unique_text a p : preset a p ->
  p = match default_text a with Some t => bs "          [default: " ++ t ++ bs "]" ++ [c_nl] | None => [] end.
Proof.
  intros [H1 H2|t H].
  - unfold default_text. rewrite H1, H2. reflexivity.
  - rewrite (shows_default_text _ _ H). reflexivity.
Qed.
Lemma entry_of_entry a l : entry_of a l -> l = entry a.
Proof.
  intros [m t doc p Hm Ht Hd Hp]. unfold entry. rewrite (preset_unique_text a p Hp).
  rewrite (described_unique a _ _ Ht (describe_described a)).
  assert (Em : m = bs "  " ++ (if is_option a then match short_name a with None => bs "    " | Some _ => [] end else [])).
  { destruct Hm as [H|c H Hs|H Hs]; rewrite H; try rewrite Hs; reflexivity. }
  assert (Ed : doc = match doc_process (am_doc (sa_meta a)) with [] => [] | t => bs "          " ++ t ++ [c_nl] end).
  { destruct Hd as [E|E]; destruct (doc_process (am_doc (sa_meta a))); try discriminate; try contradiction; reflexivity. }
  rewrite Em, Ed, <- !app_assoc. reflexivity.
Qed.
Theorem entry_on_page (argv0 : bytes) s outer t a l :
  page argv0 (s :: outer) t -> listed (sc_decl s) a -> entry_of a l -> exists b e, t = b ++ l ++ e.
Proof. intros Hp Hl H. rewrite (entry_of_entry a l H). exact (page_lists argv0 s outer t a Hp Hl). Qed.
Theorem entry_of_unique a l k : entry_of a l -> entry_of a k -> l = k.
Proof. intros H K. rewrite (entry_of_entry a l H), (entry_of_entry a k K). reflexivity. Qed.

Lemma told_about at_ t : told at_ t -> about at_ = t.
Proof.
  unfold about, cmd_meta_of. intros [x Hc H|H]; rewrite ?Hc, H; [reflexivity|].
  destruct (ca_has_command at_); [reflexivity|]. destruct (doc_process (ca_doc at_)); reflexivity.
Qed.
Theorem page_told (argv0 : bytes) s outer t x : page argv0 (s :: outer) t -> told (attrs_of (sc_decl s)) x ->
  (x = [] -> exists e, t = bs "Usage: " ++ e) /\ (x <> [] -> exists e, t = x ++ nl ++ nl ++ bs "Usage: " ++ e).
Proof.
  intros Hp Hx. apply told_about in Hx.
  inversion Hp as [s' outer' prog intro op wopts wposs command commands arguments options Hi Hpr Ho Hwo Hwp Hc Ha Hop [E1 E2] Et].
  subst s' outer'. rewrite Hx in Hi. cbn [map app concat]. change (bs "Usage: ") with (bs "Usage:" ++ bs " ").
  split; intros Hn; destruct Hi as [[H1 H2]|[H1 H2]]; try contradiction; rewrite H2.
  - eexists. rewrite <- !app_assoc. reflexivity.
  - eexists. rewrite <- !app_assoc. reflexivity.
Qed.
Theorem page_after (argv0 : bytes) s outer t x : page argv0 (s :: outer) t ->
  ca_has_command (attrs_of (sc_decl s)) = true -> ca_after_long_help (attrs_of (sc_decl s)) = Some x -> exists b, t = b ++ x.
Proof.
  intros Hp Hc Hx.
  inversion Hp as [s' outer' prog intro op wopts wposs command commands arguments options Hi Hpr Ho Hwo Hwp Hcm Ha Hop [E1 E2] Et].
  unfold after_help, cmd_meta_of. rewrite Hc, Hx. cbn [orb cm_after_long_help]. rewrite !app_assoc. eexists. reflexivity.
Qed.
Lemma sub_attrs_of (v : ident * variant_decl V) at_ : sub_attrs (snd v) at_ -> attrs_of (sc_decl (variant_scope v)) = at_.
Proof. unfold variant_scope. intros []; reflexivity. Qed.
Lemma forall2_in {A B : Type} (R : A -> B -> Prop) l m x : Forall2 R l m -> In x l -> exists y, In y m /\ R x y.
Proof.
  induction 1 as [|x' y l m H _ IH]; intros Hx; [contradiction|]. destruct Hx as [->|Hx]; [exists y; split; [left|]; auto|].
  destruct (IH Hx) as (z & Hz & Hr). exists z. split; [right|]; assumption.
Qed.
Theorem page_command (argv0 : bytes) s outer t id o vs (v : ident * variant_decl V) at_ x l : page argv0 (s :: outer) t ->
  subcommand (sc_decl s) = Some (id, o, vs) -> In v vs -> sub_attrs (snd v) at_ -> told at_ x -> summary x l ->
  exists b k e, 2 <= k /\ t = b ++ bs "    " ++ sub_name v ++ repeat " "%byte k ++ l ++ nl ++ e.
Proof.
  intros Hp Es Hv Hat Hx Hl. apply sub_attrs_of in Hat. apply told_about in Hx.
  inversion Hp as [s' outer' prog intro op wopts wposs command commands arguments options Hi Hpr Ho Hwo Hwp Hc Ha Hop [E1 E2] Et].
  subst s' outer'. clear Hp Hi Hpr Ho Hwo Hwp Ha Hop Et.
  inversion Hc as [En Ec1 Ec2|id' o' vs' w ls En Hw Hls Ec1 Ec2]; [congruence|]. rewrite Es in En. injection En as <- <- <-.
  destruct (forall2_in _ _ _ _ Hls Hv) as (c & Hin & Hce). destruct Hce as [pad y Hpad Hy].
  assert (y = l) as ->.
  { unfold variant_about in Hy. rewrite Hat, Hx in Hy. apply summary_iff in Hy, Hl. congruence. }
  apply in_split in Hin. destruct Hin as (l1 & l2 & ->). rewrite concat_app. cbn [concat].
  assert (Hk : 2 <= pad).
  { rewrite Hpad. pose proof (proj1 Hw v Hv). lia. }
  match goal with |- exists b k e, _ /\ intro ++ ?u ++ ?q ++ _ ++ _ ++ _ ++ _ = _ =>
    exists (intro ++ u ++ q ++ nl ++ nl ++ bs "Commands:" ++ nl ++ concat l1), pad,
      (concat l2 ++ nl ++ arguments ++ options ++ after_help (attrs_of (sc_decl s))) end.
  split; [exact Hk|]. rewrite <- !app_assoc. reflexivity.
Qed.
End Facts.
