(** The examples beside the theorems about sources. *)
From Verif Require Import Bytes Utf8 Attrs Refl Error Values Places Heck Decl Spec Derive Generated
  EnumDerive Observe Parts Page PageFacts WellFormed Source Written Kit SourceSamples.
From Verif Require Import BytesFacts InfoFacts SourceFacts SourceArg SourceField SourceItems SourceWhole SourceSame SourceValue SourceNames.
From Coq Require Import Permutation.
Local Open Scope string_scope.
Local Open Scope list_scope.

Lemma cli_compiles : compiles desc cli. Proof. split; vm_compute; reflexivity. Qed.
Lemma word_once w pre (post : list (attribute tv)) : w = bs "subcommand" \/ w = bs "flatten" ->
  pre = [] -> post = [] -> field_says (pre ++ command_word w :: post)
    (if beqb w (bs "flatten") then AFlatten else ASubcommand).
Proof.
  intros Hw -> ->. cbn [app].
  assert (Hn : ~ uses (bs "command") (@nil (attribute tv) ++ [])) by (intros (a & [] & _)).
  destruct Hw as [-> | ->]; [apply (fy_subcommand _ [] [])|apply (fy_flatten _ [] [])]; auto.
  all: try (intros [H|[]]; discriminate H).
  all: intros (a & [<-|[]] & Hb); discriminate Hb.
Qed.
Lemma jobs_reached : reached_struct around_jobs.
Proof. cbn. split; [|exact I]. exact (word_once (bs "subcommand") [] [] (or_introl eq_refl) eq_refl eq_refl). Qed.

Lemma source_C53 :
  compiles desc cli /\
  (reached_struct around_jobs /\ compiles desc (put_struct around_jobs (SField (map arg_attr [[it "long"]]) (t_opt t_int) TgNone)) /\
   items (bs "arg") (map arg_attr [[it "long"]; [it_as "hide" (FoBool false)]]) [it "long"; it_as "hide" (FoBool false)] /\
   (forall r, In r arg_table -> r_name r = bs "hide" -> ~ takes (r_kind r) (Some (lit (FoBool false) None))) /\
   (forall r, In r arg_table -> r_name r <> bs "num_args")) /\
  (items (bs "arg") (map arg_attr [[it_c "value_delimiter" ";"]; [it "long"; it_true "use_value_delimiter"]])
     ([] ++ it_c "value_delimiter" ";" :: [it "long"] ++ it_true "use_value_delimiter" :: []) /\
   In (once (bs "value_delimiter") VkChar) arg_table /\
   In (Row (bs "use_value_delimiter") VkTrue (Some (bs "value_delimiter"))) arg_table).
Proof.
  split; [exact cli_compiles|]. split; [|split].
  - split; [exact jobs_reached|]. split; [split; vm_compute; reflexivity|]. split; [|split].
    + exact (arg_attrs [[it "long"]; [it_as "hide" (FoBool false)]]).
    + intros r Hr Hn. apply row_of_in in Hr; [|exact arg_table_nodup]. rewrite Hn in Hr.
      vm_compute in Hr. injection Hr as <-. cbn. discriminate.
    + intros r Hr Hn. apply row_of_in in Hr; [|exact arg_table_nodup]. rewrite Hn in Hr.
      vm_compute in Hr. discriminate Hr.
  - exact (arg_attrs [[it_c "value_delimiter" ";"]; [it "long"; it_true "use_value_delimiter"]]).
  - split; cbn; tauto.
Qed.

Lemma source_C54 :
  compiles desc cli /\
  map (fun pa => (fst pa, long_name (snd pa), am_alias (sa_meta (snd pa)), shape_a (snd pa))) (reach (declared desc cli)) =
    [([bs "verbose"], Some (bs "verbose"), [], ShFlag);
     ([bs "out"], Some (bs "out-file"), [bs "output"; bs "to"], ShOpt);
     ([bs "level"], Some (bs "level"), [], ShOne);
     ([bs "common"; bs "files"], Some (bs "files"), [], ShMany)] /\
  offers (declared desc cli) (Long (bs "to")) /\
  match try_parse_from (declared desc cli) (argv ["cp"; "--to"; "x"; "--files=a,b"; "run"; "--jobs"; "2"; "t"; "-v"]) with
  | Ok _ => True
  | _ => False
  end /\
  match render_long_help (declared desc cli) (bs "cp") with
  | Ok t => firstn 14 t = desc
  | _ => False
  end.
Proof.
  split; [exact cli_compiles|]. split; [vm_compute; reflexivity|]. split; [|split; vm_compute; [exact I|reflexivity]].
  assert (H : existsb (fun pa => has_nameb (snd pa) (Long (bs "to"))) (reach (declared desc cli)) = true)
    by (vm_compute; reflexivity).
  apply existsb_exists in H. destruct H as ([p a] & Hin & Hn). exists p, a. split; [exact Hin|].
  now apply has_nameb_spec.
Qed.

Lemma good_arg (l : list (@item tv)) (ls : list (list (@item tv))) :
  concat ls = l -> good_items arg_table l -> field_says (map arg_attr ls) (AnArg l).
Proof.
  intros <- Hg. apply fy_arg; [apply arg_attrs_docs|apply arg_attrs_clean|]. split; [apply arg_attrs|exact Hg].
Qed.
(** The items are good if the macro accepts them. *)
Lemma good_by (l : list (@item tv)) :
  match apply_all arg_update arg_default l with Some _ => True | None => False end ->
  good_items arg_table l.
Proof.
  destruct (apply_all arg_update arg_default l) as [x|] eqn:E; [|easy]. intros _.
  now apply (proj1 (arg_all l)) in E.
Qed.

Lemma source_C55 :
  let l := [it "long"; it_s "alias" "size"; it_int "default_value_t" 3; it_s "alias" "depth"] in
  let l' := [it_int "default_value_t" 3; it_s "alias" "size"; it_s "alias" "depth"; it "long"] in
  let l'' := [it "long"; it_s "aliases" "size"; it_int "default_values_t" 3; it_s "alias" "depth"] in
  field_says (map arg_attr [l]) (AnArg l) /\ reordered l l' /\ Forall2 synonym l l'' /\
  items (bs "arg") (map arg_attr [firstn 1 l'; skipn 1 l']) l' /\
  ~ uses (bs "command") (map arg_attr [firstn 1 l'; skipn 1 l']) /\
  compiles desc (put_struct around_level (SField (map arg_attr [l]) t_int TgNone)).
Proof.
  intros l l' l''. split; [apply good_arg; [reflexivity|apply good_by; vm_compute; exact I]|].
  split; [|split; [|split; [|split]]].
  - split; [|reflexivity]. unfold l, l'.
    apply (Permutation_trans (l' := [it_s "alias" "size"; it_int "default_value_t" 3; it_s "alias" "depth"; it "long"])).
    + exact (Permutation_cons_append [it_s "alias" "size"; it_int "default_value_t" 3; it_s "alias" "depth"] (it "long")).
    + constructor.
  - repeat constructor.
  - exact (arg_attrs [firstn 1 l'; skipn 1 l']).
  - apply arg_attrs_clean.
  - split; vm_compute; reflexivity.
Qed.

Lemma source_C56 :
  let l := [it "long"; it_s "help" "How deep."; it_int "default_value_t" 3; it "value_enum"] in
  field_says (map arg_attr [l]) (AnArg l) /\
  items (bs "arg") (map arg_attr [[it "long"; it_int "default_value_t" 3]]) (filter (fun i => negb (idle i)) l) /\
  compiles desc (put_struct around_level (SField (map arg_attr [l]) t_int TgNone)) /\
  items (bs "command") [command_attr [it_s "name" "cp"; it "long_about"]] [it_s "name" "cp"; it "long_about"] /\
  items (bs "command") [command_attr [it "long_about"]]
    (filter (fun i => negb (idle_command i)) [it_s "name" "cp"; it "long_about"]).
Proof.
  intros l. split; [apply good_arg; [reflexivity|apply good_by; vm_compute; exact I]|].
  split; [exact (arg_attrs [[it "long"; it_int "default_value_t" 3]])|].
  split; [split; vm_compute; reflexivity|]. split.
  - apply (is_list (bs "command") (commas [it_s "name" "cp"; it "long_about"]) [it_s "name" "cp"; it "long_about"] [] []);
      [apply commas_list|constructor].
  - apply (is_list (bs "command") (commas [it "long_about"]) [it "long_about"] [] []);
      [apply commas_list|constructor].
Qed.

Lemma source_help_not_shown :
  exists (pd argv0 : bytes) (c : struct_around) (l : list item) (e : aexpr tv) (text t : bytes),
    reached_struct c /\ compiles pd (put_struct c (SField (map arg_attr [l]) t_string TgNone)) /\
    In (Item (bs "help") (Some e)) l /\ ax_form e = FoStr text /\
    render_long_help (declared pd (put_struct c (SField (map arg_attr [l]) t_string TgNone))) argv0 = Ok t /\
    ~ exists x y, t = x ++ text ++ y.
Proof.
  exists desc, (bs "prog"), (AroundStruct [] false [] (bs "size") Here []),
    [it "long"; it_s "help" "Quite large."], (lit (FoStr (bs "Quite large.")) (Some (bs "Quite large."))),
    (bs "Quite large."), (lines ["Usage: prog --size <SIZE>"; ""; "Options:"; "      --size <SIZE>"; ""]).
  split; [exact I|]. split; [split; vm_compute; reflexivity|]. split; [right; now left|].
  split; [reflexivity|]. split; [vm_compute; reflexivity|]. intros (x & y & H).
  assert (Hq : existsb (Byte.eqb "Q") (x ++ bs "Quite large." ++ y) = true).
  { rewrite existsb_app. cbn. now rewrite orb_true_r. }
  rewrite <- H in Hq. vm_compute in Hq. discriminate Hq.
Qed.

Lemma ty_of_says {V : Type} (t : rty V) : exists t',
  ty_says t (shape_of (ty_of t)) t' /\ value_of_ty (ty_of t) = rty_value t' /\
  forall sh u, ty_says t sh u -> sh = shape_of (ty_of t) /\ u = t'.
Proof.
  destruct (ty_says_of t) as (t' & H1 & H2). exists t'. split; [exact H1|]. split; [exact H2|].
  intros sh u H. eapply ty_says_once; eassumption.
Qed.

Lemma source_std_option :
  exists (pd : bytes) (c : struct_around) (attrs : list (attribute tv)),
    compiles pd (put_struct c (SField attrs (t_opt t_string) TgNone)) /\
    ~ compiles pd (put_struct c (SField attrs (t_std_opt t_string) TgNone)).
Proof.
  exists desc, (AroundStruct [] false [] (bs "size") Here []), [arg_attr [it "long"]]. split.
  - split; vm_compute; reflexivity.
  - intros [_ H]. vm_compute in H. discriminate H.
Qed.

Lemma source_bool_alias :
  exists (pd argv0 : bytes) (c : struct_around) (attrs : list (attribute tv)) (o : outval tv) (e : error),
    rty_value t_flag = rty_value t_bool /\
    compiles pd (put_struct c (SField attrs t_bool TgNone)) /\ compiles pd (put_struct c (SField attrs t_flag TgNone)) /\
    try_parse_from (declared pd (put_struct c (SField attrs t_bool TgNone))) [argv0; bs "--quiet"] = Ok o /\
    try_parse_from (declared pd (put_struct c (SField attrs t_flag TgNone))) [argv0; bs "--quiet"] = Err e.
Proof.
  exists desc, (bs "prog"), (AroundStruct [] false [] (bs "quiet") Here []), [arg_attr [it "long"]].
  eexists. eexists. split; [reflexivity|]. split; [split; vm_compute; reflexivity|].
  split; [split; vm_compute; reflexivity|]. split; vm_compute; reflexivity.
Qed.

Lemma source_enum_unchecked :
  exists (pd : bytes) (c : struct_around) (fattrs : list (attribute tv)) (t : rty tv) (b : enum_body tv),
    ~ good_command [command_attr [it "no_such_attribute"]] /\
    compiles pd (put_struct c (SField fattrs t (TgSub (SEnum [command_attr [it "no_such_attribute"]] false b)))).
Proof.
  exists desc, (AroundStruct [] false [] (bs "cmd") Here []), [command_word (bs "subcommand")], t_item,
    (EbVariants [(bs "List", SvUnit [])]). split.
  - intros H. apply (command_attrs_iff desc) in H. vm_compute in H. discriminate H.
  - split; vm_compute; reflexivity.
Qed.

Lemma source_after_long_about :
  exists (pd : bytes) (b : struct_body tv),
    compiles pd (SStruct [command_attr [it_s "after_long_help" "See also."]] false b) /\
    ~ compiles pd (SStruct [command_attr [it_s "after_long_about" "See also."]] false b).
Proof.
  exists desc, (SbNamed []). split.
  - split; vm_compute; reflexivity.
  - intros [H _]. vm_compute in H. discriminate H.
Qed.

Lemma source_tuple_variant :
  exists (pd : bytes) (v : src_variant tv) (vs : list (ident * src_variant tv)),
    In SE_tuple_variant (snd (elab_enum pd (SEnum [] false (EbVariants [(bs "Both", v)])))) /\
    snd (elab_enum pd (SEnum [] false (EbVariants ((bs "Both", v) :: vs)))) = [SE_macro_panic].
Proof.
  exists desc, (SvTuple [] [([], TgArgs s_common); ([], TgArgs s_common)]), [(bs "List", SvUnit [])].
  split; vm_compute; auto.
Qed.
