(** Parsers and places compute what the specification says about values. *)
From Verif Require Import Bytes BytesFacts Utf8 Utf8Facts Attrs AttrFacts Refl Error Values SortFacts
  Places Heck Decl Spec Derive Generated CompileFacts InfoFacts.
From Verif Require Export VariantFacts.
From Coq Require Import Permutation Sorted.

(** ** Value enums *)

Lemma join_comma_join l : join_comma l = join (bs ", ") l.
Proof.
  induction l as [|x l IH]; [reflexivity|]. destruct l as [|y l]; [reflexivity|].
  cbn [join_comma join]. cbn [join_comma join] in IH. rewrite IH. reflexivity.
Qed.

Lemma possible_values_names names vs : ve_facts names vs ->
  possible_values (ve_possible_nul vs)
  = bs "[possible values: " ++ join (bs ", ") (sort_by (fun n => n) names) ++ bs "]".
Proof.
  intros [H1 H2 H3 H4 H5]. unfold possible_values, ve_possible_nul.
  rewrite <- (map_map vv_name (fun n => n ++ [c_nul])), H4, split_terminator_concat.
  - rewrite join_comma_join. reflexivity.
  - intros n Hn Hi. apply (proj1 (sort_by_In _ _ _)) in Hn. apply H2 in Hn.
    apply (proj1 (existsb_false _ _) Hn) in Hi. discriminate.
Qed.

Section Places.
Context {V : Type}.
Local Notation sarg := (sarg V).
Implicit Types (a : sarg).

Definition to_res {A} (x : A + error) : res A := match x with inl v => Ok v | inr e => Err e end.

Lemma vp_parse_spec (u : value_ty V) p b : infer_parser u = Some p -> vp_parse p b = to_res (read_value u b).
Proof.
  unfold infer_parser, read_value. destruct (vt_value_enum u) as [[names inj]|].
  - destruct (ve_expand names) as [vs|] eqn:E; [|discriminate]. intros H. injection H as <-.
    apply ve_expand_facts in E. cbn [vp_parse].
    rewrite (ve_parse_position names vs b E), (possible_values_names names vs E).
    destruct (utf8_valid b); [|reflexivity]. destruct (position b names); reflexivity.
  - destruct (vt_try_from_os u) as [f|].
    + intros H. injection H as <-. cbn [vp_parse]. destruct (f b); reflexivity.
    + destruct (vt_from_str u) as [f|]; [|discriminate].
      intros H. injection H as <-. cbn [vp_parse]. destruct (utf8_valid b); [|reflexivity].
      destruct (f b); reflexivity.
Qed.

Lemma read_value_kind (u : value_ty V) b e : read_value u b = inr e -> e_kind e = InvalidValue /\ e_arg_desc e = None /\ e_help e = None.
Proof.
  unfold read_value. destruct (vt_value_enum u) as [[names inj]|].
  - destruct (utf8_valid b); [destruct (position b names)|]; intros H; try discriminate; injection H as <-; auto.
  - destruct (vt_try_from_os u) as [f|].
    + destruct (f b); intros H; try discriminate; injection H as <-; auto.
    + destruct (vt_from_str u) as [f|]; [|intros H; injection H as <-; auto].
      destruct (utf8_valid b); [destruct (f b)|]; intros H; try discriminate; injection H as <-; auto.
Qed.

Definition good (u : value_ty V) (p : bytes) : list V :=
  match read_value u p with inl v => [v] | inr _ => [] end.

Lemma parse_all_spec (u : value_ty V) p frags acc : infer_parser u = Some p ->
  parse_all p frags acc = match first_error u frags with
                          | Some e => Err e
                          | None => Ok (acc ++ flat_map (good u) frags)
                          end.
Proof.
  intros Hp. revert acc. induction frags as [|f frags IH]; intros acc; cbn [parse_all first_error flat_map].
  - rewrite app_nil_r. reflexivity.
  - rewrite (vp_parse_spec u p f Hp). unfold good at 1. destruct (read_value u f) as [v|e]; cbn [to_res bind]; [|reflexivity].
    rewrite IH. destruct (first_error u frags); [reflexivity|]. rewrite <- app_assoc. reflexivity.
Qed.

Lemma first_error_kind (u : value_ty V) ps e : first_error u ps = Some e ->
  e_kind e = InvalidValue /\ e_arg_desc e = None /\ e_help e = None.
Proof.
  induction ps as [|p ps IH]; cbn [first_error]; [discriminate|].
  destruct (read_value u p) eqn:E; [exact IH|]. intros H. injection H as <-. eapply read_value_kind; eauto.
Qed.
Lemma first_error_None (u : value_ty V) ps : first_error u ps = None ->
  length (flat_map (good u) ps) = length ps.
Proof.
  induction ps as [|p ps IH]; cbn [first_error flat_map]; [reflexivity|]. unfold good at 1.
  destruct (read_value u p); [|discriminate]. intros H. simpl. f_equal. auto.
Qed.

(** ** The place of an argument with the given (folded) values *)

Definition text (v : option bytes) : bytes := match v with Some b => b | None => [] end.
Definition all_parsed a (vals : list (option bytes)) : list V := flat_map (fun v => parsed a (text v)) vals.
Definition nonempty {A} (l : list A) : bool := match l with [] => false | _ => true end.

Definition place_of a (vals : list (option bytes)) : place V :=
  match shape_a a, infer_parser (value_of_ty (sa_ty a)) with
  | ShFlag, _ => FlagPlace (match vals with [] => None | _ => Some true end)
  | _, None => FlagPlace None
  | (ShOne | ShOpt), Some p => SetValuePlace (hd_error (all_parsed a vals)) p
  | ShOptOpt, Some p =>
      SetOptionalValuePlace
        (match vals with
         | [] => None
         | None :: _ => Some None
         | Some b :: _ => Some (hd_error (parsed a b))
         end) p
  | (ShMany | ShOptMany), Some p =>
      let o := match vals with [] => None | _ => Some (all_parsed a vals) end in
      match am_value_delimiter (sa_meta a) with
      | Some c => VecDelimitedPlace o (utf8_encode c) p
      | None => VecPlace o p
      end
  end.

(** None of the values is an error. *)
Definition vals_ok a (vals : list (option bytes)) : Prop :=
  forall pre v post, vals = pre ++ v :: post -> value_error a (nonempty pre) v = None.

Lemma vals_ok_nil a : vals_ok a [].
Proof. intros pre v post H. destruct pre; discriminate. Qed.
Lemma vals_ok_snoc a vals v :
  vals_ok a vals -> value_error a (nonempty vals) v = None -> vals_ok a (vals ++ [v]).
Proof.
  intros H Hv pre w post E.
  destruct (exists_last (l := w :: post)) as (post' & z & Ez); [discriminate|].
  rewrite Ez, app_assoc in E. apply app_inj_tail in E. destruct E as [E ->].
  destruct post' as [|y post'].
  - rewrite app_nil_r in E. subst vals. simpl in Ez. injection Ez as -> _. exact Hv.
  - simpl in Ez. injection Ez as -> _. apply (H pre y post'). exact E.
Qed.
Lemma vals_ok_hd a v vals : vals_ok a (v :: vals) -> value_error a false v = None.
Proof. intros H. exact (H [] v vals eq_refl). Qed.

Lemma initializer_place a : initializer (field_of a) = place_of a [].
Proof.
  rewrite field_of_spec. unfold initializer, place_of. cbn [fi_kind fi_value_ty fi_delimiter].
  destruct (shape_a a); cbn [kind_of_shape]; try reflexivity;
    destruct (infer_parser (value_of_ty (sa_ty a))); try reflexivity;
    destruct (am_value_delimiter (sa_meta a)); reflexivity.
Qed.
Lemma initializer_final (d : args_decl V) i a : initializer (final_field d i a) = initializer (field_of a).
Proof. reflexivity. Qed.

Lemma pieces_single a b : arg_facts a -> many a = false -> pieces a b = [b].
Proof.
  intros Ha Hm. unfold pieces. destruct (am_value_delimiter (sa_meta a)) eqn:E; [|reflexivity].
  rewrite (ar_delim a Ha) in Hm by congruence. discriminate.
Qed.
Lemma parsed_good a b : parsed a b = flat_map (good (value_of_ty (sa_ty a))) (pieces a b).
Proof. reflexivity. Qed.

Lemma all_parsed_app a vals v : all_parsed a (vals ++ [v]) = all_parsed a vals ++ parsed a (text v).
Proof. unfold all_parsed. rewrite flat_map_app. simpl. rewrite app_nil_r. reflexivity. Qed.

Lemma single_parsed a v vals : arg_facts a -> (shape_a a = ShOne \/ shape_a a = ShOpt) ->
  vals_ok a (v :: vals) -> exists x, all_parsed a (v :: vals) = x :: all_parsed a vals.
Proof.
  intros Ha Hs H. apply vals_ok_hd in H. unfold value_error in H.
  assert (Hm : many a = false) by (unfold many; destruct Hs as [-> | ->]; reflexivity).
  assert (H' : first_error (value_of_ty (sa_ty a)) [text v] = None) by (destruct Hs as [E|E]; rewrite E in H; exact H).
  unfold all_parsed. cbn [flat_map]. rewrite parsed_good, (pieces_single a _ Ha Hm).
  apply first_error_None in H'. simpl in *. unfold good in *.
  destruct (read_value (value_of_ty (sa_ty a)) (text v)); [|discriminate]. eexists. reflexivity.
Qed.

Lemma is_set_place a vals : arg_facts a -> vals_ok a vals -> is_set (place_of a vals) = nonempty vals.
Proof.
  intros Ha Hv. unfold place_of. destruct (shape_a a) eqn:Es.
  - destruct vals; reflexivity.
  - destruct (ar_parser a Ha) as [p ->]; [congruence|]. cbn [is_set]. destruct vals as [|v vals]; [reflexivity|].
    destruct (single_parsed a v vals) as [x ->]; auto.
  - destruct (ar_parser a Ha) as [p ->]; [congruence|]. cbn [is_set]. destruct vals as [|v vals]; [reflexivity|].
    destruct (single_parsed a v vals) as [x ->]; auto.
  - destruct (ar_parser a Ha) as [p ->]; [congruence|]. destruct vals as [|[b|] vals]; reflexivity.
  - destruct (ar_parser a Ha) as [p ->]; [congruence|].
    destruct (am_value_delimiter (sa_meta a)), vals; reflexivity.
  - destruct (ar_parser a Ha) as [p ->]; [congruence|].
    destruct (am_value_delimiter (sa_meta a)), vals; reflexivity.
Qed.

Lemma hd_error_app_nonempty {A} (x : A) l m : hd_error ((x :: l) ++ m) = hd_error (x :: l).
Proof. reflexivity. Qed.

Lemma parse_from_step a vals v : arg_facts a -> vals_ok a vals ->
  parse_from (place_of a vals) v =
    match value_error a (nonempty vals) v with
    | Some e => Err e
    | None => Ok (place_of a (vals ++ [v]))
    end.
Proof.
  intros Ha Hv. unfold place_of, value_error. destruct (shape_a a) eqn:Es.
  - destruct v as [b|]; [reflexivity|]. destruct vals; reflexivity.
  - destruct (ar_parser a Ha) as [p Hp]; [congruence|]. rewrite Hp. cbn [parse_from].
    destruct vals as [|w vals].
    + cbn [all_parsed flat_map hd_error nonempty app]. rewrite (vp_parse_spec _ p _ Hp).
      change (unwrap_or_default v) with (text v). fold (text v). cbn [first_error].
      rewrite app_nil_r, parsed_good, pieces_single by (unfold many; rewrite ?Es; auto).
      cbn [flat_map]. unfold good. destruct (read_value _ (text v)); reflexivity.
    + destruct (single_parsed a w vals) as [x Hx]; auto. rewrite Hx. reflexivity.
  - destruct (ar_parser a Ha) as [p Hp]; [congruence|]. rewrite Hp. cbn [parse_from].
    destruct vals as [|w vals].
    + cbn [all_parsed flat_map hd_error nonempty app]. rewrite (vp_parse_spec _ p _ Hp).
      change (unwrap_or_default v) with (text v). fold (text v). cbn [first_error].
      rewrite app_nil_r, parsed_good, pieces_single by (unfold many; rewrite ?Es; auto).
      cbn [flat_map]. unfold good. destruct (read_value _ (text v)); reflexivity.
    + destruct (single_parsed a w vals) as [x Hx]; auto. rewrite Hx. reflexivity.
  - destruct (ar_parser a Ha) as [p Hp]; [congruence|]. rewrite Hp. cbn [parse_from].
    destruct vals as [|[w|] vals]; [|reflexivity|reflexivity].
    destruct v as [b|]; [|reflexivity]. cbn [nonempty first_error app].
    rewrite (vp_parse_spec _ p _ Hp), parsed_good, pieces_single by (unfold many; rewrite ?Es; auto).
    cbn [flat_map]. unfold good. destruct (read_value _ b); reflexivity.
  - destruct (ar_parser a Ha) as [p Hp]; [congruence|]. rewrite Hp. rewrite all_parsed_app.
    assert (Hm : many a = true) by (unfold many; rewrite Es; reflexivity).
    fold (text v). rewrite parsed_good. unfold pieces. rewrite Hm.
    destruct (am_value_delimiter (sa_meta a)) as [c|]; cbn [parse_from].
    + rewrite (parse_all_spec _ p _ _ Hp). change (unwrap_or_default v) with (text v).
      destruct (first_error _ _); [reflexivity|]. cbn [bind]. destruct vals; reflexivity.
    + rewrite (vp_parse_spec _ p _ Hp). change (unwrap_or_default v) with (text v). cbn [first_error flat_map].
      unfold good. destruct (read_value _ (text v)); [|reflexivity]. destruct vals; reflexivity.
  - destruct (ar_parser a Ha) as [p Hp]; [congruence|]. rewrite Hp. rewrite all_parsed_app.
    assert (Hm : many a = true) by (unfold many; rewrite Es; reflexivity).
    fold (text v). rewrite parsed_good. unfold pieces. rewrite Hm.
    destruct (am_value_delimiter (sa_meta a)) as [c|]; cbn [parse_from].
    + rewrite (parse_all_spec _ p _ _ Hp). change (unwrap_or_default v) with (text v).
      destruct (first_error _ _); [reflexivity|]. cbn [bind]. destruct vals; reflexivity.
    + rewrite (vp_parse_spec _ p _ Hp). change (unwrap_or_default v) with (text v). cbn [first_error flat_map].
      unfold good. destruct (read_value _ (text v)); [|reflexivity]. destruct vals; reflexivity.
Qed.

Lemma value_error_kind a prior v e : value_error a prior v = Some e ->
  e_kind e <> Help /\ e_help e = None.
Proof.
  unfold value_error. 
  destruct (shape_a a); repeat
    match goal with
    | |- context [match v with _ => _ end] => destruct v
    | |- context [if prior then _ else _] => destruct prior
    end;
    try discriminate;
    try (intros H; injection H as <-; split; [discriminate|reflexivity]);
    intros H; apply first_error_kind in H; destruct H as (-> & _ & H); (split; [discriminate|exact H]).
Qed.

(** ** Extraction *)

Definition or_panic {A} (o : option A) : res A := match o with Some x => Ok x | None => Panic PUnwrap end.

Lemma content_eq a vals : content a vals =
  match shape_a a with
  | ShFlag => Some (FvBool (match vals with [] => false | _ => true end))
  | ShOne => option_map FvVal (hd_error (all_parsed a vals))
  | ShOpt => Some (FvOption (hd_error (all_parsed a vals)))
  | ShOptOpt =>
      Some (FvOptionOption
        (match vals with
         | [] => None
         | None :: _ => Some None
         | Some b :: _ => Some (hd_error (parsed a b))
         end))
  | ShMany => Some (FvVec (all_parsed a vals))
  | ShOptMany => Some (FvOptionVec (match vals with [] => None | _ => Some (all_parsed a vals) end))
  end.
Proof. reflexivity. Qed.

Lemma extractor_place d i a vals : arg_facts a ->
  extractor (final_field d i a) (place_of a vals) = or_panic (content a vals).
Proof.
  intros Ha. unfold extractor. change (fi_kind (final_field d i a)) with (fi_kind (field_of a)).
  rewrite field_of_spec. cbn [fi_kind]. rewrite content_eq. unfold place_of.
  destruct (shape_a a) eqn:Es; cbn [kind_of_shape].
  - destruct vals; reflexivity.
  - destruct (ar_parser a Ha) as [p ->]; [congruence|]. destruct (hd_error (all_parsed a vals)); reflexivity.
  - destruct (ar_parser a Ha) as [p ->]; [congruence|]. reflexivity.
  - destruct (ar_parser a Ha) as [p ->]; [congruence|]. reflexivity.
  - destruct (ar_parser a Ha) as [p ->]; [congruence|].
    destruct (am_value_delimiter (sa_meta a)), vals; reflexivity.
  - destruct (ar_parser a Ha) as [p ->]; [congruence|].
    destruct (am_value_delimiter (sa_meta a)), vals; reflexivity.
Qed.

(** The place after a default value. *)
Lemma set_default_place d i a v : arg_facts a -> dval_fits (kind_of_shape (shape_a a)) v = true ->
  exists pl, set_default (place_of a []) v = Ok pl /\ is_set pl = true /\
             extractor (final_field d i a) pl = or_panic (default_content a v) /\
             default_content a v <> None.
Proof.
  intros Ha Hf. unfold extractor. change (fi_kind (final_field d i a)) with (fi_kind (field_of a)).
  rewrite field_of_spec. cbn [fi_kind]. unfold place_of, default_content.
  destruct (shape_a a) eqn:Es; cbn [kind_of_shape] in *;
    try (destruct (ar_parser a Ha) as [p ->]; [congruence|]);
    destruct v; try discriminate; cbn [all_parsed flat_map hd_error];
    try (destruct (am_value_delimiter (sa_meta a)));
    eexists; (split; [reflexivity|]); (split; [reflexivity|]); (split; [reflexivity|discriminate]).
Qed.

Lemma set_default_parse_place a s : arg_facts a ->
  set_default_parse (place_of a []) s =
    match value_error a false (Some s) with
    | Some _ => Panic PDefault
    | None => Ok (place_of a [Some s])
    end.
Proof.
  intros Ha. unfold set_default_parse. rewrite is_set_place by (auto; apply vals_ok_nil). cbn [nonempty].
  rewrite parse_from_step by (auto; apply vals_ok_nil). cbn [nonempty app].
  destruct (value_error a false (Some s)); reflexivity.
Qed.

Lemma content_some a vals : arg_facts a -> vals_ok a vals -> (shape_a a = ShOne -> vals <> []) ->
  content a vals <> None.
Proof.
  intros Ha Hv Hn. rewrite content_eq. destruct (shape_a a) eqn:Es; try discriminate.
  destruct vals as [|v vals]; [exfalso; apply Hn; auto|].
  destruct (single_parsed a v vals) as [x ->]; auto. discriminate.
Qed.
End Places.
