(** What an accepted declaration compiles to. *)
From Verif Require Import Bytes BytesFacts Utf8 Utf8Facts Attrs AttrFacts Refl Error Values Places Heck
  Decl Spec Derive.

Section Compile.
Context {V : Type}.
Local Notation args_decl := (args_decl V).
Local Notation field_decl := (field_decl V).
Local Notation sarg := (sarg V).
Implicit Types (d : args_decl).

(** ** Induction over declarations *)

Section Ind.
Variable P : args_decl -> Prop.
Hypothesis step : forall d,
  (forall id a, In (id, FFlatten a) (fields_of d) -> P a) ->
  (forall id o vs v, In (id, FSub o (MkSubDecl vs)) (fields_of d) -> In v vs ->
                     P (sc_decl (variant_scope v))) ->
  P d.

Definition field_P (f : field_decl) : Prop :=
  match f with
  | FArg _ _ => True
  | FFlatten a => P a
  | FSub _ (MkSubDecl vs) => forall v, In v vs -> P (sc_decl (variant_scope v))
  end.

Lemma unit_P at_ : P (MkArgsDecl at_ []).
Proof. apply step; simpl; contradiction. Qed.

Fixpoint decl_rec (d : args_decl) : P d.
Proof.
  destruct d as [at_ fs].
  assert (H : forall id f, In (id, f) fs -> field_P f).
  { induction fs as [|[id0 f0] fs IH]; [contradiction|].
    intros id f [E|Hi]; [|exact (IH id f Hi)]. injection E as _ <-.
    destruct f0 as [m t|a|o [vs]]; simpl.
    - exact I.
    - exact (decl_rec a).
    - induction vs as [|[vid vd] vs IHv]; [contradiction|].
      intros v [<-|Hv]; [|exact (IHv v Hv)].
      destruct vd as [at_v|at_v a|a]; simpl.
      + apply unit_P.
      + exact (decl_rec a).
      + exact (decl_rec a). }
  apply step; simpl.
  - intros id a Hi. exact (H id (FFlatten a) Hi).
  - intros id o vs v Hi Hv. exact (H id (FSub o (MkSubDecl vs)) Hi v Hv).
Qed.
End Ind.

Lemma decl_induction (P : args_decl -> Prop) :
  (forall d,
    (forall id a, In (id, FFlatten a) (fields_of d) -> P a) ->
    (forall id o vs v, In (id, FSub o (MkSubDecl vs)) (fields_of d) -> In v vs ->
                       P (sc_decl (variant_scope v))) ->
    P d) ->
  forall d, P d.
Proof. exact (decl_rec P). Qed.

Lemma in_flattened (d : args_decl) id a : In (id, a) (flattened d) <-> In (id, FFlatten a) (fields_of d).
Proof.
  unfold flattened. rewrite in_flat_map. split.
  - intros ([id' f] & Hi & H). unfold flat_field in H. simpl in H.
    destruct f; simpl in H; try contradiction. destruct H as [H|[]]. congruence.
  - intros H. exists (id, FFlatten a). split; [exact H|]. left. reflexivity.
Qed.
Lemma subcommand_in (d : args_decl) id o vs :
  subcommand d = Some (id, o, vs) -> In (id, FSub o (MkSubDecl vs)) (fields_of d).
Proof.
  unfold subcommand. intros H.
  assert (In (id, o, vs) (flat_map sub_field (fields_of d))) as Hi.
  { destruct (flat_map sub_field (fields_of d)); [discriminate|]. injection H as ->. left. reflexivity. }
  apply in_flat_map in Hi. destruct Hi as ([id' f] & Hi & Hf). unfold sub_field in Hf. simpl in Hf.
  destruct f as [| |o' [vs']]; simpl in Hf; try contradiction. destruct Hf as [Hf|[]]. congruence.
Qed.
Lemma in_own_args (d : args_decl) a :
  In a (own_args d) <-> In (sa_id a, FArg (sa_meta a) (sa_ty a)) (fields_of d).
Proof.
  unfold own_args. rewrite in_flat_map. split.
  - intros ([id' f] & Hi & H). unfold own_arg in H. simpl in H.
    destruct f; simpl in H; try contradiction. destruct H as [<-|[]]. exact Hi.
  - intros H. eexists. split; [exact H|]. left. destruct a. reflexivity.
Qed.

(** ** One field *)

Definition field_of (a : sarg) : field_info V :=
  snd (fst (compile_field (sa_id a) (sa_meta a) (sa_ty a))).
Definition class_of (a : sarg) : field_class :=
  fst (fst (compile_field (sa_id a) (sa_meta a) (sa_ty a))).
Definition errs_of (a : sarg) : list cerr := snd (compile_field (sa_id a) (sa_meta a) (sa_ty a)).

Lemma compile_field_eq id m t :
  compile_field id m t = (class_of (Arg id m t), field_of (Arg id m t), errs_of (Arg id m t)).
Proof.
  unfold class_of, field_of, errs_of. cbn [sa_id sa_meta sa_ty].
  destruct (compile_field id m t) as [[c i] e]. reflexivity.
Qed.

Definition kind_of_shape (s : shape) : magic_kind :=
  match s with
  | ShFlag => KBool | ShOne => KValue | ShOpt => KOption | ShOptOpt => KOptionOption
  | ShMany => KVec | ShOptMany => KOptionVec
  end.
Lemma classify_shape (t : ty V) : classify t = (kind_of_shape (shape_of t), value_of_ty t).
Proof.
  destruct t as [u|u|t|t]; try reflexivity.
  destruct t as [u|u|t|t]; reflexivity.
Qed.

Definition dflt_of (a : sarg) : option (default_value V) :=
  fst (compute_default (kind_of_shape (shape_a a)) (value_of_ty (sa_ty a)) (sa_meta a)).

Lemma class_of_spec a :
  class_of a = if is_option a then CNamed
               else if is_last a then CLast else if many a then CVar else CSingle.
Proof.
  unfold class_of, compile_field. rewrite classify_shape.
  destruct (compute_default _ _ _) as [df es]. unfold is_named, is_option.
  destruct (am_long (sa_meta a)), (am_short (sa_meta a)); try reflexivity.
  cbn [fst]. unfold is_last, many, shape_a. destruct (am_last (sa_meta a)); [reflexivity|].
  destruct (shape_of (sa_ty a)); reflexivity.
Qed.

Lemma field_of_spec a :
  field_of a =
    mkFieldInfo (sa_id a) (kind_of_shape (shape_a a)) (value_of_ty (sa_ty a))
      (option_map utf8_encode (am_value_delimiter (sa_meta a)))
      (if is_option a then enc_names_of (sa_id a) (sa_meta a) else [])
      (if is_option a then base_attrs (kind_of_shape (shape_a a)) (sa_meta a)
       else positional_attrs_of (kind_of_shape (shape_a a)) (sa_meta a))
      (required_of (kind_of_shape (shape_a a)) (sa_meta a) (dflt_of a))
      (dflt_of a) (am_exclusive (sa_meta a)) (am_requires (sa_meta a))
      (am_conflicts_with (sa_meta a)) [] []
      (if is_option a then named_description (sa_id a) (kind_of_shape (shape_a a)) (sa_meta a)
       else positional_description (sa_id a) (kind_of_shape (shape_a a))
              (required_of (kind_of_shape (shape_a a)) (sa_meta a) (dflt_of a)) (sa_meta a))
      (doc_process (am_doc (sa_meta a))) (am_hide (sa_meta a)).
Proof.
  unfold field_of, compile_field, dflt_of. rewrite classify_shape. fold (shape_a a).
  destruct (compute_default _ _ _) as [df es]. unfold is_named, is_option.
  destruct (am_long (sa_meta a)), (am_short (sa_meta a)); reflexivity.
Qed.

(** ** The loop over the fields *)

Definition compile_step (x : expand_state) (f : ident * field_decl) : expand_state :=
  match snd f with
  | FArg m t =>
      x_add_errs (errs_of (Arg (fst f) m t))
        (place_field x (class_of (Arg (fst f) m t)) (field_of (Arg (fst f) m t)))
  | FFlatten a =>
      mkExpand (x_named x) (x_positional x) (x_var x) (x_last x) (x_sub x)
        (x_flat x ++ [(fst f, fst (compile_args a))]) (x_seen x)
        (x_errs x ++ snd (compile_args a) ++ flatten_errs (fst (compile_args a))
         ++ cerr_when (negb (ident_ok (fst f))) CE_ident)
  | FSub optional s =>
      let es := snd (compile_sub s) ++ cerr_when (negb (ident_ok (fst f))) CE_ident in
      match x_sub x with
      | Some _ => x_add_errs (es ++ [CE_duplicated_subcommand]) x
      | None =>
          mkExpand (x_named x) (x_positional x) (x_var x) (x_last x)
            (Some (fst f, optional, fst (compile_sub s))) (x_flat x) (x_seen x) (x_errs x ++ es)
      end
  end.

Lemma fold_left_ext {A B} (f g : A -> B -> A) l x :
  (forall x b, f x b = g x b) -> fold_left f l x = fold_left g l x.
Proof. intros H. revert x. induction l as [|b l IH]; intros x; simpl; [reflexivity|]. rewrite H. apply IH. Qed.

Lemma compile_args_eq at_ fs :
  compile_args (MkArgsDecl at_ fs) =
    expand_finish (map fst fs) (cmd_meta_of at_) (fold_left compile_step fs expand_init).
Proof.
  cbn [compile_args]. fold (compile_args (V:=V)). fold (compile_sub (V:=V)). f_equal. apply fold_left_ext. intros x [id f]. unfold compile_step. cbn [fst snd].
  destruct f as [m t|a|o s].
  - rewrite compile_field_eq. reflexivity.
  - destruct (compile_args a) as [ai es]. reflexivity.
  - destruct (compile_sub s) as [si es]. reflexivity.
Qed.

Definition variant_impl (v : ident * variant_decl V) : ident * variant V :=
  (fst v, match snd v with
          | VDUnit at_ => VUnit (cmd_meta_of at_)
          | VDNewtype _ a => VNewtype (fst (compile_args a))
          | VDStruct a => VStruct (fst (compile_args a))
          end).
Definition variant_errs (v : ident * variant_decl V) : list cerr :=
  cerr_when (negb (ident_ok (fst v))) CE_ident ++
  match snd v with
  | VDUnit _ => []
  | VDNewtype at_ a => cerr_when (opt_is_some (cmd_meta_of at_)) CE_newtype_attrs ++ snd (compile_args a)
  | VDStruct a => snd (compile_args a)
  end.
Lemma compile_sub_eq vs :
  compile_sub (MkSubDecl vs) =
    (MkSub (map variant_impl vs),
     cerr_when (has_dup (map fst vs)) CE_duplicated_field ++ concat (map variant_errs vs)).
Proof.
  cbn [compile_sub]. fold (compile_args (V:=V)). f_equal.
  - f_equal. rewrite map_map. apply map_ext. intros [id vd]. unfold variant_impl. cbn [fst snd].
    destruct vd as [at_|at_ a|a]; [reflexivity| |]; destruct (compile_args a); reflexivity.
  - f_equal. f_equal. rewrite map_map. apply map_ext. intros [id vd]. unfold variant_errs. cbn [fst snd].
    destruct vd as [at_|at_ a|a]; [reflexivity| |]; destruct (compile_args a); reflexivity.
Qed.

Lemma cerr_when_nil b e : cerr_when b e = [] <-> b = false.
Proof. destruct b; simpl; split; congruence. Qed.
Lemma app_nil {A} (l m : list A) : l ++ m = [] <-> l = [] /\ m = [].
Proof. split; [apply app_eq_nil|]. intros [-> ->]. reflexivity. Qed.
Lemma concat_nil {A} (l : list (list A)) : concat l = [] <-> forall x, In x l -> x = [].
Proof.
  induction l as [|x l IH]; simpl; [split; [contradiction|reflexivity]|].
  rewrite app_nil, IH. split.
  - intros [-> H] y [<-|Hy]; auto.
  - intros H. split; auto.
Qed.

(** ** Well-formed declarations: what acceptance guarantees *)

Definition field_good (f : ident * field_decl) : Prop :=
  match snd f with
  | FArg m t => errs_of (Arg (fst f) m t) = []
  | FFlatten a => accepted a /\ flatten_errs (fst (compile_args a)) = [] /\ ident_ok (fst f) = true
  | FSub o s => snd (compile_sub s) = [] /\ ident_ok (fst f) = true
  end.

Definition enc_names (a : sarg) : list bytes := enc_names_of (sa_id a) (sa_meta a).
Definition opts (l : list sarg) : list sarg := filter is_option l.
Definition pos_plain (l : list sarg) : list sarg :=
  filter (fun a => negb (is_last a)) (filter (fun a => negb (is_option a)) l).
Definition pos_last (l : list sarg) : list sarg :=
  filter is_last (filter (fun a => negb (is_option a)) l).
Definition all_enc_names (l : list sarg) : list bytes := concat (map enc_names (opts l)).

Definition sub_impl_of (s : ident * bool * list (ident * variant_decl V)) :=
  let '(id, o, vs) := s in (id, o, fst (compile_sub (MkSubDecl vs))).

Record loop_inv (fs : list (ident * field_decl)) (x : expand_state) : Prop := {
  li_named : x_named x = map field_of (opts (flat_map own_arg fs));
  li_pos : x_positional x ++ opt_list (x_var x) = map field_of (pos_plain (flat_map own_arg fs));
  li_last : opt_list (x_last x) = map field_of (pos_last (flat_map own_arg fs));
  li_flat : x_flat x = map (fun fa => (fst fa, fst (compile_args (snd fa)))) (flat_map flat_field fs);
  li_sub : opt_list (x_sub x) = map sub_impl_of (flat_map sub_field fs);
  li_seen : forall n, In n (x_seen x) <-> In n (all_enc_names (flat_map own_arg fs));
  li_nodup : NoDup (all_enc_names (flat_map own_arg fs));
  li_good : forall f, In f fs -> field_good f
}.

Lemma check_dup_fold ns (x : expand_state (V:=V)) :
  let y := fold_left check_dup_name ns x in
  x_named y = x_named x /\ x_positional y = x_positional x /\ x_var y = x_var x /\
  x_last y = x_last x /\ x_sub y = x_sub x /\ x_flat y = x_flat x /\
  (forall n, In n (x_seen y) <-> In n ns \/ In n (x_seen x)) /\
  (x_errs y = [] -> x_errs x = [] /\ NoDup ns /\ forall n, In n ns -> ~ In n (x_seen x)).
Proof.
  revert x. induction ns as [|n ns IH]; intros x; cbn [fold_left].
  - cbn zeta. do 6 (split; [reflexivity|]). split; [simpl; tauto|].
    intros He. split; [exact He|]. split; [constructor|]. intros n [].
  - destruct (IH (check_dup_name x n)) as (H1 & H2 & H3 & H4 & H5 & H6 & H7 & H8).
    cbn [check_dup_name x_named x_positional x_var x_last x_sub x_flat x_seen x_errs] in *.
    split; [exact H1|]. split; [exact H2|]. split; [exact H3|]. split; [exact H4|].
    split; [exact H5|]. split; [exact H6|]. split.
    + intros n'. rewrite H7. simpl. tauto.
    + intros He. destruct (H8 He) as (He' & Hnd & Hni).
      apply app_nil in He'. destruct He' as [He1 He2].
      apply cerr_when_nil, existsb_beqb_nIn in He2. split; [exact He1|]. split.
      * constructor; [|exact Hnd]. intros Hi. apply (Hni n Hi). left. reflexivity.
      * intros n' [<-|Hi] Hs; [contradiction|]. apply (Hni n' Hi). right. exact Hs.
Qed.

Lemma NoDup_app {A} (l m : list A) :
  NoDup l -> NoDup m -> (forall x, In x l -> ~ In x m) -> NoDup (l ++ m).
Proof.
  intros Hl Hm H. induction Hl as [|x l Hx Hl IH]; simpl; [exact Hm|].
  constructor.
  - rewrite in_app_iff. intros [Hi|Hi]; [contradiction|]. apply (H x); [left; reflexivity|exact Hi].
  - apply IH. intros y Hy. apply H. right. exact Hy.
Qed.

Lemma x_add_errs_errs es (x : expand_state (V:=V)) : x_errs (x_add_errs es x) = x_errs x ++ es.
Proof. reflexivity. Qed.

Lemma loop_inv_init : loop_inv [] (expand_init (V:=V)).
Proof.
  constructor; try reflexivity; simpl; try tauto. constructor.
Qed.

Lemma loop_inv_step fs x f :
  (x_errs x = [] -> loop_inv fs x) -> x_errs (compile_step x f) = [] ->
  loop_inv (fs ++ [f]) (compile_step x f).
Proof.
  intros IH He. destruct f as [id [m t|a|o [vs]]]; unfold compile_step in *; cbn [fst snd] in *.
  - set (a := Arg id m t) in *.
    rewrite x_add_errs_errs in He. apply app_nil in He. destruct He as [He Hes].
    assert (Hgood : field_good (id, FArg m t)) by exact Hes.
    assert (Hcl := class_of_spec a). 
    destruct (class_of a) eqn:Ec.
    + assert (Ho : is_option a = true).
      { destruct (is_option a); [reflexivity|]. destruct (is_last a), (many a); discriminate. }
      cbn [place_field] in *.
      assert (En : fi_enc_names (field_of a) = enc_names a).
      { rewrite field_of_spec. cbn [fi_enc_names]. rewrite Ho. reflexivity. }
      rewrite En in *.
      destruct (check_dup_fold (enc_names a) x) as (H1 & H2 & H3 & H4 & H5 & H6 & H7 & H8).
      cbn [x_errs] in He. destruct (H8 He) as (Hex & Hnd & Hni). destruct (IH Hex) as [I1 I2 I3 I4 I5 I6 I7 I8].
      assert (Eo : opts (flat_map own_arg (fs ++ [(id, FArg m t)])) = opts (flat_map own_arg fs) ++ [a]).
      { rewrite flat_map_app. unfold opts. rewrite filter_app. simpl. fold a. rewrite Ho. reflexivity. }
      assert (Ep : filter (fun a => negb (is_option a)) (flat_map own_arg (fs ++ [(id, FArg m t)]))
                   = filter (fun a => negb (is_option a)) (flat_map own_arg fs)).
      { rewrite flat_map_app, filter_app. simpl. fold a. rewrite Ho. simpl. apply app_nil_r. }
      assert (Ee : all_enc_names (flat_map own_arg (fs ++ [(id, FArg m t)]))
                   = all_enc_names (flat_map own_arg fs) ++ enc_names a).
      { unfold all_enc_names. rewrite Eo, map_app, concat_app. simpl. rewrite app_nil_r. reflexivity. }
      constructor; cbn [x_named x_positional x_var x_last x_sub x_flat x_seen x_errs x_add_errs].
      * rewrite H1, I1, Eo, map_app. reflexivity.
      * rewrite H2, H3, I2. unfold pos_plain. rewrite Ep. reflexivity.
      * rewrite H4, I3. unfold pos_last. rewrite Ep. reflexivity.
      * rewrite H6, I4, flat_map_app, map_app. simpl. rewrite app_nil_r. reflexivity.
      * rewrite H5, I5, flat_map_app, map_app. simpl. rewrite app_nil_r. reflexivity.
      * intros n. rewrite H7, I6, Ee, in_app_iff. tauto.
      * rewrite Ee. apply NoDup_app; [exact I7|exact Hnd|]. intros n Hn Hn'. apply (Hni n Hn').
        apply I6. exact Hn.
      * intros f Hf. apply in_app_iff in Hf. destruct Hf as [Hf|[<-|[]]]; auto.
    + (* CSingle *)
      assert (Ho : is_option a = false) by (destruct (is_option a); [discriminate|reflexivity]).
      assert (Hl : is_last a = false).
      { destruct (is_last a); [|reflexivity]. rewrite Ho in Hcl. discriminate. }
      cbn [place_field] in *. destruct (x_var x) eqn:Ev.
      { rewrite x_add_errs_errs in He. apply app_nil in He. destruct He as [_ He]. discriminate. }
      cbn [x_errs] in He. destruct (IH He) as [I1 I2 I3 I4 I5 I6 I7 I8]. rewrite Ev in I2.
      cbn [opt_list] in I2. rewrite app_nil_r in I2.
      assert (Eo : opts (flat_map own_arg (fs ++ [(id, FArg m t)])) = opts (flat_map own_arg fs)).
      { rewrite flat_map_app. unfold opts. rewrite filter_app. simpl. fold a. rewrite Ho. apply app_nil_r. }
      assert (Ep : filter (fun a => negb (is_option a)) (flat_map own_arg (fs ++ [(id, FArg m t)]))
                   = filter (fun a => negb (is_option a)) (flat_map own_arg fs) ++ [a]).
      { rewrite flat_map_app, filter_app. simpl. fold a. rewrite Ho. reflexivity. }
      constructor; cbn [x_named x_positional x_var x_last x_sub x_flat x_seen x_errs x_add_errs].
      * rewrite I1, Eo. reflexivity.
      * cbn [opt_list]. rewrite app_nil_r, I2. unfold pos_plain. rewrite Ep, filter_app, map_app.
        simpl. rewrite Hl. reflexivity.
      * rewrite I3. unfold pos_last. rewrite Ep, filter_app, map_app. simpl. rewrite Hl. simpl.
        rewrite app_nil_r. reflexivity.
      * rewrite I4, flat_map_app, map_app. simpl. rewrite app_nil_r. reflexivity.
      * rewrite I5, flat_map_app, map_app. simpl. rewrite app_nil_r. reflexivity.
      * intros n. unfold all_enc_names. rewrite Eo. apply I6.
      * unfold all_enc_names. rewrite Eo. exact I7.
      * intros f Hf. apply in_app_iff in Hf. destruct Hf as [Hf|[<-|[]]]; auto.
    + (* CVar *)
      assert (Ho : is_option a = false) by (destruct (is_option a); [discriminate|reflexivity]).
      assert (Hl : is_last a = false).
      { destruct (is_last a); [|reflexivity]. rewrite Ho in Hcl. discriminate. }
      cbn [place_field x_errs] in *. destruct (x_var x) eqn:Ev.
      { apply app_nil in He. destruct He as [_ He]. discriminate. }
      rewrite app_nil_r in He. destruct (IH He) as [I1 I2 I3 I4 I5 I6 I7 I8]. rewrite Ev in I2.
      cbn [opt_list] in I2. rewrite app_nil_r in I2.
      assert (Eo : opts (flat_map own_arg (fs ++ [(id, FArg m t)])) = opts (flat_map own_arg fs)).
      { rewrite flat_map_app. unfold opts. rewrite filter_app. simpl. fold a. rewrite Ho. apply app_nil_r. }
      assert (Ep : filter (fun a => negb (is_option a)) (flat_map own_arg (fs ++ [(id, FArg m t)]))
                   = filter (fun a => negb (is_option a)) (flat_map own_arg fs) ++ [a]).
      { rewrite flat_map_app, filter_app. simpl. fold a. rewrite Ho. reflexivity. }
      constructor; cbn [x_named x_positional x_var x_last x_sub x_flat x_seen x_errs x_add_errs].
      * rewrite I1, Eo. reflexivity.
      * cbn [opt_list]. rewrite I2. unfold pos_plain. rewrite Ep, filter_app, map_app.
        simpl. rewrite Hl. reflexivity.
      * rewrite I3. unfold pos_last. rewrite Ep, filter_app, map_app. simpl. rewrite Hl. simpl.
        rewrite app_nil_r. reflexivity.
      * rewrite I4, flat_map_app, map_app. simpl. rewrite app_nil_r. reflexivity.
      * rewrite I5, flat_map_app, map_app. simpl. rewrite app_nil_r. reflexivity.
      * intros n. unfold all_enc_names. rewrite Eo. apply I6.
      * unfold all_enc_names. rewrite Eo. exact I7.
      * intros f Hf. apply in_app_iff in Hf. destruct Hf as [Hf|[<-|[]]]; auto.
    + (* CLast *)
      assert (Ho : is_option a = false) by (destruct (is_option a); [discriminate|reflexivity]).
      assert (Hl : is_last a = true).
      { destruct (is_last a); [reflexivity|]. rewrite Ho in Hcl. destruct (many a); discriminate. }
      cbn [place_field x_errs] in *. destruct (x_last x) eqn:Ev.
      { apply app_nil in He. destruct He as [_ He]. discriminate. }
      rewrite app_nil_r in He. destruct (IH He) as [I1 I2 I3 I4 I5 I6 I7 I8]. rewrite Ev in I3.
      assert (Eo : opts (flat_map own_arg (fs ++ [(id, FArg m t)])) = opts (flat_map own_arg fs)).
      { rewrite flat_map_app. unfold opts. rewrite filter_app. simpl. fold a. rewrite Ho. apply app_nil_r. }
      assert (Ep : filter (fun a => negb (is_option a)) (flat_map own_arg (fs ++ [(id, FArg m t)]))
                   = filter (fun a => negb (is_option a)) (flat_map own_arg fs) ++ [a]).
      { rewrite flat_map_app, filter_app. simpl. fold a. rewrite Ho. reflexivity. }
      constructor; cbn [x_named x_positional x_var x_last x_sub x_flat x_seen x_errs x_add_errs].
      * rewrite I1, Eo. reflexivity.
      * rewrite I2. unfold pos_plain. rewrite Ep, filter_app, map_app.
        simpl. rewrite Hl. simpl. rewrite app_nil_r. reflexivity.
      * unfold pos_last. rewrite Ep, filter_app, map_app. simpl. rewrite Hl. simpl.
        fold (pos_last (flat_map own_arg fs)). rewrite <- I3. reflexivity.
      * rewrite I4, flat_map_app, map_app. simpl. rewrite app_nil_r. reflexivity.
      * rewrite I5, flat_map_app, map_app. simpl. rewrite app_nil_r. reflexivity.
      * intros n. unfold all_enc_names. rewrite Eo. apply I6.
      * unfold all_enc_names. rewrite Eo. exact I7.
      * intros f Hf. apply in_app_iff in Hf. destruct Hf as [Hf|[<-|[]]]; auto.
  - cbn [x_errs] in He. rewrite !app_nil in He. destruct He as (He & He1 & He2 & He3).
    apply cerr_when_nil, negb_false_iff in He3.
    destruct (IH He) as [I1 I2 I3 I4 I5 I6 I7 I8].
    constructor; cbn [x_named x_positional x_var x_last x_sub x_flat x_seen x_errs];
      rewrite ?flat_map_app; cbn [flat_map own_arg flat_field sub_field fst snd app]; rewrite ?app_nil_r; auto.
    + rewrite map_app, I4. reflexivity.
    + intros f Hf. apply in_app_iff in Hf. destruct Hf as [Hf|[<-|[]]]; auto.
      split; [exact He1|]. auto.
  - destruct (x_sub x) eqn:Es.
    { rewrite x_add_errs_errs in He. rewrite !app_nil in He. destruct He as (_ & _ & He). discriminate. }
    cbn [x_errs] in He. rewrite !app_nil in He. destruct He as (He & He1 & He2).
    apply cerr_when_nil, negb_false_iff in He2.
    destruct (IH He) as [I1 I2 I3 I4 I5 I6 I7 I8]. rewrite Es in I5. symmetry in I5. apply map_eq_nil in I5.
    constructor; cbn [x_named x_positional x_var x_last x_sub x_flat x_seen x_errs];
      rewrite ?flat_map_app; cbn [flat_map own_arg flat_field sub_field fst snd app]; rewrite ?app_nil_r; auto.
    + rewrite I5. reflexivity.
    + intros f Hf. apply in_app_iff in Hf. destruct Hf as [Hf|[<-|[]]]; auto.
      split; auto.
Qed.

Lemma loop_inv_all fs :
  x_errs (fold_left compile_step fs expand_init) = [] ->
  loop_inv fs (fold_left compile_step fs expand_init).
Proof.
  induction fs as [|f fs IH] using rev_ind; intros He.
  - exact loop_inv_init.
  - rewrite fold_left_app in *. cbn [fold_left] in *. apply loop_inv_step; assumption.
Qed.

(** ** The result *)

Definition direct0_of (d : args_decl) : list (field_info V) := map field_of (checked d).
Definition direct1_of (d : args_decl) : list (field_info V) := assign_indexes 0 (direct0_of d).
Definition direct_of (d : args_decl) : list (field_info V) :=
  map (resolve_field (direct1_of d)) (direct1_of d).
Definition named_cnt_of (d : args_decl) : nat := length (opts (own_args d)).
Definition impl (d : args_decl) : args_impl V := fst (compile_args d).

Lemma has_dup_false l : has_dup l = false -> NoDup l.
Proof.
  induction l as [|x l IH]; simpl; intros H; [constructor|].
  apply orb_false_iff in H. destruct H as [H1 H2]. constructor; [|auto].
  apply existsb_beqb_nIn. exact H1.
Qed.

Record accepted_facts (d : args_decl) : Prop := {
  ac_len : length (fields_of d) <= 254;
  ac_ids : NoDup (map fst (fields_of d));
  ac_good : forall f, In f (fields_of d) -> field_good f;
  ac_names : NoDup (all_enc_names (own_args d));
  ac_subs : length (flat_map sub_field (fields_of d)) <= 1;
  ac_last : length (pos_last (own_args d)) <= 1;
  ac_refs : forall f, In f (direct1_of d) -> resolve_errs (direct1_of d) f = [];
  ac_excl : flattened d <> [] -> existsb fi_exclusive (direct_of d) = false;
  ac_impl : impl d = MkArgs (direct_of d) (named_cnt_of d)
                       (map (fun fa => (fst fa, impl (snd fa))) (flattened d))
                       (option_map sub_impl_of (subcommand d)) (cmd_meta_of (attrs_of d))
}.

Lemma opt_list_hd {A} (o : option A) l : opt_list o = l -> o = hd_error l.
Proof. destruct o; simpl; intros <-; reflexivity. Qed.
Lemma hd_error_map {A B} (f : A -> B) l : hd_error (map f l) = option_map f (hd_error l).
Proof. destruct l; reflexivity. Qed.

Lemma accepted_facts_of d : accepted d -> accepted_facts d.
Proof.
  destruct d as [at_ fs]. unfold accepted. intros H.
  assert (Himpl : impl (MkArgsDecl at_ fs) = fst (compile_args (MkArgsDecl at_ fs))) by reflexivity.
  rewrite compile_args_eq in H, Himpl.
  set (x := fold_left compile_step fs expand_init) in *.
  unfold expand_finish in H, Himpl. cbn [fst snd] in H, Himpl.
  rewrite !app_nil in H. destruct H as (Hlen & Hdup & Herr & Hrefs & Hexcl).
  apply cerr_when_nil in Hlen, Hdup, Hexcl.
  pose proof (loop_inv_all fs Herr) as [I1 I2 I3 I4 I5 I6 I7 I8]. fold x in I1, I2, I3, I4, I5, I6.
  assert (E0 : x_named x ++ x_positional x ++ opt_list (x_var x) ++ opt_list (x_last x)
               = direct0_of (MkArgsDecl at_ fs)).
  { rewrite (app_assoc (x_positional x)), I1, I2, I3. unfold direct0_of, checked, positionals.
    rewrite !map_app. reflexivity. }
  assert (E1 : assign_indexes 0
                 (x_named x ++ x_positional x ++ opt_list (x_var x) ++ opt_list (x_last x))
               = direct1_of (MkArgsDecl at_ fs)) by (rewrite E0; reflexivity).
  rewrite E1 in Hrefs, Hexcl, Himpl.
  rewrite concat_nil in Hrefs.
  constructor; cbn [fields_of].
  - rewrite map_length in Hlen. lia.
  - apply has_dup_false. exact Hdup.
  - exact I8.
  - exact I7.
  - rewrite <- (map_length sub_impl_of), <- I5. destruct (x_sub x); simpl; lia.
  - unfold own_args. cbn [fields_of]. rewrite <- (map_length field_of), <- I3. destruct (x_last x); simpl; lia.
  - intros f Hf. apply Hrefs. apply in_map. exact Hf.
  - intros Hne. rewrite I4 in Hexcl. fold (flattened (MkArgsDecl at_ fs)) in Hexcl.
    unfold flattened in Hne, Hexcl. cbn [fields_of] in Hne, Hexcl.
    destruct (flat_map flat_field fs); [contradiction|]. exact Hexcl.
  - rewrite Himpl. f_equal.
    + rewrite I1, map_length. reflexivity.
    + rewrite I4. reflexivity.
    + apply opt_list_hd in I5. rewrite I5, hd_error_map. reflexivity.
Qed.

(** ** Indexes *)

Definition with_index (idx : N) (f : field_info V) : field_info V :=
  mkFieldInfo (fi_ident f) (fi_kind f) (fi_value_ty f) (fi_delimiter f) (fi_enc_names f)
    (at_set (fi_attrs f) (at_index idx) true) (fi_required f) (fi_default f) (fi_exclusive f)
    (fi_requires f) (fi_conflicts f) (fi_requires_idx f) (fi_conflicts_idx f)
    (fi_description f) (fi_doc f) (fi_hide f).

Lemma assign_indexes_length idx l : length (assign_indexes (V:=V) idx l) = length l.
Proof. revert idx. induction l as [|f l IH]; intros idx; simpl; auto. Qed.
Lemma assign_indexes_nth idx l i :
  nth_error (assign_indexes idx l) i
  = option_map (with_index (idx + N.of_nat i)) (nth_error l i).
Proof.
  revert idx i. induction l as [|f l IH]; intros idx [|i]; cbn [assign_indexes nth_error option_map];
    try reflexivity.
  - rewrite N.add_0_r. reflexivity.
  - rewrite IH. destruct (nth_error l i); [|reflexivity]. cbn [option_map]. do 2 f_equal. lia.
Qed.

Definition arg_attrs (i : nat) (a : sarg) : attrs :=
  at_set (fi_attrs (field_of a)) (at_index (N.of_nat i)) true.
Definition final_field (d : args_decl) (i : nat) (a : sarg) : field_info V :=
  resolve_field (direct1_of d) (with_index (N.of_nat i) (field_of a)).

Lemma direct1_nth d i :
  nth_error (direct1_of d) i
  = option_map (fun a => with_index (N.of_nat i) (field_of a)) (nth_error (checked d) i).
Proof.
  unfold direct1_of, direct0_of. rewrite assign_indexes_nth, nth_error_map.
  destruct (nth_error (checked d) i); reflexivity.
Qed.
Lemma direct_nth d i :
  nth_error (direct_of d) i = option_map (final_field d i) (nth_error (checked d) i).
Proof.
  unfold direct_of. rewrite nth_error_map, direct1_nth.
  destruct (nth_error (checked d) i); reflexivity.
Qed.
Lemma direct_length d : length (direct_of d) = length (checked d).
Proof.
  unfold direct_of, direct1_of, direct0_of. rewrite map_length, assign_indexes_length, map_length.
  reflexivity.
Qed.

Lemma field_attrs_low a : low_clear (fi_attrs (field_of a)).
Proof.
  rewrite field_of_spec. cbn [fi_attrs].
  destruct (is_option a); [apply base_attrs_low|apply positional_attrs_low].
Qed.

(** The checked arguments are the arguments. *)
Lemma filter_negb_length {A} (p : A -> bool) l :
  length (filter p l) + length (filter (fun x => negb (p x)) l) = length l.
Proof.
  induction l as [|x l IH]; simpl; [reflexivity|]. destruct (p x); simpl; lia.
Qed.
Lemma in_checked d a : In a (checked d) <-> In a (own_args d).
Proof.
  unfold checked, positionals. rewrite !in_app_iff, !filter_In.
  destruct (is_option a); destruct (is_last a); simpl; tauto.
Qed.
Lemma filter_partition_perm {A} (p : A -> bool) l :
  Permutation.Permutation (filter p l ++ filter (fun x => negb (p x)) l) l.
Proof.
  induction l as [|x l IH]; simpl; [constructor|]. destruct (p x); simpl.
  - constructor. exact IH.
  - rewrite <- Permutation.Permutation_middle. constructor. exact IH.
Qed.
Lemma checked_perm d : Permutation.Permutation (checked d) (own_args d).
Proof.
  unfold checked, positionals. cbn zeta.
  eapply Permutation.perm_trans; [|apply (filter_partition_perm is_option (own_args d))].
  apply Permutation.Permutation_app_head.
  rewrite Permutation.Permutation_app_comm. apply filter_partition_perm.
Qed.
Lemma own_args_length d : length (own_args d) <= length (fields_of d).
Proof.
  unfold own_args. induction (fields_of d) as [|[id f] fs IH]; simpl; [lia|].
  rewrite app_length. destruct f; simpl; lia.
Qed.
Lemma checked_length d : accepted d -> length (checked d) <= 254.
Proof.
  intros H. rewrite (Permutation.Permutation_length (checked_perm d)).
  pose proof (own_args_length d). pose proof (ac_len d (accepted_facts_of d H)). lia.
Qed.
Lemma own_args_ids d : NoDup (map fst (fields_of d)) -> NoDup (map sa_id (own_args d)).
Proof.
  unfold own_args. induction (fields_of d) as [|[id f] fs IH]; simpl; intros H; [constructor|].
  inversion H as [|? ? Hn Hd]; subst. rewrite map_app. destruct f as [m t|a|o s]; simpl; auto.
  constructor; [|auto]. intros Hi. apply Hn. apply in_map_iff in Hi. destruct Hi as (a & <- & Ha).
  apply in_flat_map in Ha. destruct Ha as ([id' f'] & Hf & Ha). unfold own_arg in Ha. simpl in Ha.
  destruct f'; simpl in Ha; try contradiction. destruct Ha as [<-|[]]. simpl.
  apply in_map_iff. exists (id', FArg m0 t0). auto.
Qed.
Lemma checked_ids d : accepted d -> NoDup (map sa_id (checked d)).
Proof.
  intros H. eapply Permutation.Permutation_NoDup.
  - apply Permutation.Permutation_map, Permutation.Permutation_sym, checked_perm.
  - apply own_args_ids. exact (ac_ids d (accepted_facts_of d H)).
Qed.

Lemma NoDup_nth_inj {A B} (f : A -> B) l i j a b :
  NoDup (map f l) -> nth_error l i = Some a -> nth_error l j = Some b -> f a = f b -> i = j.
Proof.
  intros Hn Hi Hj E. rewrite NoDup_nth_error in Hn. apply Hn.
  - rewrite map_length. apply nth_error_Some. congruence.
  - rewrite !nth_error_map, Hi, Hj. simpl. congruence.
Qed.

Lemma checked_lt d i a : accepted d -> nth_error (checked d) i = Some a -> (N.of_nat i < 256)%N.
Proof.
  intros H Hi. assert (i < length (checked d)) by (apply nth_error_Some; congruence).
  pose proof (checked_length d H). lia.
Qed.
Lemma arg_attrs_index d i a :
  accepted d -> nth_error (checked d) i = Some a -> get_index (arg_attrs i a) = N.of_nat i.
Proof.
  intros H Hi. unfold arg_attrs. apply get_index_set; [apply field_attrs_low|].
  eapply checked_lt; eauto.
Qed.

(** References to fields. *)
Lemma find_field_spec d id :
  accepted d ->
  match find_field id (direct1_of d) with
  | Some n => exists j b, n = N.of_nat j /\ nth_error (checked d) j = Some b /\ sa_id b = id
  | None => ~ In id (map sa_id (checked d))
  end.
Proof.
  intros Hacc.
  assert (G : forall l off,
    (forall i f, nth_error l i = Some f ->
       exists a, nth_error (checked d) (off + i) = Some a /\ f = with_index (N.of_nat (off + i)) (field_of a)) ->
    match find_field id l with
    | Some n => exists j b, n = N.of_nat j /\ nth_error (checked d) j = Some b /\ sa_id b = id
    | None => forall f, In f l -> fi_ident f <> id
    end).
  { induction l as [|f l IH]; intros off Hl; simpl; [contradiction|].
    destruct (Hl 0 f eq_refl) as (a & Ha & ->). rewrite Nat.add_0_r in Ha.
    assert (Ei : fi_ident (with_index (N.of_nat (off + 0)) (field_of a)) = sa_id a).
    { rewrite field_of_spec. reflexivity. }
    destruct (beqb id (fi_ident (with_index (N.of_nat (off + 0)) (field_of a)))) eqn:E.
    - rewrite Ei in E. apply beqb_eq in E. exists off, a. split; [|split; [exact Ha|congruence]].
      change (fi_attrs (with_index (N.of_nat (off + 0)) (field_of a))) with (arg_attrs (off + 0) a).
      rewrite Nat.add_0_r. eapply arg_attrs_index; eauto.
    - specialize (IH (S off)). destruct (find_field id l).
      + apply IH. intros i g Hg. replace (S off + i) with (off + S i) by lia. apply (Hl (S i)). exact Hg.
      + intros g [<-|Hg].
        * rewrite Ei in *. apply beqb_neq in E. congruence.
        * apply IH; [|exact Hg]. intros i h Hh. replace (S off + i) with (off + S i) by lia.
          apply (Hl (S i)). exact Hh. }
  specialize (G (direct1_of d) 0).
  destruct (find_field id (direct1_of d)).
  - apply G. intros i f Hf. rewrite direct1_nth in Hf. simpl.
    destruct (nth_error (checked d) i) as [a|]; [|discriminate]. injection Hf as <-. eauto.
  - intros Hi. apply in_map_iff in Hi. destruct Hi as (a & Ha & Hin). apply In_nth_error in Hin.
    destruct Hin as [i Hin].
    apply (G (fun i f Hf => ltac:(rewrite direct1_nth in Hf; simpl;
      destruct (nth_error (checked d) i) as [a'|]; [injection Hf as <-; eauto|discriminate]))
      (with_index (N.of_nat i) (field_of a))).
    + eapply nth_error_In with (n := i). rewrite direct1_nth, Hin. reflexivity.
    + rewrite field_of_spec. exact Ha.
Qed.

Definition refers (d : args_decl) (id : ident) (n : N) : Prop :=
  exists j b, n = N.of_nat j /\ nth_error (checked d) j = Some b /\ sa_id b = id.

Lemma resolve_refs_spec d ids :
  accepted d -> snd (resolve_refs (direct1_of d) ids) = [] ->
  Forall2 (refers d) ids (fst (resolve_refs (direct1_of d) ids)).
Proof.
  intros Hacc. induction ids as [|id ids IH]; simpl; intros H; [constructor|].
  destruct (resolve_refs (direct1_of d) ids) as [l es].
  pose proof (find_field_spec d id Hacc) as Hf.
  destruct (find_field id (direct1_of d)) as [n|]; [|discriminate].
  constructor; [exact Hf|]. apply IH. exact H.
Qed.

Lemma final_refs d i a :
  accepted d -> nth_error (checked d) i = Some a ->
  Forall2 (refers d) (am_requires (sa_meta a)) (fi_requires_idx (final_field d i a)) /\
  Forall2 (refers d) (am_conflicts_with (sa_meta a)) (fi_conflicts_idx (final_field d i a)).
Proof.
  intros Hacc Ha.
  assert (Hin : In (with_index (N.of_nat i) (field_of a)) (direct1_of d)).
  { eapply nth_error_In with (n := i). rewrite direct1_nth, Ha. reflexivity. }
  pose proof (ac_refs d (accepted_facts_of d Hacc) _ Hin) as He. unfold resolve_errs in He.
  apply app_nil in He. destruct He as [H1 H2]. unfold final_field, resolve_field.
  cbn [fi_requires_idx fi_conflicts_idx]. rewrite field_of_spec in *. cbn [with_index fi_requires fi_conflicts] in *.
  split; apply resolve_refs_spec; assumption.
Qed.
End Compile.
