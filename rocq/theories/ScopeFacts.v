(** The frame chain as a function of the commands in scope and of what was
    given so far. *)
From Verif Require Import Bytes BytesFacts Utf8 Utf8Facts Attrs AttrFacts Refl Error Values SortFacts
  Places Help Runtime Heck Decl Spec Derive Generated CompileFacts InfoFacts TableFacts PlaceFacts UnwindFacts.
From Coq Require Import Permutation Sorted.

Section Scopes.
Context {V : Type}.
Local Notation args_decl := (args_decl V).
Local Notation sarg := (sarg V).
Local Notation scope := (scope V).
Local Notation occ := (occ V).
Implicit Types (d : args_decl) (a : sarg) (s : scope) (stk : list scope) (os : list occ).

(** ** The structs of a command: itself and the flattened ones *)

Fixpoint units (path : list ident) (d : args_decl) : list (list ident * args_decl) :=
  let '(MkArgsDecl at_ fs) := d in
  (path, MkArgsDecl at_ fs) ::
  flat_map (fun f : ident * field_decl V =>
              let '(id, fd) := f in
              match fd with FFlatten x => units (path ++ [id]) x | _ => [] end) fs.

Lemma flat_map_flattened {B} (g : ident -> args_decl -> list B) d :
  flat_map (fun f : ident * field_decl V =>
              let '(id, fd) := f in match fd with FFlatten x => g id x | _ => [] end) (fields_of d)
  = flat_map (fun fa => g (fst fa) (snd fa)) (flattened d).
Proof.
  unfold flattened. induction (fields_of d) as [|[id fd] fs IH]; [reflexivity|].
  cbn [flat_map]. rewrite flat_map_app, <- IH. f_equal. destruct fd; cbn; rewrite ?app_nil_r; reflexivity.
Qed.

Lemma units_eq path d :
  units path d = (path, d) :: flat_map (fun fa => units (path ++ [fst fa]) (snd fa)) (flattened d).
Proof. destruct d as [at_ fs]. cbn [units]. f_equal. apply (flat_map_flattened (fun id => units (path ++ [id])) (MkArgsDecl at_ fs)). Qed.
Lemma reach_eq d :
  reach d = map (fun a => ([sa_id a], a)) (own_args d)
            ++ flat_map (fun fa => map (fun pa => (fst fa :: fst pa, snd pa)) (reach (snd fa))) (flattened d).
Proof.
  destruct d as [at_ fs]. cbn [reach]. f_equal.
  - unfold own_args. cbn [fields_of]. induction fs as [|f fs IH]; [reflexivity|]. cbn [flat_map].
    rewrite map_app, <- IH. reflexivity.
  - apply (flat_map_flattened (fun id x => map (fun pa => (id :: fst pa, snd pa)) (reach x)) (MkArgsDecl at_ fs)).
Qed.

Lemma flat_map_ext_in {A B} (f g : A -> list B) l : (forall x, In x l -> f x = g x) -> flat_map f l = flat_map g l.
Proof.
  induction l as [|x l IH]; intros H; [reflexivity|]. cbn [flat_map]. rewrite (H x) by (left; reflexivity).
  f_equal. apply IH. intros y Hy. apply H. right. exact Hy.
Qed.
Lemma map_flat_map {A B C} (h : B -> C) (f : A -> list B) l : map h (flat_map f l) = flat_map (fun x => map h (f x)) l.
Proof. induction l as [|x l IH]; [reflexivity|]. cbn [flat_map]. rewrite map_app, IH. reflexivity. Qed.
Lemma flat_map_flat_map {A B C} (h : B -> list C) (f : A -> list B) l :
  flat_map h (flat_map f l) = flat_map (fun x => flat_map h (f x)) l.
Proof. induction l as [|x l IH]; [reflexivity|]. cbn [flat_map]. rewrite flat_map_app, IH. reflexivity. Qed.

Definition unit_args (level : nat) (u : list ident * args_decl) : list (addr * sarg) :=
  map (fun a => (at_field level (fst u) (sa_id a), a)) (own_args (snd u)).

Lemma reach_units level path d :
  map (fun pa => (Addr level (path ++ fst pa), snd pa)) (reach d) = flat_map (unit_args level) (units path d).
Proof.
  revert path. induction d as [d IH _] using decl_induction. intros path.
  rewrite reach_eq, units_eq. cbn [flat_map]. rewrite map_app, map_map. f_equal.
  rewrite map_flat_map, flat_map_flat_map. apply flat_map_ext_in. intros [id x] Hx. cbn [fst snd].
  rewrite <- (IH id x) by (apply in_flattened; exact Hx). rewrite map_map.
  apply map_ext. intros [p a]. cbn [fst snd]. rewrite <- app_assoc. reflexivity.
Qed.
Lemma scope_args_units level s : scope_args level s = flat_map (unit_args level) (units [] (sc_decl s)).
Proof. unfold scope_args. rewrite <- reach_units. reflexivity. Qed.

Lemma units_accepted path d u : accepted d -> In u (units path d) -> accepted (snd u).
Proof.
  revert path. induction d as [d IH _] using decl_induction. intros path Hd.
  rewrite units_eq. intros [<-|Hu]; [exact Hd|]. apply in_flat_map in Hu. destruct Hu as ([id x] & Hx & Hu).
  destruct (accepted_flat d id x Hd Hx) as (Ha & _). eapply IH; eauto. apply in_flattened. exact Hx.
Qed.
Lemma units_prefix path d u : In u (units path d) -> exists p, fst u = path ++ p.
Proof.
  revert path. induction d as [d IH _] using decl_induction. intros path.
  rewrite units_eq. intros [<-|Hu]; [exists []; rewrite app_nil_r; reflexivity|].
  apply in_flat_map in Hu. destruct Hu as ([id x] & Hx & Hu). cbn [fst snd] in Hu.
  apply (IH id x) in Hu; [|apply in_flattened; exact Hx]. destruct Hu as [p Hp].
  exists (id :: p). rewrite Hp, <- app_assoc. reflexivity.
Qed.
Lemma flattened_ids d : NoDup (map fst (fields_of d)) -> NoDup (map fst (flattened d)).
Proof.
  unfold flattened. generalize (fields_of d). intros fs.
  induction fs as [|[id f] fs IH]; [constructor|]. cbn [map fst flat_map]. intros H. inversion H as [|? ? H1 H2]; subst.
  unfold flat_field at 1. cbn [fst snd]. destruct f; cbn [app]; auto. cbn [map fst]. constructor; [|auto].
  intros Hi. apply H1. apply in_map_iff in Hi. destruct Hi as ([id' x] & E & Hi). cbn [fst] in E. subst id'.
  apply in_flat_map in Hi. destruct Hi as ([id' f'] & Hi & Hf). unfold flat_field in Hf. cbn [fst snd] in Hf.
  destruct f'; simpl in Hf; try contradiction. destruct Hf as [Hf|[]]. injection Hf as -> _.
  apply in_map_iff. exists (id, FFlatten a0). auto.
Qed.
Lemma NoDup_units path d : accepted d -> NoDup (map fst (units path d)).
Proof.
  revert path. induction d as [d IH _] using decl_induction. intros path Hd.
  rewrite units_eq. cbn [map fst]. constructor.
  - intros Hi. apply in_map_iff in Hi. destruct Hi as (u & E & Hu). apply in_flat_map in Hu.
    destruct Hu as ([id x] & _ & Hu). apply units_prefix in Hu. destruct Hu as [p Hp]. rewrite E in Hp.
    apply (f_equal (@length _)) in Hp. rewrite !app_length in Hp. simpl in Hp. lia.
  - pose proof (flattened_ids d (ac_ids d (accepted_facts_of d Hd))) as Hn.
    assert (Hf : forall id x, In (id, x) (flattened d) -> NoDup (map fst (units (path ++ [id]) x))).
    { intros id x Hx. apply (IH id x); [apply in_flattened; exact Hx|].
      destruct (accepted_flat d id x Hd Hx) as (Ha & _). exact Ha. }
    revert Hn Hf. generalize (flattened d). intros l. induction l as [|[id x] l IHl]; intros Hn Hf; [constructor|].
    cbn [flat_map fst snd]. rewrite map_app. cbn [map fst] in Hn. inversion Hn as [|? ? H1 H2]; subst.
    apply NoDup_app.
    + apply Hf. left. reflexivity.
    + apply IHl; [exact H2|]. intros id' x' H'. apply Hf. right. exact H'.
    + intros p Hp Hq. apply in_map_iff in Hp, Hq. destruct Hp as (u & <- & Hu), Hq as (w & E & Hw).
      apply in_flat_map in Hw. destruct Hw as ([id' x'] & Hx' & Hw). cbn [fst snd] in Hw.
      apply units_prefix in Hu, Hw. destruct Hu as [p Hp], Hw as [q Hq]. rewrite E, Hp, <- !app_assoc in Hq.
      apply app_inv_head in Hq. cbn [app] in Hq. injection Hq as -> _. apply H1.
      apply in_map_iff. exists (id', x'). auto.
Qed.

(** ** Addresses *)

Lemma path_eqb_eq p q : path_eqb p q = true <-> p = q.
Proof.
  revert q. induction p as [|x p IH]; intros [|y q]; simpl; split; try discriminate; try reflexivity.
  - rewrite andb_true_iff, beqb_eq, IH. intros [-> ->]. reflexivity.
  - intros E. injection E as -> ->. rewrite andb_true_iff, beqb_eq, IH. auto.
Qed.
Lemma addr_eqb_eq x y : addr_eqb x y = true <-> x = y.
Proof.
  destruct x as [l p], y as [m q]. unfold addr_eqb. cbn [ad_level ad_path].
  rewrite andb_true_iff, Nat.eqb_eq, path_eqb_eq. split; [intros [-> ->]; reflexivity|].
  intros E. injection E as -> ->. auto.
Qed.
Lemma addr_eqb_refl x : addr_eqb x x = true.
Proof. apply addr_eqb_eq. reflexivity. Qed.
Lemma addr_eqb_neq x y : addr_eqb x y = false <-> x <> y.
Proof. rewrite <- addr_eqb_eq. destruct (addr_eqb x y); split; congruence. Qed.

Lemma at_field_inj l p i m q j : at_field l p i = at_field m q j -> l = m /\ p = q /\ i = j.
Proof. unfold at_field. intros E. injection E as -> E. apply app_inj_tail in E. tauto. Qed.

Lemma values_of_app os os' ad : values_of (os ++ os') ad = values_of os ad ++ values_of os' ad.
Proof. unfold values_of. rewrite filter_app, map_app. reflexivity. Qed.
Lemma values_of_same os (o : occ) : values_of (os ++ [o]) (oc_addr o) = values_of os (oc_addr o) ++ [oc_val o].
Proof. rewrite values_of_app. unfold values_of at 2. cbn [filter]. rewrite addr_eqb_refl. reflexivity. Qed.
Lemma values_of_other os (o : occ) ad : ad <> oc_addr o -> values_of (os ++ [o]) ad = values_of os ad.
Proof.
  intros H. rewrite values_of_app. unfold values_of at 2. cbn [filter].
  rewrite (proj2 (addr_eqb_neq ad (oc_addr o)) H). apply app_nil_r.
Qed.
Lemma values_of_fresh os ad : (forall o, In o os -> oc_addr o <> ad) -> values_of os ad = [].
Proof.
  unfold values_of. induction os as [|o os IH]; intros H; [reflexivity|]. cbn [filter].
  rewrite (proj2 (addr_eqb_neq ad (oc_addr o))) by (intros E; apply (H o); [left; reflexivity|congruence]).
  apply IH. intros o' Ho'. apply H. right. exact Ho'.
Qed.
Lemma given_values os ad : given os ad = nonempty (values_of os ad).
Proof. unfold given. destruct (values_of os ad); reflexivity. Qed.

(** ** Items: what a frame stands for *)

Record unit_item := UI {
  u_level : nat; u_path : list ident; u_decl : args_decl; u_info : raw_args_info; u_np : N }.
Inductive item := IU (u : unit_item) | IC (name : bytes).

Definition folded_values os (ad : addr) a : list (option bytes) := map (folded a) (values_of os ad).
Definition place_at os (u : unit_item) a : place V :=
  place_of a (folded_values os (at_field (u_level u) (u_path u) (sa_id a)) a).
Definition frame_of os (u : unit_item) : args_frame V :=
  mkFrame (map (place_at os u) (checked (u_decl u))) (u_info u) (u_np u).
Definition item_frame os (it : item) : frame V :=
  match it with IU u => AF (frame_of os u) | IC n => CF n end.
Definition u_args (u : unit_item) : list (addr * sarg) :=
  map (fun a => (at_field (u_level u) (u_path u) (sa_id a), a)) (own_args (u_decl u)).

(** The tables of the frame are those of the struct. *)
Definition same_tables (i j : raw_args_info) : Prop :=
  ri_descriptions i = ri_descriptions j /\ ri_named_attrs i = ri_named_attrs j /\
  ri_positional_attrs i = ri_positional_attrs j /\ ri_subcmd_info i = ri_subcmd_info j.
Definition unit_good (u : unit_item) : Prop :=
  accepted (u_decl u) /\ same_tables (u_info u) (info_of (impl (u_decl u))).
Definition item_good (it : item) : Prop := match it with IU u => unit_good u | IC _ => True end.

Lemma same_get_named i j n : same_tables i j -> get_named i n = get_named j n.
Proof. intros (_ & H & _). unfold get_named. rewrite H. reflexivity. Qed.
Lemma same_description i j n : same_tables i j -> get_description i n = get_description j n.
Proof. intros (H & _). unfold get_description. rewrite H. reflexivity. Qed.

(** *** Searching by name *)

Definition hit (g : bool) (n : name) (x : addr * sarg) : bool :=
  has_nameb (snd x) n && (negb g || is_global (snd x)).
Fixpoint item_search (g : bool) (items : list item) (n : name) : option (addr * sarg) :=
  match items with
  | [] => None
  | IC _ :: r => item_search true r n
  | IU u :: r =>
      match find (hit g n) (u_args u) with
      | Some x => Some x
      | None => item_search g r n
      end
  end.

Lemma find_map {A B} (p : B -> bool) (f : A -> B) l : find p (map f l) = option_map f (find (fun x => p (f x)) l).
Proof. induction l as [|x l IH]; [reflexivity|]. cbn [map find]. destruct (p (f x)); [reflexivity|exact IH]. Qed.
Lemma find_app {A} (p : A -> bool) l m : find p (l ++ m) = match find p l with Some x => Some x | None => find p m end.
Proof. induction l as [|x l IH]; [reflexivity|]. cbn [app find]. destruct (p x); [reflexivity|exact IH]. Qed.
Lemma find_filter {A} (p q : A -> bool) l : find p (filter q l) = find (fun x => p x && q x) l.
Proof.
  induction l as [|x l IH]; [reflexivity|]. cbn [filter find]. destruct (q x) eqn:E; cbn [find]; rewrite ?andb_true_r, ?andb_false_r.
  - destruct (p x); [reflexivity|exact IH].
  - exact IH.
Qed.
Lemma find_ext {A} (p q : A -> bool) l : (forall x, In x l -> p x = q x) -> find p l = find q l.
Proof.
  induction l as [|x l IH]; intros H; [reflexivity|]. cbn [find]. rewrite (H x) by (left; reflexivity).
  destruct (q x); [reflexivity|]. apply IH. intros y Hy. apply H. right. exact Hy.
Qed.

(** The name of an option is found in the table of its struct. *)
Lemma unit_search u n g : unit_good u -> name_ok n ->
  match find (hit g n) (u_args u) with
  | Some (ad, a) => exists i, nth_error (checked (u_decl u)) i = Some a /\
      ad = at_field (u_level u) (u_path u) (sa_id a) /\ is_option a = true /\
      get_named (u_info u) (enc_of n) = Some (arg_attrs i a) /\
      negb g || contains (arg_attrs i a) GLOBAL = true
  | None => match get_named (u_info u) (enc_of n) with
            | Some at_ => negb g || contains at_ GLOBAL = false
            | None => True
            end
  end.
Proof.
  intros [Hd Ht] Hn. rewrite (same_get_named _ _ _ Ht). clear Ht.
  pose proof (get_named_spec (u_decl u) n Hd Hn) as Hg. unfold u_args. rewrite find_map. unfold hit. cbn [snd].
  destruct (find (fun a => has_nameb a n) (own_args (u_decl u))) as [b|] eqn:Eb.
  - destruct Hg as (Hob & j & Hj & Hg). pose proof Eb as Eb'. apply find_some in Eb'. destruct Eb' as [Hb Hbn].
    destruct (find (fun a => has_nameb a n && (negb g || is_global a)) (own_args (u_decl u))) as [a|] eqn:E; cbn [option_map].
    + apply find_some in E. destruct E as [Ha Han]. apply andb_true_iff in Han. destruct Han as [Han Hag].
      assert (Hc : In a (checked (u_decl u))) by (apply in_checked; exact Ha).
      apply In_nth_error in Hc. destruct Hc as [i Hc].
      assert (i = j) by (eapply name_unique; eauto). subst j.
      assert (a = b) by congruence. subst b. exists i. split; [exact Hc|]. split; [reflexivity|].
      split; [exact Hob|]. split; [exact Hg|]. rewrite (flag_GLOBAL (u_decl u) i a Hd Hc Hob). exact Hag.
    + rewrite Hg. rewrite (flag_GLOBAL (u_decl u) j b Hd Hj Hob).
      apply (find_none _ _ E) in Hb. cbn beta in Hb. rewrite Hbn in Hb. exact Hb.
  - rewrite Hg.
    destruct (find (fun a => has_nameb a n && (negb g || is_global a)) (own_args (u_decl u))) as [a|] eqn:E; cbn [option_map]; [|exact I].
    apply find_some in E. destruct E as [Ha Han]. apply andb_true_iff in Han. destruct Han as [Han _].
    apply (find_none _ _ Eb) in Ha. cbn beta in Ha. congruence.
Qed.

Lemma search_items os items n g : Forall item_good items -> name_ok n ->
  match item_search g items n with
  | None => search_named (map (item_frame os) items) (enc_of n) g = Ok None
  | Some (ad, a) => exists pos u i,
      nth_error items pos = Some (IU u) /\ nth_error (checked (u_decl u)) i = Some a /\
      ad = at_field (u_level u) (u_path u) (sa_id a) /\ is_option a = true /\
      search_named (map (item_frame os) items) (enc_of n) g
        = Ok (Some (pos, place_at os u a, u_info u, arg_attrs i a))
  end.
Proof.
  intros Hg Hn. revert g. induction items as [|it items IH]; intros g; [reflexivity|].
  inversion Hg as [|? ? H1 H2]; subst. specialize (IH H2).
  destruct it as [u|name]; cbn [item_search map item_frame search_named].
  - pose proof (unit_search u n g H1 Hn) as Hu. cbn [frame_of af_info af_fields].
    destruct (find (hit g n) (u_args u)) as [[ad a]|].
    + destruct Hu as (i & Hi & Had & Ho & Hgn & Hgl). rewrite Hgn, Hgl.
      rewrite (arg_attrs_index (u_decl u) i a) by (auto; apply H1). rewrite Nnat.Nat2N.id.
      rewrite nth_error_map, Hi. cbn [option_map]. exists 0, u, i. auto 6.
    + assert (E : match get_named (u_info u) (enc_of n) with
           | Some a =>
               if negb g || contains a GLOBAL then
                 match nth_error (map (place_at os u) (checked (u_decl u))) (N.to_nat (get_index a)) with
                 | Some pl => Ok (Some (0, pl, u_info u, a))
                 | None => Panic PIndex
                 end
               else let* r := search_named (map (item_frame os) items) (enc_of n) g in
                    Ok (option_map (fun '(n0, pl, i, a0) => (S n0, pl, i, a0)) r)
           | None => let* r := search_named (map (item_frame os) items) (enc_of n) g in
                     Ok (option_map (fun '(n0, pl, i, a0) => (S n0, pl, i, a0)) r)
           end = let* r := search_named (map (item_frame os) items) (enc_of n) g in
                 Ok (option_map (fun '(n0, pl, i, a0) => (S n0, pl, i, a0)) r)).
      { destruct (get_named (u_info u) (enc_of n)); [|reflexivity]. rewrite Hu. reflexivity. }
      rewrite E. clear E. specialize (IH g).
      destruct (item_search g items n) as [[ad a]|].
      * destruct IH as (pos & w & i & Hp & Hi & Had & Ho & ->). exists (S pos), w, i. auto 6.
      * rewrite IH. reflexivity.
  - specialize (IH true). destruct (item_search true items n) as [[ad a]|].
    + destruct IH as (pos & w & i & Hp & Hi & Had & Ho & ->). exists (S pos), w, i. auto 6.
    + rewrite IH. reflexivity.
Qed.

(** No option has a name that is not UTF-8. *)
Lemma search_items_junk os items n g : Forall item_good items -> utf8_valid n = false ->
  search_named (map (item_frame os) items) n g = Ok None.
Proof.
  intros Hg Hn. revert g. induction items as [|it items IH]; intros g; [reflexivity|].
  inversion Hg as [|? ? H1 H2]; subst. specialize (IH H2).
  destruct it as [u|name]; cbn [map item_frame search_named].
  - cbn [frame_of af_info]. destruct H1 as [Hd Ht]. rewrite (same_get_named _ _ _ Ht), get_named_junk by assumption.
    rewrite IH. reflexivity.
  - rewrite IH. reflexivity.
Qed.

(** *** Giving a value *)

Definition key (it : item) : list (nat * list ident) :=
  match it with IU u => [(u_level u, u_path u)] | IC _ => [] end.
Definition keys (items : list item) := flat_map key items.

Lemma set_nth_map_eq {A B} (f g : A -> B) l n x :
  nth_error l n = Some x -> (forall m y, m <> n -> nth_error l m = Some y -> f y = g y) ->
  set_nth n (g x) (map f l) = map g l.
Proof.
  revert n. induction l as [|y l IH]; intros n Hn H; [destruct n; discriminate|].
  destruct n as [|n]; cbn [map set_nth].
  - injection Hn as ->. f_equal. apply map_ext_in. intros z Hz. apply In_nth_error in Hz.
    destruct Hz as [m Hm]. apply (H (S m)); [lia|exact Hm].
  - f_equal; [apply (H 0); [lia|reflexivity]|]. apply IH; [exact Hn|].
    intros m z Hm Hz. apply (H (S m)); [lia|exact Hz].
Qed.

(** The frames when [a] in struct [u] gets one more value. *)
Lemma places_update os u i a v :
  accepted (u_decl u) -> nth_error (checked (u_decl u)) i = Some a ->
  set_nth i (place_at (os ++ [Occ (at_field (u_level u) (u_path u) (sa_id a)) a v]) u a)
    (map (place_at os u) (checked (u_decl u)))
  = map (place_at (os ++ [Occ (at_field (u_level u) (u_path u) (sa_id a)) a v]) u) (checked (u_decl u)).
Proof.
  intros Hd Hi. apply set_nth_map_eq; [exact Hi|]. intros m b Hm Hb.
  unfold place_at, folded_values. rewrite values_of_other; [reflexivity|]. cbn [oc_addr].
  intros E. apply at_field_inj in E. destruct E as (_ & _ & E). apply Hm.
  eapply (NoDup_nth_inj sa_id); [apply checked_ids; exact Hd| | |]; eauto.
Qed.

Lemma frame_of_other os u o : 
  (forall a, In a (own_args (u_decl u)) -> at_field (u_level u) (u_path u) (sa_id a) <> oc_addr o) ->
  frame_of (os ++ [o]) u = frame_of os u.
Proof.
  intros H. unfold frame_of. f_equal. apply map_ext_in. intros a Ha. apply (proj1 (in_checked _ _)) in Ha.
  unfold place_at, folded_values. rewrite values_of_other by (apply H; exact Ha). reflexivity.
Qed.

Lemma keys_unique items p q u w :
  NoDup (keys items) -> nth_error items p = Some (IU u) -> nth_error items q = Some (IU w) ->
  u_level u = u_level w -> u_path u = u_path w -> p = q.
Proof.
  intros Hn Hp Hq El Ep. eapply (NoDup_concat_unique key items); eauto.
  - unfold keys in Hn. rewrite flat_map_concat_map in Hn. exact Hn.
  - left. reflexivity.
  - left. rewrite El, Ep. reflexivity.
Qed.

Lemma frame_of_key os u w id a v : 
  (u_level u, u_path u) <> (u_level w, u_path w) ->
  frame_of (os ++ [Occ (at_field (u_level w) (u_path w) id) a v]) u = frame_of os u.
Proof.
  intros H. apply frame_of_other. intros b Hb E. cbn [oc_addr] in E. apply at_field_inj in E.
  destruct E as (E1 & E2 & _). apply H. congruence.
Qed.

Lemma set_place_items os items pos u i a v :
  NoDup (keys items) -> nth_error items pos = Some (IU u) -> accepted (u_decl u) ->
  nth_error (checked (u_decl u)) i = Some a ->
  let ad := at_field (u_level u) (u_path u) (sa_id a) in
  set_place (map (item_frame os) items) pos (N.of_nat i) (place_at (os ++ [Occ ad a v]) u a)
  = map (item_frame (os ++ [Occ ad a v])) items.
Proof.
  intros Hn Hp Hd Hi ad. unfold set_place. rewrite nth_error_map, Hp. cbn [option_map item_frame].
  cbn [frame_of af_fields af_info af_np]. rewrite Nnat.Nat2N.id. unfold ad. rewrite places_update by assumption.
  change (AF (mkFrame (map (place_at (os ++ [Occ (at_field (u_level u) (u_path u) (sa_id a)) a v]) u)
            (checked (u_decl u))) (u_info u) (u_np u)))
    with (item_frame (os ++ [Occ (at_field (u_level u) (u_path u) (sa_id a)) a v]) (IU u)).
  apply set_nth_map_eq; [exact Hp|]. intros m [w|name] Hm Hw; [|reflexivity]. cbn [item_frame]. f_equal.
  symmetry. apply frame_of_key. intros E. injection E as E1 E2. apply Hm.
  eapply keys_unique; eauto.
Qed.

(** ** The items of a stack of commands *)

Definition unit_items (level : nat) (us : list (list ident * args_decl)) : list item :=
  map (fun u => IU (UI level (fst u) (snd u) (info_of (impl (snd u))) 0)) us.
Definition head_unit (level : nat) s (np : N) : unit_item := UI level [] (sc_decl s) (scope_info s) np.
Definition rest_units d : list (list ident * args_decl) :=
  flat_map (fun fa => units [fst fa] (snd fa)) (flattened d).
Definition scope_items (level : nat) s (np : N) : list item :=
  IU (head_unit level s np) :: unit_items level (rest_units (sc_decl s)).

(** [prog] is the name of the program. *)
Fixpoint stack_items (prog : bytes) (stk : list scope) (nps : list N) : list item :=
  match stk, nps with
  | s :: outer, np :: nps' =>
      scope_items (length outer) s np
      ++ match outer with
         | [] => [IC prog]
         | _ => IC (kebab_case (sc_ident s)) :: stack_items prog outer nps'
         end
  | _, _ => []
  end.

Definition unit_scope_ok s : Prop := sc_unit s = true -> fields_of (sc_decl s) = [].
Definition stack_ok (stk : list scope) : Prop :=
  Forall (fun s => accepted (sc_decl s) /\ unit_scope_ok s) stk.

Lemma scope_info_tables s : unit_scope_ok s -> same_tables (scope_info s) (info_of (impl (sc_decl s))).
Proof.
  intros H. unfold scope_info. destruct (sc_unit s) eqn:E.
  - specialize (H E). destruct (sc_decl s) as [at_ fs]. cbn [fields_of] in H. subst fs.
    destruct (unit_info_eq (V:=V) at_) as (H1 & H2 & H3 & H4 & _). unfold same_tables. auto.
  - unfold same_tables. auto.
Qed.

Lemma scope_items_good level s np : accepted (sc_decl s) -> unit_scope_ok s -> Forall item_good (scope_items level s np).
Proof.
  intros Hd Hu. unfold scope_items. constructor.
  - split; [exact Hd|]. apply scope_info_tables. exact Hu.
  - unfold unit_items. apply Forall_forall. intros it Hi. apply in_map_iff in Hi. destruct Hi as (u & <- & Hi).
    split; [|unfold same_tables; auto]. cbn [u_decl]. apply (units_accepted [] (sc_decl s)); [exact Hd|].
    rewrite units_eq. right. exact Hi.
Qed.
Lemma stack_items_good prog stk nps : stack_ok stk -> Forall item_good (stack_items prog stk nps).
Proof.
  revert nps. induction stk as [|s outer IH]; intros nps H; [constructor|].
  inversion H as [|? ? [H1 H2] H3]; subst. destruct nps as [|np nps]; [constructor|]. cbn [stack_items].
  apply Forall_app. split; [apply scope_items_good; assumption|].
  destruct outer as [|s' outer]; [constructor; [exact I|constructor]|]. constructor; [exact I|]. apply IH. exact H3.
Qed.

Lemma scope_items_args level s np :
  flat_map (fun it => match it with IU u => u_args u | IC _ => [] end) (scope_items level s np)
  = scope_args level s.
Proof.
  rewrite scope_args_units, units_eq. unfold scope_items. cbn [flat_map]. f_equal.
  unfold unit_items, rest_units. rewrite flat_map_concat_map, map_map, <- flat_map_concat_map. reflexivity.
Qed.

Lemma item_search_units g l r n :
  (forall it, In it l -> exists u, it = IU u) ->
  item_search g (l ++ r) n =
  match find (hit g n) (flat_map (fun it => match it with IU u => u_args u | IC _ => [] end) l) with
  | Some x => Some x
  | None => item_search g r n
  end.
Proof.
  induction l as [|it l IH]; intros H; [reflexivity|].
  destruct (H it) as [u ->]; [left; reflexivity|]. cbn [app item_search flat_map]. rewrite find_app.
  destruct (find (hit g n) (u_args u)); [reflexivity|]. apply IH. intros x Hx. apply H. right. exact Hx.
Qed.
Lemma scope_items_IU level s np it : In it (scope_items level s np) -> exists u, it = IU u.
Proof.
  unfold scope_items. intros [<-|H]; [eauto|]. unfold unit_items in H. apply in_map_iff in H.
  destruct H as (u & <- & _). eauto.
Qed.

Lemma stack_search_global prog stk nps n : length nps = length stk ->
  item_search true (stack_items prog stk nps) n = find (hit true n) (stack_args stk).
Proof.
  revert nps. induction stk as [|s outer IH]; intros nps H; [destruct nps; reflexivity|].
  destruct nps as [|np nps]; [discriminate|]. injection H as H. cbn [stack_items stack_args].
  rewrite item_search_units by apply scope_items_IU. rewrite scope_items_args, find_app.
  destruct (find (hit true n) (scope_args (length outer) s)); [reflexivity|].
  destruct outer as [|s' outer]; [reflexivity|]. cbn [item_search]. apply IH. exact H.
Qed.
Lemma stack_search prog stk nps n : length nps = length stk ->
  item_search false (stack_items prog stk nps) n = resolve stk n.
Proof.
  destruct stk as [|s outer]; intros H; [destruct nps; reflexivity|].
  destruct nps as [|np nps]; [discriminate|]. injection H as H. cbn [stack_items]. unfold resolve, in_scope.
  rewrite item_search_units by apply scope_items_IU. rewrite scope_items_args, find_app.
  rewrite (find_ext (hit false n) (fun x => has_nameb (snd x) n))
    by (intros x _; unfold hit; cbn [negb orb]; apply andb_true_r).
  destruct (find _ (scope_args (length outer) s)); [reflexivity|].
  rewrite find_filter. rewrite (find_ext _ (hit true n)) by reflexivity.
  destruct outer as [|s' outer]; [reflexivity|]. cbn [item_search]. apply stack_search_global. exact H.
Qed.

(** *** Keys *)

Lemma unit_items_keys level us : keys (unit_items level us) = map (fun u => (level, fst u)) us.
Proof. unfold keys, unit_items. induction us as [|u us IH]; [reflexivity|]. cbn. f_equal. exact IH. Qed.
Lemma scope_items_keys level s np :
  keys (scope_items level s np) = map (fun u => (level, fst u)) (units [] (sc_decl s)).
Proof.
  unfold scope_items. rewrite units_eq. unfold keys at 1. cbn [flat_map key head_unit u_level u_path app map fst].
  f_equal. apply unit_items_keys.
Qed.
Lemma stack_items_levels prog stk nps k : In k (keys (stack_items prog stk nps)) -> fst k < length stk.
Proof.
  revert nps. induction stk as [|s outer IH]; intros nps H; [destruct nps; contradiction|].
  destruct nps as [|np nps]; [contradiction|]. cbn [stack_items] in H. unfold keys in H. rewrite flat_map_app in H.
  apply in_app_iff in H. destruct H as [H|H].
  - change (In k (keys (scope_items (length outer) s np))) in H. rewrite scope_items_keys in H.
    apply in_map_iff in H. destruct H as (u & <- & _). simpl. lia.
  - destruct outer as [|s' outer]; [destruct H|]. cbn [flat_map key app] in H. apply IH in H. simpl in *. lia.
Qed.
Lemma stack_items_NoDup prog stk nps : stack_ok stk -> NoDup (keys (stack_items prog stk nps)).
Proof.
  revert nps. induction stk as [|s outer IH]; intros nps H; [destruct nps; constructor|].
  destruct nps as [|np nps]; [constructor|]. inversion H as [|? ? [H1 H2] H3]; subst. cbn [stack_items].
  unfold keys. rewrite flat_map_app. apply NoDup_app.
  - change (NoDup (keys (scope_items (length outer) s np))). rewrite scope_items_keys.
    rewrite <- (map_map fst (fun p => (length outer, p))). apply FinFun.Injective_map_NoDup.
    + intros x y E. congruence.
    + apply NoDup_units. exact H1.
  - destruct outer as [|s' outer]; [constructor|]. cbn [flat_map key app]. apply IH. exact H3.
  - intros k Hk Hk'. change (In k (keys (scope_items (length outer) s np))) in Hk. rewrite scope_items_keys in Hk.
    apply in_map_iff in Hk. destruct Hk as (u & <- & _).
    destruct outer as [|s' outer]; [destruct Hk'|]. cbn [flat_map key app] in Hk'.
    apply stack_items_levels in Hk'. simpl in Hk'. lia.
Qed.

Definition chain_of os prog stk nps : chain V := map (item_frame os) (stack_items prog stk nps).

(** The search for a named argument. *)
Lemma search_chain os prog stk nps n :
  stack_ok stk -> length nps = length stk -> name_ok n ->
  match resolve stk n with
  | None => search_named (chain_of os prog stk nps) (enc_of n) false = Ok None
  | Some (ad, a) => exists pos u i,
      nth_error (stack_items prog stk nps) pos = Some (IU u) /\ unit_good u /\
      nth_error (checked (u_decl u)) i = Some a /\
      ad = at_field (u_level u) (u_path u) (sa_id a) /\ is_option a = true /\
      search_named (chain_of os prog stk nps) (enc_of n) false
        = Ok (Some (pos, place_at os u a, u_info u, arg_attrs i a))
  end.
Proof.
  intros Hs Hl Hn. rewrite <- (stack_search prog stk nps n Hl).
  pose proof (stack_items_good prog stk nps Hs) as Hg.
  pose proof (search_items os _ n false Hg Hn) as H.
  destruct (item_search false (stack_items prog stk nps) n) as [[ad a]|]; [|exact H].
  destruct H as (pos & u & i & Hp & H). exists pos, u, i. split; [exact Hp|]. split; [|exact H].
  rewrite Forall_forall in Hg. apply (Hg (IU u)). eapply nth_error_In; eauto.
Qed.
End Scopes.
