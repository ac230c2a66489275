(** Options: [visit_named], [visit_long] and [visit_bundle] do what [read_long]
    and [read_bundle] say. *)
From Verif Require Import Bytes BytesFacts Utf8 Utf8Facts Attrs AttrFacts Refl Error Values SortFacts
  Places Help Runtime Heck Decl Spec Derive Generated CompileFacts InfoFacts TableFacts PlaceFacts UnwindFacts
  ScopeFacts.
From Coq Require Import Permutation Sorted.

Section Named.
Context {V : Type}.
Local Notation args_decl := (args_decl V).
Local Notation sarg := (sarg V).
Local Notation scope := (scope V).
Local Notation occ := (occ V).
Implicit Types (d : args_decl) (a : sarg) (s : scope) (stk : list scope) (os : list occ).

(** ** The invariant of reading *)

Record Inv stk os : Prop := {
  inv_stack : stack_ok stk;
  inv_level : forall o, In o os -> ad_level (oc_addr o) < length stk;
  inv_vals : forall ad a, In (ad, a) (stack_args stk) -> vals_ok a (folded_values os ad a)
}.

Lemma stack_items_args prog stk nps u a :
  In (IU u) (stack_items prog stk nps) -> In a (own_args (u_decl u)) ->
  In (at_field (u_level u) (u_path u) (sa_id a), a) (stack_args stk).
Proof.
  revert nps. induction stk as [|s outer IH]; intros nps Hu Ha; [destruct nps; contradiction|].
  destruct nps as [|np nps]; [contradiction|]. cbn [stack_items stack_args] in *. apply in_app_iff.
  apply in_app_iff in Hu. destruct Hu as [Hu|Hu].
  - left. rewrite <- (scope_items_args (length outer) s np). apply in_flat_map. exists (IU u). split; [exact Hu|].
    unfold u_args. apply in_map_iff. exists a. auto.
  - right. destruct outer as [|s' outer]; [destruct Hu as [Hu|[]]; discriminate|].
    destruct Hu as [Hu|Hu]; [discriminate|]. eapply IH; eauto.
Qed.

Lemma stack_args_item prog stk nps ad a :
  length nps = length stk -> In (ad, a) (stack_args stk) ->
  exists u, In (IU u) (stack_items prog stk nps) /\ In a (own_args (u_decl u)) /\
            ad = at_field (u_level u) (u_path u) (sa_id a).
Proof.
  revert nps. induction stk as [|s outer IH]; intros nps Hl Hi; [contradiction|].
  destruct nps as [|np nps]; [discriminate|]. injection Hl as Hl. cbn [stack_items stack_args] in *.
  apply in_app_iff in Hi. destruct Hi as [Hi|Hi].
  - rewrite <- (scope_items_args (length outer) s np) in Hi. apply in_flat_map in Hi. destruct Hi as (it & Hit & Hi).
    destruct it as [u|n]; [|contradiction]. unfold u_args in Hi. apply in_map_iff in Hi.
    destruct Hi as (b & E & Hb). injection E as <- <-. exists u. split; [apply in_app_iff; auto|]. auto.
  - destruct (IH nps Hl Hi) as (u & Hu & Ha & E). exists u. split; [|auto]. apply in_app_iff. right.
    destruct outer as [|s' outer]; [contradiction|]. right. exact Hu.
Qed.

Lemma stack_args_unique stk ad a b :
  stack_ok stk -> In (ad, a) (stack_args stk) -> In (ad, b) (stack_args stk) -> a = b.
Proof.
  intros Hs Ha Hb. set (nps := repeat 0%N (length stk)).
  assert (Hl : length nps = length stk) by apply repeat_length.
  destruct (stack_args_item [] stk nps ad a Hl Ha) as (u & Hu & Hua & E1).
  destruct (stack_args_item [] stk nps ad b Hl Hb) as (w & Hw & Hwb & E2).
  rewrite E1 in E2. apply at_field_inj in E2. destruct E2 as (El & Ep & Ei).
  assert (E : u = w).
  { pose proof Hu as Hu'. pose proof Hw as Hw'. apply In_nth_error in Hu', Hw'.
    destruct Hu' as [p Hp], Hw' as [q Hq].
    assert (p = q) by (eapply (keys_unique (stack_items [] stk nps)); eauto; apply stack_items_NoDup; exact Hs).
    subst q. congruence. }
  subst w.
  assert (Hd : accepted (u_decl u)).
  { pose proof (stack_items_good [] stk nps Hs) as Hg. rewrite Forall_forall in Hg. apply (Hg _ Hu). }
  apply in_checked in Hua, Hwb. apply In_nth_error in Hua, Hwb. destruct Hua as [i Hi], Hwb as [j Hj].
  assert (i = j) by (eapply (NoDup_nth_inj sa_id); [apply checked_ids; exact Hd| | |]; eauto).
  subst j. congruence.
Qed.

Lemma stack_args_level stk ad a : In (ad, a) (stack_args stk) -> ad_level ad < length stk.
Proof.
  induction stk as [|s outer IH]; [contradiction|]. cbn [stack_args length]. rewrite in_app_iff. intros [H|H].
  - unfold scope_args in H. apply in_map_iff in H. destruct H as (pa & E & _). injection E as <- _. simpl. lia.
  - apply IH in H. lia.
Qed.

Lemma arg_in_stack stk ad a : stack_ok stk -> In (ad, a) (stack_args stk) -> arg_facts a.
Proof.
  intros Hs Ha. destruct (stack_args_item [] stk (repeat 0%N (length stk)) ad a) as (u & Hu & Hua & _);
    [apply repeat_length|exact Ha|].
  pose proof (stack_items_good [] stk (repeat 0%N (length stk)) Hs) as Hg. rewrite Forall_forall in Hg.
  apply (accepted_arg (u_decl u)); [apply (Hg _ Hu)|exact Hua].
Qed.

Lemma occ_error_None a prior v : occ_error a prior v = None <-> value_error a prior (folded a v) = None.
Proof. unfold occ_error. destruct (value_error a prior (folded a v)); split; congruence. Qed.

Lemma nonempty_map {A B} (f : A -> B) l : nonempty (map f l) = nonempty l.
Proof. destruct l; reflexivity. Qed.

Lemma Inv_snoc stk os ad a v :
  Inv stk os -> In (ad, a) (stack_args stk) -> occ_error a (given os ad) v = None ->
  Inv stk (os ++ [Occ ad a v]).
Proof.
  intros [Hs Hl Hv] Ha He. constructor; [exact Hs| |].
  - intros o Ho. apply in_app_iff in Ho. destruct Ho as [Ho|[<-|[]]]; [auto|].
    cbn [oc_addr]. eapply stack_args_level; eauto.
  - intros ad' b Hb. unfold folded_values. destruct (addr_eqb ad' ad) eqn:E.
    + apply addr_eqb_eq in E. subst ad'. assert (b = a) by (eapply stack_args_unique; eauto). subst b.
      pose proof (values_of_same os (Occ ad a v)) as Hsame. cbn [oc_addr oc_val] in Hsame. rewrite Hsame.
      rewrite map_app. cbn [map]. apply vals_ok_snoc; [apply (Hv ad a Hb)|].
      apply (proj1 (occ_error_None _ _ _)) in He. rewrite given_values in He. unfold folded_values.
      rewrite nonempty_map. exact He.
    + apply addr_eqb_neq in E. rewrite values_of_other by (cbn [oc_addr]; exact E). apply (Hv ad' b Hb).
Qed.

(** ** The help of a command, as the code renders it *)

Fixpoint prefix_of (prog : bytes) (stk : list scope) : bytes :=
  match stk with
  | [] => []
  | [s] => bs " " ++ prog
  | s :: outer => prefix_of prog outer ++ bs " " ++ kebab_case (sc_ident s)
  end.

Lemma prefix_units os items (ch : chain V) :
  (forall it, In it items -> exists u, it = IU u) ->
  collect_command_prefix (map (item_frame os) items ++ ch) = collect_command_prefix ch.
Proof.
  induction items as [|it items IH]; intros H; [reflexivity|].
  destruct (H it) as [u ->]; [left; reflexivity|]. cbn [map app item_frame collect_command_prefix].
  apply IH. intros x Hx. apply H. right. exact Hx.
Qed.
Lemma prefix_chain os prog stk nps : length nps = length stk ->
  collect_command_prefix (chain_of os prog stk nps) = prefix_of prog stk.
Proof.
  revert nps. induction stk as [|s outer IH]; intros nps H; [destruct nps; reflexivity|].
  destruct nps as [|np nps]; [discriminate|]. injection H as H. unfold chain_of. cbn [stack_items].
  rewrite map_app, prefix_units by apply scope_items_IU.
  destruct outer as [|s' outer]; [reflexivity|].
  cbn [map item_frame collect_command_prefix]. change (map (item_frame os) (stack_items prog (s' :: outer) nps))
    with (chain_of os prog (s' :: outer) nps). rewrite (IH nps H). reflexivity.
Qed.

Definition code_help (prog : bytes) (stk : list scope) : bytes :=
  match stk with
  | s :: _ => render_help_text (scope_info s) (prefix_of prog stk)
  | [] => []
  end.
Definition stop_error (prog : bytes) (sp : stop V) : error :=
  match sp with
  | SErr e => e
  | SHelp stk => mkError Help None None None [] (Some (code_help prog stk))
  end.

Lemma chain_head os prog s outer np nps :
  chain_of os prog (s :: outer) (np :: nps) =
  AF (frame_of os (head_unit (length outer) s np)) ::
  tl (chain_of os prog (s :: outer) (np :: nps)).
Proof. reflexivity. Qed.

Lemma render_chain os prog stk nps e : stk <> [] -> length nps = length stk ->
  e_kind e = Help -> 
  maybe_render_help e (chain_of os prog stk nps) = with_help e (code_help prog stk).
Proof.
  intros Hne Hl He. destruct stk as [|s outer]; [contradiction|]. destruct nps as [|np nps]; [discriminate|].
  rewrite chain_head. unfold maybe_render_help. rewrite He. unfold render_help, code_help. f_equal. f_equal.
  rewrite <- (prefix_chain os prog (s :: outer) (np :: nps) Hl). reflexivity.
Qed.
Lemma render_not_help e (ch : chain V) : e_kind e <> Help -> maybe_render_help e ch = e.
Proof. unfold maybe_render_help. intros H. destruct (e_kind e); try reflexivity. contradiction. Qed.

(** ** One option *)

Definition spec_value a (iv : inline_value) (it : iter) : error_kind + (option bytes * iter) :=
  match iv with
  | IVEq v => inr (Some v, it)
  | IVNone =>
      if takes_value a then
        if needs_equals a then inl MissingEq
        else match it with
             | raw :: it' => if may_follow a raw then inr (Some raw, it') else inl MissingValue
             | [] => inl MissingValue
             end
      else inr (None, it)
  | IVAmbiguous tail =>
      if needs_equals a then inl MissingEq
      else if takes_value a then inr (Some tail, it) else inr (None, it)
  end.

Lemma accept_next_spec d i a raw : accepted d -> nth_error (checked d) i = Some a -> is_option a = true ->
  accept_next (arg_attrs i a) raw = may_follow a raw.
Proof.
  intros Hd Hi Ho. pose proof (accepted_checked d i a Hd Hi) as Ha. unfold accept_next.
  rewrite (flag_ANY d i a Hd Hi Ha Ho), (flag_NUM d i a Hd Hi Ha Ho).
  destruct raw as [|b raw]; [reflexivity|]. 
  assert (E : may_follow a (b :: raw) =
    if Byte.eqb c_dash b then
      match raw with
      | [] => true
      | _ => am_allow_hyphen_values (sa_meta a)
             || (am_allow_negative_numbers (sa_meta a) && forallb is_ascii_digit raw)
      end
    else true).
  { destruct b; reflexivity. }
  rewrite E. unfold starts_with. cbn [strip_prefix beqb skipn]. rewrite (byte_eqb_sym b c_dash).
  destruct (Byte.eqb c_dash b); cbn [andb negb orb]; [|reflexivity].
  destruct raw as [|b' raw]; [reflexivity|]. cbn [beqb orb].
  destruct (am_allow_hyphen_values (sa_meta a)); [reflexivity|].
  destruct (am_allow_negative_numbers (sa_meta a)); reflexivity.
Qed.

Lemma named_value_spec d i a iv it : accepted d -> nth_error (checked d) i = Some a -> is_option a = true ->
  named_value (arg_attrs i a) iv it =
  match spec_value a iv it with
  | inl k => Err (err_new k)
  | inr x => Ok x
  end.
Proof.
  intros Hd Hi Ho. unfold named_value, spec_value.
  rewrite (flag_REQUIRE_VALUE d i a Hd Hi Ho), (flag_REQUIRE_EQ d i a Hd Hi Ho).
  destruct iv as [|v|tail].
  - destruct (takes_value a); cbn [negb]; [|reflexivity]. destruct (needs_equals a); [reflexivity|].
    destruct it as [|raw it]; [reflexivity|]. rewrite (accept_next_spec d i a raw Hd Hi Ho).
    destruct (may_follow a raw); reflexivity.
  - reflexivity.
  - destruct (needs_equals a); [reflexivity|]. destruct (takes_value a); reflexivity.
Qed.

Lemma lowercase_spec d i a v : accepted d -> nth_error (checked d) i = Some a -> is_option a = true ->
  lowercase_if (arg_attrs i a) v = folded a v.
Proof.
  intros Hd Hi Ho. unfold lowercase_if, folded. destruct v as [b|]; [|reflexivity].
  rewrite (flag_LOWER d i a Hd Hi Ho). destruct (am_ignore_case (sa_meta a)); reflexivity.
Qed.

Lemma resolve_in stk n ad a : resolve stk n = Some (ad, a) ->
  In (ad, a) (stack_args stk) /\ has_nameb a n = true.
Proof.
  unfold resolve. intros H. apply find_some in H. destruct H as [H Hn]. split; [|exact Hn].
  destruct stk as [|s outer]; [contradiction|]. cbn [in_scope stack_args] in *.
  apply in_app_iff in H. apply in_app_iff. destruct H as [H|H]; [left; exact H|].
  right. apply filter_In in H. apply H.
Qed.

Lemma visit_named_spec os prog stk nps n sh iv it :
  Inv stk os -> length nps = length stk -> name_ok n ->
  visit_named (chain_of os prog stk nps) sh (enc_of n) iv it =
  match resolve stk n with
  | None => Err (unknown_named (chain_of os prog stk nps) sh (enc_of n))
  | Some (ad, a) =>
      match spec_value a iv it with
      | inl k => Err (error_about k a)
      | inr (v, it') =>
          match occ_error a (given os ad) v with
          | Some e => Err e
          | None => Ok (chain_of (os ++ [Occ ad a v]) prog stk nps, it', takes_value a)
          end
      end
  end.
Proof.
  intros HI Hl Hn. pose proof (inv_stack _ _ HI) as Hs.
  pose proof (search_chain os prog stk nps n Hs Hl Hn) as Hsr. unfold visit_named.
  destruct (resolve stk n) as [[ad a]|] eqn:Er; [|rewrite Hsr; reflexivity].
  apply resolve_in in Er. destruct Er as [Hin _].
  destruct Hsr as (pos & u & i & Hp & [Hd Ht] & Hi & Had & Ho & ->). cbn [bind].
  pose proof (accepted_checked _ i a Hd Hi) as Ha.
  rewrite (named_value_spec _ i a iv it Hd Hi Ho), (arg_attrs_index _ i a Hd Hi).
  rewrite (same_description _ _ _ Ht), (get_description_spec _ i a Hd Hi).
  destruct (spec_value a iv it) as [k|[v it']] eqn:Esv; cbn [bind].
  { assert (Hk : k <> Help).
    { unfold spec_value in Esv. destruct iv as [|v|tail]; [| discriminate|].
      - destruct (takes_value a); [|discriminate]. destruct (needs_equals a); [injection Esv as <-; discriminate|].
        destruct it as [|raw it]; [injection Esv as <-; discriminate|].
        destruct (may_follow a raw); [discriminate|injection Esv as <-; discriminate].
      - destruct (needs_equals a); [injection Esv as <-; discriminate|]. destruct (takes_value a); discriminate. }
    rewrite render_not_help by exact Hk. reflexivity. }
  rewrite (lowercase_spec _ i a v Hd Hi Ho). unfold place_at at 1.
  rewrite parse_from_step; [|exact Ha|rewrite <- Had; apply (inv_vals _ _ HI ad a Hin)].
  rewrite <- Had. unfold occ_error.
  assert (Eg : given os ad = nonempty (folded_values os ad a)).
  { unfold folded_values. rewrite nonempty_map. apply given_values. }
  rewrite Eg. clear Eg.
  destruct (value_error a (nonempty (folded_values os ad a)) (folded a v)) as [e|] eqn:Ee; cbn [bind].
  - apply value_error_kind in Ee. destruct Ee as [Ek Eh]. rewrite render_not_help by exact Ek. rewrite Ho. reflexivity.
  - rewrite (flag_REQUIRE_VALUE _ i a Hd Hi Ho).
    replace (place_of a (folded_values os ad a ++ [folded a v])) with (place_at (os ++ [Occ ad a v]) u a).
    + rewrite Had. unfold chain_of. rewrite set_place_items; [reflexivity| |exact Hp|exact Hd|exact Hi].
      apply stack_items_NoDup. exact Hs.
    + unfold place_at, folded_values. rewrite <- Had.
      pose proof (values_of_same os (Occ ad a v)) as Hsame. cbn [oc_addr oc_val] in Hsame. rewrite Hsame, map_app.
      reflexivity.
Qed.

Lemma unknown_long_spec os prog stk nps (s : bytes) : stk <> [] -> length nps = length stk ->
  unknown_named (chain_of os prog stk nps) false (enc_of (Long s)) = stop_error prog (unknown_long stk s).
Proof.
  intros Hne Hl. unfold unknown_named, unknown_long. cbn [enc_of].
  assert (E1 : beqb (bs "--" ++ s) (bs "h") = false) by reflexivity.
  assert (E2 : beqb (bs "--" ++ s) (bs "--help") = beqb s (bs "help")) by reflexivity.
  rewrite E1, E2. cbn [orb]. destruct (beqb s (bs "help")); [|reflexivity].
  rewrite render_chain by auto. reflexivity.
Qed.
Lemma unknown_short_spec os prog stk nps c : stk <> [] -> length nps = length stk -> is_scalar c = true ->
  unknown_named (chain_of os prog stk nps) true (enc_of (Short c)) = stop_error prog (unknown_short stk c).
Proof.
  intros Hne Hl Hc. unfold unknown_named, unknown_short. cbn [enc_of].
  assert (E2 : beqb (utf8_encode c) (bs "--help") = false).
  { apply beqb_neq. exact (short_not_long c (bs "help") Hc). }
  assert (E1 : beqb (utf8_encode c) (bs "h") = (c =? b2n "h")%N).
  { apply eq_true_iff_eq. rewrite beqb_eq, N.eqb_eq. split.
    - intros E. change (bs "h") with (utf8_encode (b2n "h")) in E. apply utf8_encode_inj in E; auto.
    - intros ->. reflexivity. }
  rewrite E1, E2, orb_false_r. destruct (c =? b2n "h")%N; [|reflexivity].
  rewrite render_chain by auto. reflexivity.
Qed.
Lemma unknown_junk_spec os prog stk nps junk : utf8_valid junk = false ->
  unknown_named (chain_of os prog stk nps) true junk = error_on UnknownNamedArgument (dash :: junk).
Proof.
  intros Hj. unfold unknown_named.
  assert (E : forall b, utf8_valid b = true -> beqb junk b = false).
  { intros b Hb. apply beqb_neq. congruence. }
  rewrite (E (bs "h")), (E (bs "--help")) by reflexivity. reflexivity.
Qed.

(** ** The effect of a token that gives options *)

Definition after (prog : bytes) os (x : list occ * outcome V) (it : iter) : res (list occ * iter) :=
  let '(os1, out) := x in
  match first_bad os os1 with
  | Some e => Err e
  | None =>
      match out with
      | Stop sp => Err (stop_error prog sp)
      | Go (Await _ _ ad a) =>
          match it with
          | [] => Err (error_about MissingValue a)
          | raw :: it' =>
              if may_follow a raw then
                match occ_error a (given (os ++ os1) ad) (Some raw) with
                | Some e => Err e
                | None => Ok (os ++ os1 ++ [Occ ad a (Some raw)], it')
                end
              else Err (error_about MissingValue a)
          end
      | Go _ => Ok (os ++ os1, it)
      end
  end.

Lemma after_cons prog os o os1 out it :
  after prog os (o :: os1, out) it =
  match occ_error (oc_arg o) (given os (oc_addr o)) (oc_val o) with
  | Some e => Err e
  | None => after prog (os ++ [o]) (os1, out) it
  end.
Proof.
  unfold after. cbn [first_bad]. destruct (occ_error (oc_arg o) (given os (oc_addr o)) (oc_val o)); [reflexivity|].
  destruct (first_bad (os ++ [o]) os1); [reflexivity|].
  replace ((os ++ [o]) ++ os1) with (os ++ o :: os1) by (rewrite <- app_assoc; reflexivity).
  destruct out as [[]|]; try reflexivity. destruct it as [|raw it]; [reflexivity|].
  destruct (may_follow a raw); [|reflexivity]. rewrite <- app_assoc. reflexivity.
Qed.

Definition on_chain (prog : bytes) stk (nps : list N) (x : res (list occ * iter)) : res (chain V * iter) :=
  let* (os, it) := x in Ok (chain_of os prog stk nps, it).

(** An option without inline value. *)
Lemma bare_spec os prog stk nps rem n sh ad a it :
  Inv stk os -> length nps = length stk -> name_ok n -> resolve stk n = Some (ad, a) ->
  (let* (ch, it, b) := visit_named (chain_of os prog stk nps) sh (enc_of n) IVNone it in Ok (ch, it)) =
  on_chain prog stk nps (after prog os (bare stk rem ad a) it).
Proof.
  intros HI Hl Hn Hr. rewrite visit_named_spec by assumption. rewrite Hr. unfold spec_value, bare.
  destruct (takes_value a) eqn:Et.
  - destruct (needs_equals a); [reflexivity|]. unfold after. cbn [first_bad].
    destruct it as [|raw it]; [reflexivity|]. destruct (may_follow a raw); [|reflexivity].
    rewrite app_nil_r. cbn [app]. destruct (occ_error a (given os ad) (Some raw)); reflexivity.
  - rewrite after_cons. cbn [oc_arg oc_addr oc_val]. destruct (occ_error a (given os ad) None); [reflexivity|].
    cbn. rewrite app_nil_r. reflexivity.
Qed.

Lemma cut_eq_split b : cut_eq b = match split_once c_eq b with Some (l, r) => (l, Some r) | None => (b, None) end.
Proof.
  induction b as [|x b IH]; [reflexivity|]. cbn [cut_eq split_once].
  destruct (Byte.eqb x c_eq) eqn:E.
  - apply byte_eqb_eq in E. subst x. reflexivity.
  - destruct (split_once c_eq b) as [[l r]|]; rewrite IH; destruct x; try reflexivity; discriminate.
Qed.

Lemma visit_long_spec os prog stk nps rem b it :
  Inv stk os -> length nps = length stk -> stk <> [] ->
  visit_long (chain_of os prog stk nps) it (c_dash :: c_dash :: b) =
  let '(s, v) := cut_eq b in on_chain prog stk nps (after prog os (read_long stk rem s v) it).
Proof.
  intros HI Hl Hne. unfold visit_long. rewrite cut_eq_split.
  assert (E : split_once c_eq (c_dash :: c_dash :: b) =
              match split_once c_eq b with Some (l, r) => Some (bs "--" ++ l, r) | None => None end).
  { cbn [split_once]. change (Byte.eqb c_dash c_eq) with false. cbn iota.
    destruct (split_once c_eq b) as [[l r]|]; reflexivity. }
  rewrite E. clear E. destruct (split_once c_eq b) as [[l r]|].
  - change (bs "--" ++ l) with (enc_of (Long l)). rewrite visit_named_spec by (auto; exact I). unfold read_long.
    destruct (resolve stk (Long l)) as [[ad a]|] eqn:Er.
    + cbn [spec_value]. rewrite after_cons. cbn [oc_arg oc_addr oc_val].
      destruct (occ_error a (given os ad) (Some r)); [reflexivity|]. cbn. rewrite app_nil_r. reflexivity.
    + rewrite unknown_long_spec by assumption. reflexivity.
  - change (c_dash :: c_dash :: b) with (enc_of (Long b)). unfold read_long.
    destruct (resolve stk (Long b)) as [[ad a]|] eqn:Er.
    + rewrite <- (bare_spec os prog stk nps rem (Long b) false) by (auto; exact I).
      destruct (visit_named _ _ _ _ _) as [[[ch it'] brk]|e|p]; reflexivity.
    + rewrite visit_named_spec by (auto; exact I). rewrite Er. rewrite unknown_long_spec by assumption. reflexivity.
Qed.

(** ** Bundles *)

Lemma read_bundle_cons stk rem c cs junk :
  read_bundle stk rem (c :: cs) junk =
  match resolve stk (Short c) with
  | None => ([], Stop (unknown_short stk c))
  | Some (ad, a) =>
      match strip_prefix [c_eq] (encode_all cs ++ junk) with
      | Some v =>
          if takes_value a then ([Occ ad a (Some v)], Go (Normal stk rem))
          else let '(os, out) := read_bundle stk rem cs junk in (Occ ad a (Some v) :: os, out)
      | None =>
          match encode_all cs ++ junk with
          | [] => bare stk rem ad a
          | tail =>
              if needs_equals a then ([], Stop (SErr (error_about MissingEq a)))
              else if takes_value a then ([Occ ad a (Some tail)], Go (Normal stk rem))
              else let '(os, out) := read_bundle stk rem cs junk in (Occ ad a None :: os, out)
          end
      end
  end.
Proof.
  cbn [read_bundle]. destruct (resolve stk (Short c)) as [[ad a]|]; [|reflexivity].
  destruct (encode_all cs ++ junk) as [|b t]; [reflexivity|]. destruct b; reflexivity.
Qed.

Lemma skipn_app_length {A} (l m : list A) : skipn (length l) (l ++ m) = m.
Proof. rewrite skipn_app, skipn_all, Nat.sub_diag. reflexivity. Qed.

Lemma skipn_add {A} n m (l : list A) : skipn (n + m) l = skipn m (skipn n l).
Proof. revert l. induction n as [|n IH]; intros [|x l]; cbn; auto. destruct m; reflexivity. Qed.

Definition inline_of (t : bytes) : inline_value :=
  match strip_prefix [c_eq] t with
  | Some v => IVEq v
  | None => match t with [] => IVNone | _ => IVAmbiguous t end
  end.

(** The rest of [visit_bundle] after some characters. *)
Definition bundle_rest (ch : chain V) (it : iter) (bundle : bytes) (off : nat) (cs : list N) (junk : bytes)
  : res (chain V * iter) :=
  let* (ch, it, brk) := bundle_loop ch it bundle off cs in
  if brk then Ok (ch, it)
  else
    match junk with
    | [] => Ok (ch, it)
    | rest =>
        match visit_named ch true rest IVNone it with
        | Err e => Err e
        | Ok _ => Panic PUnwrap
        | Panic p => Panic p
        end
    end.

Lemma bundle_rest_cons ch it bundle off c cs junk t :
  skipn off bundle = utf8_encode c ++ t ->
  bundle_rest ch it bundle off (c :: cs) junk =
  let* (ch', it', brk) := visit_named ch true (utf8_encode c) (inline_of t) it in
  if brk then Ok (ch', it') else bundle_rest ch' it' bundle (off + length (utf8_encode c)) cs junk.
Proof.
  intros E. unfold bundle_rest. cbn [bundle_loop].
  assert (E' : skipn (off + length (utf8_encode c)) bundle = t).
  { rewrite skipn_add. rewrite E. apply skipn_app_length. }
  rewrite E'. fold (inline_of t).
  destruct (visit_named ch true (utf8_encode c) (inline_of t) it) as [[[ch' it'] brk]|e|p]; cbn [bind]; [|reflexivity|reflexivity].
  destruct brk; reflexivity.
Qed.

Lemma bundle_spec prog stk nps rem junk (Hj : junk <> [] -> utf8_valid junk = false) :
  length nps = length stk -> stk <> [] -> forall cs os it bundle off,
  Inv stk os -> forallb is_scalar cs = true -> skipn off bundle = encode_all cs ++ junk ->
  bundle_rest (chain_of os prog stk nps) it bundle off cs junk =
  on_chain prog stk nps (after prog os (read_bundle stk rem cs junk) it).
Proof.
  intros Hl Hne. induction cs as [|c cs IH]; intros os it bundle off HI Hcs Hb.
  - unfold bundle_rest. cbn [bundle_loop bind read_bundle]. destruct junk as [|x junk].
    + cbn. rewrite app_nil_r. reflexivity.
    + assert (Hv : utf8_valid (x :: junk) = false) by (apply Hj; discriminate).
      unfold visit_named, chain_of. rewrite search_items_junk; [|apply stack_items_good; apply HI|exact Hv].
      cbn [bind]. fold (chain_of os prog stk nps). rewrite unknown_junk_spec by exact Hv. reflexivity.
  - cbn [forallb] in Hcs. apply andb_true_iff in Hcs. destruct Hcs as [Hc Hcs].
    rewrite read_bundle_cons. unfold encode_all in Hb. cbn [map concat] in Hb. fold (encode_all cs) in Hb.
    rewrite <- app_assoc in Hb. rewrite (bundle_rest_cons _ it bundle off c cs junk _ Hb).
    change (utf8_encode c) with (enc_of (Short c)) at 1.
    assert (Hb' : skipn (off + length (utf8_encode c)) bundle = encode_all cs ++ junk).
    { rewrite skipn_add. rewrite Hb. apply skipn_app_length. }
    destruct (resolve stk (Short c)) as [[ad a]|] eqn:Er.
    2:{ rewrite visit_named_spec by assumption. rewrite Er, unknown_short_spec by assumption. reflexivity. }
    pose proof (resolve_in _ _ _ _ Er) as [Hin _].
    unfold inline_of.
    destruct (strip_prefix [c_eq] (encode_all cs ++ junk)) as [v|].
    + rewrite visit_named_spec by assumption. rewrite Er. cbn [spec_value].
      destruct (takes_value a) eqn:Et.
      * rewrite after_cons. cbn [oc_arg oc_addr oc_val]. destruct (occ_error a (given os ad) (Some v)); [reflexivity|].
        cbn. rewrite app_nil_r. reflexivity.
      * destruct (read_bundle stk rem cs junk) as [os1 out] eqn:Erb. rewrite after_cons. cbn [oc_arg oc_addr oc_val].
        destruct (occ_error a (given os ad) (Some v)) eqn:Eo; [reflexivity|]. cbn [bind].
        apply IH; [|assumption..]. apply Inv_snoc; assumption.
    + destruct (encode_all cs ++ junk) as [|x t] eqn:Et.
      * assert (cs = []).
        { destruct cs as [|c' cs]; [reflexivity|]. unfold encode_all in Et. cbn [map concat] in Et.
          destruct (utf8_encode_nonempty c') as (y & r & E). rewrite E in Et. discriminate. }
        subst cs. cbn in Et. subst junk.
        rewrite <- (bare_spec os prog stk nps rem (Short c) true) by assumption.
        destruct (visit_named _ _ _ _ _) as [[[ch' it'] brk]|e|p]; cbn [bind]; [|reflexivity|reflexivity].
        destruct brk; reflexivity.
      * rewrite visit_named_spec by assumption. rewrite Er. cbn [spec_value].
        destruct (needs_equals a); [reflexivity|]. destruct (takes_value a) eqn:Etv.
        -- rewrite after_cons. cbn [oc_arg oc_addr oc_val].
           unfold bytes in *. destruct (occ_error a (given os ad) (Some (x :: t))); [reflexivity|]. cbn. rewrite app_nil_r. reflexivity.
        -- destruct (read_bundle stk rem cs junk) as [os1 out] eqn:Erb. rewrite after_cons. cbn [oc_arg oc_addr oc_val].
           destruct (occ_error a (given os ad) None) eqn:Eo; [reflexivity|]. cbn [bind].
           apply IH; [|assumption..]. apply Inv_snoc; assumption.
Qed.

Lemma visit_bundle_spec os prog stk nps rem b it :
  Inv stk os -> length nps = length stk -> stk <> [] ->
  visit_bundle (chain_of os prog stk nps) it b =
  let '(cs, junk) := utf8_prefix b in on_chain prog stk nps (after prog os (read_bundle stk rem cs junk) it).
Proof.
  intros HI Hl Hne. unfold visit_bundle. destruct (utf8_prefix b) as [cs junk] eqn:E.
  apply utf8_prefix_spec in E. destruct E as (Eb & Hcs & Hj).
  change (bundle_rest (chain_of os prog stk nps) it b 0 cs junk =
          on_chain prog stk nps (after prog os (read_bundle stk rem cs junk) it)).
  apply bundle_spec; try assumption.
  intros Hjn. unfold utf8_valid. rewrite utf8_prefix_junk by exact Hj. destruct junk; [contradiction|reflexivity].
Qed.
End Named.
