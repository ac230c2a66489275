(** Positional values: [visit_positional], [jump_to_last] and [positional_loop]
    do what [take_word] and [after_sep] say. *)
From Verif Require Import Bytes BytesFacts Utf8 Utf8Facts Attrs AttrFacts Refl Error Values SortFacts
  Places Help Runtime Heck Decl Spec Derive Generated CompileFacts InfoFacts TableFacts PlaceFacts UnwindFacts
  ScopeFacts NamedFacts.

Section Words.
Context {V : Type}.
Local Notation args_decl := (args_decl V).
Local Notation sarg := (sarg V).
Local Notation scope := (scope V).
Local Notation occ := (occ V).
Implicit Types (d : args_decl) (a p : sarg) (s : scope) (stk : list scope) (os : list occ).

(** ** Lists of occurrences *)

Lemma first_bad_app os o1 o2 :
  first_bad os (o1 ++ o2) = match first_bad os o1 with
                            | Some e => Some e
                            | None => first_bad (os ++ o1) o2
                            end.
Proof.
  revert os. induction o1 as [|o o1 IH]; intros os; cbn [app first_bad].
  - rewrite app_nil_r. reflexivity.
  - destruct (occ_error _ _ _); [reflexivity|]. rewrite IH, <- app_assoc. reflexivity.
Qed.

Definition known stk (o : occ) : Prop := In (oc_addr o, oc_arg o) (stack_args stk).

Lemma Inv_app stk os os1 :
  Inv stk os -> Forall (known stk) os1 -> first_bad os os1 = None -> Inv stk (os ++ os1).
Proof.
  revert os. induction os1 as [|[ad a v] os1 IH]; intros os HI Hk Hb.
  - rewrite app_nil_r. exact HI.
  - inversion Hk as [|? ? H1 H2]; subst. cbn [first_bad oc_arg oc_addr oc_val] in Hb.
    destruct (occ_error a (given os ad) v) eqn:E; [discriminate|].
    replace (os ++ Occ ad a v :: os1) with ((os ++ [Occ ad a v]) ++ os1) by (rewrite <- app_assoc; reflexivity).
    apply IH; auto. apply Inv_snoc; assumption.
Qed.

Lemma values_of_none os os2 ad : Forall (fun o => oc_addr o <> ad) os2 -> values_of (os ++ os2) ad = values_of os ad.
Proof.
  intros H. rewrite values_of_app. 
  assert (E : values_of os2 ad = []).
  { unfold values_of. induction H as [|o os2 Ho H IH]; [reflexivity|]. cbn [filter].
    destruct (addr_eqb ad (oc_addr o)) eqn:E; [|exact IH]. apply addr_eqb_eq in E. congruence. }
  rewrite E. apply app_nil_r.
Qed.

(** ** The positionals of the innermost command *)

Definition pos_addr (outer : list scope) p : addr := Addr (length outer) [sa_id p].

Lemma pos_addr_field outer p : pos_addr outer p = at_field (length outer) [] (sa_id p).
Proof. reflexivity. Qed.

Lemma head_arg_known s outer p : In p (own_args (sc_decl s)) -> In (pos_addr outer p, p) (stack_args (s :: outer)).
Proof.
  intros Hp. pose proof (stack_items_args [] (s :: outer) (repeat 0%N (S (length outer)))
                (head_unit (length outer) s 0) p) as H.
  apply H; [left; reflexivity|exact Hp].
Qed.
Lemma pos_known s outer p : In p (positionals (sc_decl s)) -> In (pos_addr outer p, p) (stack_args (s :: outer)).
Proof. intros Hp. apply head_arg_known. apply positional_not_option in Hp. apply Hp. Qed.

(** The chain after values of one argument of the innermost struct. *)
Lemma head_update os os2 prog s outer np np' nps i p :
  stack_ok (s :: outer) -> nth_error (checked (sc_decl s)) i = Some p ->
  Forall (fun o => oc_addr o = pos_addr outer p) os2 ->
  AF (mkFrame (set_nth i (place_at (os ++ os2) (head_unit (length outer) s np) p)
                (map (place_at os (head_unit (length outer) s np)) (checked (sc_decl s))))
        (scope_info s) np') :: tl (chain_of os prog (s :: outer) (np :: nps))
  = chain_of (os ++ os2) prog (s :: outer) (np' :: nps).
Proof.
  intros Hs Hi Ho. pose proof (stack_items_NoDup prog (s :: outer) (np :: nps) Hs) as Hn.
  inversion Hs as [|? ? [Hd _] _]; subst.
  unfold chain_of. cbn [stack_items scope_items app map tl item_frame]. f_equal.
  - unfold frame_of. f_equal. f_equal. cbn [u_decl head_unit]. 
    change (place_at (os ++ os2) (head_unit (length outer) s np') )
      with (place_at (os ++ os2) (head_unit (length outer) s np)).
    apply set_nth_map_eq; [exact Hi|]. intros m b Hm Hb. unfold place_at, folded_values.
    rewrite values_of_none; [reflexivity|]. eapply Forall_impl; [|exact Ho]. intros o Eo E. cbn beta in Eo.
    rewrite Eo, pos_addr_field in E. cbn [head_unit u_level u_path] in E. apply at_field_inj in E.
    destruct E as (_ & _ & E). apply Hm. eapply (NoDup_nth_inj sa_id); [apply checked_ids; exact Hd| | |]; eauto.
  - cbn [stack_items scope_items app] in Hn. apply map_ext_in. intros it Hit.
    destruct it as [w|n]; [|reflexivity]. cbn [item_frame]. f_equal. unfold frame_of. f_equal.
    apply map_ext_in. intros b Hb. unfold place_at, folded_values. rewrite values_of_none; [reflexivity|].
    eapply Forall_impl; [|exact Ho]. intros o Eo E. cbn beta in Eo.
    rewrite Eo, pos_addr_field in E. apply at_field_inj in E. destruct E as (E1 & E2 & _).
    unfold keys in Hn. cbn [flat_map key app] in Hn. inversion Hn as [|? ? Hni _]; subst. apply Hni.
    apply in_flat_map. exists (IU w). split; [exact Hit|]. left. cbn [head_unit u_level u_path]. congruence.
Qed.

Lemma tl_chain os prog s outer np np' nps :
  tl (chain_of os prog (s :: outer) (np :: nps)) = tl (chain_of os prog (s :: outer) (np' :: nps)).
Proof. reflexivity. Qed.

Lemma positionals_bound d : accepted d -> length (positionals d) <= 254.
Proof.
  intros Hd. pose proof (checked_length d Hd) as H. rewrite checked_split, app_length in H. lia.
Qed.

Definition word_error s (tok : bytes) : error :=
  error_on (if has_subcommand [s] then UnknownSubcommand else ExtraPositionalArgument) tok.

Definition drained outer p (toks : list bytes) : list occ :=
  map (fun t => Occ (pos_addr outer p) p (Some t)) toks.

Lemma pos_folded a v : arg_facts a -> is_option a = false -> folded a v = v.
Proof.
  intros Ha Ho. destruct (ar_pos a Ha Ho) as (_ & _ & Hc & _). unfold folded. rewrite Hc. destruct v; reflexivity.
Qed.
Lemma pos_error a prior v : arg_facts a -> is_option a = false -> occ_error a prior v = value_error a prior v.
Proof.
  intros Ha Ho. unfold occ_error. rewrite (pos_folded a v Ha Ho), Ho.
  destruct (value_error a prior v); reflexivity.
Qed.

Lemma place_snoc os u p v : 
  place_of p (folded_values os (at_field (u_level u) (u_path u) (sa_id p)) p ++ [folded p v])
  = place_at (os ++ [Occ (at_field (u_level u) (u_path u) (sa_id p)) p v]) u p.
Proof.
  unfold place_at, folded_values.
  pose proof (values_of_same os (Occ (at_field (u_level u) (u_path u) (sa_id p)) p v)) as Hsame.
  cbn [oc_addr oc_val] in Hsame. rewrite Hsame, map_app. reflexivity.
Qed.

Lemma place_snoc_pos os s outer np p v : arg_facts p -> is_option p = false ->
  place_of p (folded_values os (at_field (length outer) [] (sa_id p)) p ++ [v])
  = place_at (os ++ [Occ (pos_addr outer p) p v]) (head_unit (length outer) s np) p.
Proof.
  intros Ha Ho. rewrite <- (pos_folded p v Ha Ho) at 1. exact (place_snoc os (head_unit (length outer) s np) p v).
Qed.

Lemma greedy_spec s outer np p toks :
  In p (positionals (sc_decl s)) -> forall os, Inv (s :: outer) os ->
  greedy_drain (place_at os (head_unit (length outer) s np) p) toks =
  match first_bad os (drained outer p toks) with
  | Some e => Err e
  | None => Ok (place_at (os ++ drained outer p toks) (head_unit (length outer) s np) p)
  end.
Proof.
  intros Hp. pose proof (pos_known s outer p Hp) as Hk.
  induction toks as [|tok toks IH]; intros os HI.
  - cbn [drained map greedy_drain first_bad]. rewrite app_nil_r. reflexivity.
  - cbn [greedy_drain drained map first_bad oc_arg oc_addr oc_val]. fold (drained outer p toks).
    pose proof (arg_in_stack _ _ _ (inv_stack _ _ HI) Hk) as Ha.
    destruct (positional_not_option _ _ Hp) as [Ho Hin].
    unfold place_at at 1. rewrite parse_from_step; [|exact Ha|apply (inv_vals _ _ HI _ _ Hk)].
    rewrite pos_error by assumption. rewrite given_values. unfold folded_values at 1.
    rewrite nonempty_map. rewrite pos_addr_field. cbn [head_unit u_level u_path].
    destruct (value_error p (nonempty (values_of os (at_field (length outer) [] (sa_id p)))) (Some tok)) eqn:E;
      [reflexivity|]. cbn [bind].
    rewrite (place_snoc_pos os s outer np p (Some tok) Ha Ho). rewrite <- pos_addr_field.
    rewrite IH.
    + rewrite <- app_assoc. reflexivity.
    + apply Inv_snoc; [exact HI|exact Hk|]. rewrite pos_error by assumption. rewrite given_values. exact E.
Qed.

Lemma visit_positional_spec os prog s outer np nps sep tok it :
  Inv (s :: outer) os ->
  visit_positional (chain_of os prog (s :: outer) (np :: nps)) sep tok it =
  match skipn (N.to_nat np) (positionals (sc_decl s)) with
  | [] => Err (word_error s tok)
  | p :: _ =>
      if sep || negb (is_last p) then
        let os1 := Occ (pos_addr outer p) p (Some tok) :: (if greedy p then drained outer p it else []) in
        match first_bad os os1 with
        | Some e => Err e
        | None => Ok (chain_of (os ++ os1) prog (s :: outer) ((if many p then np else np + 1)%N :: nps),
                      if greedy p then [] else it)
        end
      else Err (word_error s tok)
  end.
Proof.
  intros HI. pose proof (inv_stack _ _ HI) as Hs. inversion Hs as [|? ? [Hd Hu] _]; subst.
  unfold visit_positional. rewrite chain_head. cbn [head_frame bind frame_of af_info af_np u_info u_np head_unit].
  fold (head_unit (length outer) s np).
  destruct (scope_info_tables s Hu) as (_ & _ & Hpa & Hsi). rewrite Hpa, Hsi.
  rewrite (positional_attrs_nth _ _ Hd), (subcmd_info _ Hd).
  assert (Hx : match match subcommand (sc_decl s) with
                     | Some (_, _, vs) => Some (sub_info_of (fst (compile_sub (MkSubDecl vs))))
                     | None => None
                     end with
               | Some _ => Err (with_input UnknownSubcommand tok)
               | None => Err (with_input ExtraPositionalArgument tok)
               end = Err (A:=chain V * iter) (word_error s tok)).
  { unfold word_error, has_subcommand. destruct (subcommand (sc_decl s)) as [[[? ?] ?]|]; reflexivity. }
  pose proof (nth_error_skipn (N.to_nat np) 0 (positionals (sc_decl s))) as Hn. rewrite Nat.add_0_r in Hn.
  destruct (skipn (N.to_nat np) (positionals (sc_decl s))) as [|p rem] eqn:Er; cbn [nth_error] in Hn.
  { rewrite <- Hn. cbn [option_map]. exact Hx. }
  rewrite <- Hn. cbn [option_map]. symmetry in Hn.
  assert (Hp : In p (positionals (sc_decl s))) by (eapply nth_error_In; eauto).
  destruct (positional_not_option _ _ Hp) as [Ho Hin].
  set (i := named_cnt_of (sc_decl s) + N.to_nat np).
  assert (Hi : nth_error (checked (sc_decl s)) i = Some p) by (unfold i; rewrite checked_pos; exact Hn).
  rewrite (flag_LAST _ i p Hd Hi Ho).
  destruct (sep || negb (is_last p)); [|exact Hx].
  rewrite (flag_VAR_ARG _ i p Hd Hi Ho), (flag_GREEDY _ i p Hd Hi Ho), (arg_attrs_index _ i p Hd Hi).
  assert (Hinc : (if many p then Ok np else incr_u8 np) = Ok (if many p then np else (np + 1)%N)).
  { destruct (many p); [reflexivity|]. unfold incr_u8.
    assert (Hb : (np <? 255)%N = true).
    { apply N.ltb_lt. pose proof (positionals_bound _ Hd).
      assert (N.to_nat np < length (positionals (sc_decl s))) by (apply nth_error_Some; congruence). lia. }
    rewrite Hb. reflexivity. }
  rewrite Hinc. cbn [bind]. rewrite Nnat.Nat2N.id. cbn [af_fields frame_of head_unit u_decl].
  rewrite nth_error_map, Hi. cbn [option_map].
  pose proof (accepted_checked _ i p Hd Hi) as Ha. pose proof (pos_known s outer p Hp) as Hk.
  unfold place_at at 1. rewrite parse_from_step; [|exact Ha|apply (inv_vals _ _ HI _ _ Hk)].
  cbn [first_bad oc_arg oc_addr oc_val]. rewrite pos_error by assumption. rewrite given_values.
  unfold folded_values at 1. rewrite nonempty_map. rewrite pos_addr_field. cbn [head_unit u_level u_path].
  destruct (value_error p (nonempty (values_of os (at_field (length outer) [] (sa_id p)))) (Some tok)) eqn:E;
    [reflexivity|]. cbn [bind].
  rewrite (place_snoc_pos os s outer np p (Some tok) Ha Ho). rewrite <- pos_addr_field.
  destruct (greedy p).
  - rewrite greedy_spec with (np := np); [|exact Hp|].
    2:{ apply Inv_snoc; [exact HI|exact Hk|]. rewrite pos_error by assumption. rewrite given_values. exact E. }
    destruct (first_bad (os ++ [Occ (pos_addr outer p) p (Some tok)]) (drained outer p it)); [reflexivity|].
    cbn [bind]. rewrite <- app_assoc. cbn [app]. 
    do 2 f_equal. change (map (place_at os {| u_level := length outer; u_path := []; u_decl := sc_decl s; u_info := scope_info s; u_np := np |}) (checked (sc_decl s)))
      with (map (place_at os (head_unit (length outer) s np)) (checked (sc_decl s))).
    rewrite head_update; [reflexivity|exact Hs|exact Hi|].
    constructor; [reflexivity|]. apply Forall_forall. intros o Hx'. apply in_map_iff in Hx'.
    destruct Hx' as (t & <- & _). reflexivity.
  - cbn [bind first_bad]. do 2 f_equal.
    rewrite head_update; [reflexivity|exact Hs|exact Hi|]. constructor; [reflexivity|constructor].
Qed.

(** ** After the separator *)

Lemma last_positionals d : accepted d ->
  match filter is_last (positionals d) with
  | [] => True
  | ls => ls = skipn (length (positionals d) - 1) (positionals d)
  end.
Proof.
  intros Hd. pose proof (ac_last d (accepted_facts_of d Hd)) as Hl. unfold pos_last in Hl.
  unfold positionals. cbn zeta. set (ps := filter (fun a => negb (is_option a)) (own_args d)) in *.
  rewrite filter_app.
  assert (E1 : filter is_last (filter (fun a => negb (is_last a)) ps) = []).
  { induction ps as [|x ps IH]; [reflexivity|]. cbn [filter]. destruct (is_last x) eqn:E; cbn [negb].
    - apply IH. cbn [filter] in Hl. rewrite E in Hl. simpl in Hl. lia.
    - cbn [filter]. rewrite E. apply IH. cbn [filter] in Hl. rewrite E in Hl. exact Hl. }
  assert (E2 : filter is_last (filter is_last ps) = filter is_last ps).
  { clear. induction ps as [|x ps IH]; [reflexivity|]. cbn [filter]. destruct (is_last x) eqn:E; [|exact IH].
    cbn [filter]. rewrite E, IH. reflexivity. }
  rewrite E1, E2. cbn [app]. destruct (filter is_last ps) as [|l [|l' ls]]; [exact I| |simpl in Hl; lia].
  rewrite app_length. cbn [length]. rewrite skipn_app.
  replace (length (filter (fun a => negb (is_last a)) ps) + 1 - 1)
    with (length (filter (fun a => negb (is_last a)) ps)) by lia.
  rewrite skipn_all, Nat.sub_diag. reflexivity.
Qed.

Lemma last_nth {A} (l : list A) x : l <> [] -> nth_error l (length l - 1) = Some (last l x).
Proof.
  intros H. destruct (exists_last H) as (l' & y & ->). rewrite last_last, app_length. cbn [length].
  replace (length l' + 1 - 1) with (length l') by lia. rewrite nth_error_app2 by lia. rewrite Nat.sub_diag. reflexivity.
Qed.

Lemma jump_spec os prog s outer np nps :
  stack_ok (s :: outer) ->
  exists np', jump_to_last (chain_of os prog (s :: outer) (np :: nps))
              = Ok (chain_of os prog (s :: outer) (np' :: nps)) /\
    after_sep (s :: outer) (skipn (N.to_nat np) (positionals (sc_decl s)))
    = skipn (N.to_nat np') (positionals (sc_decl s)).
Proof.
  intros Hs. inversion Hs as [|? ? [Hd Hu] _]; subst. unfold jump_to_last. rewrite chain_head.
  cbn [head_frame bind frame_of af_info af_fields u_info head_unit].
  destruct (scope_info_tables s Hu) as (_ & _ & Hpa & _). rewrite Hpa.
  pose proof (positional_attrs_length _ Hd) as Hlen. pose proof (positionals_bound _ Hd) as Hb.
  pose proof (last_positionals _ Hd) as Hl. cbn [after_sep].
  set (pos := ri_positional_attrs (info_of (impl (sc_decl s)))) in *.
  destruct pos as [|a0 pos'] eqn:Epos.
  { exists np. split; [reflexivity|]. destruct (positionals (sc_decl s)); [|discriminate].
    rewrite skipn_nil. reflexivity. }
  rewrite <- Epos in *. assert (Hne : pos <> []) by (rewrite Epos; discriminate). clear Epos a0 pos'.
  pose proof (last_nth pos 0%N Hne) as Hln. unfold pos at 1 in Hln. rewrite (positional_attrs_nth _ _ Hd) in Hln.
  destruct (nth_error (positionals (sc_decl s)) (length pos - 1)) as [p|] eqn:Ep; [|discriminate].
  cbn [option_map] in Hln. injection Hln as Hln.
  assert (Hp : In p (positionals (sc_decl s))) by (eapply nth_error_In; eauto).
  destruct (positional_not_option _ _ Hp) as [Ho Hin].
  rewrite <- Hln.
  assert (Hi : nth_error (checked (sc_decl s)) (named_cnt_of (sc_decl s) + (length pos - 1)) = Some p)
    by (rewrite checked_pos; exact Ep).
  rewrite (flag_LAST _ _ p Hd Hi Ho).
  assert (Hpos : 0 < length pos) by (destruct pos; [contradiction|simpl; lia]).
  destruct (is_last p) eqn:El.
  - destruct (filter is_last (positionals (sc_decl s))) as [|l ls] eqn:Ef.
    { exfalso. assert (In p []) as [] by (rewrite <- Ef; apply filter_In; auto). }
    rewrite N.mod_small by lia.
    assert (E0 : (N.of_nat (length pos) =? 0)%N = false) by (apply N.eqb_neq; lia). rewrite E0.
    exists (N.of_nat (length pos) - 1)%N. split; [reflexivity|].
    rewrite Hl. f_equal. lia.
  - exists np. split; [reflexivity|].
    destruct (filter is_last (positionals (sc_decl s))) as [|l ls] eqn:Ef; [reflexivity|].
    exfalso. assert (Hl1 : In l (filter is_last (positionals (sc_decl s)))) by (rewrite Ef; left; reflexivity).
    apply filter_In in Hl1. rewrite <- Hlen in Hl.
    pose proof (nth_error_skipn (length pos - 1) 0 (positionals (sc_decl s))) as Hsk.
    rewrite <- Hl, Nat.add_0_r, Ep in Hsk. cbn [nth_error] in Hsk. injection Hsk as ->. destruct Hl1. congruence.
Qed.
End Words.
