(** Proofs about the building blocks. *)
From Verif Require Import Bytes BytesFacts Utf8 Utf8Facts Attrs AttrFacts Refl Error Values SortFacts
  Places Heck Decl Spec Derive CompileFacts InfoFacts TableFacts PlaceFacts Generated Observe EnumDerive Parts.
From Coq Require Import Permutation Sorted.

(** ** Order *)

Lemma ble_before a b : ble a b <-> before a b.
Proof.
  unfold ble. split.
  - revert b. induction a as [|x a IH]; intros b H; [constructor|]. destruct b as [|y b]; [exfalso; apply H; reflexivity|].
    cbn [bcompare] in H. destruct (N.compare_spec (b2n x) (b2n y)) as [E|E|E].
    + apply b2n_inj in E. subst y. apply before_tail, IH. exact H.
    + apply before_head. exact E.
    + exfalso. apply H. reflexivity.
  - induction 1 as [b|x y a b H|x a b H IH]; cbn [bcompare].
    + destruct b; discriminate.
    + apply N.compare_lt_iff in H. rewrite H. discriminate.
    + rewrite N.compare_refl. exact IH.
Qed.

Lemma control_spec b : is_ascii_control b = true <-> control b.
Proof.
  unfold is_ascii_control, control. rewrite orb_true_iff, N.leb_le, N.eqb_eq. lia.
Qed.

(** ** Splitting *)

Lemma glue_cons sep p ps : ps <> [] -> glue sep (p :: ps) = p ++ sep ++ glue sep ps.
Proof. destruct ps; [congruence|reflexivity]. Qed.
Lemma glue_join sep ps : glue sep ps = join sep ps.
Proof. induction ps as [|p ps IH]; [reflexivity|]. destruct ps as [|q ps]; [cbn; apply app_nil_r|]. cbn [glue join] in *. rewrite IH. reflexivity. Qed.

Lemma split_on_aux_nonempty pat s : forall skip acc, split_on_aux pat s skip acc <> [].
Proof.
  induction s as [|x s IH]; intros skip acc; cbn [split_on_aux]; [discriminate|]. destruct skip; [|apply IH].
  destruct (starts_with pat (x :: s)); [discriminate|apply IH].
Qed.

Lemma split_on_aux_skip pat k : forall s acc, k <= length s -> split_on_aux pat s k acc = split_on_aux pat (skipn k s) 0 acc.
Proof.
  induction k as [|k IH]; intros s acc Hk; [reflexivity|]. destruct s as [|x s]; [cbn in Hk; lia|].
  cbn [split_on_aux skipn]. apply IH. cbn in Hk. lia.
Qed.

Lemma split_on_aux_glue pat : pat <> [] -> forall n s acc, length s <= n -> glue pat (split_on_aux pat s 0 acc) = rev acc ++ s.
Proof.
  intros Hp. induction n as [|n IH]; intros s acc Hn.
  - destruct s; [cbn; rewrite !app_nil_r; reflexivity|cbn in Hn; lia].
  - destruct s as [|x s]; [cbn; rewrite !app_nil_r; reflexivity|]. cbn [split_on_aux].
    destruct (starts_with pat (x :: s)) eqn:E.
    + rewrite glue_cons by apply split_on_aux_nonempty. apply starts_with_true in E. destruct E as [r E].
      destruct pat as [|p0 pat]; [congruence|]. injection E as -> ->. f_equal.
      cbn [length Nat.sub]. rewrite Nat.sub_0_r. rewrite split_on_aux_skip by (rewrite app_length; lia).
      rewrite skipn_app, skipn_all, Nat.sub_diag. cbn [app skipn]. rewrite IH by (cbn in Hn; rewrite app_length in Hn; lia).
      reflexivity.
    + rewrite IH by (cbn in Hn; lia). cbn [rev]. rewrite <- app_assoc. reflexivity.
Qed.

Lemma split_on_aux_clean pat : pat <> [] -> forall n s acc, length s <= n ->
  (forall l1 l2, rev acc = l1 ++ l2 -> l2 <> [] -> starts_with pat (l2 ++ s) = false) ->
  Forall (fun p => ~ infix pat p) (split_on_aux pat s 0 acc).
Proof.
  intros Hp. induction n as [|n IH]; intros s acc Hn H.
  - destruct s; [|cbn in Hn; lia]. cbn. constructor; [|constructor]. intros (l & r & E).
    specialize (H l (pat ++ r) E). rewrite app_nil_r in H. rewrite starts_with_app in H. 
    enough (true = false) by discriminate. apply H. destruct pat; [congruence|discriminate].
  - destruct s as [|x s].
    { cbn. constructor; [|constructor]. intros (l & r & E).
      specialize (H l (pat ++ r) E). rewrite app_nil_r in H. rewrite starts_with_app in H. 
      enough (true = false) by discriminate. apply H. destruct pat; [congruence|discriminate]. }
    cbn [split_on_aux]. destruct (starts_with pat (x :: s)) eqn:E.
    + constructor.
      * intros (l & r & El). specialize (H l (pat ++ r) El). rewrite <- app_assoc, starts_with_app in H.
        enough (true = false) by discriminate. apply H. destruct pat; [congruence|discriminate].
      * apply starts_with_true in E. destruct E as [r E]. destruct pat as [|p0 pat]; [congruence|]. injection E as -> ->.
        cbn [length Nat.sub]. rewrite Nat.sub_0_r. rewrite split_on_aux_skip by (rewrite app_length; lia).
        rewrite skipn_app, skipn_all, Nat.sub_diag. cbn [app skipn]. apply IH; [cbn in Hn; rewrite app_length in Hn; lia|].
        intros l1 l2 El Hl. cbn in El. destruct l1, l2; try discriminate; congruence.
    + apply IH; [cbn in Hn; lia|]. intros l1 l2 El Hl. cbn [rev] in El.
      destruct (exists_last Hl) as (l3 & y & ->). rewrite app_assoc in El. apply app_inj_tail in El. destruct El as [El <-].
      rewrite <- app_assoc. cbn [app]. destruct l3 as [|z l3]; [exact E|]. apply (H l1 (z :: l3) El). discriminate.
Qed.

Lemma split_on_cut pat s : pat <> [] ->
  split_on pat s <> [] /\ Forall (fun p => ~ infix pat p) (split_on pat s) /\ glue pat (split_on pat s) = s.
Proof.
  intros Hp. unfold split_on. split; [apply split_on_aux_nonempty|]. split.
  - apply (split_on_aux_clean pat Hp (length s)); [lia|]. intros l1 l2 El Hl. cbn in El. destruct l1, l2; try discriminate; congruence.
  - apply (split_on_aux_glue pat Hp (length s)). lia.
Qed.

(** The cut is unique for patterns that do not overlap with themselves. *)
Section Unique.
Variable (b0 : byte) (p0 : bytes).
Hypothesis Hb : ~ In b0 p0.
Let pat := b0 :: p0.

Lemma no_overlap m r1 p2 r2 : m <> [] -> p2 = m -> ~ infix pat p2 -> pat ++ r1 <> m ++ pat ++ r2.
Proof.
  intros Hm -> Hi E. destruct m as [|x m]; [congruence|]. unfold pat in E. cbn [app] in E. injection E as <- E.
  apply app_eq_app in E. destruct E as (w & [[E1 E2]|[E1 E2]]).
  - destruct w as [|y w].
    + apply Hi. exists [], []. cbn. rewrite app_nil_r in *. subst. reflexivity.
    + injection E2 as <- E2. apply Hb. rewrite E1. apply in_or_app. right. left. reflexivity.
  - apply Hi. exists [], w. unfold pat. cbn. rewrite E1. reflexivity.
Qed.

Lemma cut_first_eq p1 r1 p2 r2 : ~ infix pat p1 -> ~ infix pat p2 -> p1 ++ pat ++ r1 = p2 ++ pat ++ r2 -> p1 = p2 /\ r1 = r2.
Proof.
  intros H1 H2 E. apply app_eq_app in E. destruct E as (m & [[E1 E2]|[E1 E2]]).
  - destruct m as [|x m].
    + rewrite app_nil_r in E1. cbn in E2. injection E2 as E2. apply app_inv_head in E2. auto.
    + exfalso. symmetry in E2. revert E2. 
      intros E2. assert (Hi : ~ infix pat (x :: m)) by (intros (l & r & El); apply H1; exists (p2 ++ l), r; rewrite E1, El, <- !app_assoc; reflexivity).
      symmetry in E2. apply (no_overlap (x :: m) r2 (x :: m) r1); [discriminate|reflexivity|exact Hi|exact E2].
  - destruct m as [|x m].
    + rewrite app_nil_r in E1. cbn in E2. injection E2 as E2. apply app_inv_head in E2. auto.
    + exfalso. assert (Hi : ~ infix pat (x :: m)) by (intros (l & r & El); apply H2; exists (p1 ++ l), r; rewrite E1, El, <- !app_assoc; reflexivity).
      apply (no_overlap (x :: m) r1 (x :: m) r2); [discriminate|reflexivity|exact Hi|exact E2].
Qed.

Lemma glue_unique ps : forall qs, ps <> [] -> qs <> [] -> Forall (fun p => ~ infix pat p) ps -> Forall (fun p => ~ infix pat p) qs ->
  glue pat ps = glue pat qs -> ps = qs.
Proof.
  induction ps as [|p ps IH]; intros qs Hps Hqs Fp Fq E; [congruence|]. destruct qs as [|q qs]; [congruence|].
  inversion Fp as [|? ? Hp Fp']; inversion Fq as [|? ? Hq Fq']; subst.
  destruct ps as [|p' ps], qs as [|q' qs].
  - cbn in E. rewrite !app_nil_r in E. congruence.
  - exfalso. rewrite (glue_cons pat q) in E by discriminate. cbn [glue] in E. rewrite app_nil_r in E. apply Hp. exists q, (glue pat (q' :: qs)). exact E.
  - exfalso. rewrite (glue_cons pat p) in E by discriminate. cbn [glue] in E. rewrite app_nil_r in E. apply Hq. exists p, (glue pat (p' :: ps)). symmetry. exact E.
  - rewrite !glue_cons in E by discriminate. apply cut_first_eq in E; [|assumption|assumption]. destruct E as [-> E]. f_equal.
    apply IH; try assumption; discriminate.
Qed.
End Unique.

Lemma scalar_spec c : is_scalar c = true <-> scalar c.
Proof. unfold is_scalar, scalar. rewrite orb_true_iff, andb_true_iff, !N.ltb_lt, N.leb_le. tauto. Qed.

Lemma encode_head c : is_scalar c = true -> exists b r, utf8_encode c = b :: r /\ ~ In b r.
Proof.
  intros Hc. unfold is_scalar in Hc. unfold utf8_encode.
  assert (Hb : (c < 1114112)%N) by (apply orb_true_iff in Hc; destruct Hc as [Hc|Hc]; [apply N.ltb_lt in Hc; lia|apply andb_true_iff in Hc; destruct Hc as [_ Hc]; apply N.ltb_lt in Hc; exact Hc]).
  assert (Hm : forall n, (n mod 64 < 64)%N) by (intros n; apply N.mod_lt; discriminate).
  assert (Hne : forall m n, (192 <= m < 256)%N -> (n < 64)%N -> n2b (128 + n) <> n2b m).
  { intros m n Hmm Hn E. apply (f_equal b2n) in E. rewrite !b2n_n2b in E by lia. lia. }
  destruct (c <? 128)%N eqn:E1; [eexists; exists []; split; [reflexivity|intros []]|]. apply N.ltb_ge in E1.
  destruct (c <? 2048)%N eqn:E2.
  { apply N.ltb_lt in E2. do 2 eexists. split; [reflexivity|]. intros [E|[]]; revert E. apply Hne; [|apply Hm].
    pose proof (N.div_lt_upper_bound c 64 32 ltac:(discriminate) ltac:(lia)). lia. }
  apply N.ltb_ge in E2. destruct (c <? 65536)%N eqn:E3.
  { apply N.ltb_lt in E3. do 2 eexists. split; [reflexivity|].
    pose proof (N.div_lt_upper_bound c 4096 16 ltac:(discriminate) ltac:(lia)).
    intros [E|[E|[]]]; revert E; (apply Hne; [lia|apply Hm]). }
  do 2 eexists. split; [reflexivity|].
  pose proof (N.div_lt_upper_bound c 262144 5 ltac:(discriminate) ltac:(lia)).
  intros [E|[E|[E|[]]]]; revert E; (apply Hne; [lia|apply Hm]).
Qed.

Theorem split_on_unique c s : scalar c ->
  cut_at c s (split_on (utf8_encode c) s) /\ forall ps, cut_at c s ps -> ps = split_on (utf8_encode c) s.
Proof.
  intros Hc. apply scalar_spec in Hc. destruct (encode_head c Hc) as (b & r & E & Hb).
  assert (Hp : utf8_encode c <> []) by (rewrite E; discriminate).
  destruct (split_on_cut (utf8_encode c) s Hp) as (H1 & H2 & H3). split; [constructor; assumption|].
  intros ps [P1 P2 P3]. rewrite E in *. apply (glue_unique b r Hb); try assumption. congruence.
Qed.

(** ** UTF-8 *)

Lemma text_all cs : text cs = encode_all cs.
Proof. unfold text, encode_all. apply flat_map_concat_map. Qed.
Lemma scalars_spec cs : forallb is_scalar cs = true <-> Forall scalar cs.
Proof. rewrite forallb_forall, Forall_forall. split; intros H c Hc; apply scalar_spec; auto. Qed.
Lemma decode1_none r : decode1 r = None <-> no_char r.
Proof.
  split.
  - intros H c r' Hc ->. rewrite decode1_complete in H by (apply scalar_spec; exact Hc). discriminate.
  - intros H. destruct (decode1 r) as [[c r']|] eqn:E; [|reflexivity]. apply decode1_sound in E. destruct E as [-> Hc].
    exfalso. apply (H c r'); [apply scalar_spec; exact Hc|reflexivity].
Qed.
Theorem utf8_prefix_iff s cs r : utf8_prefix s = (cs, r) <-> Forall scalar cs /\ no_char r /\ s = text cs ++ r.
Proof.
  rewrite text_all, <- scalars_spec, <- decode1_none. split.
  - intros E. apply utf8_prefix_spec in E. tauto.
  - intros (Hc & Hr & ->). rewrite utf8_prefix_encode_all by exact Hc. rewrite utf8_prefix_junk by exact Hr.
    cbn. rewrite app_nil_r. reflexivity.
Qed.
Theorem utf8_valid_iff s : utf8_valid s = true <-> exists cs, Forall scalar cs /\ s = text cs.
Proof.
  rewrite utf8_valid_spec. split; intros (cs & H1 & H2); exists cs; rewrite text_all in *; (split; [apply scalars_spec; exact H1|exact H2]).
Qed.
Theorem text_inj cs cs' : Forall scalar cs -> Forall scalar cs' -> text cs = text cs' -> cs = cs'.
Proof.
  intros H H' E. assert (Hn : no_char []) by (intros c r _ C; symmetry in C; apply app_eq_nil in C; destruct C as [C _]; exact (utf8_encode_not_nil c C)).
  assert (E1 : utf8_prefix (text cs) = (cs, [])) by (apply utf8_prefix_iff; rewrite app_nil_r; auto).
  assert (E2 : utf8_prefix (text cs) = (cs', [])) by (apply utf8_prefix_iff; rewrite app_nil_r; auto). congruence.
Qed.

Lemma text_app a b : text (a ++ b) = text a ++ text b.
Proof. apply flat_map_app. Qed.

(** ** White space *)

Lemma space_spec b : is_ascii_ws b = true <-> space b.
Proof. unfold is_ascii_ws, space. rewrite !orb_true_iff, !N.eqb_eq. cbn. intuition. Qed.
Lemma trim_start_spec s : exists l, s = l ++ trim_start s /\ Forall space l /\ forall b r, trim_start s = b :: r -> ~ space b.
Proof.
  induction s as [|x s (l & E & Hl & Hf)]; [exists []; repeat split; [constructor|discriminate]|]. cbn [trim_start].
  destruct (is_ascii_ws x) eqn:Ex.
  - exists (x :: l). split; [cbn; rewrite <- E; reflexivity|]. split; [constructor; [apply space_spec; exact Ex|exact Hl]|exact Hf].
  - exists []. split; [reflexivity|]. split; [constructor|]. intros b r Eb. injection Eb as <- _. rewrite <- space_spec. congruence.
Qed.
Lemma trim_end_spec s : exists r, s = trim_end s ++ r /\ Forall space r /\ forall l b, trim_end s = l ++ [b] -> ~ space b.
Proof.
  unfold trim_end. destruct (trim_start_spec (rev s)) as (l & E & Hl & Hf). exists (rev l). split; [|split].
  - rewrite <- rev_app_distr, <- E, rev_involutive. reflexivity.
  - apply Forall_rev. exact Hl.
  - intros m b Em. apply (f_equal (@rev byte)) in Em. rewrite rev_involutive, rev_app_distr in Em. exact (Hf _ _ Em).
Qed.
Lemma trim_start_fix s : (forall b r, s = b :: r -> ~ space b) -> trim_start s = s.
Proof. destruct s as [|b r]; [reflexivity|]. intros H. cbn. destruct (is_ascii_ws b) eqn:E; [|reflexivity]. exfalso. apply (H b r eq_refl). apply space_spec. exact E. Qed.
Lemma trim_start_app l s : Forall space l -> trim_start (l ++ s) = trim_start s.
Proof. induction 1 as [|x l Hx _ IH]; [reflexivity|]. cbn. rewrite (proj2 (space_spec x) Hx). exact IH. Qed.
Lemma trim_end_fix s : (forall l b, s = l ++ [b] -> ~ space b) -> trim_end s = s.
Proof.
  intros H. unfold trim_end. rewrite trim_start_fix; [apply rev_involutive|]. intros b r E. apply (H (rev r) b).
  apply (f_equal (@rev byte)) in E. rewrite rev_involutive in E. exact E.
Qed.
Lemma trim_end_app s r : Forall space r -> trim_end (s ++ r) = trim_end s.
Proof. intros H. unfold trim_end. rewrite rev_app_distr, trim_start_app by (apply Forall_rev; exact H). reflexivity. Qed.

Theorem trim_ascii_iff s t : trim_ascii s = t <-> trimmed s t.
Proof.
  assert (Hs : trimmed s (trim_ascii s)).
  { unfold trim_ascii. destruct (trim_start_spec s) as (l & E & Hl & Hf). destruct (trim_end_spec (trim_start s)) as (r & E2 & Hr & Hf2).
    constructor; [|intros b q Eb|exact Hf2].
    - exists l, r. rewrite <- E2, <- E. auto.
    - apply (Hf b (q ++ r)). rewrite E2, Eb. reflexivity. }
  split; [intros <-; exact Hs|].
  intros [(l & r & E & Hl & Hr) Hf Hla]. rewrite E. unfold trim_ascii. rewrite trim_start_app by exact Hl.
  destruct t as [|b t].
  - cbn [app]. rewrite <- (app_nil_r r), trim_start_app by exact Hr. reflexivity.
  - rewrite trim_start_fix by (intros b' r' Eb; injection Eb as <- _; apply (Hf b t); reflexivity). rewrite trim_end_app by exact Hr.
    apply trim_end_fix. exact Hla.
Qed.

(** ** Doc comments *)

Definition solid (t : bytes) : Prop := exists l b, t = l ++ [b] /\ ~ space b.
Fixpoint doc_tail (nl : bool) (ts : list bytes) : bytes :=
  match ts with
  | [] => []
  | t :: ts =>
      match t with
      | [] => (if nl then [] else [c_nl]) ++ doc_tail true ts
      | _ => (if nl then [] else bs " ") ++ t ++ doc_tail false ts
      end
  end.

Lemma trim_solid l : trim_ascii l = [] \/ solid (trim_ascii l).
Proof.
  destruct (proj1 (trim_ascii_iff l _) eq_refl) as [_ _ H]. destruct (trim_ascii l) as [|x t]; [auto|]. right.
  destruct (@exists_last _ (x :: t) ltac:(discriminate)) as (m & b & E). exists m, b. split; [exact E|]. exact (H m b E).
Qed.
Lemma ends_with_nl_snoc s b : ends_with_nl (s ++ [b]) = Byte.eqb b c_nl.
Proof. unfold ends_with_nl. rewrite rev_app_distr. reflexivity. Qed.
Lemma solid_ends x t : solid t -> ends_with_nl (x ++ t) = false.
Proof.
  intros (l & b & -> & H). rewrite app_assoc, ends_with_nl_snoc. apply byte_eqb_neq. intros ->. apply H. right. right. left. reflexivity.
Qed.

Lemma doc_fold ls : forall doc, doc <> [] -> fold_left doc_extend ls doc = doc ++ doc_tail (ends_with_nl doc) (map trim_ascii ls).
Proof.
  induction ls as [|l ls IH]; intros doc Hd; cbn [fold_left map doc_tail]; [rewrite app_nil_r; reflexivity|].
  unfold doc_extend at 2. destruct (trim_solid l) as [E|Hs].
  - rewrite E. destruct (ends_with_nl doc) eqn:En.
    + rewrite IH by exact Hd. rewrite En. reflexivity.
    + rewrite IH by (destruct doc; discriminate). rewrite ends_with_nl_snoc, byte_eqb_refl, <- app_assoc. reflexivity.
  - destruct (trim_ascii l) as [|x t] eqn:E; [destruct Hs as (m & b & C & _); destruct m; discriminate|].
    destruct doc as [|y doc]; [congruence|].
    destruct (ends_with_nl (y :: doc)) eqn:En.
    + rewrite IH by discriminate. rewrite (solid_ends _ _ Hs), <- app_assoc. reflexivity.
    + rewrite IH by discriminate. rewrite (solid_ends _ _ Hs), <- !app_assoc. reflexivity.
Qed.

Definition words_text (p : list bytes) : bytes := flat_map (fun t => bs " " ++ t) p.
Definition more_paras (ps : list (list bytes)) : bytes := flat_map (fun q => c_nl :: glue (bs " ") q) ps.
Definition nonempty_run (p : list bytes) : bool := match p with [] => false | _ => true end.

Lemma runs_cons ts : exists p ps, runs ts = p :: ps.
Proof.
  induction ts as [|t ts (p & ps & IH)]; [exists [], []; reflexivity|]. cbn [runs]. rewrite IH. destruct t; eauto.
Qed.
Lemma glue_words t p : glue (bs " ") (t :: p) = t ++ words_text p.
Proof.
  revert t. induction p as [|u p IH]; intros t; [reflexivity|]. rewrite glue_cons by discriminate. rewrite IH. reflexivity.
Qed.

Lemma doc_tail_trim ts : Forall (fun t => t = [] \/ solid t) ts -> 
  (forall x p ps, solid x -> runs ts = p :: ps ->
     trim_end (x ++ doc_tail false ts) = x ++ words_text p ++ more_paras (filter nonempty_run ps)) /\
  (forall y, trim_end (y ++ doc_tail true ts) =
     match filter nonempty_run (runs ts) with
     | [] => trim_end y
     | q :: qs => y ++ glue (bs " ") q ++ more_paras qs
     end).
Proof.
  induction 1 as [|t ts Ht Hts [IHa IHb]].
  - split.
    + intros x p ps (l & b & -> & Hb) E. injection E as <- <-. cbn. rewrite !app_nil_r. apply trim_end_fix.
      intros l' b' E. apply app_inj_tail in E. destruct E as [_ <-]. exact Hb.
    + intros y. cbn. rewrite app_nil_r. reflexivity.
  - destruct (runs_cons ts) as (p0 & ps0 & Er). split.
    + intros x p ps Hx E. cbn [runs] in E. destruct t as [|b t].
      * injection E as <- <-. cbn [doc_tail]. rewrite app_assoc, IHb. cbn [words_text flat_map app].
        destruct (filter nonempty_run (runs ts)) as [|q qs].
        -- rewrite trim_end_app by (repeat constructor; right; right; left; reflexivity). cbn. rewrite app_nil_r.
           destruct Hx as (l & b & -> & Hb). apply trim_end_fix. intros l' b' E. apply app_inj_tail in E. destruct E as [_ <-]. exact Hb.
        -- rewrite <- app_assoc. reflexivity.
      * rewrite Er in E. injection E as <- <-. destruct Ht as [Ht|Ht]; [discriminate|]. cbn [doc_tail].
        assert (Hs : solid (x ++ bs " " ++ b :: t)).
        { destruct Ht as (l & c & -> & Hc). exists (x ++ bs " " ++ l), c. rewrite <- !app_assoc. auto. }
        specialize (IHa _ _ _ Hs Er). rewrite <- !app_assoc in IHa. rewrite IHa.
        change (words_text ((b :: t) :: p0)) with ((bs " " ++ b :: t) ++ words_text p0). rewrite <- !app_assoc. reflexivity.
    + intros y. cbn [runs doc_tail]. destruct t as [|b t].
      * cbn [filter nonempty_run app]. apply IHb.
      * rewrite Er. cbn [filter nonempty_run]. destruct Ht as [Ht|Ht]; [discriminate|]. cbn [app].
        assert (Hs : solid (y ++ b :: t)).
        { destruct Ht as (l & c & -> & Hc). exists (y ++ l), c. rewrite <- !app_assoc. auto. }
        change (b :: t ++ doc_tail false ts) with ((b :: t) ++ doc_tail false ts). rewrite app_assoc, (IHa _ _ _ Hs Er), glue_words, <- !app_assoc. reflexivity.
Qed.

Lemma glue_paras q qs : glue [c_nl] (map (glue (bs " ")) (q :: qs)) = glue (bs " ") q ++ more_paras qs.
Proof.
  revert q. induction qs as [|r qs IH]; intros q; [cbn; reflexivity|].
  change (map (glue (bs " ")) (q :: r :: qs)) with (glue (bs " ") q :: map (glue (bs " ")) (r :: qs)).
  rewrite glue_cons by discriminate. rewrite IH. reflexivity.
Qed.

Lemma trims_ok ls : Forall (fun t => t = [] \/ solid t) (map trim_ascii ls).
Proof. apply Forall_forall. intros t Ht. apply in_map_iff in Ht. destruct Ht as (l & <- & _). apply trim_solid. Qed.

Theorem doc_process_spec ls :
  doc_process ls =
  match paragraphs (map trim_ascii ls) with
  | [] => []
  | ps => (match map trim_ascii ls with [] :: _ => [c_nl] | _ => [] end) ++ glue [c_nl] (map (glue (bs " ")) ps)
  end.
Proof.
  unfold doc_process, paragraphs. fold nonempty_run. destruct ls as [|l ls]; [reflexivity|]. cbn [fold_left map].
  pose proof (doc_tail_trim _ (trims_ok ls)) as [Ha Hb]. destruct (runs_cons (map trim_ascii ls)) as (p & ps & Er).
  unfold doc_extend at 2. destruct (trim_solid l) as [E|Hs].
  - rewrite E. cbn [ends_with_nl rev app]. rewrite doc_fold by discriminate. change (ends_with_nl [c_nl]) with true. rewrite Hb.
    cbn [runs filter nonempty_run]. destruct (filter nonempty_run (runs (map trim_ascii ls))) as [|q qs]; [reflexivity|].
    rewrite <- glue_paras. reflexivity.
  - destruct (trim_ascii l) as [|x t] eqn:E; [destruct Hs as (m & b & C & _); destruct m; discriminate|]. cbn [app].
    rewrite doc_fold by discriminate. change (x :: t) with ([] ++ x :: t) at 2. rewrite (solid_ends [] _ Hs), (Ha _ _ _ Hs Er).
    cbn [runs]. rewrite Er. cbn [filter nonempty_run]. change (glue [c_nl] (glue (bs " ") ((x :: t) :: p) :: map (glue (bs " ")) (filter nonempty_run ps))) with (glue [c_nl] (map (glue (bs " ")) (((x :: t) :: p) :: filter nonempty_run ps))). rewrite glue_paras, glue_words, <- app_assoc. reflexivity.
Qed.

Lemma trims_map ls ts : Forall2 trimmed ls ts -> map trim_ascii ls = ts.
Proof. induction 1 as [|l t ls ts Hl _ IH]; [reflexivity|]. cbn. rewrite (proj2 (trim_ascii_iff l t) Hl), IH. reflexivity. Qed.
Theorem doc_paragraphs ls ts : Forall2 trimmed ls ts -> hd_error ts <> Some [] ->
  doc_process ls = glue [c_nl] (map (glue (bs " ")) (paragraphs ts)).
Proof.
  intros H Hh. rewrite doc_process_spec, (trims_map ls ts H). destruct (paragraphs ts) as [|p ps]; [reflexivity|].
  destruct ts as [|[|x t] ts]; [reflexivity|elim Hh; reflexivity|reflexivity].
Qed.
Theorem doc_leading ls ts : Forall2 trimmed ls ts -> hd_error ts = Some [] -> paragraphs ts <> [] ->
  doc_process ls = c_nl :: glue [c_nl] (map (glue (bs " ")) (paragraphs ts)).
Proof.
  intros H Hh Hp. rewrite doc_process_spec, (trims_map ls ts H). destruct (paragraphs ts) as [|p ps]; [congruence|].
  destruct ts as [|t ts]; [discriminate|]. cbn in Hh. injection Hh as ->. reflexivity.
Qed.
Theorem doc_end ls l b : doc_process ls = l ++ [b] -> ~ space b.
Proof. unfold doc_process. destruct (trim_end_spec (fold_left doc_extend ls [])) as (r & _ & _ & H). apply H. Qed.
(** The lines of a paragraph are not blank, and all the lines that are not
    blank are there, in order. *)
Lemma runs_concat ts : concat (runs ts) = filter (fun t => match t with [] => false | _ => true end) ts.
Proof.
  induction ts as [|t ts IH]; [reflexivity|]. cbn [runs filter]. destruct (runs_cons ts) as (p & ps & E). rewrite E in *.
  destruct t as [|x t]; [exact IH|]. cbn [concat app]. rewrite <- IH. reflexivity.
Qed.
Theorem paragraphs_lines ts : concat (paragraphs ts) = filter (fun t => match t with [] => false | _ => true end) ts.
Proof.
  rewrite <- runs_concat. unfold paragraphs. induction (runs ts) as [|p ps IH]; [reflexivity|]. cbn [filter].
  destruct p; [exact IH|]. cbn [concat]. rewrite IH. reflexivity.
Qed.
