(** The nested continuations of the generated parsers, without continuations:
    push the frames of a struct, run the parser, pop and validate. *)
From Verif Require Import Bytes Attrs Refl Error Values Places Help Runtime Decl Derive Generated.

Section Unwind.
Context {V : Type}.
Local Notation args_impl := (args_impl V).
Local Notation outval := (outval V).

Lemma impl_flat_induction (P : args_impl -> Prop) :
  (forall direct n flat sub meta,
     Forall (fun fa : ident * args_impl => P (snd fa)) flat -> P (MkArgs direct n flat sub meta)) ->
  forall a, P a.
Proof.
  intros H. fix IH 1. intros [direct n flat sub meta]. apply H.
  induction flat as [|[id fa] flat IHf]; constructor; [apply IH|exact IHf].
Qed.

Fixpoint frames (a : args_impl) : chain V :=
  AF (frame0 a) ::
  match a with
  | MkArgs _ _ flat _ _ => flat_map (fun fa : ident * args_impl => let '(_, fa) := fa in frames fa) flat
  end.
Definition flat_frames (flat : list (ident * args_impl)) : chain V :=
  flat_map (fun fa : ident * args_impl => let '(_, fa) := fa in frames fa) flat.

Fixpoint unwind (a : args_impl) (ch : chain V) (s : option (subval V)) : res (outval * chain V) :=
  match a with
  | MkArgs direct n flat sub meta =>
      let* (f, ch) := pop_frame ch in
      let* (outs, ch) :=
        fold_left (fun acc (fa : ident * args_impl) =>
                     let '(id, fa) := fa in
                     let* (outs, ch) := acc in
                     let* (o, ch) := unwind fa ch None in
                     Ok (outs ++ [(id, o)], ch)) flat (Ok ([], ch)) in
      let* out := validate_finish (MkArgs direct n flat sub meta) (af_fields f) s outs in
      Ok (out, ch)
  end.
Definition unwind_step (acc : res (list (ident * outval) * chain V)) (fa : ident * args_impl) :=
  let '(id, fa) := fa in
  let* (outs, ch) := acc in
  let* (o, ch) := unwind fa ch None in
  Ok (outs ++ [(id, o)], ch).
Definition unwind_flats (flat : list (ident * args_impl)) acc := fold_left unwind_step flat acc.

Lemma unwind_flats_Err flat e : unwind_flats flat (Err e) = Err e.
Proof. induction flat as [|[id fa] flat IH]; [reflexivity|exact IH]. Qed.
Lemma unwind_flats_Panic flat e : unwind_flats flat (Panic e) = Panic e.
Proof. induction flat as [|[id fa] flat IH]; [reflexivity|exact IH]. Qed.

Lemma unwind_eq a ch s :
  unwind a ch s =
  let* (f, ch) := pop_frame ch in
  let* (outs, ch) := unwind_flats (ai_flat a) (Ok ([], ch)) in
  let* out := validate_finish a (af_fields f) s outs in
  Ok (out, ch).
Proof. destruct a. reflexivity. Qed.
Lemma frames_eq a : frames a = AF (frame0 a) :: flat_frames (ai_flat a).
Proof. destruct a. reflexivity. Qed.

Definition subp (a : args_impl) : option (subparser (V:=V) (S:=subval V)) :=
  match ai_sub a with Some (_, _, s) => Some (sub_parse s) | None => None end.

Definition parses_flat (a : args_impl) : Prop :=
  forall R (run : run R) ch it,
  args_parse a R run ch it =
  let* (ch', s, it', r) := run (subp a) (frames a ++ ch) it in
  let* (out, ch'') := unwind a ch' s in
  Ok (out, ch'', it', r).

Lemma wrap_flat_spec {X} fa id
    (inner : chain V -> iter -> res (chain V * iter * (list (ident * outval) * X))) ch it :
  parses_flat fa ->
  wrap_flat (args_parse fa) id inner ch it =
  let* (ch', it', (outs, x)) := inner (frames fa ++ ch) it in
  let* (o, ch'') := unwind fa ch' None in
  Ok (ch'', it', (outs ++ [(id, o)], x)).
Proof.
  intros H. unfold wrap_flat. rewrite H.
  destruct (inner (frames fa ++ ch) it) as [[[ch' it'] [outs x]]|e|p]; cbn [bind]; [|reflexivity|reflexivity].
  destruct (unwind fa ch' None) as [[o ch'']|e|p]; reflexivity.
Qed.

Lemma nested_spec {X} flat :
  Forall (fun fa : ident * args_impl => parses_flat (snd fa)) flat ->
  forall (inner : chain V -> iter -> res (chain V * iter * (list (ident * outval) * X))) ch it,
  fold_left (fun inner (fa : ident * args_impl) => let '(id, fa) := fa in wrap_flat (args_parse fa) id inner)
    flat inner ch it =
  let* (ch', it', (outs, x)) := inner (flat_frames flat ++ ch) it in
  let* (outs', ch'') := unwind_flats flat (Ok (outs, ch')) in
  Ok (ch'', it', (outs', x)).
Proof.
  induction flat as [|[id fa] flat IH]; intros Hf inner ch it.
  - cbn. destruct (inner ch it) as [[[ch' it'] [outs x]]|e|p]; reflexivity.
  - inversion Hf as [|? ? H1 H2]; subst. cbn [snd] in H1. cbn [fold_left]. rewrite (IH H2).
    rewrite (wrap_flat_spec fa id inner _ it H1). unfold flat_frames at 2. cbn [flat_map].
    fold (flat_frames flat). rewrite <- app_assoc.
    destruct (inner _ it) as [[[ch' it'] [outs x]]|e|p]; cbn [bind]; [|reflexivity|reflexivity].
    unfold unwind_flats at 2. cbn [fold_left unwind_step bind].
    destruct (unwind fa ch' None) as [[o ch'']|e|p]; cbn [bind].
    + reflexivity.
    + fold (unwind_flats flat). rewrite unwind_flats_Err. reflexivity.
    + fold (unwind_flats flat). rewrite unwind_flats_Panic. reflexivity.
Qed.

Theorem args_parse_spec a : parses_flat a.
Proof.
  induction a as [direct n flat sub meta Hf] using impl_flat_induction. intros R run ch it.
  cbn [args_parse]. fold (args_parse (V:=V)). fold (sub_parse (V:=V)). rewrite nested_spec by exact Hf.
  unfold subp. cbn [ai_sub]. rewrite frames_eq. cbn [ai_flat app].
  destruct (run _ _ it) as [[[[ch' s] it'] r]|e|p]; cbn [bind]; [|reflexivity|reflexivity].
  rewrite unwind_eq. cbn [ai_flat].
  destruct (pop_frame ch') as [[f ch'']|e|p]; cbn [bind]; [|reflexivity|reflexivity].
  destruct (unwind_flats flat (Ok ([], ch''))) as [[outs ch3]|e|p]; cbn [bind]; [|reflexivity|reflexivity].
  destruct (validate_finish _ _ s outs); reflexivity.
Qed.
End Unwind.
