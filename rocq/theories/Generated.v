(** The code generated by the macros, and the entry points: [Args::__parse]
    (derive/src/derive_args.rs:642-860), [Subcommand::__parse]
    (derive/src/derive_subcommand.rs:141-188), [StructParserFlavor::run_parser]
    (src/runtime.rs:78-97), [Parser::try_parse_from] and [render_long_help]
    (src/lib.rs:79-97). *)
From Verif Require Import Bytes Utf8 Attrs Refl Error Values Places Help Runtime Heck Decl Derive.

Section Generated.
Context {V : Type}.
Local Notation fval := (fval V).
Local Notation outval := (outval V).
Local Notation subval := (subval V).

(** ** Fields *)

(** derive_args.rs:152-175 [initializer].  A field whose type has no parser does
    not compile; [FlagPlace None] stands in. *)
Definition initializer (f : field_info V) : place V :=
  match fi_kind f with
  | KBool => FlagPlace None
  | k =>
      match infer_parser (fi_value_ty f) with
      | None => FlagPlace None
      | Some p =>
          match k with
          | KValue | KOption => SetValuePlace None p
          | KOptionOption => SetOptionalValuePlace None p
          | _ =>
              match fi_delimiter f with
              | Some d => VecDelimitedPlace None d p
              | None => VecPlace None p
              end
          end
      end
  end.

(** derive_args.rs:177-189 [extractor]. *)
Definition extractor (f : field_info V) (pl : place V) : res fval :=
  match fi_kind f, pl with
  | KBool, FlagPlace o => Ok (FvBool (match o with Some b => b | None => false end))
  | KValue, SetValuePlace o _ =>
      match o with Some v => Ok (FvVal v) | None => Panic PUnwrap end
  | KOption, SetValuePlace o _ => Ok (FvOption o)
  | KOptionOption, SetOptionalValuePlace o _ => Ok (FvOptionOption o)
  | KVec, VecPlace o _ | KVec, VecDelimitedPlace o _ _ =>
      Ok (FvVec (match o with Some l => l | None => [] end))
  | KOptionVec, VecPlace o _ | KOptionVec, VecDelimitedPlace o _ _ => Ok (FvOptionVec o)
  | _, _ => Panic PShape
  end.

(** ** [ValidateFinish], derive_args.rs:740-860 *)

Definition set_at (places : list (place V)) (i : N) : bool :=
  match nth_error places (N.to_nat i) with Some pl => is_set pl | None => false end.

(** derive_args.rs:746-756: [__total_args], a sum of [u8]. *)
Definition total_args (places : list (place V)) (sub : bool) : res N :=
  let n := (N.of_nat (length (filter is_set places)) + (if sub then 1 else 0))%N in
  if (n <=? 255)%N then Ok n else Panic POverflow.

Definition find_idx (p : N -> bool) (l : list N) : option N := find p l.

(** derive_args.rs:759-806, one field: the checks made when it is set; the errors
    are those of src/runtime.rs:38-53. *)
Definition on_set_check (info : raw_args_info) (total : N) (places : list (place V))
    (f : field_info V) : res unit :=
  let idx := get_index (fi_attrs f) in
  if set_at places idx then
    if fi_exclusive f && (1 <? total)%N
    then Err (with_arg_idx ConstraintExclusive info idx)
    else
      match find (fun i => negb (set_at places i)) (fi_requires_idx f) with
      | Some idx2 => Err (with_arg_idx ConstraintRequired info idx2)
      | None =>
          match find (fun i => set_at places i) (fi_conflicts_idx f) with
          | Some _ => Err (with_arg_idx ConstraintConflict info idx)
          | None => Ok tt
          end
      end
  else Ok tt.

Fixpoint on_set_checks (info : raw_args_info) (total : N) (places : list (place V))
    (fs : list (field_info V)) : res unit :=
  match fs with
  | [] => Ok tt
  | f :: fs' =>
      let* _ := on_set_check info total places f in
      on_set_checks info total places fs'
  end.

(** derive_args.rs:811-833, one field: the default or the missing error
    (src/runtime.rs:27-30). *)
Definition on_unset (info : raw_args_info) (f : field_info V) (pl : place V) : res (place V) :=
  if is_set pl then Ok pl
  else
    match fi_default f with
    | Some (DfValueExpr d _) => set_default pl d
    | Some (DfParseStr s) => set_default_parse pl s
    | None =>
        if fi_required f
        then Err (with_arg_idx MissingRequiredArgument info (get_index (fi_attrs f)))
        else Ok pl
    end.

Fixpoint on_unset_all (info : raw_args_info) (fs : list (field_info V)) (pls : list (place V))
  : res (list (place V)) :=
  match fs, pls with
  | [], [] => Ok []
  | f :: fs', pl :: pls' =>
      let* pl := on_unset info f pl in
      let* pls := on_unset_all info fs' pls' in
      Ok (pl :: pls)
  | _, _ => Panic PShape
  end.

(** derive_args.rs:846-858: the assertion before building the output. *)
Fixpoint assert_set (fs : list (field_info V)) (pls : list (place V)) : res unit :=
  match fs, pls with
  | f :: fs', pl :: pls' =>
      if kind_eqb (fi_kind f) KValue && negb (fi_required f) && negb (is_set pl)
      then Panic PUnreachable
      else assert_set fs' pls'
  | _, _ => Ok tt
  end.

Fixpoint extract_all (fs : list (field_info V)) (pls : list (place V))
  : res (list (ident * fval)) :=
  match fs, pls with
  | f :: fs', pl :: pls' =>
      let* v := extractor f pl in
      let* l := extract_all fs' pls' in
      Ok ((fi_ident f, v) :: l)
  | _, _ => Ok []
  end.

(** derive_args.rs:727-732 and 742-860; src/runtime.rs:33-36 for the missing
    subcommand. *)
Definition validate_finish (a : args_impl V) (places : list (place V))
    (sub : option subval) (flats : list (ident * outval)) : res outval :=
  let info := info_of a in
  let direct := ai_direct a in
  let* total :=
    if existsb fi_exclusive direct
    then total_args places (opt_is_some sub)
    else Ok 0%N in
  let* _ := on_set_checks info total places direct in
  let* places := on_unset_all info direct places in
  let* _ :=
    match ai_sub a, sub with
    | Some (_, false, _), None => Err (err_new MissingRequiredSubcommand)
    | _, _ => Ok tt
    end in
  let* _ := assert_set direct places in
  let* l := extract_all direct places in
  Ok (Out l flats (option_map (fun s : ident * bool * sub_impl V => (fst (fst s), sub)) (ai_sub a))).

(** ** [Args::__parse], [Subcommand::__parse] (src/runtime.rs:107-120, 130-169)

    [run R] models [&mut dyn RunParser] (src/runtime.rs:171-196): it gets the
    subcommand place and the chain headed by the new frame, and returns the
    chain, what was stored in the subcommand place, the remaining input, and
    whatever the closure stored in its captured variables ([R]). *)
Definition run (R : Type) : Type :=
  option (subparser (V:=V) (S:=subval)) -> chain V -> iter
  -> res (chain V * option subval * iter * R).

(** src/runtime.rs:477-481: [RunParser for RawParser]. *)
Definition raw_run : run unit :=
  fun sub ch it =>
    let* (ch, s, it) := run_parser sub ch it in Ok (ch, s, it, tt).

(** Leave the scope of the innermost [ArgsFrame]. *)
Definition pop_frame (ch : chain V) : res (args_frame V * chain V) := head_frame ch.

Definition frame0 (a : args_impl V) : args_frame V :=
  mkFrame (map initializer (ai_direct a)) (info_of a) 0.

(** One level of the nesting built at derive_args.rs:708-714: parse a flattened
    struct with a closure that pushes its frame and runs [inner]. *)
Definition wrap_flat {X}
    (parse : forall R, run R -> chain V -> iter -> res (outval * chain V * iter * R))
    (id : ident)
    (inner : chain V -> iter -> res (chain V * iter * (list (ident * outval) * X)))
    (ch : chain V) (it : iter) : res (chain V * iter * (list (ident * outval) * X)) :=
  let* (out, ch, it, (outs, x)) :=
    parse (list (ident * outval) * X)%type
      (fun _ ch it =>
         let* (ch, it, r) := inner ch it in Ok (ch, None, it, r)) ch it in
  Ok (ch, it, (outs ++ [(id, out)], x)).

Fixpoint args_parse (a : args_impl V) : forall R, run R -> chain V -> iter
    -> res (outval * chain V * iter * R) :=
  fun R run ch it =>
    match a with
    | MkArgs direct named_cnt flat sub meta =>
        let a0 := MkArgs direct named_cnt flat sub meta in
        let subp :=
          match sub with
          | Some (_, _, s) => Some (sub_parse s)
          | None => None
          end in
        let main ch it :=
          let* (ch, s, it, r) := run subp (AF (frame0 a0) :: ch) it in
          let* (f, ch) := pop_frame ch in
          Ok (ch, it, ([], (f, s, r))) in
        let nested :=
          fold_left
            (fun inner (fa : ident * args_impl V) =>
               let '(id, fa) := fa in wrap_flat (args_parse fa) id inner)
            flat main in
        let* (ch, it, (outs, (f, s, r))) := nested ch it in
        let* out := validate_finish a0 (af_fields f) s outs in
        Ok (out, ch, it, r)
    end
with sub_parse (s : sub_impl V) : subparser (V:=V) (S:=subval) :=
  fun idx ch it =>
    match s with
    | MkSub vs =>
        match nth_error (map (fun (v : ident * variant V) =>
                               let '(id, v) := v in variant_parse v id) vs) idx with
        | Some p => p ch it
        | None => Panic PUnreachable
        end
    end
with variant_parse (v : variant V) : ident -> chain V -> iter
    -> res (chain V * subval * iter) :=
  fun id ch it =>
    match v with
    | VUnit meta =>
        (* src/runtime.rs:184-190 [run_unit] *)
        let f := mkFrame [] (variant_info (VUnit (V:=V) meta)) 0 in
        let* (ch, _, it, _) := raw_run None (AF f :: ch) it in
        let* (_, ch) := pop_frame ch in
        Ok (ch, SubV id None, it)
    | VNewtype a | VStruct a =>
        let* (out, ch, it, _) := args_parse a unit raw_run ch it in
        Ok (ch, SubV id (Some out), it)
    end.

(** ** Entry points *)

(** [Path::new(arg0).file_name().unwrap_or(arg0)] (src/lib.rs:86) on Unix: the
    last component, ignoring trailing separators and [.] components; none if
    that component is [..] or there is none. *)
Definition c_slash : byte := "/"%byte.
Fixpoint last_component (parts : list bytes) : option bytes :=
  match parts with
  | [] => None
  | p :: ps =>
      if beqb p [] || beqb p (bs ".") then last_component ps
      else if beqb p (bs "..") then None else Some p
  end.
Definition file_name (p : bytes) : option bytes := last_component (rev (split_on [c_slash] p)).
Definition program_name (arg0 : bytes) : bytes :=
  match file_name arg0 with Some n => n | None => arg0 end.

(** src/runtime.rs:82-97. *)
Definition run_struct_parser (a : args_impl V) (name : bytes) (it : iter) : res outval :=
  let* (out, _, _, _) := args_parse a unit raw_run [CF (to_string_lossy name)] it in
  Ok out.

(** src/lib.rs:79-88 [try_parse_from], for the struct with generated code [a]. *)
Definition try_parse_impl (a : args_impl V) (argv : list bytes) : res outval :=
  match argv with
  | [] => Err (err_new MissingArg0)
  | arg0 :: it => run_struct_parser a (program_name arg0) it
  end.

(** ... and for a declaration. *)
Definition try_parse_from (d : args_decl V) (argv : list bytes) : res outval :=
  try_parse_impl (fst (compile_args d)) argv.

(** src/lib.rs:90-97 [render_long_help]: the help text or a panic. *)
Definition render_long_help (d : args_decl V) (argv0 : bytes) : res bytes :=
  match try_parse_from d [argv0; bs "--help"] with
  | Ok _ => Panic PUnwrap
  | Err e => match try_into_help e with Some h => Ok h | None => Panic PUnwrap end
  | Panic p => Panic p
  end.
End Generated.
