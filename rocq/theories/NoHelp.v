(** The library built without its feature "help" (Cargo.toml:26-28,
    [default-features = false]): the functions that differ, and those that call
    them.  Everything else is as with the feature.

    Simplification: the data that exists only with the feature
    (src/refl.rs:30-31, 82-100, src/runtime.rs:86-87, 266-267, 551-552) is still
    carried around; nothing below reads it. *)
From Verif Require Import Bytes Utf8 Attrs Refl Error Values Places Help Runtime Heck Decl Derive Generated.

Section Runtime.
Context {V S : Type}.
Local Notation chain := (chain V).

(** src/runtime.rs:609-622 without the part under [cfg(feature = "help")]. *)
Definition nh_unknown_named (is_short : bool) (enc_name : bytes) : error :=
  with_input UnknownNamedArgument ((if is_short then [c_dash] else []) ++ enc_name).

(** src/error.rs:206-209 [maybe_render_help] without the feature. *)
Definition nh_maybe_render_help (e : error) (ch : chain) : error := e.

(** src/runtime.rs:602-686 [visit_named]. *)
Definition nh_visit_named (ch : chain) (is_short : bool) (enc_name : bytes)
    (iv : inline_value) (it : iter) : res (chain * iter * bool) :=
  let* found := search_named ch enc_name false in
  match found with
  | None => Err (nh_unknown_named is_short enc_name)
  | Some (pos, pl, info, a) =>
      let ret :=
        let* (v, it') := named_value a iv it in
        let* pl' := parse_from pl (lowercase_if a v) in
        Ok (pl', it') in
      match ret with
      | Ok (pl', it') =>
          Ok (set_place ch pos (get_index a) pl', it', contains a REQUIRE_VALUE)
      | Err e =>
          Err (nh_maybe_render_help (with_arg_desc e (get_description info (get_index a))) ch)
      | Panic p => Panic p
      end
  end.

(** src/runtime.rs:524-535. *)
Fixpoint nh_bundle_loop (ch : chain) (it : iter) (bundle : bytes) (off : nat) (cs : list N)
  : res (chain * iter * bool) :=
  match cs with
  | [] => Ok (ch, it, false)
  | c :: cs' =>
      let enc_name := utf8_encode c in
      let off' := off + length enc_name in
      let after := skipn off' bundle in
      let value :=
        match strip_prefix [c_eq] after with
        | Some v => IVEq v
        | None => match after with [] => IVNone | _ => IVAmbiguous after end
        end in
      let* (ch, it, brk) := nh_visit_named ch true enc_name value it in
      if brk then Ok (ch, it, true) else nh_bundle_loop ch it bundle off' cs'
  end.

(** src/runtime.rs:517-541. *)
Definition nh_visit_bundle (ch : chain) (it : iter) (bundle : bytes) : res (chain * iter) :=
  let '(cs, invalid_rest) := utf8_prefix bundle in
  let* (ch, it, brk) := nh_bundle_loop ch it bundle 0 cs in
  if brk then Ok (ch, it)
  else
    match invalid_rest with
    | [] => Ok (ch, it)
    | rest =>
        match nh_visit_named ch true rest IVNone it with
        | Err e => Err e
        | Ok _ => Panic PUnwrap
        | Panic p => Panic p
        end
    end.

(** src/runtime.rs:511-516. *)
Definition nh_visit_long (ch : chain) (it : iter) (arg : bytes) : res (chain * iter) :=
  let '(name, value) :=
    match split_once c_eq arg with
    | Some (n, v) => (n, IVEq v)
    | None => (arg, IVNone)
    end in
  let* (ch, it, _) := nh_visit_named ch false name value it in
  Ok (ch, it).

(** src/runtime.rs:494-567 [run_parser]. *)
Fixpoint nh_run_loop (fuel : nat) (sub : option (subparser (V:=V) (S:=S))) (ch : chain) (it : iter)
  : res (chain * option S * iter) :=
  match it with
  | [] => Ok (ch, None, [])
  | arg :: it =>
      match fuel with
      | O => Panic PFuel
      | Datatypes.S fuel =>
          if beqb arg [c_dash; c_dash] then
            let* ch := jump_to_last ch in
            let* ch := positional_loop (length it) ch it in
            Ok (ch, None, [])
          else if starts_with [c_dash; c_dash] arg then
            let* (ch, it) := nh_visit_long ch it arg in
            nh_run_loop fuel sub ch it
          else
            match as_bundle arg with
            | Some bundle =>
                let* (ch, it) := nh_visit_bundle ch it bundle in
                nh_run_loop fuel sub ch it
            | None =>
                let* (f, parents) := head_frame ch in
                match match_subcommand sub f arg with
                | Some (place, name, idx) =>
                    let* (ch', s, it) := place idx (CF name :: ch) it in
                    match ch' with
                    | CF _ :: ch' => Ok (ch', Some s, it)
                    | _ => Panic PShape
                    end
                | None =>
                    let* (ch, it) := visit_positional ch false arg it in
                    nh_run_loop fuel sub ch it
                end
            end
      end
  end.

Definition nh_run_parser (sub : option (subparser (V:=V) (S:=S))) (ch : chain) (it : iter)
  : res (chain * option S * iter) :=
  nh_run_loop (length it) sub ch it.
End Runtime.

Section Generated.
Context {V : Type}.
Local Notation outval := (outval V).
Local Notation subval := (subval V).

(** src/runtime.rs:477-481. *)
Definition nh_raw_run : run (V:=V) unit :=
  fun sub ch it =>
    let* (ch, s, it) := nh_run_parser sub ch it in Ok (ch, s, it, tt).

(** The generated code (see Generated.v) on top of it. *)
Fixpoint nh_args_parse (a : args_impl V) : forall R, run R -> chain V -> iter
    -> res (outval * chain V * iter * R) :=
  fun R run ch it =>
    match a with
    | MkArgs direct named_cnt flat sub meta =>
        let a0 := MkArgs direct named_cnt flat sub meta in
        let subp :=
          match sub with
          | Some (_, _, s) => Some (nh_sub_parse s)
          | None => None
          end in
        let main ch it :=
          let* (ch, s, it, r) := run subp (AF (frame0 a0) :: ch) it in
          let* (f, ch) := pop_frame ch in
          Ok (ch, it, ([], (f, s, r))) in
        let nested :=
          fold_left
            (fun inner (fa : ident * args_impl V) =>
               let '(id, fa) := fa in wrap_flat (nh_args_parse fa) id inner)
            flat main in
        let* (ch, it, (outs, (f, s, r))) := nested ch it in
        let* out := validate_finish a0 (af_fields f) s outs in
        Ok (out, ch, it, r)
    end
with nh_sub_parse (s : sub_impl V) : subparser (V:=V) (S:=subval) :=
  fun idx ch it =>
    match s with
    | MkSub vs =>
        match nth_error (map (fun (v : ident * variant V) =>
                               let '(id, v) := v in nh_variant_parse v id) vs) idx with
        | Some p => p ch it
        | None => Panic PUnreachable
        end
    end
with nh_variant_parse (v : variant V) : ident -> chain V -> iter
    -> res (chain V * subval * iter) :=
  fun id ch it =>
    match v with
    | VUnit meta =>
        let f := mkFrame [] (variant_info (VUnit (V:=V) meta)) 0 in
        let* (ch, _, it, _) := nh_raw_run None (AF f :: ch) it in
        let* (_, ch) := pop_frame ch in
        Ok (ch, SubV id None, it)
    | VNewtype a | VStruct a =>
        let* (out, ch, it, _) := nh_args_parse a unit nh_raw_run ch it in
        Ok (ch, SubV id (Some out), it)
    end.

(** src/lib.rs:79-88 [try_parse_from], src/runtime.rs:82-97. *)
Definition try_parse_without_help (d : args_decl V) (argv : list bytes) : res outval :=
  match argv with
  | [] => Err (err_new MissingArg0)
  | arg0 :: it =>
      let* (out, _, _, _) :=
        nh_args_parse (fst (compile_args d)) unit nh_raw_run [CF (to_string_lossy (program_name arg0))] it in
      Ok out
  end.
End Generated.
