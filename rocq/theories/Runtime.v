(** The parsing loop: src/runtime.rs:465-686. *)
From Verif Require Import Bytes Utf8 Attrs Refl Error Values Places Help.

(** The argument iterator of [RawParser] (src/runtime.rs:467-469), as the list
    of the items still to come.  Limitation: only finite, fused iterators. *)
Definition iter : Type := list bytes.

(** src/runtime.rs:483-492 [RawInlineValue]. *)
Inductive inline_value :=
| IVNone
| IVEq (v : bytes)
| IVAmbiguous (tail : bytes).

Section Runtime.
(** [V]: parsed values; [S]: results of a subcommand parser. *)
Context {V S : Type}.
Notation chain := (chain V).

(** [SubcommandPlace::__parse] (src/runtime.rs:150-158): variant index, frame
    chain (headed by the new [CommandFrame]) and input to the updated chain,
    the parsed subcommand and the remaining input. *)
Definition subparser : Type := nat -> chain -> iter -> res (chain * S * iter).

Definition head_frame (ch : chain) : res (args_frame V * chain) :=
  match ch with
  | AF f :: parents => Ok (f, parents)
  | _ => Panic PShape
  end.

(** Would [visit_named] take the next raw argument as the value?
    The closure of src/runtime.rs:637-649. *)
Definition accept_next (a : attrs) (raw : bytes) : bool :=
  if beqb raw [c_dash] || negb (starts_with [c_dash] raw) || contains a ACCEPT_HYPHEN_ANY
  then true
  else if contains a ACCEPT_HYPHEN_NUM
  then forallb is_ascii_digit (skipn 1 raw)
  else false.

(** src/runtime.rs:626-667: from the inline form to the value handed to the
    place, with the remaining input. *)
Definition named_value (a : attrs) (iv : inline_value) (it : iter)
  : res (option bytes * iter) :=
  let require_value := contains a REQUIRE_VALUE in
  let require_eq := contains a REQUIRE_EQ in
  match iv with
  | IVEq v => Ok (Some v, it)
  | IVNone =>
      if negb require_value then Ok (None, it)
      else if require_eq then Err (err_new MissingEq)
      else
        match it with
        | raw :: it' =>
            if accept_next a raw then Ok (Some raw, it') else Err (err_new MissingValue)
        | [] => Err (err_new MissingValue)
        end
  | IVAmbiguous tail =>
      if require_eq then Err (err_new MissingEq)
      else if require_value then Ok (Some tail, it)
      else Ok (None, it)
  end.

(** src/runtime.rs:668-673. *)
Definition lowercase_if (a : attrs) (v : option bytes) : option bytes :=
  match v with
  | Some b => if contains a MAKE_LOWERCASE then Some (make_ascii_lowercase b) else Some b
  | None => None
  end.

(** src/runtime.rs:609-622: no such named argument. *)
Definition unknown_named (ch : chain) (is_short : bool) (enc_name : bytes) : error :=
  if beqb enc_name (bs "h") || beqb enc_name (bs "--help")
  then maybe_render_help (err_new Help) ch
  else with_input UnknownNamedArgument
         ((if is_short then [c_dash] else []) ++ enc_name).

(** src/runtime.rs:602-686 [visit_named].  The boolean is [true] for
    [ControlFlow::Break]. *)
Definition visit_named (ch : chain) (is_short : bool) (enc_name : bytes)
    (iv : inline_value) (it : iter) : res (chain * iter * bool) :=
  let* found := search_named ch enc_name false in
  match found with
  | None => Err (unknown_named ch is_short enc_name)
  | Some (pos, pl, info, a) =>
      let ret :=
        let* (v, it') := named_value a iv it in
        let* pl' := parse_from pl (lowercase_if a v) in
        Ok (pl', it') in
      match ret with
      | Ok (pl', it') =>
          Ok (set_place ch pos (get_index a) pl', it', contains a REQUIRE_VALUE)
      | Err e =>
          Err (maybe_render_help (with_arg_desc e (get_description info (get_index a))) ch)
      | Panic p => Panic p
      end
  end.

(** [for arg in &mut *p.iter { place.parse_from(Some(&arg))?; }],
    src/runtime.rs:594-596. *)
Fixpoint greedy_drain (pl : place V) (it : iter) : res (place V) :=
  match it with
  | [] => Ok pl
  | arg :: it' => let* pl' := parse_from pl (Some arg) in greedy_drain pl' it'
  end.

(** [frame.next_positional += 1] on a [u8], src/runtime.rs:588. *)
Definition incr_u8 (n : N) : res N :=
  if (n <? 255)%N then Ok (n + 1)%N else Panic POverflow.

(** src/runtime.rs:569-600 [visit_positional]. *)
Definition visit_positional (ch : chain) (is_last : bool) (arg : bytes) (it : iter)
  : res (chain * iter) :=
  let* (f, parents) := head_frame ch in
  match (match nth_error (ri_positional_attrs (af_info f)) (N.to_nat (af_np f)) with
         | Some a => if is_last || negb (contains a LAST) then Some a else None
         | None => None
         end) with
  | None =>
      match ri_subcmd_info (af_info f) with
      | Some _ => Err (with_input UnknownSubcommand arg)
      | None => Err (with_input ExtraPositionalArgument arg)
      end
  | Some a =>
      let* np := if contains a VAR_ARG then Ok (af_np f) else incr_u8 (af_np f) in
      let idx := N.to_nat (get_index a) in
      match nth_error (af_fields f) idx with
      | None => Panic PIndex
      | Some pl =>
          let* pl := parse_from pl (Some arg) in
          let* (pl, it) :=
            (if contains a GREEDY
             then let* pl := greedy_drain pl it in Ok (pl, [])
             else Ok (pl, it)) in
          Ok (AF (mkFrame (set_nth idx pl (af_fields f)) (af_info f) np) :: parents, it)
      end
  end.

(** src/runtime.rs:507-509: everything after [--]. *)
Fixpoint positional_loop (fuel : nat) (ch : chain) (it : iter) : res chain :=
  match it with
  | [] => Ok ch
  | arg :: it' =>
      match fuel with
      | O => Panic PFuel
      | Datatypes.S fuel =>
          let* (ch', it'') := visit_positional ch true arg it' in
          positional_loop fuel ch' it''
      end
  end.

(** src/runtime.rs:501-505: [--] moves to the "last" argument, if there is one.
    [positional_len() as u8 - 1] in [u8] arithmetic. *)
Definition jump_to_last (ch : chain) : res chain :=
  let* (f, parents) := head_frame ch in
  let pos := ri_positional_attrs (af_info f) in
  match pos with
  | [] => Ok ch
  | _ =>
      if contains (last pos 0%N) LAST then
        let len8 := (N.of_nat (length pos) mod 256)%N in
        if (len8 =? 0)%N then Panic POverflow
        else Ok (AF (mkFrame (af_fields f) (af_info f) (len8 - 1)%N) :: parents)
      else Ok ch
  end.

(** src/runtime.rs:524-535: the characters of a short-option bundle.  [off] is
    the byte offset [idx]; the boolean tells whether [continue 'next_arg] was
    taken. *)
Fixpoint bundle_loop (ch : chain) (it : iter) (bundle : bytes) (off : nat) (cs : list N)
  : res (chain * iter * bool) :=
  match cs with
  | [] => Ok (ch, it, false)
  | c :: cs' =>
      let enc_name := utf8_encode c in
      let off' := off + length enc_name in
      let after := skipn off' bundle in
      let value :=
        match strip_prefix [c_eq] after with
        | Some v => IVEq v
        | None => match after with [] => IVNone | _ => IVAmbiguous after end
        end in
      let* (ch, it, brk) := visit_named ch true enc_name value it in
      if brk then Ok (ch, it, true) else bundle_loop ch it bundle off' cs'
  end.

(** src/runtime.rs:517-541. *)
Definition visit_bundle (ch : chain) (it : iter) (bundle : bytes) : res (chain * iter) :=
  let '(cs, invalid_rest) := utf8_prefix bundle in
  let* (ch, it, brk) := bundle_loop ch it bundle 0 cs in
  if brk then Ok (ch, it)
  else
    match invalid_rest with
    | [] => Ok (ch, it)
    | rest =>
        match visit_named ch true rest IVNone it with
        | Err e => Err e
        | Ok _ => Panic PUnwrap          (* [unwrap_err] *)
        | Panic p => Panic p
        end
    end.

(** src/runtime.rs:511-516. *)
Definition visit_long (ch : chain) (it : iter) (arg : bytes) : res (chain * iter) :=
  let '(name, value) :=
    match split_once c_eq arg with
    | Some (n, v) => (n, IVEq v)
    | None => (arg, IVNone)
    end in
  let* (ch, it, _) := visit_named ch false name value it in
  Ok (ch, it).

(** src/runtime.rs:546-548: does this argument name a subcommand of the frame? *)
Definition match_subcommand (sub : option subparser) (f : args_frame V) (arg : bytes)
  : option (subparser * bytes * nat) :=
  match sub with
  | Some place =>
      match ri_subcmd_info (af_info f) with
      | Some si =>
          match sub_search si arg with
          | Some (name, idx) => Some (place, name, idx)
          | None => None
          end
      | None => None
      end
  | None => None
  end.

(** src/runtime.rs:517-520: a bundle of short options, with the leading dash
    removed.  A single "-" is not one. *)
Definition as_bundle (arg : bytes) : option bytes :=
  match strip_prefix [c_dash] arg with
  | Some [] | None => None
  | Some b => Some b
  end.

(** src/runtime.rs:494-567 [run_parser]: the loop, one round per argument.  The
    result is the chain, the parsed subcommand if one was entered, and the
    remaining input. *)
Fixpoint run_loop (fuel : nat) (sub : option subparser) (ch : chain) (it : iter)
  : res (chain * option S * iter) :=
  match it with
  | [] => Ok (ch, None, [])
  | arg :: it =>
      match fuel with
      | O => Panic PFuel
      | Datatypes.S fuel =>
          if beqb arg [c_dash; c_dash] then
            let* ch := jump_to_last ch in
            let* ch := positional_loop (length it) ch it in
            Ok (ch, None, [])
          else if starts_with [c_dash; c_dash] arg then
            let* (ch, it) := visit_long ch it arg in
            run_loop fuel sub ch it
          else
            match as_bundle arg with
            | Some bundle =>
                let* (ch, it) := visit_bundle ch it bundle in
                run_loop fuel sub ch it
            | None =>
                let* (f, parents) := head_frame ch in
                match match_subcommand sub f arg with
                | Some (place, name, idx) =>
                    let* (ch', s, it) := place idx (CF name :: ch) it in
                    match ch' with
                    | CF _ :: ch' => Ok (ch', Some s, it)
                    | _ => Panic PShape
                    end
                | None =>
                    let* (ch, it) := visit_positional ch false arg it in
                    run_loop fuel sub ch it
                end
            end
      end
  end.

Definition run_parser (sub : option subparser) (ch : chain) (it : iter)
  : res (chain * option S * iter) :=
  run_loop (length it) sub ch it.

End Runtime.
