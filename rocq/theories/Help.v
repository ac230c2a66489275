(** Help rendering: src/help.rs. *)
From Verif Require Import Bytes Utf8 Attrs Refl Error Values Places.

(** src/refl.rs:172-182 [subcommands_with_help]: names zipped with helps. *)
Definition subcommands_with_help (info : raw_args_info) : option (list (bytes * help_fmt)) :=
  match ri_subcmd_info info with
  | Some si => Some (combine (split_terminator c_nul (rs_names si) []) (rs_variant_helps si))
  | None => None
  end.

(** The padding constant of src/help.rs:60: 24 spaces. *)
Definition help_pad : bytes := bs "                        ".

(** One line of the list of commands, src/help.rs:64-79.  The comparison
    [out.len() == pos] at line 72 is made after [pad] was written, so its
    branch is only taken for an empty pad; kept as in the code. *)
Definition help_command_line (max_len : nat) (cmd : bytes) (h : help_fmt) : bytes :=
  let pad_len := (max_len - length cmd) + 2 in
  let pad := firstn pad_len help_pad in
  let text := pad ++ h 4 in
  bs "    " ++ cmd ++
  (match text with
   | [] => []
   | _ => match split_once c_nl text with
          | Some (lhs, _) => lhs
          | None => text
          end
   end) ++ [c_nl].

(** A section that is dropped when its body is empty: src/help.rs:86-96, 99-109. *)
Definition help_section (banner body : bytes) : bytes :=
  match body with
  | [] => []
  | _ => banner ++ [c_nl] ++ body
  end.

(** src/help.rs:18-112 [render_help_into], on the info of the innermost frame
    and the command prefix of its chain. *)
Definition render_help_text (info : raw_args_info) (prefix : bytes) : bytes :=
  let h := ri_help info in
  let subcmds := subcommands_with_help info in
  (match h 4 with [] => [] | about => about ++ [c_nl; c_nl] end)
  ++ bs "Usage:" ++ prefix
  ++ h 0 ++ (if ri_has_optional_named info then bs " [OPTIONS]" else []) ++ h 1
  ++ (match subcmds with
      | Some _ => if ri_is_subcmd_optional info then bs " [COMMAND]" else bs " <COMMAND>"
      | None => []
      end)
  ++ [c_nl; c_nl]
  ++ (match subcmds with
      | Some cmds =>
          let max_len := fold_right Nat.max 0 (map (fun c => length (fst c)) cmds) in
          bs "Commands:" ++ [c_nl]
          ++ concat (map (fun c => help_command_line max_len (fst c) (snd c)) cmds)
          ++ [c_nl]
      | None => []
      end)
  ++ help_section (bs "Arguments:") (h 3)
  ++ help_section (bs "Options:") (h 2)
  ++ h 5.

Section Help.
Context {V : Type}.

Definition render_help (f : args_frame V) (parents : chain V) : bytes :=
  render_help_text (af_info f) (collect_command_prefix parents).

(** src/error.rs:211-218 [maybe_render_help], with feature "help". *)
Definition maybe_render_help (e : error) (ch : chain V) : error :=
  match e_kind e, ch with
  | Help, AF f :: parents => with_help e (render_help f parents)
  | _, _ => e
  end.
End Help.
