(** Vocabulary: declarations that differ only in their wording, and outcomes that
    differ only in theirs.  Nothing here refers to the model of the code. *)
From Verif Require Import Bytes Utf8 Error Values Heck Places Decl Spec.

Definition blank_attrs : cmd_attrs := mkCmdAttrs [] false None None.

Section Wording.
Context {V : Type}.

(** A declaration with other attributes: those of the arguments changed by [fm],
    those of commands by [fa true], those of flattened structs by [fa false].
    With [inline] the tuple variants become struct variants. *)
Section Reword.
Variable fm : arg_meta V -> arg_meta V.
Variable fa : bool -> cmd_attrs -> cmd_attrs.
Variable inline : bool.

Fixpoint reword (top : bool) (d : args_decl V) : args_decl V :=
  let '(MkArgsDecl at_ fs) := d in
  MkArgsDecl (fa top at_)
    (map (fun f : ident * field_decl V =>
       let '(id, fd) := f in
       (id, match fd with
            | FArg m t => FArg (fm m) t
            | FFlatten x => FFlatten (reword false x)
            | FSub o (MkSubDecl vs) =>
                FSub o (MkSubDecl (map (fun v : ident * variant_decl V =>
                  let '(vid, vd) := v in
                  (vid, match vd with
                        | VDUnit at_ => VDUnit (fa true at_)
                        | VDNewtype at_ x =>
                            if inline then VDStruct (reword true x) else VDNewtype at_ (reword true x)
                        | VDStruct x => VDStruct (reword true x)
                        end)) vs))
            end)) fs).
End Reword.

(** Without the attributes of flattened structs. *)
Definition untitled : args_decl V -> args_decl V :=
  reword (fun m => m) (fun top at_ => if top then at_ else blank_attrs) false true.

(** Every tuple variant written as a struct variant. *)
Definition inlined : args_decl V -> args_decl V :=
  reword (fun m => m) (fun _ at_ => at_) true true.

(** Without documentation: doc comments, descriptions of commands, [hide]. *)
Definition undocumented_arg (m : arg_meta V) : arg_meta V :=
  mkArgMeta [] (am_long m) (am_short m) (am_alias m) (am_short_alias m) (am_value_name m)
    (am_require_equals m) (am_global m) (am_allow_hyphen_values m) (am_allow_negative_numbers m)
    (am_ignore_case m) (am_trailing_var_arg m) (am_last m) (am_default_value m) (am_default_value_t m)
    (am_value_delimiter m) false (am_required m) (am_exclusive m) (am_requires m) (am_conflicts_with m).
Definition undocumented : args_decl V -> args_decl V :=
  reword undocumented_arg (fun _ _ => blank_attrs) false true.

(** And without the names of values. *)
Definition unworded_arg (m : arg_meta V) : arg_meta V :=
  mkArgMeta [] (am_long m) (am_short m) (am_alias m) (am_short_alias m) None
    (am_require_equals m) (am_global m) (am_allow_hyphen_values m) (am_allow_negative_numbers m)
    (am_ignore_case m) (am_trailing_var_arg m) (am_last m) (am_default_value m) (am_default_value_t m)
    (am_value_delimiter m) false (am_required m) (am_exclusive m) (am_requires m) (am_conflicts_with m).
Definition unworded : args_decl V -> args_decl V :=
  reword unworded_arg (fun _ _ => blank_attrs) false true.
End Wording.

(** The same outcome, but for the text of a help page; *)
Definition same_but_help {A : Type} (r r' : res A) : Prop :=
  match r, r' with
  | Ok o, Ok o' => o = o'
  | Err e, Err e' =>
      e_kind e = e_kind e' /\ e_arg_desc e = e_arg_desc e' /\ e_input e = e_input e' /\
      e_source e = e_source e' /\ e_context e = e_context e'
  | Panic p, Panic p' => p = p'
  | _, _ => False
  end.

(** and for the description of the argument an error is about. *)
Definition same_but_wording {A : Type} (r r' : res A) : Prop :=
  match r, r' with
  | Ok o, Ok o' => o = o'
  | Err e, Err e' =>
      e_kind e = e_kind e' /\ e_input e = e_input e' /\ e_source e = e_source e' /\ e_context e = e_context e'
  | Panic p, Panic p' => p = p'
  | _, _ => False
  end.
