(** Vocabulary: the same declaration with other field names.  Nothing here refers
    to the model of the code. *)
From Verif Require Import Bytes Utf8 Error Values Heck Places Decl Spec Observe EnumDerive Parts WellFormed.

Section Rename.
Context {V : Type}.

(** The new name of the field [id] in the struct at [ctx]: the flattened fields and
    the variants that lead to it. *)
Variable r : list ident -> ident -> ident.

(** Different fields get different names, and these are identifiers. *)
Definition renaming : Prop :=
  forall ctx, (forall x y, r ctx x = r ctx y -> x = y) /\ (forall x, identifier x -> identifier (r ctx x)) /\ r ctx [] = [].

(** An argument keeps the names it has on the command line and on the help page:
    those that were made from the name of the field are written out.  [requires]
    and [conflicts_with] follow. *)
Definition rename_meta (ctx : list ident) (id : ident) (m : arg_meta V) : arg_meta V :=
  mkArgMeta (am_doc m)
    (match am_long m with Some Inherit => Some (Explicit (kebab_case id)) | l => l end)
    (match am_short m, id with Some Inherit, b :: _ => Some (Explicit (b2n b)) | s, _ => s end)
    (am_alias m) (am_short_alias m)
    (match am_value_name m with Some n => Some n | None => Some (shouty_snake_case id) end)
    (am_require_equals m) (am_global m) (am_allow_hyphen_values m) (am_allow_negative_numbers m)
    (am_ignore_case m) (am_trailing_var_arg m) (am_last m) (am_default_value m) (am_default_value_t m)
    (am_value_delimiter m) (am_hide m) (am_required m) (am_exclusive m)
    (map (r ctx) (am_requires m)) (map (r ctx) (am_conflicts_with m)).

Fixpoint rename (ctx : list ident) (d : args_decl V) : args_decl V :=
  let '(MkArgsDecl at_ fs) := d in
  MkArgsDecl at_
    (map (fun f : ident * field_decl V =>
       let '(id, fd) := f in
       (r ctx id, match fd with
            | FArg m t => FArg (rename_meta ctx id m) t
            | FFlatten x => FFlatten (rename (ctx ++ [id]) x)
            | FSub o (MkSubDecl vs) =>
                FSub o (MkSubDecl (map (fun v : ident * variant_decl V =>
                  let '(vid, vd) := v in
                  (vid, match vd with
                        | VDUnit at_ => VDUnit at_
                        | VDNewtype at_ x => VDNewtype at_ (rename (ctx ++ [vid]) x)
                        | VDStruct x => VDStruct (rename (ctx ++ [vid]) x)
                        end)) vs))
            end)) fs).

(** The same value, with the fields renamed. *)
Fixpoint rename_out (ctx : list ident) (o : outval V) : outval V :=
  let '(Out direct flat sub) := o in
  Out (map (fun x => (r ctx (fst x), snd x)) direct)
    (map (fun x : ident * outval V => let '(id, o') := x in (r ctx id, rename_out (ctx ++ [id]) o')) flat)
    (match sub with
     | Some (id, s) =>
         Some (r ctx id,
               match s with
               | Some (SubV v p) =>
                   Some (SubV v match p with Some o' => Some (rename_out (ctx ++ [v]) o') | None => None end)
               | None => None
               end)
     | None => None
     end).
End Rename.
