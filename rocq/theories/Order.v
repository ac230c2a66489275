(** Vocabulary: declarations that differ in the order of their fields and
    variants, and results that do.  Nothing here refers to the model of the code. *)
From Coq Require Import Permutation.
From Verif Require Import Bytes Utf8 Error Values Heck Places Decl Spec.

Section Order.
Context {V : Type}.
Local Notation args_decl := (args_decl V).
Local Notation field := (ident * field_decl V)%type.
Local Notation variant := (ident * variant_decl V)%type.

Definition positional_field (f : field) : bool :=
  match snd f with FArg m t => negb (is_option (Arg (fst f) m t)) | _ => false end.
Definition flattened_field (f : field) : bool := match snd f with FFlatten _ => true | _ => false end.

(** The fields of the struct, and those of the structs in it, in another order,
    in which the positionals follow each other as before, and so do the
    flattened structs; and the variants of the subcommands in any other order. *)
Inductive reordered : args_decl -> args_decl -> Prop :=
| reordered_struct at_ fs fs1 fs2 :
    reordered_inside fs fs1 -> Permutation fs1 fs2 ->
    filter positional_field fs1 = filter positional_field fs2 ->
    filter flattened_field fs1 = filter flattened_field fs2 ->
    reordered (MkArgsDecl at_ fs) (MkArgsDecl at_ fs2)
with reordered_inside : list field -> list field -> Prop :=
| inside_nil : reordered_inside [] []
| inside_cons id fd fd' l l' :
    reordered_field fd fd' -> reordered_inside l l' -> reordered_inside ((id, fd) :: l) ((id, fd') :: l')
with reordered_field : field_decl V -> field_decl V -> Prop :=
| field_arg m t : reordered_field (FArg m t) (FArg m t)
| field_flat x x' : reordered x x' -> reordered_field (FFlatten x) (FFlatten x')
| field_sub o vs vs1 vs2 :
    reordered_variants vs vs1 -> Permutation vs1 vs2 -> reordered_field (FSub o (MkSubDecl vs)) (FSub o (MkSubDecl vs2))
with reordered_variants : list variant -> list variant -> Prop :=
| variants_nil : reordered_variants [] []
| variants_cons id vd vd' l l' :
    reordered_variant vd vd' -> reordered_variants l l' -> reordered_variants ((id, vd) :: l) ((id, vd') :: l')
with reordered_variant : variant_decl V -> variant_decl V -> Prop :=
| variant_unit at_ : reordered_variant (VDUnit at_) (VDUnit at_)
| variant_newtype at_ x x' : reordered x x' -> reordered_variant (VDNewtype at_ x) (VDNewtype at_ x')
| variant_struct x x' : reordered x x' -> reordered_variant (VDStruct x) (VDStruct x').

(** The same values, listed in another order. *)
Inductive same_values : outval V -> outval V -> Prop :=
| same_out l l' flats flats' sub sub' :
    Permutation l l' -> same_flats flats flats' -> same_sub sub sub' ->
    same_values (Out l flats sub) (Out l' flats' sub')
with same_flats : list (ident * outval V) -> list (ident * outval V) -> Prop :=
| flats_nil : same_flats [] []
| flats_cons id o o' l l' : same_values o o' -> same_flats l l' -> same_flats ((id, o) :: l) ((id, o') :: l')
with same_sub : option (ident * option (subval V)) -> option (ident * option (subval V)) -> Prop :=
| sub_none : same_sub None None
| sub_absent id : same_sub (Some (id, None)) (Some (id, None))
| sub_given id s s' : same_subval s s' -> same_sub (Some (id, Some s)) (Some (id, Some s'))
with same_subval : subval V -> subval V -> Prop :=
| subval_unit id : same_subval (SubV id None) (SubV id None)
| subval_struct id o o' : same_values o o' -> same_subval (SubV id (Some o)) (SubV id (Some o')).

(** Found when all tokens are read: something is missing, or arguments do not go
    together. *)
Definition about_presence (k : error_kind) : bool :=
  match k with
  | MissingRequiredArgument | ConstraintRequired | ConstraintExclusive | ConstraintConflict => true
  | _ => false
  end.

(** The same outcome up to that order: of several things that are wrong in this
    way another one may be reported, and help pages may differ. *)
Definition same_but_order (r r' : res (outval V)) : Prop :=
  match r, r' with
  | Ok o, Ok o' => same_values o o'
  | Err e, Err e' =>
      e = e' \/ e_kind e = Help /\ e_kind e' = Help \/
      about_presence (e_kind e) = true /\ about_presence (e_kind e') = true
  | Panic p, Panic p' => p = p'
  | _, _ => False
  end.
End Order.
