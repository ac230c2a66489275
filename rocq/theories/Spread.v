(** Vocabulary: fields written in place of a flattened struct.  Nothing here
    refers to the model of the code. *)
From Coq Require Import Permutation.
From Verif Require Import Bytes Utf8 Error Values Heck Places Decl Spec Observe Order.

Section Spread.
Context {V : Type}.
Local Notation args_decl := (args_decl V).

(** The declaration where the fields of every flattened struct stand in its
    place, at all depths and in all subcommands. *)
Fixpoint spread (d : args_decl) : args_decl :=
  let '(MkArgsDecl at_ fs) := d in
  MkArgsDecl at_ (flat_map (fun (f : ident * field_decl V) =>
    let '(id, fd) := f in
    match fd with
    | FArg m t => [(id, FArg m t)]
    | FFlatten x => fields_of (spread x)
    | FSub o (MkSubDecl vs) =>
        [(id, FSub o (MkSubDecl (map (fun (v : ident * variant_decl V) =>
           let '(name, vd) := v in
           (name, match vd with
                  | VDUnit at_ => VDUnit at_
                  | VDNewtype at_ x => VDNewtype at_ (spread x)
                  | VDStruct x => VDStruct (spread x)
                  end)) vs)))]
    end) fs).

(** No flattened struct has an exclusive argument. *)
Fixpoint flat_unexclusive (d : args_decl) : bool :=
  let '(MkArgsDecl _ fs) := d in
  forallb (fun (f : ident * field_decl V) =>
    let '(_, fd) := f in
    match fd with
    | FArg _ _ => true
    | FFlatten x => every_arg (fun a => negb (am_exclusive (sa_meta a))) x
    | FSub _ (MkSubDecl vs) =>
        forallb (fun (v : ident * variant_decl V) =>
          let '(_, vd) := v in
          match vd with
          | VDUnit _ => true
          | VDNewtype _ x | VDStruct x => flat_unexclusive x
          end) vs
    end) fs.

(** The values of a struct and of all the structs flattened into it. *)
Fixpoint leaves (o : outval V) : list (ident * fval V) :=
  let '(Out l flats _) := o in
  l ++ flat_map (fun (f : ident * outval V) => let '(_, x) := f in leaves x) flats.

(** The second one has the values of the first without the grouping. *)
Inductive ungrouped : outval V -> outval V -> Prop :=
| ungrouped_out l flats sub l' sub' :
    Permutation (leaves (Out l flats sub)) l' -> ungrouped_sub sub sub' ->
    ungrouped (Out l flats sub) (Out l' [] sub')
with ungrouped_sub : option (ident * option (subval V)) -> option (ident * option (subval V)) -> Prop :=
| ungrouped_none : ungrouped_sub None None
| ungrouped_absent id : ungrouped_sub (Some (id, None)) (Some (id, None))
| ungrouped_given id s s' : ungrouped_subval s s' -> ungrouped_sub (Some (id, Some s)) (Some (id, Some s'))
with ungrouped_subval : subval V -> subval V -> Prop :=
| ungrouped_unit id : ungrouped_subval (SubV id None) (SubV id None)
| ungrouped_struct id o o' : ungrouped o o' -> ungrouped_subval (SubV id (Some o)) (SubV id (Some o')).

(** The same outcome up to the grouping: of several things that are missing or
    do not go together another one may be reported, and help pages may list the
    options in another order. *)
Definition same_but_groups (r r' : res (outval V)) : Prop :=
  match r, r' with
  | Ok o, Ok o' => ungrouped o o'
  | Err e, Err e' =>
      e = e' \/ e_kind e = Help /\ e_kind e' = Help \/
      about_presence (e_kind e) = true /\ about_presence (e_kind e') = true
  | Panic p, Panic p' => p = p'
  | _, _ => False
  end.
End Spread.
