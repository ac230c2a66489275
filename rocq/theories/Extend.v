(** Vocabulary: declarations with more arguments and subcommands.  Nothing here
    refers to the model of the code. *)
From Verif Require Import Bytes Utf8 Error Values Heck Places Decl Spec Observe.

Section Extend.
Context {V : Type}.
Local Notation args_decl := (args_decl V).
Local Notation sarg := (sarg V).
Local Notation field := (ident * field_decl V)%type.
Local Notation variant := (ident * variant_decl V)%type.

Section Added.
Variable added : sarg -> Prop.
Variable fresh : bytes -> Prop.

(** The second declaration has all that the first one has, and anywhere in it
    perhaps more: [added] arguments, with positionals behind those there are;
    flattened structs that consist of [added] arguments; subcommands with [fresh]
    names, also optional ones where there were none. *)
Definition no_words (l : list field) : Prop :=
  forall b, In b (flat_map own_arg l) -> is_option b = true \/ is_last b = true.
Inductive extended : args_decl -> args_decl -> Prop :=
| extended_struct at_ fs fs' : extended_fields fs fs' -> extended (MkArgsDecl at_ fs) (MkArgsDecl at_ fs')
with extended_fields : list field -> list field -> Prop :=
| fields_nil : extended_fields [] []
| fields_keep id fd fd' l l' : extended_field fd fd' -> extended_fields l l' -> extended_fields ((id, fd) :: l) ((id, fd') :: l')
| fields_add id m t l l' :
    added (Arg id m t) -> is_option (Arg id m t) = true \/ no_words l ->
    extended_fields l l' -> extended_fields l ((id, FArg m t) :: l')
| fields_flat id x l l' :
    (forall pa, In pa (reach x) -> added (snd pa)) ->
    extended_fields l l' -> extended_fields l ((id, FFlatten x) :: l')
| fields_sub id vs l l' :
    (forall v, In v vs -> fresh (sub_name v)) -> flat_map sub_field l = [] ->
    extended_fields l l' -> extended_fields l ((id, FSub true (MkSubDecl vs)) :: l')
with extended_field : field_decl V -> field_decl V -> Prop :=
| extended_arg m t : extended_field (FArg m t) (FArg m t)
| extended_flat x x' : extended x x' -> extended_field (FFlatten x) (FFlatten x')
| extended_sub o vs vs' : extended_variants vs vs' -> extended_field (FSub o (MkSubDecl vs)) (FSub o (MkSubDecl vs'))
with extended_variants : list variant -> list variant -> Prop :=
| extended_none : extended_variants [] []
| extended_one id vd vd' l l' :
    extended_variant vd vd' -> extended_variants l l' -> extended_variants ((id, vd) :: l) ((id, vd') :: l')
| extended_new v l l' : fresh (sub_name v) -> extended_variants l l' -> extended_variants l (v :: l')
with extended_variant : variant_decl V -> variant_decl V -> Prop :=
| extended_unit at_ : extended_variant (VDUnit at_) (VDUnit at_)
| extended_newtype at_ x x' : extended x x' -> extended_variant (VDNewtype at_ x) (VDNewtype at_ x')
| extended_variant_struct x x' : extended x x' -> extended_variant (VDStruct x) (VDStruct x').

(** What is added need not be given and is not [last], and its names are new in
    the whole declaration. *)
Definition harmless (d : args_decl) : Prop :=
  forall a, added a ->
    is_last a = false /\ is_required a = false /\ default_readable a = true /\
    forall n, has_name a n -> every_arg (fun b => negb (has_nameb b n)) d = true.
End Added.

(** All the values of the first, and perhaps more. *)
Inductive more_values : outval V -> outval V -> Prop :=
| more_out l l' flats flats' sub sub' :
    incl l l' -> more_flats flats flats' -> more_sub sub sub' -> more_values (Out l flats sub) (Out l' flats' sub')
with more_flats : list (ident * outval V) -> list (ident * outval V) -> Prop :=
| more_nil : more_flats [] []
| more_cons id o o' l l' : more_values o o' -> more_flats l l' -> more_flats ((id, o) :: l) ((id, o') :: l')
| more_flat id o l l' : more_flats l l' -> more_flats l ((id, o) :: l')
with more_sub : option (ident * option (subval V)) -> option (ident * option (subval V)) -> Prop :=
| more_none : more_sub None None
| more_optional id : more_sub None (Some (id, None))
| more_absent id : more_sub (Some (id, None)) (Some (id, None))
| more_given id s s' : more_subval s s' -> more_sub (Some (id, Some s)) (Some (id, Some s'))
with more_subval : subval V -> subval V -> Prop :=
| more_unit id : more_subval (SubV id None) (SubV id None)
| more_struct id o o' : more_values o o' -> more_subval (SubV id (Some o)) (SubV id (Some o')).

(** Only those subcommands, at any depth, whose names are in [keep]. *)
Fixpoint keeping (keep : bytes -> bool) (d : args_decl) : args_decl :=
  let '(MkArgsDecl at_ fs) := d in
  MkArgsDecl at_
    (map (fun f : field =>
       let '(id, fd) := f in
       (id, match fd with
            | FArg m t => FArg m t
            | FFlatten x => FFlatten (keeping keep x)
            | FSub o (MkSubDecl vs) =>
                FSub o (MkSubDecl (flat_map (fun v : variant =>
                  let '(vid, vd) := v in
                  if keep (sub_name v)
                  then [(vid, match vd with
                              | VDUnit at_ => VDUnit at_
                              | VDNewtype at_ x => VDNewtype at_ (keeping keep x)
                              | VDStruct x => VDStruct (keeping keep x)
                              end)]
                  else []) vs))
            end)) fs).

(** Only those that are named by an element of the command line. *)
Definition named_in (argv : list bytes) : args_decl -> args_decl :=
  keeping (fun n => existsb (beqb n) (tl argv)).
End Extend.
