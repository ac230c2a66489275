(** Vocabulary: declarations that ask for less.  Nothing here refers to the model
    of the code. *)
From Verif Require Import Bytes Utf8 Error Values Heck Places Decl Spec Observe.

Section Relax.
Context {V : Type}.
Local Notation args_decl := (args_decl V).
Local Notation sarg := (sarg V).
Local Notation field := (ident * field_decl V)%type.
Local Notation variant := (ident * variant_decl V)%type.

(** From [T] to [Option<T>], and from either to [Vec<T>] or [Option<Vec<T>>];
    these two in both directions. *)
Definition wider_shape (x y : shape) : Prop :=
  match x, y with
  | ShOne, (ShOpt | ShMany | ShOptMany) | ShOpt, (ShMany | ShOptMany)
  | ShMany, ShOptMany | ShOptMany, ShMany => True
  | _, _ => x = y
  end.

Section New.
Variables new_name raised : name -> Prop.

(** The second argument is the first one, and asks for less. *)
Record relaxed (a b : sarg) : Prop := {
  rx_id : sa_id b = sa_id a;
  rx_option : is_option b = is_option a;
  (* An option that becomes global has only names of the kind [raised]. *)
  rx_global : is_global a = true -> is_global b = true;
  rx_raised : is_global b = true -> is_global a = true \/ forall n, has_name a n -> raised n;
  rx_last : is_last b = is_last a;
  rx_greedy : greedy b = greedy a;
  rx_names : forall n, has_name a n -> has_name b n;
  rx_new : forall n, has_name b n -> has_name a n \/ new_name n;
  rx_shape : wider_shape (shape_a a) (shape_a b);
  rx_type : value_of_ty (sa_ty b) = value_of_ty (sa_ty a);
  rx_delimiter : am_value_delimiter (sa_meta b) = am_value_delimiter (sa_meta a);
  rx_case : am_ignore_case (sa_meta b) = am_ignore_case (sa_meta a);
  rx_equals : needs_equals b = true -> needs_equals a = true;
  rx_hyphen : am_allow_hyphen_values (sa_meta a) = true -> am_allow_hyphen_values (sa_meta b) = true;
  rx_negative : am_allow_negative_numbers (sa_meta a) = true ->
    am_allow_negative_numbers (sa_meta b) = true \/ am_allow_hyphen_values (sa_meta b) = true;
  rx_required : is_required b = true -> is_required a = true;
  (* A default is new only where the argument was required. *)
  rx_default :
    is_required a = true /\ default_readable b = true \/
    am_default_value (sa_meta b) = am_default_value (sa_meta a) /\
    am_default_value_t (sa_meta b) = am_default_value_t (sa_meta a) /\
    (am_default_value_t (sa_meta a) = None \/ sa_ty b = sa_ty a);
  rx_requires : incl (am_requires (sa_meta b)) (am_requires (sa_meta a));
  rx_conflicts : incl (am_conflicts_with (sa_meta b)) (am_conflicts_with (sa_meta a));
  rx_exclusive : am_exclusive (sa_meta b) = true -> am_exclusive (sa_meta a) = true
}.

(** Arguments are relaxed at any depth, and a subcommand may become optional. *)
Inductive eased : args_decl -> args_decl -> Prop :=
| eased_struct at_ at_' fs fs' : eased_fields fs fs' -> eased (MkArgsDecl at_ fs) (MkArgsDecl at_' fs')
with eased_fields : list field -> list field -> Prop :=
| eased_nil : eased_fields [] []
| eased_cons id fd fd' l l' : eased_field id fd fd' -> eased_fields l l' -> eased_fields ((id, fd) :: l) ((id, fd') :: l')
with eased_field : ident -> field_decl V -> field_decl V -> Prop :=
| eased_arg id m t m' t' : relaxed (Arg id m t) (Arg id m' t') -> eased_field id (FArg m t) (FArg m' t')
| eased_flat id x x' : eased x x' -> eased_field id (FFlatten x) (FFlatten x')
| eased_sub id o o' vs vs' :
    (o = true -> o' = true) -> eased_variants vs vs' -> eased_field id (FSub o (MkSubDecl vs)) (FSub o' (MkSubDecl vs'))
with eased_variants : list variant -> list variant -> Prop :=
| eased_none : eased_variants [] []
| eased_more id vd vd' l l' :
    eased_variant vd vd' -> eased_variants l l' -> eased_variants ((id, vd) :: l) ((id, vd') :: l')
with eased_variant : variant_decl V -> variant_decl V -> Prop :=
| eased_unit at_ at_' : eased_variant (VDUnit at_) (VDUnit at_')
| eased_newtype at_ at_' x x' : eased x x' -> eased_variant (VDNewtype at_ x) (VDNewtype at_' x')
| eased_variant_struct x x' : eased x x' -> eased_variant (VDStruct x) (VDStruct x').

(** The names that are new are so in the whole declaration. *)
Definition new_in (d : args_decl) : Prop :=
  forall n, new_name n -> every_arg (fun b => negb (has_nameb b n)) d = true.
(** No option that was global has the name of one that becomes so. *)
Definition free_in (d : args_decl) : Prop :=
  forall n, raised n -> every_arg (fun b => negb (is_global b && has_nameb b n)) d = true.
End New.

(** The same value in a wider type. *)
Definition elements {A} (o : option A) : list A := match o with Some x => [x] | None => [] end.
Inductive widened : fval V -> fval V -> Prop :=
| widened_same v : widened v v
| widened_one_opt v : widened (FvVal v) (FvOption (Some v))
| widened_one_many v : widened (FvVal v) (FvVec [v])
| widened_one_optmany v : widened (FvVal v) (FvOptionVec (Some [v]))
| widened_opt_many o : widened (FvOption o) (FvVec (elements o))
| widened_opt_optmany o : widened (FvOption o) (FvOptionVec (option_map (fun v => [v]) o))
| widened_many_given l : widened (FvVec l) (FvOptionVec (Some l))
| widened_many_absent : widened (FvVec []) (FvOptionVec None)
| widened_optmany_given l : widened (FvOptionVec (Some l)) (FvVec l)
| widened_optmany_absent : widened (FvOptionVec None) (FvVec []).

Inductive widened_values : outval V -> outval V -> Prop :=
| widened_out l l' flats flats' sub sub' :
    Forall2 (fun x y => fst x = fst y /\ widened (snd x) (snd y)) l l' ->
    widened_flats flats flats' -> widened_sub sub sub' -> widened_values (Out l flats sub) (Out l' flats' sub')
with widened_flats : list (ident * outval V) -> list (ident * outval V) -> Prop :=
| widened_nil : widened_flats [] []
| widened_cons id o o' l l' : widened_values o o' -> widened_flats l l' -> widened_flats ((id, o) :: l) ((id, o') :: l')
with widened_sub : option (ident * option (subval V)) -> option (ident * option (subval V)) -> Prop :=
| widened_none : widened_sub None None
| widened_absent id : widened_sub (Some (id, None)) (Some (id, None))
| widened_given id s s' : widened_subval s s' -> widened_sub (Some (id, Some s)) (Some (id, Some s'))
with widened_subval : subval V -> subval V -> Prop :=
| widened_unit id : widened_subval (SubV id None) (SubV id None)
| widened_struct id o o' : widened_values o o' -> widened_subval (SubV id (Some o)) (SubV id (Some o')).
End Relax.
