(** Vocabulary: a subcommand as a program of its own.  Nothing here refers to
    the model of the code. *)
From Verif Require Import Bytes Utf8 Error Values Heck Places Decl Spec.

Section Compose.
Context {V : Type}.

(** No argument of the command is [global]. *)
Definition no_globals (d : args_decl V) : Prop := forall pa, In pa (reach d) -> is_global (snd pa) = false.

(** A variant of the command's subcommand. *)
Definition has_variant (d : args_decl V) (v : ident * variant_decl V) : Prop :=
  exists id o vs, subcommand d = Some (id, o, vs) /\ In v vs.
(** The struct of a variant, the empty one for a unit variant. *)
Definition command_of (v : ident * variant_decl V) : args_decl V :=
  match snd v with VDUnit at_ => MkArgsDecl at_ [] | VDNewtype _ x | VDStruct x => x end.
(** The variant with a value of that struct. *)
Definition variant_value (v : ident * variant_decl V) (o : outval V) : subval V :=
  SubV (fst v) (match snd v with VDUnit _ => None | _ => Some o end).

(** Two help pages that differ in nothing but the name of the program in the
    usage line. *)
Definition page_renamed (name name' : bytes) (e e' : error) : Prop :=
  exists before after,
    e = mkError Help None None None [] (Some (before ++ bs "Usage: " ++ name ++ after)) /\
    e' = mkError Help None None None [] (Some (before ++ bs "Usage: " ++ name' ++ after)).

(** The result [r] of a program called [argv0], and that of the command line of another program,
    called [argv0'], in which it is the subcommand [v]; [outer] is what the other program makes of
    the rest: its fields, its flattened structs, and the field of the subcommand. *)
Definition as_subcommand (argv0 argv0' : bytes) (v : ident * variant_decl V)
    (outer : res (list (ident * fval V) * list (ident * outval V) * ident)) (r r' : res (outval V)) : Prop :=
  match r with
  | Ok o => r' = let* (l, f, c) := outer in Ok (Out l f (Some (c, Some (variant_value v o))))
  | Err e => match r' with Err e' => 
      e' = e \/
      page_renamed (to_string_lossy (shown_name argv0)) (to_string_lossy (shown_name argv0') ++ bs " " ++ sub_name v) e e' | _ => False end
  | Panic p => r' = Panic p
  end.
End Compose.
