(** Places (the type-erased parse targets) and frames: src/runtime.rs:198-463. *)
From Verif Require Import Bytes Utf8 Attrs Refl Error Values.

Section Places.
Context {V : Type}.

(** src/runtime.rs:343, 373, 394, 419, 446: the five place types.  The
    delimiter [char] is kept as its UTF-8 encoding. *)
Inductive place :=
| FlagPlace (o : option bool)
| VecPlace (o : option (list V)) (p : value_parser V)
| VecDelimitedPlace (o : option (list V)) (delim : bytes) (p : value_parser V)
| SetValuePlace (o : option V) (p : value_parser V)
| SetOptionalValuePlace (o : option (option V)) (p : value_parser V).

(** [P::parse(frag)?] over the fragments, pushing each: src/runtime.rs:401-403. *)
Fixpoint parse_all (p : value_parser V) (frags : list bytes) (acc : list V) : res (list V) :=
  match frags with
  | [] => Ok acc
  | f :: fs => let* v := vp_parse p f in parse_all p fs (acc ++ [v])
  end.

Definition unwrap_or_default (v : option bytes) : bytes :=
  match v with Some b => b | None => [] end.
Definition get_or_insert_default (o : option (list V)) : list V :=
  match o with Some l => l | None => [] end.

(** [Parsable::parse_from]: src/runtime.rs:349-358, 378-382, 399-405, 423-429,
    450-456.  On an error the code may leave a place half-updated; the model
    returns the error only, because every caller gives up at once. *)
Definition parse_from (pl : place) (value : option bytes) : res place :=
  match pl with
  | FlagPlace o =>
      match value with
      | Some v => Err (with_input UnexpectedInlineValue v)
      | None =>
          match o with
          | Some _ => Err (err_new DuplicatedNamedArgument)
          | None => Ok (FlagPlace (Some true))
          end
      end
  | VecPlace o p =>
      let* v := vp_parse p (unwrap_or_default value) in
      Ok (VecPlace (Some (get_or_insert_default o ++ [v])) p)
  | VecDelimitedPlace o d p =>
      let* l := parse_all p (split_on d (unwrap_or_default value)) (get_or_insert_default o) in
      Ok (VecDelimitedPlace (Some l) d p)
  | SetValuePlace o p =>
      match o with
      | Some _ => Err (err_new DuplicatedNamedArgument)
      | None =>
          let* v := vp_parse p (unwrap_or_default value) in
          Ok (SetValuePlace (Some v) p)
      end
  | SetOptionalValuePlace o p =>
      match o with
      | Some _ => Err (err_new DuplicatedNamedArgument)
      | None =>
          match value with
          | Some b => let* v := vp_parse p b in Ok (SetOptionalValuePlace (Some (Some v)) p)
          | None => Ok (SetOptionalValuePlace (Some None) p)
          end
      end
  end.

(** [Parsable::is_set] and the generated tests [#ident.0.is_some()]:
    src/runtime.rs:360, 383, 406, 430, 457. *)
Definition is_set (pl : place) : bool :=
  match pl with
  | FlagPlace o => match o with Some _ => true | None => false end
  | VecPlace o _ | VecDelimitedPlace o _ _ => match o with Some _ => true | None => false end
  | SetValuePlace o _ => match o with Some _ => true | None => false end
  | SetOptionalValuePlace o _ => match o with Some _ => true | None => false end
  end.

(** The type of a default expression: [Parsable::Output] of each place. *)
Inductive dval :=
| DBool (b : bool)
| DVal (v : V)
| DVec (l : list V)
| DOpt (o : option V).

(** [Parsable::set_default]: src/runtime.rs:363-367, 386-390, 409-413, 433-437,
    460-462.  The last one overwrites unconditionally, as in the code.  A
    default of the wrong type is a rustc type error; it is [PShape] here. *)
Definition set_default (pl : place) (d : dval) : res place :=
  match pl, d with
  | FlagPlace o, DBool b => Ok (match o with None => FlagPlace (Some b) | _ => pl end)
  | VecPlace o p, DVec l => Ok (match o with None => VecPlace (Some l) p | _ => pl end)
  | VecDelimitedPlace o c p, DVec l =>
      Ok (match o with None => VecDelimitedPlace (Some l) c p | _ => pl end)
  | SetValuePlace o p, DVal v => Ok (match o with None => SetValuePlace (Some v) p | _ => pl end)
  | SetOptionalValuePlace o p, DOpt x => Ok (SetOptionalValuePlace (Some x) p)
  | _, _ => Panic PShape
  end.

(** [Parsable::set_default_parse]: src/runtime.rs:321-335. *)
Definition set_default_parse (pl : place) (s : bytes) : res place :=
  if is_set pl then Ok pl
  else
    match parse_from pl (Some s) with
    | Ok pl' => Ok pl'
    | Err _ => Panic PDefault
    | Panic p => Panic p
    end.

(** ** Frames *)

(** src/runtime.rs:224-234 [ArgsFrame], without the parent link (the chain is a
    list, innermost first) and without [subcmd] (taken out by [run_parser] at
    src/runtime.rs:496 and passed separately). *)
Record args_frame := mkFrame {
  af_fields : list place;
  af_info : raw_args_info;
  af_np : N               (** [next_positional: u8] *)
}.

(** src/runtime.rs:265-269 [CommandFrame]. *)
Inductive frame :=
| AF (f : args_frame)
| CF (name : bytes).

(** The linked list of src/runtime.rs:204-211; [[]] is the end [()]. *)
Definition chain : Type := list frame.

(** [Frame::search_named]: src/runtime.rs:236-249, 270-277, 288-295.  The result
    is the position of the frame in the chain with what Rust returns. *)
Fixpoint search_named (ch : chain) (name : bytes) (global : bool)
  : res (option (nat * place * raw_args_info * attrs)) :=
  match ch with
  | [] => Ok None
  | CF _ :: parent => 
      let* r := search_named parent name true in
      Ok (option_map (fun '(n, pl, i, a) => (S n, pl, i, a)) r)
  | AF f :: parent =>
      let up :=
        let* r := search_named parent name global in
        Ok (option_map (fun '(n, pl, i, a) => (S n, pl, i, a)) r) in
      match get_named (af_info f) name with
      | Some a =>
          if negb global || contains a GLOBAL then
            match nth_error (af_fields f) (N.to_nat (get_index a)) with
            | Some pl => Ok (Some (O, pl, af_info f, a))
            | None => Panic PIndex
            end
          else up
      | None => up
      end
  end.

Fixpoint set_nth {A} (n : nat) (x : A) (l : list A) : list A :=
  match l, n with
  | [], _ => []
  | _ :: l', O => x :: l'
  | y :: l', S n' => y :: set_nth n' x l'
  end.

(** Writing back through the [&mut dyn Parsable] returned by [search_named]. *)
Definition set_place (ch : chain) (pos : nat) (idx : N) (pl : place) : chain :=
  match nth_error ch pos with
  | Some (AF f) =>
      set_nth pos (AF (mkFrame (set_nth (N.to_nat idx) pl (af_fields f)) (af_info f) (af_np f))) ch
  | _ => ch
  end.

(** [Frame::collect_command_prefix]: src/runtime.rs:252-254, 280-284, 298. *)
Fixpoint collect_command_prefix (ch : chain) : bytes :=
  match ch with
  | [] => []
  | CF name :: p => collect_command_prefix p ++ bs " " ++ name
  | AF _ :: p => collect_command_prefix p
  end.
End Places.
Arguments place : clear implicits.
Arguments dval : clear implicits.
Arguments args_frame : clear implicits.
Arguments frame : clear implicits.
Arguments chain : clear implicits.
