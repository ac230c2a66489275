(** The help page of a command. *)
From Verif Require Import Bytes Utf8 Error Values Heck Places Decl Spec Observe.

Definition nl : bytes := ["010"%byte].

(** The program is called by the last component of its path. *)
Inductive component_of (path : bytes) : bytes -> Prop :=
| component_intro dir c trail : path = dir ++ c ++ concat trail ->
    (dir = [] \/ exists r, dir = r ++ bs "/") -> ~ In "/"%byte c ->
    c <> [] -> c <> bs "." -> Forall (fun t => t = bs "/" \/ t = bs "/.") trail ->
    component_of path c.
Inductive program (argv0 : bytes) : bytes -> Prop :=
| program_component c : component_of argv0 c -> c <> bs ".." -> program argv0 c
| program_other : (forall c, component_of argv0 c -> c = bs "..") -> program argv0 argv0.

(** The text up to the end of the first line. *)
Inductive summary (t : bytes) : bytes -> Prop :=
| summary_all : ~ In "010"%byte t -> summary t t
| summary_line l r : t = l ++ nl ++ r -> ~ In "010"%byte l -> summary t l.

Section Page.
Context {V : Type}.
Local Notation args_decl := (args_decl V).
Local Notation sarg := (sarg V).
Local Notation scope := (scope V).

(** The options of a command: its own, then those of the flattened structs; the
    hidden ones are left out. *)
Inductive options_of : args_decl -> list sarg -> Prop :=
| options_of_struct d ls :
    Forall2 (fun fx l => options_of (snd fx) l) (flattened d) ls ->
    options_of d (filter (fun a => is_option a && shown a) (own_args d) ++ concat ls).
(** The positionals of a command, in the order in which they are filled. *)
Definition positionals_of (d : args_decl) : list sarg := filter shown (positionals d).

(** A section: nothing if there is nothing to list. *)
Definition lists (title : bytes) (l : list sarg) (t : bytes) : Prop :=
  match l with
  | [] => t = []
  | _ => t = title ++ nl ++ concat (map entry l)
  end.

(** The words of the usage line for an argument.  Options are mentioned if they are
    required, by their long name; positionals if they are required or variadic. *)
Inductive mentioned : sarg -> list bytes -> Prop :=
| mentioned_required a : is_option a = true -> is_required a = true -> mentioned a [usage_form a]
| mentioned_optional a : is_option a = true -> is_required a = false -> mentioned a []
| mentioned_last a : is_option a = false -> is_last a = true -> is_required a = true ->
    mentioned a [bs "--"; describe a]
| mentioned_last_optional a : is_option a = false -> is_last a = true -> is_required a = false ->
    mentioned a [bs "[--"; describe a ++ bs "]"]
| mentioned_positional a : is_option a = false -> is_last a = false ->
    is_required a = true \/ many a = true -> mentioned a [describe a]
| mentioned_not a : is_option a = false -> is_last a = false -> is_required a = false -> many a = false ->
    mentioned a [].

(** The list of the commands: aligned names with the first line of what they do. *)
Definition widest (vs : list (ident * variant_decl V)) (w : nat) : Prop :=
  (forall v, In v vs -> length (sub_name v) <= w) /\ (w = 0 \/ exists v, In v vs /\ length (sub_name v) = w).
Inductive command_entry (w : nat) (v : ident * variant_decl V) : bytes -> Prop :=
| command_entry_intro pad l : pad = Nat.min 24 (w + 2 - length (sub_name v)) -> summary (variant_about v) l ->
    command_entry w v (bs "    " ++ sub_name v ++ repeat " "%byte pad ++ l ++ nl).
(** ... and the word for a command in the usage line. *)
Inductive commands_of (d : args_decl) : list bytes -> bytes -> Prop :=
| commands_none : subcommand d = None -> commands_of d [] []
| commands_some id o vs w ls : subcommand d = Some (id, o, vs) -> widest vs w -> Forall2 (command_entry w) vs ls ->
    commands_of d [if o then bs "[COMMAND]" else bs "<COMMAND>"] (bs "Commands:" ++ nl ++ concat ls ++ nl).

Inductive page (argv0 : bytes) : list scope -> bytes -> Prop :=
| page_intro s outer prog intro opts wopts wposs command commands arguments options :
    (about (attrs_of (sc_decl s)) = [] /\ intro = [] \/
     about (attrs_of (sc_decl s)) <> [] /\ intro = about (attrs_of (sc_decl s)) ++ nl ++ nl) ->
    program argv0 prog ->
    options_of (sc_decl s) opts ->
    Forall2 mentioned opts wopts -> Forall2 mentioned (positionals_of (sc_decl s)) wposs ->
    commands_of (sc_decl s) command commands ->
    lists (bs "Arguments:") (positionals_of (sc_decl s)) arguments ->
    lists (bs "Options:") opts options ->
    page argv0 (s :: outer)
      (intro
       ++ bs "Usage:"
       ++ concat (map (fun w => bs " " ++ w)
            ([to_string_lossy prog] ++ command_names (s :: outer) ++ concat wopts
             ++ (if existsb (fun a => negb (is_required a)) opts then [bs "[OPTIONS]"] else [])
             ++ concat wposs ++ command))
       ++ nl ++ nl ++ commands ++ arguments ++ options ++ after_help (attrs_of (sc_decl s))).

(** The arguments a page lists. *)
Inductive listed : args_decl -> sarg -> Prop :=
| listed_positional d a : In a (own_args d) -> is_option a = false -> shown a = true -> listed d a
| listed_option d a p : In (p, a) (reach d) -> is_option a = true -> shown a = true -> listed d a.

(** Some argument of the command has the name [n]. *)
Definition offers (d : args_decl) (n : name) : Prop := exists p a, In (p, a) (reach d) /\ has_name a n.
End Page.

(** The declaration without the hidden arguments of the command. *)
Fixpoint without_hidden {V : Type} (d : args_decl V) : args_decl V :=
  let '(MkArgsDecl at_ fs) := d in
  MkArgsDecl at_ (flat_map (fun f : ident * field_decl V =>
    let '(id, fd) := f in
    match fd with
    | FArg m t => if am_hide m then [] else [(id, FArg m t)]
    | FFlatten x => [(id, FFlatten (without_hidden x))]
    | FSub o s => [(id, FSub o s)]
    end) fs).
