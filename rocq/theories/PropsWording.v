(** C61-C63: the wording of a declaration. *)
From Verif Require Import Bytes Utf8 Error Values Places Heck Decl Spec Derive Generated Observe Wording Kit Samples.
From Verif Require Import WordingFacts.
Local Open Scope string_scope.
Local Open Scope list_scope.

(** C61: the attributes of a struct make no difference where it is flattened. *)
Theorem C61_flattened {V : Type} (d d' : args_decl V) : untitled d = untitled d' ->
  (accepted d <-> accepted d') /\ (valid d <-> valid d') /\
  (valid d -> forall argv, try_parse_from d argv = try_parse_from d' argv).
Proof. exact (flattened_titles d d'). Qed.
Print Assumptions C61_flattened.

Example C61_example :
  let d := greet (doc_attrs [bs " Greets."]) (doc_attrs [bs " Common options."]) (fun m => m) false in
  let d' := greet (doc_attrs [bs " Greets."]) (mkCmdAttrs [] true (Some (bs "About.")) (Some (bs "After."))) (fun m => m) false in
  untitled d = untitled d' /\ valid d /\ valid d' /\
  match render_long_help d (bs "greet") with Ok t => firstn 7 t = bs "Greets." | _ => False end.
Proof. split; [vm_compute; reflexivity|]. split; [split; vm_compute; reflexivity|]. split; [split; vm_compute; reflexivity|]. vm_compute. reflexivity. Qed.

(** C62: documentation and [hide] make no difference but on help pages, *)
Theorem C62_documentation {V : Type} (d d' : args_decl V) (argv : list bytes) :
  undocumented d = undocumented d' -> valid d -> valid d' ->
  same_but_help (try_parse_from d argv) (try_parse_from d' argv).
Proof. exact (documentation d d' argv). Qed.
Print Assumptions C62_documentation.

(** and the names of values none but there and in the description of the
    argument an error is about. *)
Theorem C62_wording {V : Type} (d d' : args_decl V) (argv : list bytes) :
  unworded d = unworded d' -> valid d -> valid d' ->
  same_but_wording (try_parse_from d argv) (try_parse_from d' argv).
Proof. exact (wording d d' argv). Qed.
Print Assumptions C62_wording.

Example C62_example :
  let d := greet (doc_attrs [bs " Greets."]) no_attrs (fun m => m) false in
  let d' := greet no_attrs (doc_attrs [bs " Common."]) (fun m => hide (doc [bs " Text."] m)) false in
  let d'' := greet no_attrs (doc_attrs [bs " Common."]) (value_name (bs "X")) false in
  undocumented d = undocumented d' /\ unworded d = unworded d'' /\ valid d /\ valid d' /\ valid d'' /\
  match try_parse_from d (argv ["greet"; "--level"; "x"]), try_parse_from d'' (argv ["greet"; "--level"; "x"]) with
  | Err e, Err e' => e_arg_desc e = Some (bs "--level <LEVEL>") /\ e_arg_desc e' = Some (bs "--level <X>")
  | _, _ => False
  end.
Proof.
  split; [vm_compute; reflexivity|]. split; [vm_compute; reflexivity|]. split; [split; vm_compute; reflexivity|].
  split; [split; vm_compute; reflexivity|]. split; [split; vm_compute; reflexivity|]. vm_compute. split; reflexivity.
Qed.

(** C63: a tuple variant that holds a struct is like a struct variant with the
    fields and attributes of that struct. *)
Theorem C63_tuple_variants {V : Type} (d : args_decl V) : valid d ->
  valid (inlined d) /\ forall argv, try_parse_from (inlined d) argv = try_parse_from d argv.
Proof. exact (inlined_same d). Qed.
Print Assumptions C63_tuple_variants.

Example C63_example :
  let d := greet (doc_attrs [bs " Greets."]) no_attrs (fun m => m) true in
  let d' := greet (doc_attrs [bs " Greets."]) no_attrs (fun m => m) false in
  valid d /\ inlined d = d' /\ d <> d' /\
  match try_parse_from d (argv ["greet"; "hello"; "x"; "--level=2"]) with Err e => e_kind e = UnknownNamedArgument | _ => False end /\
  match try_parse_from d (argv ["greet"; "--level=2"; "hello"; "x"]) with Ok _ => True | _ => False end.
Proof.
  split; [split; vm_compute; reflexivity|]. split; [vm_compute; reflexivity|]. split; [discriminate|]. vm_compute. split; [reflexivity|exact I].
Qed.
