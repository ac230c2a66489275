(** Vocabulary: what the help page says about an argument and about a command, for
    C38.  Nothing here refers to the model of the code. *)
From Verif Require Import Bytes Utf8 Error Values Heck Places Decl Spec Observe Page Parts Preset Described.

Section Entry.
Context {V : Type}.
Local Notation sarg := (sarg V).

(** Descriptions are indented such that the long names are below each other. *)
Inductive margin (a : sarg) : bytes -> Prop :=
| margin_word : is_option a = false -> margin a (bs "  ")
| margin_short c : is_option a = true -> short_name a = Some c -> margin a (bs "  ")
| margin_long : is_option a = true -> short_name a = None -> margin a (bs "      ").
(** Below are the documentation ... *)
Inductive documentation (a : sarg) : bytes -> Prop :=
| documentation_none : doc_process (am_doc (sa_meta a)) = [] -> documentation a []
| documentation_some : doc_process (am_doc (sa_meta a)) <> [] ->
    documentation a (bs "          " ++ doc_process (am_doc (sa_meta a)) ++ nl).
(** ... and the default value. *)
Inductive preset (a : sarg) : bytes -> Prop :=
| preset_none : am_default_value (sa_meta a) = None -> am_default_value_t (sa_meta a) = None -> preset a []
| preset_some t : shows a t -> preset a (default_line t).
Inductive entry_of (a : sarg) : bytes -> Prop :=
| entry_of_intro m t doc p : margin a m -> Described.described a t -> documentation a doc -> preset a p ->
    entry_of a (m ++ t ++ nl ++ doc ++ p ++ nl).

(** What a command is about: the given [long_about], or its documentation. *)
Inductive told (at_ : cmd_attrs) : bytes -> Prop :=
| told_given t : ca_has_command at_ = true -> ca_long_about at_ = Some t -> told at_ t
| told_doc : ca_long_about at_ = None -> told at_ (doc_process (ca_doc at_)).
(** The attributes of a subcommand are on its variant, or on the struct in it. *)
Inductive sub_attrs : variant_decl V -> cmd_attrs -> Prop :=
| sub_unit at_ : sub_attrs (VDUnit at_) at_
| sub_struct at_ fs : sub_attrs (VDStruct (MkArgsDecl at_ fs)) at_
| sub_tuple at_ x fs : sub_attrs (VDNewtype x (MkArgsDecl at_ fs)) at_.
End Entry.
