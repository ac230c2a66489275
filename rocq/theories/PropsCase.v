(** C51, for all identifiers: how names are made from them. *)
From Verif Require Import Bytes Heck Places Decl Spec Observe Parts CaseNames Kit Samples.
From Verif Require Import CaseFacts.
Local Open Scope string_scope.
Local Open Scope list_scope.

(** C51: [#[arg(long)]] on any field, ... *)
Theorem C51_any_long {V : Type} (a : sarg V) (t : bytes) :
  am_long (sa_meta a) = Some Inherit -> spelled kebab [] (sa_id a) t -> has_name a (Long t).
Proof. exact (any_long a t). Qed.
Print Assumptions C51_any_long.

(** ... the name of its value, ... *)
Theorem C51_any_value_name {V : Type} (a : sarg V) (t : bytes) :
  am_value_name (sa_meta a) = None -> Spec.value_name a = t <-> spelled screaming [] (sa_id a) t.
Proof. exact (any_value_name a t). Qed.
Print Assumptions C51_any_value_name.

(** ... the subcommand of any variant, ... *)
Theorem C51_any_subcommand {V : Type} (v : ident * variant_decl V) (t : bytes) :
  sub_name v = t <-> spelled kebab [] (fst v) t.
Proof. exact (any_subcommand v t). Qed.
Print Assumptions C51_any_subcommand.

(** ... and the conventions of [rename_all]. *)
Theorem C51_any_rename (s t : bytes) :
  (do_rename KebabCase s = t <-> spelled kebab [] s t) /\
  (do_rename SnakeCase s = t <-> spelled snake [] s t) /\
  (do_rename ScreamingSnakeCase s = t <-> spelled screaming [] s t) /\
  (do_rename PascalCase s = t <-> spelled pascal [] s t) /\
  (do_rename CamelCase s = t <-> spelled camel [] s t).
Proof. exact (conj (kebab_iff s t) (conj (snake_iff s t) (conj (screaming_iff s t) (conj (pascal_iff s t) (camel_iff s t))))). Qed.
Print Assumptions C51_any_rename.

Example C51_any_example :
  spelled kebab [] (bs "HTTPServer2Go") (bs "http-server2-go") /\
  spelled screaming [] (bs "__logFile_v2") (bs "LOG_FILE_V2") /\
  spelled pascal [] (bs "ipV4Only") (bs "IpV4Only") /\
  spelled camel [] (bs "IPAddress") (bs "ipAddress") /\
  spelled kebab [] (bs "dry_run") (bs "dry-run") /\
  match find (fun a => beqb (sa_id a) (bs "dry_run")) (own_args app_) with
  | Some a => am_long (sa_meta a) = Some Inherit /\ am_value_name (sa_meta a) = None /\ sa_id a = bs "dry_run"
  | None => False
  end.
Proof.
  split; [apply kebab_iff; vm_compute; reflexivity|]. split; [apply screaming_iff; vm_compute; reflexivity|].
  split; [apply pascal_iff; vm_compute; reflexivity|]. split; [apply camel_iff; vm_compute; reflexivity|].
  split; [apply kebab_iff; vm_compute; reflexivity|]. vm_compute. repeat split.
Qed.
