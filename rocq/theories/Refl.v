(** Runtime reflection data: src/refl.rs. *)
From Verif Require Import Bytes Attrs.

(** ** Binary search

    [slice::binary_search_by_key] of std (Rust 1.89), called at
    src/refl.rs:53-56 and 190-193.  std's loop, transcribed: [size] halves
    while [base] moves to [mid] unless the probe is greater than the key. *)
Fixpoint bsearch_loop {A} (cmp : A -> comparison) (l : list A)
    (fuel size base : nat) : nat :=
  match fuel with
  | O => base
  | S fuel =>
      if size <=? 1 then base
      else
        let half := size / 2 in
        let mid := base + half in
        let base' :=
          match nth_error l mid with
          | Some x => match cmp x with Gt => base | _ => mid end
          | None => base
          end in
        bsearch_loop cmp l fuel (size - half) base'
  end.

(** [.ok()] of the result: [Some i] on [Ok(i)], [None] on [Err(_)]. *)
Definition bsearch_by {A} (cmp : A -> comparison) (l : list A) : option nat :=
  match l with
  | [] => None
  | _ =>
      let base := bsearch_loop cmp l (length l) (length l) 0 in
      match nth_error l base with
      | Some x => match cmp x with Eq => Some base | _ => None end
      | None => None
      end
  end.

Definition bsearch_key {A} (key : A -> bytes) (k : bytes) (l : list A) : option nat :=
  bsearch_by (fun x => bcompare (key x) k) l.

(** A help formatter: the [&'static dyn Display] of src/refl.rs:90-100, seen as
    the function from the precision flag to the text it writes. *)
Definition help_fmt : Type := nat -> bytes.

(** src/refl.rs:20-32 [RawSubcommandInfo].  [rs_variant_helps] is
    [variant_infos] of which only [.help] is ever read (src/refl.rs:180). *)
Record raw_subcommand_info := mkSubInfo {
  rs_names : bytes;
  rs_map : list (bytes * nat);
  rs_variant_helps : list help_fmt
}.

(** src/refl.rs:52-58 [RawSubcommandInfo::search]. *)
Definition sub_search (si : raw_subcommand_info) (cmd : bytes) : option (bytes * nat) :=
  match bsearch_key fst cmd (rs_map si) with
  | Some i => nth_error (rs_map si) i
  | None => None
  end.

(** src/refl.rs:61-101 [RawArgsInfo]. *)
Record raw_args_info := mkInfo {
  ri_descriptions : bytes;
  ri_named_attrs : list (bytes * attrs);
  ri_positional_attrs : list attrs;
  ri_subcmd_info : option raw_subcommand_info;
  ri_is_subcmd_optional : bool;
  ri_has_optional_named : bool;
  ri_help : help_fmt
}.

(** src/refl.rs:109-143 [RawArgsInfo::new]: [has_optional_named] is or-ed with
    that of the flattened infos. *)
Definition info_new (descs : bytes) (named : list (bytes * attrs)) (pos : list attrs)
    (sub : option raw_subcommand_info) (subopt hasopt : bool) (h : help_fmt)
    (flattened : list raw_args_info) : raw_args_info :=
  mkInfo descs named pos sub subopt
    (fold_left (fun acc i => acc || ri_has_optional_named i) flattened hasopt) h.

(** src/refl.rs:147-158 [get_description]. *)
Fixpoint get_description_from (desc : bytes) (idx : nat) : option bytes :=
  match split_once c_nul desc with
  | Some (lhs, rhs) =>
      match idx with
      | O => Some lhs
      | S i => get_description_from rhs i
      end
  | None => None
  end.
Definition get_description (info : raw_args_info) (idx : N) : option bytes :=
  get_description_from (ri_descriptions info) (N.to_nat idx).

(** src/refl.rs:185-187 [positional_len]. *)
Definition positional_len (info : raw_args_info) : nat := length (ri_positional_attrs info).

(** src/refl.rs:189-195 [get_named]. *)
Definition get_named (info : raw_args_info) (name : bytes) : option attrs :=
  match bsearch_key fst name (ri_named_attrs info) with
  | Some i => option_map snd (nth_error (ri_named_attrs info) i)
  | None => None
  end.
