(** C73: the names of fields. *)
From Verif Require Import Bytes Utf8 Error Values Places Heck Decl Spec Derive Generated Observe EnumDerive Parts WellFormed Rename Kit Samples.
From Verif Require Import RenameFacts.
Local Open Scope string_scope.
Local Open Scope list_scope.

(** C73: if fields get other names, in any of the structs, while their arguments keep
    the names they have on the command line and on the help page, the declaration is
    still valid, and it parses every command line as before: with the same value but
    for the names of the fields, or the same error, or the same help page. *)
Theorem C73 {V : Type} (r : list ident -> ident -> ident) (d : args_decl V) :
  renaming r -> valid d ->
  valid (rename r [] d) /\
  forall argv, try_parse_from (rename r [] d) argv =
    match try_parse_from d argv with
    | Ok o => Ok (rename_out r [] o)
    | Err e => Err e
    | Panic p => Panic p
    end.
Proof. intros Hr Hd. exact (renamed r Hr d Hd). Qed.
Print Assumptions C73.

Example C73_example :
  renaming second /\ valid paint /\
  try_parse_from paint (argv ["paint"; "--plain"; "-w"; "7"; "wall"; "left"]) = Ok
    (Out [(bs "color", FvVal (TStr (bs "auto"))); (bs "plain", FvBool true); (bs "width", FvVal (TInt 7));
          (bs "layers", FvVec [TStr (bs "a"); TStr (bs "b")])] []
       (Some (bs "cmd", Some (SubV (bs "Wall") (Some (Out [(bs "side", FvOption (Some (TStr (bs "left"))))] [] None)))))) /\
  try_parse_from (rename second [] paint) (argv ["paint"; "--plain"; "-w"; "7"; "wall"; "left"]) = Ok
    (Out [(bs "color_2", FvVal (TStr (bs "auto"))); (bs "plain_2", FvBool true); (bs "width_2", FvVal (TInt 7));
          (bs "layers_2", FvVec [TStr (bs "a"); TStr (bs "b")])] []
       (Some (bs "cmd_2", Some (SubV (bs "Wall") (Some (Out [(bs "side", FvOption (Some (TStr (bs "left"))))] [] None)))))) /\
  match try_parse_from (rename second [] paint) (argv ["paint"; "--plain"; "--color=x"]) with
  | Err e => e_kind e = ConstraintConflict /\ e_arg_desc e = Some (bs "--color <COLOR>")
  | _ => False
  end.
Proof.
  split; [|split; [exact paint_valid|split; [vm_compute; reflexivity|split; [vm_compute; reflexivity|vm_compute; split; reflexivity]]]].
  intros [|c ctx]; (split; [|split; [|reflexivity]]); try (intros x y H; exact H); try (intros x H; exact H).
  - intros [|x l] [|y m] H; try discriminate; [reflexivity|]. exact (app_inv_tail (bs "_2") (x :: l) (y :: m) H).
  - assert (K : Forall ident_byte (bs "_2")).
    { constructor; [right; right; right; reflexivity|]. constructor; [right; right; left; vm_compute; split; discriminate|constructor]. }
    intros x (c & l & [-> | ->] & Hc & Hl); cbn [second].
    + exists c, (l ++ bs "_2"). split; [left; reflexivity|]. split; [exact Hc|]. change (c :: l ++ bs "_2") with ((c :: l) ++ bs "_2"). apply Forall_app. split; assumption.
    + exists c, (l ++ bs "_2"). split; [right; reflexivity|]. split; [exact Hc|]. change (c :: l ++ bs "_2") with ((c :: l) ++ bs "_2"). apply Forall_app. split; assumption.
Qed.
