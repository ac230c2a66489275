(** C70: a declaration that asks for less. *)
From Verif Require Import Bytes Utf8 Error Values Places Heck Decl Spec Derive Generated Observe Relax Kit Samples.
From Verif Require Import RelaxFacts.
Local Open Scope string_scope.
Local Open Scope list_scope.

(** C70: what is accepted stays so when arguments become optional or global, get
    defaults or further names, may be repeated, or lose constraints; and all the
    values are the same. *)
Theorem C70_relaxed {V : Type} (new_name raised : name -> Prop) (d d' : args_decl V) argv o :
  valid d -> valid d' -> eased new_name raised d d' -> new_in new_name d -> free_in raised d ->
  try_parse_from d argv = Ok o -> exists o', try_parse_from d' argv = Ok o' /\ widened_values o o'.
Proof. exact (eased_parse new_name raised d d' argv o). Qed.
Print Assumptions C70_relaxed.

Example C70_example :
  let line := argv ["serve"; "--host=a"; "-q"; "--port"; "1"; "--level"; "2"; "dir"; "start"] in
  let shorter := argv ["serve"; "--bind"; "a"; "-q"; "--level"; "-2"; "--host"; "b"; "--"; "x"; "y"] in
  let later := argv ["serve"; "--host=a"; "start"; "-q"] in
  valid (serve false) /\ valid (serve true) /\ eased serve_names serve_raised (serve false) (serve true) /\
  new_in serve_names (serve false) /\ free_in serve_raised (serve false) /\
  succeeds (serve false) line (fun o => o =
    Out [fI "port" 1; fS "host" "a"; fB "quiet" true; fO "roots" (Some "dir")]
      [(bs "log", Out [(bs "level", FvOption (Some (TInt 2)))] [] None)] (Some (bs "cmd", Some (SubV (bs "Start") None)))) /\
  succeeds (serve true) line (fun o => o =
    Out [fI "port" 1; fV "host" ["a"]; fB "quiet" true; fV "roots" ["dir"]]
      [(bs "log", Out [(bs "level", FvVec [TInt 2])] [] None)] (Some (bs "cmd", Some (SubV (bs "Start") None)))) /\
  succeeds (serve true) shorter (fun o => o =
    Out [fI "port" 80; fV "host" ["a"; "b"]; fB "quiet" true; fV "roots" ["x"; "y"]]
      [(bs "log", Out [(bs "level", FvVec [TInt (-2)])] [] None)] (Some (bs "cmd", None))) /\
  succeeds (serve true) later (fun o => o =
    Out [fI "port" 80; fV "host" ["a"]; fB "quiet" true; fV "roots" []]
      [(bs "log", Out [(bs "level", FvVec [])] [] None)] (Some (bs "cmd", Some (SubV (bs "Start") None)))).
Proof.
  split; [split; vm_compute; reflexivity|]. split; [split; vm_compute; reflexivity|].
  split; [|split; [|split; [|split; [vm_compute; reflexivity|split; [vm_compute; reflexivity|split; vm_compute; reflexivity]]]]].
  - unfold serve, serve_log. constructor.
    apply eased_cons; [apply eased_arg|apply eased_cons; [apply eased_arg|apply eased_cons; [apply eased_arg|
      apply eased_cons; [apply eased_flat, eased_struct, eased_cons; [apply eased_arg|constructor]|
      apply eased_cons; [apply eased_arg|apply eased_cons; [apply eased_sub; [reflexivity|repeat constructor]|constructor]]]]]].
    all: constructor; try reflexivity; try exact I; try discriminate; try (intros x []; fail);
      try (intros n Hn; exact Hn); try (intros n Hn; left; exact Hn); try (right; split; [reflexivity|split; [reflexivity|left; reflexivity]]).
    + left. split; vm_compute; reflexivity.
    + intros n [_ H]. split; [reflexivity|]. destruct n as [s|c]; destruct H as [[]|H]; right; exact H.
    + intros n [_ H]. destruct n as [s|c]; [|left; split; [reflexivity|exact H]].
      destruct H as [[<-|[]]|H]; [right; reflexivity|left; split; [reflexivity|right; exact H]].
    + intros _. right. intros n [_ H]. destruct n as [s|c]; destruct H as [[]|H]; cbv in H; [discriminate H|injection H as <-; reflexivity].
  - intros n ->. vm_compute. reflexivity.
  - intros n ->. vm_compute. reflexivity.
Qed.

(** From [Option<T>] to [Option<Option<T>>] is not such a step: the value must be
    in the same argument then; *)
Example C70_optional_value :
  let old := struct [arg "color" (long m0) (TyOption TString)] in
  let new := struct [arg "color" (require_equals (long m0)) (TyOption (TyOption TString))] in
  valid old /\ valid new /\
  succeeds old (argv ["p"; "--color"; "red"]) (fun o => o = Out [fO "color" (Some "red")] [] None) /\
  match try_parse_from new (argv ["p"; "--color"; "red"]) with Err e => e_kind e = ExtraPositionalArgument | _ => False end.
Proof. split; [split; vm_compute; reflexivity|]. split; [split; vm_compute; reflexivity|]. split; vm_compute; reflexivity. Qed.

(** nor is becoming global with the name of another global option; *)
Example C70_known_global :
  let push m := VDStruct (struct [arg "verify" (m (short m0)) TBool; (bs "cmd", FSub true (MkSubDecl [(bs "Now", VDUnit no_attrs)]))]) in
  let old := tail_ [(bs "Push", push (fun m => m))] in
  let new := tail_ [(bs "Push", push global)] in
  valid old /\ valid new /\
  match try_parse_from old (argv ["tail"; "push"; "now"; "-v"]), try_parse_from new (argv ["tail"; "push"; "now"; "-v"]) with
  | Ok (Out l _ _), Ok (Out l' _ _) => In (fB "verbose" true) l /\ In (fB "verbose" false) l'
  | _, _ => False
  end.
Proof. split; [split; vm_compute; reflexivity|]. split; [split; vm_compute; reflexivity|]. vm_compute. tauto. Qed.

(** nor is a further name that is known from outside. *)
Example C70_known_name :
  let old := tail_ [(bs "Push", VDStruct (struct [arg "force" (short m0) TBool]))] in
  let new := tail_ [(bs "Push", VDStruct (struct [arg "force" (aliases [] [118%N] (short m0)) TBool]))] in
  valid old /\ valid new /\
  match try_parse_from old (argv ["tail"; "push"; "-v"]), try_parse_from new (argv ["tail"; "push"; "-v"]) with
  | Ok (Out l _ _), Ok (Out l' _ _) => In (fB "verbose" true) l /\ In (fB "verbose" false) l'
  | _, _ => False
  end.
Proof. split; [split; vm_compute; reflexivity|]. split; [split; vm_compute; reflexivity|]. vm_compute. tauto. Qed.
