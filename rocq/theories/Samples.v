(** A declaration that uses most of the features, for the examples beside the
    theorems. *)
From Verif Require Import Bytes Utf8 Error Values Places Heck Decl Spec Derive Generated Observe ScopeFacts Kit.
Local Open Scope string_scope.
Local Open Scope list_scope.

Definition common : args_decl tv := struct
  [arg "quiet" (short (long m0)) TBool;
   arg "log_file" (long (aliases [bs "log"] [b2n "L"] m0)) (TyOption TPath)].

Definition run_cmd : args_decl tv := struct
  [arg "jobs" (short (long m0)) (TyOption TI);
   arg "target" m0 TString;
   arg "args" (trailing m0) (TyVec TString)].

Definition app_ : args_decl tv := struct
  [arg "verbose" (global (short (long m0))) TBool;
   arg "dry_run" (short_b "d" (long m0)) TBool;
   arg "name" (aliases [bs "nick"; bs "nom"] [b2n "k"] (short (long m0))) (TyOption TString);
   arg "file" (short (delimiter "," (long m0))) (TyVec TString);
   arg "level" (long (default_value "3" m0)) TI;
   arg "mode" (ignore_case (long m0)) (TyOption (TyOther (enum_ty [bs "fast"; bs "slow"])));
   arg "color" (require_equals (short_b "c" (long m0))) (TyOption (TyOption TString));
   arg "offset" (allow_negative (short_b "o" (long m0))) (TyOption TI);
   arg "raw" (allow_hyphen (short_b "r" (long m0))) (TyOption TPath);
   arg "equal" (require_equals (short_b "e" (long m0))) (TyOption TString);
   (bs "common", FFlatten common);
   arg "input" m0 (TyOption TString);
   (bs "cmd", FSub true (MkSubDecl [(bs "Run", VDStruct run_cmd); (bs "ListAll", VDUnit no_attrs)]))].

Lemma app_accepted : accepted app_. Proof. vm_compute. reflexivity. Qed.
Lemma app_valid : valid app_. Proof. split; vm_compute; reflexivity. Qed.

(** A declaration without subcommands, with a variadic positional, a [last]
    argument and constraints. *)
Definition copy : args_decl tv := struct
  [arg "force" (short (long (conflicts ["keep"] m0))) TBool;
   arg "keep" (short (long m0)) TBool;
   arg "to" (long (requires ["force"] m0)) (TyOption TString);
   arg "list" (long (exclusive m0)) TBool;
   arg "source" m0 TString;
   arg "more" m0 (TyVec TString);
   arg "tail" (last_ m0) (TyVec TString)].
Lemma copy_valid : valid copy. Proof. split; vm_compute; reflexivity. Qed.

(** *** How the examples are stated

    So that they can be checked by evaluation alone, the examples say "the parser
    arrives at a situation such that", "the name denotes an argument such that"
    and "the parse succeeds with a value such that" by these functions. *)

(** After [pre], the parser is between two arguments, in a situation such that [Q]. *)
Definition arrives {V} (d : args_decl V) (pre : list bytes)
    (Q : list (occ V) -> list (scope V) -> list (sarg V) -> Prop) : Prop :=
  match read first_named (start d) pre with
  | (os, Go (Normal stk rem)) => Q os stk rem
  | _ => False
  end.
Lemma arrives_iff {V} (d : args_decl V) pre Q :
  arrives d pre Q <-> exists os stk rem, at_option d pre os stk rem /\ Q os stk rem.
Proof.
  unfold arrives, at_option. destruct (read first_named (start d) pre) as [os [s|s]].
  - destruct s; (split; [intros H; try contradiction; eauto|intros (os' & stk' & rem' & E & H); try discriminate]).
    injection E as <- <- <-. exact H.
  - split; [contradiction|]. intros (os' & stk' & rem' & E & H). discriminate.
Qed.

(** The name denotes an argument such that [Q]. *)
Definition denotes_arg {V} (stk : list (scope V)) (n : name) (Q : addr -> sarg V -> Prop) : Prop :=
  match resolve stk n with
  | Some (ad, a) => Q ad a
  | None => False
  end.
Lemma denotes_arg_iff {V} (stk : list (scope V)) n Q :
  denotes_arg stk n Q <-> exists ad a, resolve stk n = Some (ad, a) /\ Q ad a.
Proof.
  unfold denotes_arg. destruct (resolve stk n) as [[ad a]|].
  - split; [eauto|]. intros (ad' & a' & E & H). injection E as <- <-. exact H.
  - split; [contradiction|]. intros (ad' & a' & E & H). discriminate.
Qed.

(** The parse succeeds with a value such that [Q]. *)
Definition succeeds {V} (d : args_decl V) (argv : list bytes) (Q : outval V -> Prop) : Prop :=
  match try_parse_from d argv with
  | Ok o => Q o
  | _ => False
  end.
Lemma succeeds_iff {V} (d : args_decl V) argv Q :
  succeeds d argv Q <-> exists o, try_parse_from d argv = Ok o /\ Q o.
Proof.
  unfold succeeds. destruct (try_parse_from d argv) as [o|e|p].
  - split; [eauto|]. intros (o' & E & H). injection E as <-. exact H.
  - split; [contradiction|]. intros (o' & E & H). discriminate.
  - split; [contradiction|]. intros (o' & E & H). discriminate.
Qed.

(** All the tokens are read, with occurrences and commands such that [Q]. *)
Definition reads_such {V} (d : args_decl V) (toks : list bytes) (Q : list (occ V) -> list (scope V) -> Prop) : Prop :=
  match read first_named (start d) toks with
  | (_, Go (Await _ _ _ _)) => False
  | (os, Go st) => Q os (state_stack st)
  | _ => False
  end.
Lemma reads_such_iff {V} (d : args_decl V) toks Q :
  reads_such d toks Q <-> exists os stk, reads d toks os stk /\ Q os stk.
Proof.
  unfold reads_such, reads. destruct (read first_named (start d) toks) as [os [s|s]].
  - split.
    + intros H. destruct s; try contradiction; do 2 eexists; (split; [eexists; split; [reflexivity|split; [exact I|reflexivity]]|exact H]).
    + intros (os' & stk' & (st & E & Hc & <-) & H). injection E as <- <-. destruct s; try exact H. exact Hc.
  - split; [contradiction|]. intros (os' & stk' & (st & E & _) & H). discriminate.
Qed.

(** There is an argument at [ad], and it is such that [Q]. *)
Definition has_arg {V} (stk : list (scope V)) (ad : addr) (Q : sarg V -> Prop) : Prop :=
  match find (fun x => addr_eqb (fst x) ad) (stack_args stk) with
  | Some (_, a) => Q a
  | None => False
  end.
Lemma has_arg_some {V} (stk : list (scope V)) ad Q : has_arg stk ad Q -> exists a, In (ad, a) (stack_args stk) /\ Q a.
Proof.
  unfold has_arg. destruct (find _ _) as [[ad' a]|] eqn:E; [|contradiction]. intros H. apply find_some in E. destruct E as [Hi E].
  apply addr_eqb_eq in E. cbn in E. subst. eauto.
Qed.

(** Solves the examples. *)
Ltac show :=
  repeat match goal with
  | |- exists _, _ => eexists
  | |- _ /\ _ => split
  end;
  try solve [vm_compute; repeat (split; [first [reflexivity|discriminate|tauto]|]); first [reflexivity|discriminate|tauto]].

(** Two variants with the same subcommand name. *)
Definition twins : args_decl tv := struct
  [(bs "cmd", FSub false (MkSubDecl [(bs "FooBar", VDUnit no_attrs); (bs "Foo_Bar", VDUnit no_attrs)]))].

(** The same names in several structs. *)
Definition opt_name (id : string) (m : arg_meta tv) := arg id (long m) (TyOption TString).
Definition layers_go : args_decl tv := struct
  [(bs "first", FFlatten (struct
      [(bs "deep", FFlatten (struct [opt_name "name" m0; opt_name "other" m0]));
       opt_name "name" m0]));
   (bs "second", FFlatten (struct [opt_name "name" m0; opt_name "other" m0]))].
Definition layers : args_decl tv := struct
  [(bs "first", FFlatten (struct [opt_name "name" (global m0)]));
   opt_name "name" (global m0);
   opt_name "outer" (global m0);
   (bs "cmd", FSub true (MkSubDecl
      [(bs "Go", VDStruct layers_go)]))].
Lemma layers_valid : valid layers. Proof. split; vm_compute; reflexivity. Qed.

(** Documentation, defaults and hidden arguments. *)
Definition tool_flags : args_decl tv := struct
  [arg "quiet" (doc [bs " Say less."] (short (long m0))) TBool;
   arg "trace" (hide (doc [bs " Secret."] (long m0))) TBool].
Definition tool : args_decl tv := MkArgsDecl (doc_attrs [bs " A tool."])
  [arg "input" (doc [bs " What to read."] m0) TString;
   arg "old" (hide m0) (TyOption TString);
   arg "rest" (last_ m0) (TyVec TString);
   (bs "flags", FFlatten tool_flags);
   arg "count" (doc [bs " How often"; bs " to do it."; bs ""; bs " Not too often."] (default_value "1" (short (long m0)))) TI;
   arg "key" (required (short (long m0))) TString;
   arg "wizard" (hide (long m0)) TBool;
   (bs "cmd", FSub true (MkSubDecl
     [(bs "Go", VDUnit (doc_attrs [bs " Go on."; bs ""; bs " At once."]));
      (bs "StopIt", VDStruct (struct [arg "now" (long m0) TBool]))]))].
Lemma tool_valid : valid tool. Proof. split; vm_compute; reflexivity. Qed.
(** An argument of its own named [--help]. *)
Definition own_help (t : ty tv) : args_decl tv := struct [arg "help" (long m0) t].
(** One declaration in several wordings. *)
Definition greet (about flat : cmd_attrs) (m : arg_meta tv -> arg_meta tv) (tuple : bool) : args_decl tv :=
  MkArgsDecl about
    [(bs "common", FFlatten (MkArgsDecl flat [arg "level" (m (long m0)) (TyOption TI)]));
     (bs "cmd", FSub true (MkSubDecl
       [(bs "Hello", (if tuple then VDNewtype no_attrs else VDStruct) (MkArgsDecl about [arg "who" (m m0) TString]))]))].
(** One declaration in two orders. *)
Definition mail_flags (swap : bool) : args_decl tv :=
  let fs := [arg "quiet" (long m0) TBool; arg "loud" (long m0) TBool] in struct (if swap then rev fs else fs).
Definition mail (swap : bool) : args_decl tv :=
  let vs := [(bs "Send", VDStruct (mail_flags swap)); (bs "Drop", VDUnit no_attrs)] in
  let from := arg "from" (long m0) TString in let to := arg "to" (long m0) TString in
  let text := arg "text" m0 TString in let flags := (bs "flags", FFlatten (mail_flags swap)) in
  let cmd := (bs "cmd", FSub true (MkSubDecl (if swap then rev vs else vs))) in
  struct (if swap then [cmd; to; text; flags; from] else [from; to; flags; text; cmd]).
(** And two in which the order matters. *)
Definition ends (swap : bool) : args_decl tv :=
  let fs := [arg "from" m0 TString; arg "to" m0 TString] in struct (if swap then rev fs else fs).
Definition both (swap : bool) : args_decl tv :=
  let fs := [(bs "a", FFlatten (struct [opt_name "name" m0])); (bs "b", FFlatten (struct [opt_name "name" m0]))] in
  struct (if swap then rev fs else fs).

(** A program and its next release, with new options in the command, in a
    flattened struct and in a subcommand; with a new positional, a new flattened
    struct, a new subcommand, and one in a subcommand. *)
Definition sync_common (next : bool) : args_decl tv := struct
  (arg "quiet" (short (long m0)) TBool :: if next then [arg "color" (long m0) (TyOption TString)] else []).
Definition sync_push (next : bool) : args_decl tv := struct
  ((if next then [arg "retries" (long (default_value "3" m0)) TI] else []) ++
   [arg "all" (long (exclusive m0)) TBool; arg "what" m0 (TyOption TString)] ++
   (if next then [(bs "cmd", FSub true (MkSubDecl [(bs "Later", VDUnit no_attrs)]))] else [])).
Definition sync_limits : args_decl tv := struct [arg "max_size" (long m0) (TyOption TI)].
Definition sync (next : bool) : args_decl tv := struct
  ([arg "verbose" (global (short (long m0))) TBool] ++
   (if next then [arg "dry_run" (long m0) TBool] else []) ++
   [(bs "common", FFlatten (sync_common next)); arg "dir" m0 TString; arg "rest" (last_ m0) (TyVec TString)] ++
   (if next then [arg "target" m0 (TyOption TString); (bs "limits", FFlatten sync_limits)] else []) ++
   [(bs "cmd", FSub true (MkSubDecl ([(bs "Push", VDStruct (sync_push next))] ++
      (if next then [(bs "Verify", VDStruct (struct [arg "deep" (long m0) TBool]))] else []) ++ [(bs "Pull", VDUnit no_attrs)])))]).
Definition sync_new (a : sarg tv) : Prop :=
  In a [Arg (bs "color") (long m0) (TyOption TString); Arg (bs "retries") (long (default_value "3" m0)) TI;
        Arg (bs "dry_run") (long m0) TBool; Arg (bs "target") m0 (TyOption TString); Arg (bs "max_size") (long m0) (TyOption TI)].
Definition sync_fresh (n : bytes) : Prop := In n [bs "later"; bs "verify"].
(** With a new variant; with an option in a subcommand that has a name of a
    global one. *)
Definition tail_ (vs : list (ident * variant_decl tv)) : args_decl tv := struct
  [arg "verbose" (global (short (long m0))) TBool; arg "input" m0 (TyOption TString);
   (bs "cmd", FSub true (MkSubDecl vs))].

(** Structs flattened into flattened ones, in the program and in a subcommand;
    one in which an exclusive option is flattened. *)
Definition fetch_tls : args_decl tv := struct
  [arg "cert" (requires ["key"] (long m0)) (TyOption TString); arg "key" (long m0) (TyOption TString)].
Definition fetch_net : args_decl tv := struct
  [arg "proxy" (global (long m0)) (TyOption TString); (bs "tls", FFlatten fetch_tls); arg "port" (long (default_value "80" m0)) TI].
Definition fetch_log : args_decl tv := struct [arg "quiet" (short (long m0)) TBool].
Definition fetch : args_decl tv := struct
  [(bs "net", FFlatten fetch_net); arg "user" (long m0) TString; arg "url" m0 (TyOption TString);
   (bs "cmd", FSub true (MkSubDecl [(bs "Get", VDStruct (struct [arg "all" (long (exclusive m0)) TBool; arg "name" m0 (TyOption TString)]));
                                    (bs "Put", VDStruct (struct [(bs "log", FFlatten fetch_log); arg "file" m0 TString]))]))].
Definition grouped_exclusive : args_decl tv := struct
  [arg "loud" (long m0) TBool; (bs "more", FFlatten (struct [arg "list" (long (exclusive m0)) TBool]))].

(** A server that asks for less in the next version. *)
Definition serve_log (next : bool) : args_decl tv := struct
  [arg "level" (if next then allow_negative (long m0) else long m0) (if next then TyVec TI else TyOption TI)].
Definition serve (next : bool) : args_decl tv := struct
  [arg "port" (if next then default_value "80" (long m0) else long m0) TI;
   arg "host" (if next then aliases [bs "bind"] [] (long m0) else require_equals (long m0)) (if next then TyVec TString else TString);
   arg "quiet" (if next then global (short m0) else requires ["port"] (short m0)) TBool;
   (bs "log", FFlatten (serve_log next));
   arg "roots" m0 (if next then TyVec TString else TyOption TString);
   (bs "cmd", FSub next (MkSubDecl [(bs "Start", VDUnit no_attrs)]))].
Definition serve_names (n : name) : Prop := n = Long (bs "bind").
Definition serve_raised (n : name) : Prop := n = Short (b2n "q").

(** Defaults, one of them with a constraint. *)
Definition paint : args_decl tv := struct
  [arg "color" (long (default_value "auto" (conflicts ["plain"] m0))) TString;
   arg "plain" (long m0) TBool;
   arg "width" (global (short (long (default_value "80" m0)))) TI;
   arg "layers" (long (delimiter "," (default_value "a,b" m0))) (TyVec TString);
   (bs "cmd", FSub true (MkSubDecl [(bs "Wall", VDStruct (struct [arg "side" m0 (TyOption TString)]))]))].
Lemma paint_valid : valid paint. Proof. split; vm_compute; reflexivity. Qed.

(** Defaults of all kinds: a variant, a displayed value, a literal, a text, none. *)
Definition shade_ty : value_ty tv := enum_ty [bs "dark"; bs "light"].
Definition lamp : args_decl tv := struct
  [arg "shade" (ignore_case (long (default_value_t (doc [bs "How it looks."] m0)))) (TyOther shade_ty);
   arg "bulb" (long (conflicts ["dim"] (default_expr (DVal (TEnum 1)) m0))) (TyOption (TyOther shade_ty));
   arg "dim" (long m0) TBool;
   arg "watts" (short (default_value_t m0)) TI;
   arg "level" (long (default_lit (DVal (TInt 7)) "7" m0)) TI;
   arg "room" (long (default_value "hall" m0)) TString;
   arg "name" (long m0) (TyOption TString)].
Lemma lamp_valid : valid lamp. Proof. split; vm_compute; reflexivity. Qed.

(** The fields of the command itself are renamed. *)
Definition second (ctx : list ident) (id : ident) : ident :=
  match ctx, id with
  | [], _ :: _ => id ++ bs "_2"
  | _, _ => id
  end.
