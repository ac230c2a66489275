(** The repository's own test-suite, replayed on the model: tests/parse.rs,
    tests/smoke.rs, tests/help.rs, tests/value_enum.rs.  These are checks of the
    model's fidelity, not of any property. *)
From Verif Require Import Bytes Utf8 Attrs Refl Error Values Places Help Runtime Heck Decl Derive
  Generated Kit.
Local Open Scope string_scope.
Local Open Scope list_scope.

Local Notation "d |= l ==> o" := (parse_ok d (argv l) = Some o) (at level 70, l at level 69).
Local Notation "d |= l =!> m" := (parse_msg d (argv l) = Some (bs m)) (at level 70, l at level 69).
Local Ltac t := vm_compute; reflexivity.

Definition Sub : sub_decl tv := MkSubDecl [(bs "Sub", VDUnit no_attrs)].
Definition out0 (l : list (ident * fval tv)) : outval tv := Out l [] None.

(** parse.rs:argv0 *)
Example t_argv0 : parse_msg (struct []) [] = Some (bs "missing executable argument (argv[0])").
Proof. t. Qed.

(** parse.rs:short *)
Definition Short := struct
  [arg "verbose" (short m0) TBool; arg "debug" (short m0) TBool;
   arg "file" (short m0) (TyOption TString);
   arg "me" (short_ 25105 m0) TBool;
   arg "long_me" (long_ "我" m0) TBool].
Definition short_out v d f me lme := out0 [fB "verbose" v; fB "debug" d; fO "file" f; fB "me" me; fB "long_me" lme].
Example t_short0 : accepts Short = true. Proof. t. Qed.
Example t_short1 : Short |= [""; "-dv我f-"] ==> short_out true true (Some "-") true false. Proof. t. Qed.
Example t_short2 : Short |= [""; "-f=-"; "-v"] ==> short_out true false (Some "-") false false. Proof. t. Qed.
Example t_short3 : Short |= [""; "-d"; "-f"; "-"; "-v"; "--我"] ==> short_out true true (Some "-") false true.
Proof. t. Qed.

(** parse.rs:flag *)
Definition Flag := struct [arg "verbose" (short (long m0)) TBool].
Example t_flag1 : Flag |= [""; "--verbose"] ==> out0 [fB "verbose" true]. Proof. t. Qed.
Example t_flag2 : Flag |= [""; "-v"] ==> out0 [fB "verbose" true]. Proof. t. Qed.
Example t_flag3 : Flag |= [""; "-vv"] =!> "the argument '-v, --verbose' cannot be used multiple times". Proof. t. Qed.
Example t_flag4 : Flag |= [""; "--verbose"; "-v"] =!> "the argument '-v, --verbose' cannot be used multiple times". Proof. t. Qed.
Example t_flag5 : Flag |= [""; "--verbose=9"] =!> "unexpected value ""9"" for '-v, --verbose'". Proof. t. Qed.
Example t_flag6 : Flag |= [""; "-vd"] =!> "unexpected argument ""-d""". Proof. t. Qed.
Example t_flag7 : Flag |= [""; "-v="] =!> "unexpected value """" for '-v, --verbose'". Proof. t. Qed.

(** parse.rs:require_equals *)
Definition ReqEq := struct
  [arg "file" (require_equals (long (short m0))) (TyOption TString); arg "verbose" (short m0) TBool].
Definition re_out f v := out0 [fO "file" f; fB "verbose" v].
Definition re_msg := "equal sign is needed when assigning values for '-f, --file=<FILE>'".
Example t_re1 : ReqEq |= [""; "--file"; "-"] =!> re_msg. Proof. t. Qed.
Example t_re2 : ReqEq |= [""; "-f"; "-"] =!> re_msg. Proof. t. Qed.
Example t_re3 : ReqEq |= [""; "-vf"; "-"] =!> re_msg. Proof. t. Qed.
Example t_re4 : ReqEq |= [""; "-fv"] =!> re_msg. Proof. t. Qed.
Example t_re5 : ReqEq |= [""; "-f="] ==> re_out (Some "") false. Proof. t. Qed.
Example t_re6 : ReqEq |= [""; "-f=v"] ==> re_out (Some "v") false. Proof. t. Qed.
Example t_re7 : ReqEq |= [""; "-vf=v"] ==> re_out (Some "v") true. Proof. t. Qed.
Example t_re8 : ReqEq |= [""; "--file="] ==> re_out (Some "") false. Proof. t. Qed.
Example t_re9 : ReqEq |= [""; "--file=v"] ==> re_out (Some "v") false. Proof. t. Qed.

(** parse.rs:required *)
Definition Req := struct
  [arg "key" (long m0) TString; arg "file" m0 TString; (bs "sub", FSub false Sub)].
Example t_rq1 : Req |= [""; "path"] =!> "the argument '--key <KEY>' is required but not provided". Proof. t. Qed.
Example t_rq2 : Req |= [""; "--key"; "value"] =!> "the argument '<FILE>' is required but not provided". Proof. t. Qed.
Example t_rq3 : Req |= [""; "--key"; "value"; "path"] =!> "the subcommand is required but not provided". Proof. t. Qed.
Example t_rq4 : Req |= [""; "path"; "sub"] =!> "the argument '--key <KEY>' is required but not provided". Proof. t. Qed.
Example t_rq5 : Req |= [""; "--key"; "value"; "sub"] =!> "the argument '<FILE>' is required but not provided". Proof. t. Qed.
Example t_rq6 : Req |= [""; "--key"; "value"; "--key=value"] =!> "the argument '--key <KEY>' cannot be used multiple times". Proof. t. Qed.
Definition rq_out := Out [fS "key" "value"; fS "file" "path"] [] (Some (bs "sub", Some (SubV (bs "Sub") None))).
Example t_rq7 : Req |= [""; "path"; "--key"; "value"; "sub"] ==> rq_out. Proof. t. Qed.
Example t_rq8 : Req |= [""; "--key"; "value"; "path"; "sub"] ==> rq_out. Proof. t. Qed.

(** parse.rs:optional *)
Definition Opt := struct
  [arg "flag" (long m0) TBool; arg "key" (long m0) (TyOption TString);
   arg "file" m0 (TyOption TString); (bs "sub", FSub true Sub)].
Definition opt_out f k p (s : bool) :=
  Out [fB "flag" f; fO "key" k; fO "file" p] []
      (Some (bs "sub", if s then Some (SubV (V:=tv) (bs "Sub") None) else None)).
Example t_opt1 : Opt |= [""] ==> opt_out false None None false. Proof. t. Qed.
Example t_opt2 : Opt |= [""; "--flag"] ==> opt_out true None None false. Proof. t. Qed.
Example t_opt3 : Opt |= [""; "--key"; "value"] ==> opt_out false (Some "value") None false. Proof. t. Qed.
Example t_opt4 : Opt |= [""; "path"] ==> opt_out false None (Some "path") false. Proof. t. Qed.
Example t_opt5 : Opt |= [""; "sub"] ==> opt_out false None None true. Proof. t. Qed.
Example t_opt6 : Opt |= [""; "--key"; "sub"; "path"] ==> opt_out false (Some "sub") (Some "path") false. Proof. t. Qed.
Example t_opt7 : Opt |= [""; "path"; "sub"] ==> opt_out false None (Some "path") true. Proof. t. Qed.
Example t_opt8 : Opt |= [""; "--flag"; "--key"; "value"; "path"; "sub"] ==> opt_out true (Some "value") (Some "path") true. Proof. t. Qed.
Example t_opt9 : Opt |= [""; "--key"; "value"; "--key=value"] =!> "the argument '--key <KEY>' cannot be used multiple times". Proof. t. Qed.
Example t_opt10 : Opt |= [""; "--flag"; "--flag"] =!> "the argument '--flag' cannot be used multiple times". Proof. t. Qed.

(** parse.rs:option_option *)
Definition OptOpt := struct
  [arg "foo" (long m0) (TyOption TString);
   arg "bar" (require_equals (long m0)) (TyOption (TyOption TString))].
Definition oo_out f (b : option (option string)) :=
  out0 [fO "foo" f; (bs "bar", FvOptionOption (option_map (option_map (fun s => TStr (bs s))) b))].
Example t_oo0 : accepts OptOpt = true. Proof. t. Qed.
Example t_oo1 : OptOpt |= [""] ==> oo_out None None. Proof. t. Qed.
Example t_oo2 : OptOpt |= [""; "--foo="; "--bar="] ==> oo_out (Some "") (Some (Some "")). Proof. t. Qed.
Example t_oo3 : OptOpt |= [""; "--foo=a"; "--bar=b"] ==> oo_out (Some "a") (Some (Some "b")). Proof. t. Qed.
Example t_oo4 : OptOpt |= [""; "--foo"] =!> "a value is required for '--foo <FOO>' but none was supplied". Proof. t. Qed.
Example t_oo5 : OptOpt |= [""; "--bar"] ==> oo_out None (Some None). Proof. t. Qed.
Example t_oo6 : OptOpt |= [""; "--bar"; "value"] =!> "unexpected argument ""value""". Proof. t. Qed.

(** parse.rs:default_values *)
Definition Dflt := struct
  [arg "opt" (default_value_t (short_b "O"%byte m0)) TI;
   arg "debug" (default_value "none" (conflicts ["opt"] (long m0))) TString].
Example t_df0 : accepts Dflt = true. Proof. t. Qed.
Example t_df1 : Dflt |= [""] ==> out0 [fI "opt" 0; fS "debug" "none"]. Proof. t. Qed.
Example t_df2 : Dflt |= [""; "-O2"] ==> out0 [fI "opt" 2; fS "debug" "none"]. Proof. t. Qed.
Example t_df3 : Dflt |= [""; "--debug=full"] ==> out0 [fI "opt" 0; fS "debug" "full"]. Proof. t. Qed.
Example t_df4 : Dflt |= [""; "-O2"; "--debug="] =!> "the argument '--debug <DEBUG>' cannot be used with some other arguments". Proof. t. Qed.

(** parse.rs:flatten *)
Definition FConfig := struct
  [arg "config" (long m0) (TyOption TString); arg "config_file" (long m0) (TyOption TString);
   arg "force" (required (short m0)) TBool].
Definition Flat := struct
  [arg "verbose" (long m0) TBool; (bs "config", FFlatten FConfig); arg "debug" (long m0) TBool].
Definition flat_out d v c cf f :=
  Out [fB "verbose" v; fB "debug" d]
      [(bs "config", out0 [fO "config" c; fO "config_file" cf; fB "force" f])] None.
Example t_fl0 : accepts Flat = true. Proof. t. Qed.
Example t_fl1 : Flat |= [""; "--debug"; "--verbose"; "--config"; "a=b"; "-f"] ==> flat_out true true (Some "a=b") None true. Proof. t. Qed.
Example t_fl2 : Flat |= [""; "--config-file"; "path"; "--debug"; "--verbose"; "-f"] ==> flat_out true true None (Some "path") true. Proof. t. Qed.
Example t_fl3 : Flat |= [""; "--config"] =!> "a value is required for '--config <CONFIG>' but none was supplied". Proof. t. Qed.
Example t_fl4 : Flat |= [""; "--config"; "foo"] =!> "the argument '-f' is required but not provided". Proof. t. Qed.

(** parse.rs:unknown_args *)
Definition Unk := struct [arg "verbose" (short (long m0)) TBool; arg "file" m0 TString].
Definition UnkSub := struct [arg "verbose" (long m0) TBool; arg "file" m0 TString; (bs "sub", FSub false Sub)].
Example t_un1 : Unk |= [""; "--debug"] =!> "unexpected argument ""--debug""". Proof. t. Qed.
Example t_un2 : Unk |= [""; "-d"] =!> "unexpected argument ""-d""". Proof. t. Qed.
Example t_un3 : Unk |= [""; "-vd"] =!> "unexpected argument ""-d""". Proof. t. Qed.
Example t_un4 : Unk |= [""; "-v坏"] =!> "unexpected argument ""-坏""". Proof. t. Qed.
Example t_un5 : Unk |= [""; "path1"; "path2"] =!> "unexpected argument ""path2""". Proof. t. Qed.
Example t_un6 : UnkSub |= [""; "path1"; "path2"] =!> "unrecognized subcommand ""path2""". Proof. t. Qed.
Example t_un7 : UnkSub |= [""; "sub"; "path"] =!> "unexpected argument ""path""". Proof. t. Qed.

(** parse.rs:parse_non_utf8 *)
Definition NonUtf8 := struct
  [arg "config" (short (long m0)) (TyOption TPath); arg "file" m0 (TyOption TPath); arg "verbose" (short m0) TBool].
Definition nu_out (c f : option bytes) v :=
  out0 [(bs "config", FvOption (option_map TStr c)); fB "verbose" v; (bs "file", FvOption (option_map TStr f))].
Definition xs : bytes := [xff].
Example t_nu1 : parse_ok NonUtf8 [[]; xs] = Some (nu_out None (Some xs) false). Proof. t. Qed.
Example t_nu2 : parse_ok NonUtf8 [[]; bs "--config"; xs] = Some (nu_out (Some xs) None false). Proof. t. Qed.
Example t_nu3 : parse_ok NonUtf8 [[]; bs "--config=" ++ xs] = Some (nu_out (Some xs) None false). Proof. t. Qed.
Example t_nu4 : parse_ok NonUtf8 [[]; bs "-c" ++ xs] = Some (nu_out (Some xs) None false). Proof. t. Qed.
Example t_nu5 : parse_ok NonUtf8 [[]; bs "-c=" ++ xs] = Some (nu_out (Some xs) None false). Proof. t. Qed.
Example t_nu6 : parse_ok NonUtf8 [[]; bs "-vc" ++ xs] = Some (nu_out (Some xs) None true). Proof. t. Qed.
Example t_nu7 : parse_ok NonUtf8 [[]; bs "-vc=" ++ xs] = Some (nu_out (Some xs) None true). Proof. t. Qed.

(** parse.rs:help_non_utf8, help_control_char *)
Definition Inp t := struct [arg "input" (long m0) t].
Example t_hn1 : parse_msg (Inp TString) [[]; bs "--input"; bs "a" ++ xs] =
  Some (bs "invalid value ""a\xFF"" for '--input <INPUT>': invalid utf-8 sequence of 1 bytes from index 1").
Proof. t. Qed.
Example t_hc1 : parse_msg (Inp TI) [[]; bs "--input"; [x1b] ++ bs "[31mcolorful" ++ [x1b] ++ bs "[m"] =
  Some (bs "invalid value ""\u{1b}[31mcolorful\u{1b}[m"" for '--input <INPUT>': invalid digit found in string").
Proof. t. Qed.

(** parse.rs:global *)
Definition Glob := struct
  [arg "verbose" (short m0) TBool;
   arg "debug" (global (short (long m0))) (TyOption TI);
   (bs "sub", FSub false (MkSubDecl
      [(bs "Empty", VDUnit no_attrs);
       (bs "Deep", VDStruct (struct [arg "verbose" (short m0) TBool]))]))].
Definition gl_out v (d : option Z) (s : option bool) :=
  Out [fB "verbose" v; (bs "debug", FvOption (option_map TInt d))] []
    (Some (bs "sub", Some (match s with
                           | None => SubV (bs "Empty") None
                           | Some v => SubV (bs "Deep") (Some (out0 [fB "verbose" v]))
                           end))).
Example t_gl1 : Glob |= [""; "empty"] ==> gl_out false None None. Proof. t. Qed.
Example t_gl2 : Glob |= [""; "-v"; "empty"] ==> gl_out true None None. Proof. t. Qed.
Example t_gl3 : Glob |= [""; "empty"; "-v"] =!> "unexpected argument ""-v""". Proof. t. Qed.
Example t_gl4 : Glob |= [""; "-v"; "deep"] ==> gl_out true None (Some false). Proof. t. Qed.
Example t_gl5 : Glob |= [""; "deep"; "-v"] ==> gl_out false None (Some true). Proof. t. Qed.
Example t_gl6 : Glob |= [""; "-v"; "deep"; "-v"] ==> gl_out true None (Some true). Proof. t. Qed.
Example t_gl7 : Glob |= [""; "-d2"; "empty"] ==> gl_out false (Some 2%Z) None. Proof. t. Qed.
Example t_gl8 : Glob |= [""; "-d"; "2"; "empty"] ==> gl_out false (Some 2%Z) None. Proof. t. Qed.
Example t_gl9 : Glob |= [""; "-d2"; "deep"] ==> gl_out false (Some 2%Z) (Some false). Proof. t. Qed.
Example t_gl10 : Glob |= [""; "-d"; "2"; "deep"] ==> gl_out false (Some 2%Z) (Some false). Proof. t. Qed.
Example t_gl11 : Glob |= [""; "-d2"; "deep"; "-d0"] =!> "the argument '-d, --debug <DEBUG>' cannot be used multiple times". Proof. t. Qed.
Example t_gl12 : Glob |= [""; "deep"; "-d2"] ==> gl_out false (Some 2%Z) (Some false). Proof. t. Qed.

(** parse.rs:hyphen_named *)
Definition Hyph := struct
  [arg "no" (long m0) (TyOption TString); arg "yes" (allow_hyphen (long m0)) (TyOption TString);
   arg "number" (allow_negative (long m0)) (TyOption TI);
   arg "one" (short_b "1"%byte m0) TBool; arg "flag" (short m0) TBool].
Definition hy_out n y (k : option Z) :=
  out0 [fO "no" n; fO "yes" y; (bs "number", FvOption (option_map TInt k)); fB "one" false; fB "flag" false].
Example t_hy1 : Hyph |= [""; "--no"; "-1"] =!> "a value is required for '--no <NO>' but none was supplied". Proof. t. Qed.
Example t_hy2 : Hyph |= [""; "--no"; "-f"] =!> "a value is required for '--no <NO>' but none was supplied". Proof. t. Qed.
Example t_hy3 : Hyph |= [""; "--number"; "-f"] =!> "a value is required for '--number <NUMBER>' but none was supplied". Proof. t. Qed.
Example t_hy4 : Hyph |= [""; "--number"; "-1"] ==> hy_out None None (Some (-1)%Z). Proof. t. Qed.
Example t_hy5 : Hyph |= [""; "--yes"; "-1"] ==> hy_out None (Some "-1") None. Proof. t. Qed.
Example t_hy6 : Hyph |= [""; "--yes"; "-f"] ==> hy_out None (Some "-f") None. Proof. t. Qed.

(** parse.rs:trailing_args *)
Definition TrNo := struct
  [arg "debug" (default_value_t (short m0)) TI; arg "any" (trailing m0) (TyVec TString)].
Definition TrYes := struct
  [arg "debug" (default_value_t (allow_hyphen (short m0))) TI; arg "any" (trailing m0) (TyVec TString)].
Example t_tr1 : TrNo |= [""; "-d"; "1"; "a"; "-d"; "-1"] ==> out0 [fI "debug" 1; fV "any" ["a"; "-d"; "-1"]]. Proof. t. Qed.
Example t_tr2 : TrNo |= [""; "-d"; "-1"] =!> "a value is required for '-d <DEBUG>' but none was supplied". Proof. t. Qed.
Example t_tr3 : TrNo |= [""; "-x"] =!> "unexpected argument ""-x""". Proof. t. Qed.
Example t_tr4 : TrYes |= [""; "-d"; "-1"] ==> out0 [fI "debug" (-1); fV "any" []]. Proof. t. Qed.

(** parse.rs:value_delimiter *)
Definition Delim := struct [arg "features" (delimiter ","%byte (short_b "F"%byte (long m0))) (TyVec TString)].
Example t_de1 : Delim |= [""; "--features"; "a,b"; "-F"; "c"; "-F=d,e"; "-Ff"; "--features="]
  ==> out0 [fV "features" ["a"; "b"; "c"; "d"; "e"; "f"; ""]]. Proof. t. Qed.

(** parse.rs:constraint_required *)
Definition CReq := struct
  [arg "key" (required (long m0)) (TyVec TString); arg "files" (required m0) (TyVec TString);
   arg "force" (required (short m0)) TBool; arg "level" (required (short m0)) (TyOption TI)].
Example t_cr1 : CReq |= [""] =!> "the argument '--key <KEY>' is required but not provided". Proof. t. Qed.
Example t_cr2 : CReq |= [""; "--key=foo"; "-f"; "-l2"] =!> "the argument '<FILES>...' is required but not provided". Proof. t. Qed.
Example t_cr3 : CReq |= [""; "--key=foo"; "path"; "-l2"] =!> "the argument '-f' is required but not provided". Proof. t. Qed.
Example t_cr4 : CReq |= [""; "--key=foo"; "path"; "-f"] =!> "the argument '-l <LEVEL>' is required but not provided". Proof. t. Qed.
Example t_cr5 : CReq |= [""; "--key=foo"; "path"; "-fl2"] ==>
  out0 [fV "key" ["foo"]; fB "force" true; (bs "level", FvOption (Some (TInt 2))); fV "files" ["path"]]. Proof. t. Qed.

(** parse.rs:constraint_exclusive *)
Definition CExc := struct
  [arg "start" (exclusive (long m0)) (TyOption TString); arg "stop" (exclusive (long m0)) TBool;
   arg "key" (long m0) (TyOption TString);
   (bs "cmd", FSub true (MkSubDecl [(bs "Foo", VDUnit no_attrs)]))].
Definition ce_out a b k (s : bool) :=
  Out [fO "start" a; fB "stop" b; fO "key" k] []
    (Some (bs "cmd", if s then Some (SubV (V:=tv) (bs "Foo") None) else None)).
Definition ce_start := "the argument '--start <START>' cannot be used with one or more of the other specified arguments".
Definition ce_stop := "the argument '--stop' cannot be used with one or more of the other specified arguments".
Example t_ce1 : CExc |= [""; "--start=foo"; "--key=value"] =!> ce_start. Proof. t. Qed.
Example t_ce2 : CExc |= [""; "--start=foo"; "--stop"; "--key=value"] =!> ce_start. Proof. t. Qed.
Example t_ce3 : CExc |= [""; "--stop"; "--key=value"] =!> ce_stop. Proof. t. Qed.
Example t_ce4 : CExc |= [""; "--stop"; "foo"] =!> ce_stop. Proof. t. Qed.
Example t_ce5 : CExc |= [""] ==> ce_out None false None false. Proof. t. Qed.
Example t_ce6 : CExc |= [""; "--key=value"; "foo"] ==> ce_out None false (Some "value") true. Proof. t. Qed.
Example t_ce7 : CExc |= [""; "--start=foo"] ==> ce_out (Some "foo") false None false. Proof. t. Qed.
Example t_ce8 : CExc |= [""; "--stop"] ==> ce_out None true None false. Proof. t. Qed.

(** parse.rs:constraint_require *)
Definition CRqs := struct
  [arg "from" (long m0) (TyOption TString); arg "to" (requires ["from"] (long m0)) (TyOption TString);
   arg "direct" (requires ["from"; "to"] (long m0)) TBool].
Definition cq_from := "the argument '--from <FROM>' is required because some dependency arguments are provided".
Definition cq_to := "the argument '--to <TO>' is required because some dependency arguments are provided".
Definition cq_out a b c := out0 [fO "from" a; fO "to" b; fB "direct" c].
Example t_cq1 : CRqs |= [""; "--direct"] =!> cq_from. Proof. t. Qed.
Example t_cq2 : CRqs |= [""; "--to=out"] =!> cq_from. Proof. t. Qed.
Example t_cq3 : CRqs |= [""; "--direct"; "--from=in"] =!> cq_to. Proof. t. Qed.
Example t_cq4 : CRqs |= [""] ==> cq_out None None false. Proof. t. Qed.
Example t_cq5 : CRqs |= [""; "--from=in"] ==> cq_out (Some "in") None false. Proof. t. Qed.
Example t_cq6 : CRqs |= [""; "--from=in"; "--to=out"] ==> cq_out (Some "in") (Some "out") false. Proof. t. Qed.
Example t_cq7 : CRqs |= [""; "--to=out"; "--direct"; "--from=in"] ==> cq_out (Some "in") (Some "out") true. Proof. t. Qed.

(** parse.rs:constraint_conflict *)
Definition CCfl := struct
  [arg "config" (long m0) (TyOption TString);
   arg "config_file" (conflicts ["config"] (long m0)) (TyOption TString);
   arg "no_config" (conflicts ["config"; "config_file"] (long m0)) TBool].
Definition cc_cf := "the argument '--config-file <CONFIG_FILE>' cannot be used with some other arguments".
Definition cc_no := "the argument '--no-config' cannot be used with some other arguments".
Definition cc_out a b c := out0 [fO "config" a; fO "config_file" b; fB "no_config" c].
Example t_cc1 : CCfl |= [""; "--config=foo"; "--config-file=path"] =!> cc_cf. Proof. t. Qed.
Example t_cc2 : CCfl |= [""; "--no-config"; "--config=foo"] =!> cc_no. Proof. t. Qed.
Example t_cc3 : CCfl |= [""; "--config-file=path"; "--no-config"] =!> cc_no. Proof. t. Qed.
Example t_cc4 : CCfl |= [""] ==> cc_out None None false. Proof. t. Qed.
Example t_cc5 : CCfl |= [""; "--config=foo"] ==> cc_out (Some "foo") None false. Proof. t. Qed.
Example t_cc6 : CCfl |= [""; "--config-file=path"] ==> cc_out None (Some "path") false. Proof. t. Qed.
Example t_cc7 : CCfl |= [""; "--no-config"] ==> cc_out None None true. Proof. t. Qed.

(** parse.rs:empty_subcommand *)
Definition ESub := struct [(bs "cmd", FSub true (MkSubDecl (V:=tv) []))].
Example t_es1 : ESub |= [""] ==> Out [] [] (Some (bs "cmd", None)). Proof. t. Qed.
Example t_es2 : ESub |= [""; ""] =!> "unrecognized subcommand """"". Proof. t. Qed.

(** parse.rs:value_enum *)
Definition color_ty : value_ty tv := enum_ty (map kebab_case [bs "Auto"; bs "Always"; bs "Never"]).
Definition VE := struct [arg "color" (default_value_t (long m0)) (TyOther color_ty)].
Definition ve_out n := out0 [(bs "color", FvVal (TEnum n))].
Example t_ve0 : accepts VE = true. Proof. t. Qed.
Example t_ve1 : VE |= [""] ==> ve_out 0. Proof. t. Qed.
Example t_ve2 : VE |= [""; "--color=always"] ==> ve_out 1. Proof. t. Qed.
Example t_ve3 : VE |= [""; "--color"; "never"] ==> ve_out 2. Proof. t. Qed.
Example t_ve4 : VE |= [""; "--color"] =!> "a value is required for '--color <COLOR>' but none was supplied". Proof. t. Qed.
Example t_ve5 : VE |= [""; "--color=always"; "--color=always"] =!> "the argument '--color <COLOR>' cannot be used multiple times". Proof. t. Qed.
Example t_ve6 : parse_msg VE (argv [""; "--color=all"]) =
  Some (bs "invalid value ""all"" for '--color <COLOR>'" ++ [c_nl] ++ bs "  [possible values: always, auto, never]").
Proof. t. Qed.

(** smoke.rs *)
Definition SConfig := MkArgsDecl (doc_attrs [bs " Configure something."])
  [arg "config_file" (long m0) (TyOption TPath); arg "config" (long m0) (TyOption TString)].
Definition Smoke := MkArgsDecl (doc_attrs [bs " My great App."])
  [arg "name" m0 (TyOption TString); (bs "config", FFlatten SConfig);
   arg "debug" (global (short_b "v"%byte m0)) TBool;
   arg "color" (require_equals (long m0)) (TyOther color_ty);
   (bs "command", FSub true (MkSubDecl
     [(bs "Test", VDStruct (MkArgsDecl (doc_attrs [bs " Do something complex"])
         [arg "list" (short (long m0)) TBool; arg "files" m0 (TyOption (TyVec TPath))]));
      (bs "Transparent", VDNewtype no_attrs SConfig);
      (bs "Unit", VDUnit (doc_attrs [bs " Do something simple"]))]))].
Example t_sm0 : accepts Smoke = true. Proof. t. Qed.
Example t_sm1 : Smoke |= ["foo"; "--color=always"; "--config"; "foo"; "bar"; "test"; "-l"; "-v"; "hello"; "world"]
  ==> Out [fB "debug" true; (bs "color", FvVal (TEnum 1)); fO "name" (Some "bar")]
          [(bs "config", out0 [fO "config_file" None; fO "config" (Some "foo")])]
          (Some (bs "command", Some (SubV (bs "Test") (Some (out0 [fB "list" true;
             (bs "files", FvOptionVec (Some [TStr (bs "hello"); TStr (bs "world")]))]))))).
Proof. t. Qed.
Example t_sm2 : match render_long_help Smoke (bs "me") with
                | Ok h => starts_with (bs "My great App." ++ [c_nl; c_nl] ++ bs "Usage: me --color=<COLOR> [OPTIONS]") h
                | _ => false end = true.
Proof. t. Qed.

(** help.rs *)
Definition HConfig := MkArgsDecl
  (mkCmdAttrs [bs " Configure something."; bs ""; bs " Some detailed explanation."] true None
     (Some (bs "this command provides absolutely no warranty!")))
  [arg "key" (value_name (bs "VALUE") (short (long m0))) TString;
   arg "debug" (doc [bs " Enable debug."] (long m0)) TBool;
   arg "force" (doc [bs " Force to do it."] (short m0)) TBool].
Definition HFlat := struct [arg "config_file" (doc [bs " The main config file path."] (long m0)) TPath].
Definition HCmds := MkSubDecl
  [(bs "Run", VDStruct (MkArgsDecl (doc_attrs [bs " Run the app."])
      [arg "args" (doc [bs " Passthru arguments."] (last_ m0)) (TyVec TString)]));
   (bs "Test", VDStruct (MkArgsDecl (doc_attrs [bs " Run some tests."])
      [arg "filters" (doc [bs " Filter patterns."] m0) (TyVec TString);
       arg "feature" (long m0) (TyVec TString)]));
   (bs "Config", VDNewtype no_attrs HConfig)].
Definition HCli := MkArgsDecl (doc_attrs [bs " My great app."])
  [arg "verbose" (doc [bs " Log more details."] (short_b "v"%byte m0)) TBool;
   arg "color" (default_value_t (long m0)) (TyOther color_ty);
   (bs "flatten", FFlatten HFlat); (bs "command", FSub false HCmds)].
Example t_he0 : accepts HCli = true. Proof. t. Qed.
Example t_he1 : parse_help HCli (argv ["me"; "--help"]) = Some (lines
 ["My great app."; ""; "Usage: me --config-file <CONFIG_FILE> [OPTIONS] <COMMAND>"; "";
  "Commands:"; "    run     Run the app."; "    test    Run some tests."; "    config  Configure something."; "";
  "Options:"; "  -v"; "          Log more details."; ""; "      --color <COLOR>"; "          [default: auto]"; "";
  "      --config-file <CONFIG_FILE>"; "          The main config file path."; ""]).
Proof. t. Qed.
Example t_he2 : parse_help HCli (argv ["me"; "config"; "--help"]) = Some (lines
 ["Configure something."; "Some detailed explanation."; ""; "Usage: me config --key <VALUE> [OPTIONS]"; "";
  "Options:"; "  -k, --key <VALUE>"; ""; "      --debug"; "          Enable debug."; ""; "  -f"; "          Force to do it."; ""]
  ++ bs "this command provides absolutely no warranty!").
Proof. t. Qed.
Example t_he3 : parse_help HCli (argv ["me"; "run"; "--help"]) = Some (lines
 ["Run the app."; ""; "Usage: me run [-- [ARGS]...]"; ""; "Arguments:"; "  [ARGS]..."; "          Passthru arguments."; ""]).
Proof. t. Qed.
Example t_he4 : parse_help HCli (argv ["me"; "test"; "--help"]) = Some (lines
 ["Run some tests."; ""; "Usage: me test [OPTIONS] [FILTERS]..."; ""; "Arguments:"; "  [FILTERS]..."; "          Filter patterns."; "";
  "Options:"; "      --feature <FEATURE>"; ""]).
Proof. t. Qed.
Definition HDef := struct
  [arg "default_str" (default_value "invalid" (long m0)) TI;
   arg "default_trait" (default_value_t (long m0)) TI;
   arg "default_expr" (doc [bs " Preferred!"] (default_lit (DVal (TInt 42)) "42" (long m0))) TI;
   arg "infer" (default_expr (DVal (TStr (bs "foo"))) (long m0)) TString;
   arg "positional" (default_value "static" m0) (TyOption TString)].
Example t_hd0 : accepts HDef = true. Proof. t. Qed.
Example t_hd1 : parse_help HDef (argv ["me"; "--help"]) = Some (lines
 ["Usage: me [OPTIONS]"; ""; "Arguments:"; "  [POSITIONAL]"; "          [default: static]"; "";
  "Options:"; "      --default-str <DEFAULT_STR>"; "          [default: invalid]"; "";
  "      --default-trait <DEFAULT_TRAIT>"; "          [default: 0]"; "";
  "      --default-expr <DEFAULT_EXPR>"; "          Preferred!"; "          [default: 42]"; "";
  "      --infer <INFER>"; "          [default: foo]"; ""]).
Proof. t. Qed.

(** value_enum.rs *)
Example t_vn1 : ve_parse (enum_vs []) [] = None. Proof. t. Qed.
Example t_vn2 : ve_parse (enum_vs [kebab_case (bs "SingleVariant")]) (bs "single-variant") = Some 0. Proof. t. Qed.
Example t_vn3 : ve_parse (enum_vs [kebab_case (bs "SingleVariant")]) (bs "Single-variant") = None. Proof. t. Qed.
Definition override_vs := enum_vs [bs ""; lower_camel_case (bs "DefaultVariant"); bs "the value"].
Example t_vn4 : map (ve_parse override_vs) [bs ""; bs "defaultVariant"; bs "the value"] = [Some 0; Some 1; Some 2]. Proof. t. Qed.
Example t_vn5 : map (fun '(r, i) => option_map (fun r => do_rename r (bs i)) (parse_rename (bs r)))
  [("camelCase", "RenameCamel"); ("PascalCase", "RenamePascal"); ("SCREAMING_SNAKE_CASE", "RenameScream");
   ("snake_case", "RenameSnake"); ("lower", "RenameLower"); ("UPPER", "RenameUpper"); ("verbatim", "RenameXMLHttp_Request")]
  = map (fun s => Some (bs s)) ["renameCamel"; "RenamePascal"; "RENAME_SCREAM"; "rename_snake"; "renamelower"; "RENAMEUPPER"; "RenameXMLHttp_Request"].
Proof. t. Qed.
Definition IC := struct [arg "key" (ignore_case (long m0)) (TyOther (enum_ty [kebab_case (bs "HelloWorld")]))].
Example t_ic0 : accepts IC = true. Proof. t. Qed.
Example t_ic1 : IC |= [""; "--key"; "hElLo-WoRlD"] ==> out0 [(bs "key", FvVal (TEnum 0))]. Proof. t. Qed.
