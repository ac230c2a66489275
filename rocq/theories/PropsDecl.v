(** C44: which declarations compile. *)
From Verif Require Import Bytes Utf8 Error Values Places Heck Decl Spec Derive Generated Observe Parts WellFormed Kit Samples.
From Verif Require Import WellFormedFacts.
Local Open Scope string_scope.
Local Open Scope list_scope.

(** C44: the macros accept a struct if and only if it obeys the rules, and so do
    all the structs in it. *)
Theorem C44_rules {V : Type} (d : args_decl V) : accepted d <-> well_formed d.
Proof. exact (accepted_well_formed d). Qed.
Print Assumptions C44_rules.

(** In particular a name belongs to at most one argument of an accepted struct. *)
Theorem C44_unambiguous {V : Type} (d : args_decl V) (a b : sarg V) (n : name) :
  accepted d -> In a (own_args d) -> In b (own_args d) -> has_name a n -> has_name b n -> a = b.
Proof. exact (own_name_unique d a b n). Qed.
Print Assumptions C44_unambiguous.

Example C44_example :
  accepted app_ /\ accepted copy /\
  (* Two options with the same name, two names of one option. *)
  ~ accepted (struct [arg "foo" (short (long m0)) TBool; arg "far" (short (long m0)) TBool]) /\
  ~ accepted (struct [arg "foo" (aliases [bs "foo"] [] (long m0)) TBool]) /\
  (* Bad names. *)
  ~ accepted (struct [arg "foo" (long_ "a=b" m0) TBool]) /\
  ~ accepted (struct [arg "foo" (long_ "-a" m0) TBool]) /\
  ~ accepted (struct [arg "foo" (long_ "" m0) TBool]) /\
  ~ accepted (struct [arg "foo" (short_b "-" m0) TBool]) /\
  (* A positional after a variadic one; two of them; a [last] one in between is fine. *)
  ~ accepted (struct [arg "foo" m0 (TyVec TString); arg "bar" m0 TString]) /\
  ~ accepted (struct [arg "foo" m0 (TyVec TString); arg "bar" m0 (TyVec TString)]) /\
  accepted (struct [arg "foo" (last_ m0) (TyVec TString); arg "bar" m0 TString; arg "baz" m0 (TyVec TString)]) /\
  ~ accepted (struct [arg "foo" (last_ m0) (TyVec TString); arg "bar" (last_ m0) (TyVec TString)]) /\
  ~ accepted (struct [arg "foo" (last_ m0) TString]) /\
  (* Flattened structs. *)
  ~ accepted (struct [(bs "foo", FFlatten (struct [arg "bar" m0 TString]))]) /\
  ~ accepted (struct [(bs "foo", FFlatten (struct [(bs "sub", FSub true (MkSubDecl []))]))]) /\
  ~ accepted (struct [arg "x" (exclusive (long m0)) TBool; (bs "foo", FFlatten (struct []))]) /\
  (* References, types, defaults. *)
  ~ accepted (struct [arg "foo" (long (requires ["bar"] m0)) TBool]) /\
  ~ accepted (struct [arg "foo" (long m0) (TyOption (TyOption TString))]) /\
  ~ accepted (struct [arg "foo" (long m0) (TyVec (TyVec TString))]) /\
  ~ accepted (struct [arg "foo" (required (long (default_value "1" m0))) TI]) /\
  ~ accepted (struct [arg "foo" (delimiter "," (long m0)) TString]).
Proof. split; [exact app_accepted|]. show. Qed.
