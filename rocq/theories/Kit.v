(** Concrete value types and declaration builders, for examples and tests only.
    Nothing here is used in the statement of a theorem. *)
From Verif Require Import Bytes Utf8 Attrs Refl Error Values Places Help Runtime Heck Decl Derive Generated.

Inductive tv := TStr (b : bytes) | TInt (z : Z) | TEnum (n : nat).

(** [String] and [PathBuf]: [String] has [FromStr] only ([TryFrom<&OsStr>] is
    implemented for neither by std, but [PathBuf]/[OsString] have
    [From<&OsStr>]). *)
Definition string_ty : value_ty tv :=
  mkValueTy None None (Some (fun b => inl (TStr b))) (Some (TStr []))
    (Some (fun v => match v with TStr b => b | _ => [] end)) (fun _ => 0).
Definition path_ty : value_ty tv :=
  mkValueTy None (Some (fun b => inl (TStr b))) None (Some (TStr [])) None (fun _ => 0).

Fixpoint digits (b : bytes) (acc : Z) : option Z :=
  match b with
  | [] => Some acc
  | x :: b' => if is_ascii_digit x then digits b' (acc * 10 + (Z.of_N (b2n x) - 48))%Z else None
  end.
Definition parse_int (b : bytes) : tv + bytes :=
  let bad := inr (bs "invalid digit found in string") in
  match b with
  | [] => inr (bs "cannot parse integer from empty string")
  | x :: b' =>
      if Byte.eqb x "-"%byte then
        match b' with
        | [] => bad
        | _ => match digits b' 0%Z with Some z => inl (TInt (- z)%Z) | None => bad end
        end
      else match digits b 0%Z with Some z => inl (TInt z) | None => bad end
  end.
Definition show_int (z : Z) : bytes :=
  match z with
  | Z0 => bs "0"
  | Zpos p => nat_digits (Pos.to_nat p)
  | Zneg p => bs "-" ++ nat_digits (Pos.to_nat p)
  end.
Definition int_ty : value_ty tv :=
  mkValueTy None None (Some parse_int) (Some (TInt 0))
    (Some (fun v => match v with TInt z => show_int z | _ => [] end)) (fun _ => 0).

Definition bool_ty : value_ty tv :=
  mkValueTy None None
    (Some (fun b => if beqb b (bs "true") then inl (TInt 1)
                    else if beqb b (bs "false") then inl (TInt 0)
                    else inr (bs "provided string was not `true` or `false`")))
    (Some (TInt 0)) (Some (fun v => if match v with TInt 1 => true | _ => false end then bs "true" else bs "false"))
    (fun _ => 0).

(** [derive(ValueEnum)] on names; the default is variant 0. *)
Definition enum_vs (names : list bytes) : list ve_variant :=
  match ve_expand names with inl vs => vs | inr _ => [] end.
Definition enum_ty (names : list bytes) : value_ty tv :=
  mkValueTy (Some (names, TEnum)) None None (Some (TEnum 0)) None
    (fun v => match v with TEnum n => n | _ => 0 end).

(** An [ArgMeta] with nothing set, and setters. *)
Definition m0 : arg_meta tv :=
  mkArgMeta [] None None [] [] None false false false false false false false None None None
    false false false [] [].

Definition upd_long (x : option (override bytes)) (m : arg_meta tv) :=
  mkArgMeta (am_doc m) x (am_short m) (am_alias m) (am_short_alias m) (am_value_name m)
    (am_require_equals m) (am_global m) (am_allow_hyphen_values m) (am_allow_negative_numbers m)
    (am_ignore_case m) (am_trailing_var_arg m) (am_last m) (am_default_value m)
    (am_default_value_t m) (am_value_delimiter m) (am_hide m) (am_required m) (am_exclusive m)
    (am_requires m) (am_conflicts_with m).
Definition long := upd_long (Some Inherit).
Definition long_ s := upd_long (Some (Explicit (bs s))).
Arguments long_ s%string_scope.
Definition upd_short (x : option (override N)) (m : arg_meta tv) :=
  mkArgMeta (am_doc m) (am_long m) x (am_alias m) (am_short_alias m) (am_value_name m)
    (am_require_equals m) (am_global m) (am_allow_hyphen_values m) (am_allow_negative_numbers m)
    (am_ignore_case m) (am_trailing_var_arg m) (am_last m) (am_default_value m)
    (am_default_value_t m) (am_value_delimiter m) (am_hide m) (am_required m) (am_exclusive m)
    (am_requires m) (am_conflicts_with m).
Definition short := upd_short (Some Inherit).
Definition short_ (c : N) := upd_short (Some (Explicit c)).
Definition short_b (c : byte) := short_ (b2n c).
Definition doc (ls : list bytes) (m : arg_meta tv) :=
  mkArgMeta ls (am_long m) (am_short m) (am_alias m) (am_short_alias m) (am_value_name m)
    (am_require_equals m) (am_global m) (am_allow_hyphen_values m) (am_allow_negative_numbers m)
    (am_ignore_case m) (am_trailing_var_arg m) (am_last m) (am_default_value m)
    (am_default_value_t m) (am_value_delimiter m) (am_hide m) (am_required m) (am_exclusive m)
    (am_requires m) (am_conflicts_with m).
Definition aliases (al : list bytes) (sal : list N) (m : arg_meta tv) :=
  mkArgMeta (am_doc m) (am_long m) (am_short m) al sal (am_value_name m)
    (am_require_equals m) (am_global m) (am_allow_hyphen_values m) (am_allow_negative_numbers m)
    (am_ignore_case m) (am_trailing_var_arg m) (am_last m) (am_default_value m)
    (am_default_value_t m) (am_value_delimiter m) (am_hide m) (am_required m) (am_exclusive m)
    (am_requires m) (am_conflicts_with m).
Definition value_name (v : bytes) (m : arg_meta tv) :=
  mkArgMeta (am_doc m) (am_long m) (am_short m) (am_alias m) (am_short_alias m) (Some v)
    (am_require_equals m) (am_global m) (am_allow_hyphen_values m) (am_allow_negative_numbers m)
    (am_ignore_case m) (am_trailing_var_arg m) (am_last m) (am_default_value m)
    (am_default_value_t m) (am_value_delimiter m) (am_hide m) (am_required m) (am_exclusive m)
    (am_requires m) (am_conflicts_with m).
Definition behave (re gl hy neg ic : bool) (m : arg_meta tv) :=
  mkArgMeta (am_doc m) (am_long m) (am_short m) (am_alias m) (am_short_alias m) (am_value_name m)
    re gl hy neg ic (am_trailing_var_arg m) (am_last m) (am_default_value m)
    (am_default_value_t m) (am_value_delimiter m) (am_hide m) (am_required m) (am_exclusive m)
    (am_requires m) (am_conflicts_with m).
Definition require_equals := behave true false false false false.
Definition global := behave false true false false false.
Definition allow_hyphen := behave false false true false false.
Definition allow_negative := behave false false false true false.
Definition ignore_case := behave false false false false true.
Definition tail (tva la : bool) (m : arg_meta tv) :=
  mkArgMeta (am_doc m) (am_long m) (am_short m) (am_alias m) (am_short_alias m) (am_value_name m)
    (am_require_equals m) (am_global m) (am_allow_hyphen_values m) (am_allow_negative_numbers m)
    (am_ignore_case m) tva la (am_default_value m)
    (am_default_value_t m) (am_value_delimiter m) (am_hide m) (am_required m) (am_exclusive m)
    (am_requires m) (am_conflicts_with m).
Definition trailing := tail true false.
Definition last_ := tail false true.
Definition upd_default (a : option bytes) (b : option (override (dexpr tv))) (m : arg_meta tv) :=
  mkArgMeta (am_doc m) (am_long m) (am_short m) (am_alias m) (am_short_alias m) (am_value_name m)
    (am_require_equals m) (am_global m) (am_allow_hyphen_values m) (am_allow_negative_numbers m)
    (am_ignore_case m) (am_trailing_var_arg m) (am_last m) a b
    (am_value_delimiter m) (am_hide m) (am_required m) (am_exclusive m)
    (am_requires m) (am_conflicts_with m).
Definition default_value s := upd_default (Some (bs s)) None.
Arguments default_value s%string_scope.
Definition default_value_t := upd_default None (Some Inherit).
Definition default_lit d t := upd_default None (Some (Explicit (mkDexpr d (Some (bs t))))).
Arguments default_lit d t%string_scope.
Definition default_expr d := upd_default None (Some (Explicit (mkDexpr d None))).
Definition delimiter (c : byte) (m : arg_meta tv) :=
  mkArgMeta (am_doc m) (am_long m) (am_short m) (am_alias m) (am_short_alias m) (am_value_name m)
    (am_require_equals m) (am_global m) (am_allow_hyphen_values m) (am_allow_negative_numbers m)
    (am_ignore_case m) (am_trailing_var_arg m) (am_last m) (am_default_value m)
    (am_default_value_t m) (Some (b2n c)) (am_hide m) (am_required m) (am_exclusive m)
    (am_requires m) (am_conflicts_with m).
Definition hide (m : arg_meta tv) :=
  mkArgMeta (am_doc m) (am_long m) (am_short m) (am_alias m) (am_short_alias m) (am_value_name m)
    (am_require_equals m) (am_global m) (am_allow_hyphen_values m) (am_allow_negative_numbers m)
    (am_ignore_case m) (am_trailing_var_arg m) (am_last m) (am_default_value m)
    (am_default_value_t m) (am_value_delimiter m) true (am_required m) (am_exclusive m)
    (am_requires m) (am_conflicts_with m).
Definition constraints (rq ex : bool) (reqs confs : list string) (m : arg_meta tv) :=
  mkArgMeta (am_doc m) (am_long m) (am_short m) (am_alias m) (am_short_alias m) (am_value_name m)
    (am_require_equals m) (am_global m) (am_allow_hyphen_values m) (am_allow_negative_numbers m)
    (am_ignore_case m) (am_trailing_var_arg m) (am_last m) (am_default_value m)
    (am_default_value_t m) (am_value_delimiter m) (am_hide m) rq ex
    (map bs reqs) (map bs confs).
Definition required := constraints true false [] [].
Definition exclusive := constraints false true [] [].
Definition requires l := constraints false false l [].
Definition conflicts l := constraints false false [] l.

Definition TBool := TyBool bool_ty.
Definition TString := TyOther string_ty.
Definition TPath := TyOther path_ty.
Definition TI := TyOther int_ty.

Definition no_attrs : cmd_attrs := mkCmdAttrs [] false None None.
Definition doc_attrs (ls : list bytes) : cmd_attrs := mkCmdAttrs ls false None None.

Definition arg (id : string) (m : arg_meta tv) (t : ty tv) : ident * field_decl tv :=
  (bs id, FArg m t).
Arguments arg id%string_scope m t.
Definition struct := MkArgsDecl (V:=tv) no_attrs.

(** Argument vectors and outcomes. *)
Definition argv (l : list string) : list bytes := map bs l.
Definition accepts (d : args_decl tv) : bool :=
  match snd (compile_args d) with [] => true | _ => false end.
Definition parse_ok (d : args_decl tv) (l : list bytes) : option (outval tv) :=
  match try_parse_from d l with Ok o => Some o | _ => None end.
Definition any_escapes : escapes := mkEscapes true (fun _ => false).
Definition parse_msg (d : args_decl tv) (l : list bytes) : option bytes :=
  match try_parse_from d l with Err e => Some (error_display any_escapes e) | _ => None end.
Definition parse_help (d : args_decl tv) (l : list bytes) : option bytes :=
  match try_parse_from d l with Err e => try_into_help e | _ => None end.

Definition fB (id : string) (b : bool) : ident * fval tv := (bs id, FvBool b).
Definition fS (id s : string) : ident * fval tv := (bs id, FvVal (TStr (bs s))).
Definition fI (id : string) (z : Z) : ident * fval tv := (bs id, FvVal (TInt z)).
Definition fO (id : string) (s : option string) : ident * fval tv :=
  (bs id, FvOption (option_map (fun s => TStr (bs s)) s)).
Definition fV (id : string) (l : list string) : ident * fval tv :=
  (bs id, FvVec (map (fun s => TStr (bs s)) l)).
Arguments fB id%string_scope b.
Arguments fS (id s)%string_scope.
Arguments fI id%string_scope z%Z_scope.
Arguments fO id%string_scope s.
Arguments fV id%string_scope l.

(** Multi-line literals: lines joined by newlines, with a final one. *)
Definition lines (l : list string) : bytes := concat (map (fun s => bs s ++ [c_nl]) l).
