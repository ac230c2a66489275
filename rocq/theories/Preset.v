(** Vocabulary: default values, and what the help page shows of them. *)
From Verif Require Import Bytes Utf8 Error Values Heck Places Decl Spec Observe Page.

Section Preset.
Context {V : Type}.
Local Notation sarg := (sarg V).

(** The value [v] is the default of [a]: that of its type, or given by an expression. *)
Definition default_is (a : sarg) (v : V) : Prop :=
  am_default_value_t (sa_meta a) = Some Inherit /\ shape_a a <> ShFlag /\ vt_default (value_of_ty (sa_ty a)) = Some v \/
  exists l, am_default_value_t (sa_meta a) = Some (Explicit (mkDexpr (DVal v) l)).
(** It is not written as a literal. *)
Definition literal (a : sarg) (t : bytes) : Prop :=
  exists w, am_default_value_t (sa_meta a) = Some (Explicit (mkDexpr w (Some t))).

(** [v] is the variant named [n] of the enum that is the type of the values of [a]. *)
Definition variant_named (a : sarg) (v : V) (n : bytes) : Prop :=
  exists names inj, vt_value_enum (value_of_ty (sa_ty a)) = Some (names, inj) /\
    nth_error names (vt_variant (value_of_ty (sa_ty a)) v) = Some n /\
    inj (vt_variant (value_of_ty (sa_ty a)) v) = v /\ utf8_valid n = true.

(** How the default of [a] is shown: the text or the literal in the declaration, the
    name of the variant, or what [Display] prints (which for a [bool] is known). *)
Inductive shows (a : sarg) : bytes -> Prop :=
| shows_text t : am_default_value (sa_meta a) = Some t -> am_default_value_t (sa_meta a) = None -> shows a t
| shows_literal t : literal a t -> shows a t
| shows_variant v n : default_is a v -> (forall t, ~ literal a t) -> variant_named a v n -> shows a n
| shows_display v f : default_is a v -> (forall t, ~ literal a t) ->
    vt_value_enum (value_of_ty (sa_ty a)) = None -> vt_display (value_of_ty (sa_ty a)) = Some f -> shows a (f v)
| shows_flag : am_default_value_t (sa_meta a) = Some Inherit -> shape_a a = ShFlag -> shows a (bs "false")
| shows_true : am_default_value_t (sa_meta a) = Some (Explicit (mkDexpr (DBool true) None)) -> shows a (bs "true")
| shows_false : am_default_value_t (sa_meta a) = Some (Explicit (mkDexpr (DBool false) None)) -> shows a (bs "false").

(** The entry of [a] on a page, with the given lines below its description. *)
Definition described (a : sarg) (lines : bytes) (page : bytes) : Prop :=
  exists before doc after, page = before ++ describe a ++ nl ++ doc ++ lines ++ nl ++ after /\
    (doc = [] \/ doc = bs "          " ++ doc_process (am_doc (sa_meta a)) ++ nl).
Definition default_line (t : bytes) : bytes := bs "          [default: " ++ t ++ bs "]" ++ nl.
End Preset.
