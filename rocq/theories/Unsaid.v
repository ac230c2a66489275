(** Vocabulary: saying what goes without saying.  Nothing here refers to the model
    of the code. *)
From Verif Require Import Bytes Utf8 Error Values Heck Places Decl Spec Observe.

Section Unsaid.
Context {V : Type}.
Local Notation sarg := (sarg V).
Local Notation scope := (scope V).

(** The error of a command line that breaks a rule on which arguments go together. *)
Definition about_company (e : error) : Prop :=
  e_kind e = ConstraintRequired \/ e_kind e = ConstraintExclusive \/ e_kind e = ConstraintConflict.

(** The argument [a] at [ad] goes with everything: it has no such rule itself, and
    those of the other arguments of its struct do not concern it. *)
Definition goes_with_all (stk : list scope) (ad : addr) (a : sarg) : Prop :=
  am_requires (sa_meta a) = [] /\ am_conflicts_with (sa_meta a) = [] /\ am_exclusive (sa_meta a) = false /\
  forall ad' b, In (ad', b) (stack_args stk) -> same_struct ad' ad ->
    am_exclusive (sa_meta b) = false /\ ~ In (sa_id a) (am_conflicts_with (sa_meta b)).
End Unsaid.
