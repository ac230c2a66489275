(** Which argument a name belongs to, when several structs declare it. *)
From Verif Require Import Bytes Utf8 Error Values Heck Places Decl Spec.

Section Select.
Context {V : Type}.
Local Notation args_decl := (args_decl V).
Local Notation sarg := (sarg V).
Local Notation scope := (scope V).

(** Within a struct, by the paths of the fields: its own fields come before those
    of the structs flattened into it, and of these the one declared earlier comes
    first. *)
Inductive prefers : args_decl -> list ident -> list ident -> Prop :=
| prefers_own d id id' i q : prefers d [id] (id' :: i :: q)
| prefers_inside d id x p q : In (id, x) (flattened d) -> prefers x p q -> prefers d (id :: p) (id :: q)
| prefers_earlier d l m r id x id' x' i p j q :
    flattened d = l ++ (id, x) :: m ++ (id', x') :: r ->
    prefers d (id :: i :: p) (id' :: j :: q).

(** Between commands the inner one comes first. *)
Definition comes_first (stk : list scope) (x y : addr) : Prop :=
  ad_level y < ad_level x \/
  ad_level x = ad_level y /\
  exists s, nth_error (rev stk) (ad_level x) = Some s /\ prefers (sc_decl s) (ad_path x) (ad_path y).

(** [a] at [ad] can be given by the name [n]: it is an argument of the innermost
    command, or a global one of a command around it. *)
Definition candidate (stk : list scope) (n : name) (ad : addr) (a : sarg) : Prop :=
  In (ad, a) (stack_args stk) /\ has_name a n /\ (S (ad_level ad) = length stk \/ is_global a = true).

(** It is the one that [n] stands for: all other candidates come later. *)
Definition chosen (stk : list scope) (n : name) (ad : addr) (a : sarg) : Prop :=
  candidate stk n ad a /\
  forall ad' b, candidate stk n ad' b -> (ad', b) = (ad, a) \/ comes_first stk ad ad'.
End Select.
