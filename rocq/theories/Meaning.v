(** What a command line says about each argument, for C42 and C75. *)
From Verif Require Import Bytes Utf8 Error Values Places Heck Decl Spec Derive Generated Observe.

Section Meaning.
Context {V : Type}.
Implicit Types (a : sarg V) (os : list (occ V)) (stk : list (scope V)).

(** [vs]: what the occurrences at the address [ad], and no others, say, in order.
    Addresses are compared by equality, not by the specification's function. *)
Inductive own_values : list (occ V) -> addr -> list (option bytes) -> Prop :=
| own_end ad : own_values [] ad []
| own_mine ad a v os vs : own_values os ad vs -> own_values (Occ ad a v :: os) ad (v :: vs)
| own_other ad ad' a v os vs : ad' <> ad -> own_values os ad vs -> own_values (Occ ad' a v :: os) ad vs.

(** The texts that the occurrences [os] give to the argument [a] at [ad]. *)
Definition texts_given os (ad : addr) a : list (option bytes) := map (option_map (text_of a)) (values_of os ad).

(** Each argument that is given has a value. *)
Definition meaningful os stk : Prop := forall ad a, In (ad, a) (stack_args stk) -> given os ad = true ->
  exists fv, denotes a (texts_given os ad a) fv.

(** Each argument is given in both or in none of them, and then with the same
    value. *)
Definition agree os os' stk : Prop := forall ad a, In (ad, a) (stack_args stk) ->
  (given os ad = false /\ given os' ad = false) \/
  (given os ad = true /\ given os' ad = true /\
   exists fv, denotes a (texts_given os ad a) fv /\ denotes a (texts_given os' ad a) fv).
End Meaning.
