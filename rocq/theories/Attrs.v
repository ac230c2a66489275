(** Bit-packed argument attributes: src/shared.rs (shared by the library and
    the proc-macro crate).  A [u32] is modelled by [N]. *)
From Verif Require Import Bytes.
Local Open Scope N_scope.

Definition attrs : Type := N.

(** src/shared.rs:15-17 [ArgAttrs::index]. *)
Definition at_index (i : N) : attrs := i.

(** src/shared.rs:19-22 [get_index]: [self.0 as u8] keeps the low 8 bits. *)
Definition get_index (a : attrs) : N := a mod 256.

(** src/shared.rs:26-47, the flag constants. *)
Definition REQUIRE_VALUE : attrs := 2 ^ 16.
Definition REQUIRE_EQ : attrs := 2 ^ 17.
Definition ACCEPT_HYPHEN_ANY : attrs := 2 ^ 18.
Definition ACCEPT_HYPHEN_NUM : attrs := 2 ^ 19.
Definition GLOBAL : attrs := 2 ^ 20.
Definition MAKE_LOWERCASE : attrs := 2 ^ 21.
Definition VAR_ARG : attrs := 2 ^ 22.
Definition GREEDY : attrs := 2 ^ 23.
Definition LAST : attrs := 2 ^ 24.

(** src/shared.rs:49-54 [set]: a conditional bit-or, never unsets. *)
Definition at_set (a other : attrs) (value : bool) : attrs :=
  if value then N.lor a other else a.

(** src/shared.rs:56-59 [union]. *)
Definition at_union (a b : attrs) : attrs := N.lor a b.

(** src/shared.rs:61-64 [contains]. *)
Definition contains (a other : attrs) : bool := N.land a other =? other.
