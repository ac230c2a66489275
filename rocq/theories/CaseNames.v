(** The vocabulary for names that are made from identifiers: where the words of an
    identifier start. *)
From Verif Require Import Bytes Parts.

(** Letters and digits; everything else only separates. *)
Definition name_char (b : byte) : Prop := lower_letter b \/ upper_letter b \/ digit b.
(** The last letter of [l] is small, or a capital; digits may follow it. *)
Definition ends_lower (l : bytes) : Prop := exists l' c ds, l = l' ++ c :: ds /\ lower_letter c /\ Forall digit ds.
Definition ends_upper (l : bytes) : Prop := exists l' c ds, l = l' ++ c :: ds /\ upper_letter c /\ Forall digit ds.
(** In [l ++ c :: r], a word starts with [c]: at the beginning, after a separator,
    with a capital after a small letter, and with the last of some capitals if a
    small letter follows ([HTTPServer]). *)
Definition word_starts (l : bytes) (c : byte) (r : bytes) : Prop :=
  l = [] \/ (exists l' x, l = l' ++ [x] /\ ~ name_char x) \/
  upper_letter c /\ (ends_lower l \/ ends_upper l /\ exists d r', r = d :: r' /\ lower_letter d).

(** How a convention spells: what is between words, and how it converts the first
    letter of all, the first letters of the other words, and the other letters. *)
Record convention_of := Conv { cv_sep : bytes; cv_first : byte -> byte -> Prop; cv_start : byte -> byte -> Prop; cv_rest : byte -> byte -> Prop }.
Definition kebab : convention_of := Conv (bs "-") lowered lowered lowered.
Definition snake : convention_of := Conv (bs "_") lowered lowered lowered.
Definition screaming : convention_of := Conv (bs "_") raised raised raised.
Definition pascal : convention_of := Conv [] raised raised lowered.
Definition camel : convention_of := Conv [] lowered raised lowered.

(** [t] spells the rest [r] of an identifier after [l]. *)
Inductive spelled (cv : convention_of) : bytes -> bytes -> bytes -> Prop :=
| sp_end l : spelled cv l [] []
| sp_other l c r t : ~ name_char c -> spelled cv (l ++ [c]) r t -> spelled cv l (c :: r) t
| sp_first l c c' r t : name_char c -> cv_first cv c c' -> Forall (fun b => ~ name_char b) l ->
    spelled cv (l ++ [c]) r t -> spelled cv l (c :: r) (c' :: t)
| sp_same l c c' r t : name_char c -> cv_rest cv c c' -> ~ Forall (fun b => ~ name_char b) l -> ~ word_starts l c r ->
    spelled cv (l ++ [c]) r t -> spelled cv l (c :: r) (c' :: t)
| sp_next l c c' r t : name_char c -> cv_start cv c c' -> ~ Forall (fun b => ~ name_char b) l -> word_starts l c r ->
    spelled cv (l ++ [c]) r t -> spelled cv l (c :: r) (cv_sep cv ++ c' :: t).
