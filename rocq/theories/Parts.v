(** The vocabulary for the properties of the building blocks: strings, names,
    texts. *)
From Verif Require Import Bytes Utf8 Attrs Error Values Heck Places Decl Spec Observe EnumDerive.
From Coq Require Import Permutation Sorted.

(** ** Byte strings *)

Definition infix (p s : bytes) : Prop := exists l r, s = l ++ p ++ r.

(** [ps] with [sep] between them. *)
Fixpoint glue (sep : bytes) (ps : list bytes) : bytes :=
  match ps with
  | [] => []
  | p :: ps' => p ++ match ps' with [] => [] | _ => sep ++ glue sep ps' end
  end.

(** [s] cut at every character [c]. *)
Record cut_at (c : N) (s : bytes) (ps : list bytes) : Prop := {
  cut_some : ps <> [];
  cut_pieces : Forall (fun p => ~ infix (utf8_encode c) p) ps;
  cut_glue : glue (utf8_encode c) ps = s
}.

(** Byte order: the first difference decides, a prefix comes first. *)
Inductive before : bytes -> bytes -> Prop :=
| before_nil b : before [] b
| before_head x y a b : (b2n x < b2n y)%N -> before (x :: a) (y :: b)
| before_tail x a b : before a b -> before (x :: a) (x :: b).

(** ASCII control characters. *)
Definition control (b : byte) : Prop := (b2n b < 32)%N \/ b2n b = 127%N.

(** ** Characters *)

(** The values of Rust's [char]. *)
Definition scalar (c : N) : Prop := (c < 55296 \/ 57344 <= c < 1114112)%N.
(** The bytes of a text. *)
Definition text (cs : list N) : bytes := flat_map utf8_encode cs.
(** [s] does not start with a character. *)
Definition no_char (s : bytes) : Prop := forall c r, scalar c -> s <> utf8_encode c ++ r.
(** [p] is the beginning of a character, or all of it. *)
Definition starts_char (p : bytes) : Prop := exists c r, scalar c /\ utf8_encode c = p ++ r.
(** [p] at the start of [p ++ s] counts as one error in UTF-8: no character is
    there, and [p] is the longest beginning of one, or a byte that begins none. *)
Record broken (p s : bytes) : Prop := {
  brk_nonempty : p <> [];
  brk_no_char : no_char (p ++ s);
  brk_begins : length p = 1 \/ starts_char p;
  brk_longest : forall b s', s = b :: s' -> ~ starts_char (p ++ [b])
}.
(** [t] is [s] with the replacement character U+FFFD for each error. *)
Inductive lossily : bytes -> bytes -> Prop :=
| lossily_nil : lossily [] []
| lossily_char c s t : scalar c -> lossily s t -> lossily (utf8_encode c ++ s) (utf8_encode c ++ t)
| lossily_broken p s t : broken p s -> lossily s t -> lossily (p ++ s) (utf8_encode 65533 ++ t).
(** [t] is the number [n] in decimal digits. *)
Definition digits_value (t : bytes) : nat := fold_left (fun n b => 10 * n + (N.to_nat (b2n b) - 48)) t 0.
Definition decimal (n : nat) (t : bytes) : Prop :=
  Forall (fun b => (48 <= b2n b <= 57)%N) t /\ digits_value t = n /\
  t <> [] /\ (forall b r, t = b :: r -> b2n b = 48%N -> r = []).
(** A character that needs no escape: printable, and no quote or backslash. *)
Definition plain_char (esc : escapes) (c : N) : Prop :=
  (32 <= c)%N /\ ~ In c [34; 39; 92; 127]%N /\ ((128 <= c)%N -> es_unprintable esc c = false).

(** ** White space and doc comments *)

(** ASCII white space: space, tab, line feed, form feed, carriage return. *)
Definition space (b : byte) : Prop := In (b2n b) [32; 9; 10; 12; 13]%N.
(** [t] is [s] without the white space around it. *)
Record trimmed (s t : bytes) : Prop := {
  trim_around : exists l r, s = l ++ t ++ r /\ Forall space l /\ Forall space r;
  trim_first : forall b r, t = b :: r -> ~ space b;
  trim_last : forall l b, t = l ++ [b] -> ~ space b
}.

(** Trimmed lines in paragraphs: the runs of lines that are not blank. *)
Fixpoint runs (ls : list bytes) : list (list bytes) :=
  match ls with
  | [] => [[]]
  | l :: ls' =>
      match l, runs ls' with
      | [], ps => [] :: ps
      | _, p :: ps => (l :: p) :: ps
      | _, [] => []
      end
  end.
Definition paragraphs (ls : list bytes) : list (list bytes) :=
  filter (fun p => match p with [] => false | _ => true end) (runs ls).

(** ** Names *)

Definition lower_letter (b : byte) : Prop := (97 <= b2n b <= 122)%N.
Definition upper_letter (b : byte) : Prop := (65 <= b2n b <= 90)%N.
Definition digit (b : byte) : Prop := (48 <= b2n b <= 57)%N.
(** [y] is [x] in upper case, in lower case. *)
Definition raised (x y : byte) : Prop :=
  (lower_letter x /\ b2n y + 32 = b2n x)%N \/ ~ lower_letter x /\ y = x.
Definition lowered (x y : byte) : Prop :=
  (upper_letter x /\ b2n y = b2n x + 32)%N \/ ~ upper_letter x /\ y = x.

(** The words of a snake_case identifier: lower-case letters and digits. *)
Definition snake_word (w : bytes) : Prop :=
  w <> [] /\ Forall (fun b => lower_letter b \/ digit b) w.
(** The words of a PascalCase identifier, in lower case.  They start with two
    letters. *)
Definition pascal_word (w : bytes) : Prop :=
  exists x y r, w = x :: y :: r /\ lower_letter x /\ lower_letter y /\
                Forall (fun b => lower_letter b \/ digit b) r.
(** [w'] is [w] with a capital. *)
Definition capitalized (w w' : bytes) : Prop :=
  exists x x' r, w = x :: r /\ w' = x' :: r /\ raised x x'.

(** ** Enums *)

(** The case convention of an enum's variant names. *)
Inductive convention (e : enum_decl) : rename -> Prop :=
| conv_default : ed_rename_all e = None -> convention e KebabCase
| conv_camel : ed_rename_all e = Some (bs "camelCase") -> convention e CamelCase
| conv_kebab : ed_rename_all e = Some (bs "kebab-case") -> convention e KebabCase
| conv_pascal : ed_rename_all e = Some (bs "PascalCase") -> convention e PascalCase
| conv_screaming : ed_rename_all e = Some (bs "SCREAMING_SNAKE_CASE") -> convention e ScreamingSnakeCase
| conv_snake : ed_rename_all e = Some (bs "snake_case") -> convention e SnakeCase
| conv_lower : ed_rename_all e = Some (bs "lower") -> convention e Lower
| conv_upper : ed_rename_all e = Some (bs "UPPER") -> convention e Upper
| conv_verbatim : ed_rename_all e = Some (bs "verbatim") -> convention e Heck.Verbatim.

(** The name of a variant. *)
Inductive named (e : enum_decl) (v : enum_variant) : bytes -> Prop :=
| named_explicit n : ev_name v = Some n -> named e v n
| named_ident r : ev_name v = None -> convention e r -> named e v (do_rename r (ev_ident v)).
(** The [i]-th variant is named [n]. *)
Definition nth_named (e : enum_decl) (i : nat) (n : bytes) : Prop :=
  exists v, nth_error (ed_variants e) i = Some v /\ named e v n.

(** The list of the names in an error message: all of them, in byte order. *)
Definition lists_names (names : list bytes) (s : bytes) : Prop :=
  exists l, Permutation names l /\ StronglySorted before l /\
            s = bs "[possible values: " ++ glue (bs ", ") l ++ bs "]".

(** ** The tables of a struct *)

(** How the table of a struct's options is keyed. *)
Definition table_key (n : name) : bytes :=
  match n with Long s => bs "--" ++ s | Short c => utf8_encode c end.

(** [w] is the packed form of the option [a] at index [i]. *)
Record packs_option {V} (a : sarg V) (i : nat) (w : attrs) : Prop := {
  po_index : get_index w = N.of_nat i;
  po_value : contains w REQUIRE_VALUE = takes_value a;
  po_eq : contains w REQUIRE_EQ = needs_equals a;
  po_global : contains w GLOBAL = is_global a;
  po_lower : contains w MAKE_LOWERCASE = am_ignore_case (sa_meta a);
  po_hyphen : contains w ACCEPT_HYPHEN_ANY = am_allow_hyphen_values (sa_meta a);
  po_negative : contains w ACCEPT_HYPHEN_NUM = am_allow_negative_numbers (sa_meta a);
  po_var : contains w VAR_ARG = false;
  po_last : contains w LAST = false
}.
(** The same for a positional. *)
Record packs_positional {V} (a : sarg V) (i : nat) (w : attrs) : Prop := {
  pp_index : get_index w = N.of_nat i;
  pp_var : contains w VAR_ARG = many a;
  pp_greedy : contains w GREEDY = greedy a;
  pp_last : contains w LAST = is_last a
}.
