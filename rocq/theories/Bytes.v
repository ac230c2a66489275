(** Byte strings.

    On Unix an [OsStr]/[OsString] is an arbitrary sequence of bytes, and a Rust
    [str]/[String] is a sequence of bytes that is valid UTF-8.  Both are
    modelled by [bytes]; UTF-8 validity is the separate predicate of Utf8.v.
    The functions below model the std / os_str_bytes string operations that
    /repo calls (they are dependencies, so there is no source in /repo to cite
    for their bodies; each comment cites the call sites). *)
From Coq Require Export Strings.String.
From Coq Require Export Strings.Byte.
From Coq Require Export List NArith ZArith Bool Lia Arith.
Export ListNotations.
Global Open Scope list_scope.

Definition bytes : Type := list byte.

(** Source-level string literals, e.g. [bs "--help"]. *)
Definition bs (s : string) : bytes := list_byte_of_string s.
Arguments bs s%string_scope.

Definition b2n (b : byte) : N := Byte.to_N b.

(** Byte of a number (used for building UTF-8; [x00] when out of range, which
    never happens for the arguments used). *)
Definition n2b (n : N) : byte :=
  match Byte.of_N n with Some b => b | None => x00 end.

(** Equality of byte strings: [OsStr == str], e.g. src/runtime.rs:499, 612. *)
Fixpoint beqb (a b : bytes) : bool :=
  match a, b with
  | [], [] => true
  | x :: a', y :: b' => Byte.eqb x y && beqb a' b'
  | _, _ => false
  end.

(** Lexicographic order on bytes: [Ord for [u8]] and [Ord for str], used by
    src/refl.rs:55 and 192 (binary search keys), derive/src/derive_args.rs:881
    and derive/src/derive_subcommand.rs:124 (sorting). *)
Fixpoint bcompare (a b : bytes) : comparison :=
  match a, b with
  | [], [] => Eq
  | [], _ :: _ => Lt
  | _ :: _, [] => Gt
  | x :: a', y :: b' =>
      match N.compare (b2n x) (b2n y) with
      | Eq => bcompare a' b'
      | c => c
      end
  end.

(** [strip_prefix]: src/runtime.rs:517, 527. *)
Fixpoint strip_prefix (p s : bytes) : option bytes :=
  match p, s with
  | [], _ => Some s
  | x :: p', y :: s' => if Byte.eqb x y then strip_prefix p' s' else None
  | _ :: _, [] => None
  end.

(** [starts_with]: src/runtime.rs:511, 640. *)
Definition starts_with (p s : bytes) : bool :=
  match strip_prefix p s with Some _ => true | None => false end.

(** [split_once] on a one-byte (ASCII) pattern: [arg.split_once("=")],
    src/runtime.rs:512; [util::split_once], src/util.rs:76-79. *)
Fixpoint split_once (c : byte) (s : bytes) : option (bytes * bytes) :=
  match s with
  | [] => None
  | x :: s' =>
      if Byte.eqb x c then Some ([], s')
      else match split_once c s' with
           | Some (l, r) => Some (x :: l, r)
           | None => None
           end
  end.

(** [split_terminator]: src/util.rs:81-88.  Yields the pieces that are
    terminated by [c]; an unterminated tail is dropped, as in the code (the
    [from_fn] closure stops at the first [split_once] failure). *)
Fixpoint split_terminator (c : byte) (s : bytes) (acc : bytes) : list bytes :=
  match s with
  | [] => []
  | x :: s' =>
      if Byte.eqb x c then rev acc :: split_terminator c s' []
      else split_terminator c s' (x :: acc)
  end.

(** [OsStr::split(char)] of os_str_bytes, called at src/runtime.rs:401 with the
    delimiter [char]; [pat] is the UTF-8 encoding of that char (never empty).
    Leftmost non-overlapping occurrences; always at least one piece.
    [skip] counts the bytes of a match still to be dropped. *)
Fixpoint split_on_aux (pat s : bytes) (skip : nat) (acc : bytes) : list bytes :=
  match s with
  | [] => [rev acc]
  | x :: s' =>
      match skip with
      | S k => split_on_aux pat s' k acc
      | O =>
          if starts_with pat s
          then rev acc :: split_on_aux pat s' (List.length pat - 1) []
          else split_on_aux pat s' 0 (x :: acc)
      end
  end.
Definition split_on (pat s : bytes) : list bytes := split_on_aux pat s 0 [].

(** [u8::is_ascii_digit]: src/runtime.rs:645. *)
Definition is_ascii_digit (b : byte) : bool :=
  ((48 <=? b2n b) && (b2n b <=? 57))%N.

(** [is_ascii_uppercase]: derive/src/derive_value_enum.rs:99. *)
Definition is_ascii_upper (b : byte) : bool :=
  ((65 <=? b2n b) && (b2n b <=? 90))%N.

Definition is_ascii_lower (b : byte) : bool :=
  ((97 <=? b2n b) && (b2n b <=? 122))%N.

(** [char::is_ascii_control]: derive/src/derive_args.rs:266, 274, 397.  On a
    UTF-8 string, a char is an ASCII control iff its (only) byte is. *)
Definition is_ascii_control (b : byte) : bool :=
  ((b2n b <=? 31) || (b2n b =? 127))%N.

(** [make_ascii_lowercase]: src/runtime.rs:672. *)
Definition ascii_lower (b : byte) : byte :=
  if is_ascii_upper b then n2b (b2n b + 32) else b.
Definition make_ascii_lowercase (s : bytes) : bytes := map ascii_lower s.

Definition ascii_upper (b : byte) : byte :=
  if is_ascii_lower b then n2b (b2n b - 32) else b.

(** ASCII white space as stripped by [trim_ascii]: derive/src/common.rs:553, 564. *)
Definition is_ascii_ws (b : byte) : bool :=
  ((b2n b =? 32) || (b2n b =? 9) || (b2n b =? 10) || (b2n b =? 12) || (b2n b =? 13))%N.

Fixpoint trim_start (s : bytes) : bytes :=
  match s with
  | [] => []
  | x :: s' => if is_ascii_ws x then trim_start s' else s
  end.
Definition trim_end (s : bytes) : bytes := rev (trim_start (rev s)).
Definition trim_ascii (s : bytes) : bytes := trim_end (trim_start s).

(** The bytes named in the code. *)
Definition c_dash : byte := "-"%byte.
Definition c_eq : byte := "="%byte.
Definition c_nul : byte := x00.
Definition c_nl : byte := x0a.
