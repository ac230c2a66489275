(** Errors and results: src/error.rs. *)
From Verif Require Import Bytes Utf8 Refl.

(** src/error.rs:47-71 [ErrorKind]. *)
Inductive error_kind :=
| MissingArg0 | UnknownNamedArgument | UnknownSubcommand
| DuplicatedNamedArgument | ExtraPositionalArgument | UnexpectedInlineValue
| MissingValue | InvalidValue | MissingEq
| MissingRequiredArgument | MissingRequiredSubcommand
| ConstraintRequired | ConstraintExclusive | ConstraintConflict
| Help | Custom.

(** src/error.rs:24-44 [Inner].  The boxed source error is represented by the
    text its [Display] writes. *)
Record error := mkError {
  e_kind : error_kind;
  e_arg_desc : option bytes;
  e_input : option bytes;
  e_source : option bytes;
  e_context : bytes;
  e_help : option bytes
}.

(** src/error.rs:162-171 [Error::new], 221-226 [From<ErrorKind>]. *)
Definition err_new (k : error_kind) : error := mkError k None None None [] None.

(** src/error.rs:174-179 [Error::custom]. *)
Definition err_custom (reason : bytes) : error := mkError Custom None None (Some reason) [] None.

(** src/error.rs:230-234 [ErrorKind::with_input]. *)
Definition with_input (k : error_kind) (input : bytes) : error :=
  mkError k None (Some input) None [] None.

(** src/error.rs:237-241 [ErrorKind::with_arg_idx]. *)
Definition with_arg_idx (k : error_kind) (info : raw_args_info) (idx : N) : error :=
  mkError k (get_description info idx) None None [] None.

(** src/error.rs:190-193 [with_source]. *)
Definition with_source (e : error) (src : bytes) : error :=
  mkError (e_kind e) (e_arg_desc e) (e_input e) (Some src) (e_context e) (e_help e).

(** src/error.rs:195-199 [with_context]: appends. *)
Definition with_context (e : error) (ctx : bytes) : error :=
  mkError (e_kind e) (e_arg_desc e) (e_input e) (e_source e) (e_context e ++ ctx) (e_help e).

(** src/error.rs:201-204 [with_arg_desc]. *)
Definition with_arg_desc (e : error) (d : option bytes) : error :=
  mkError (e_kind e) d (e_input e) (e_source e) (e_context e) (e_help e).

(** Setting the rendered help text: src/error.rs:213-217. *)
Definition with_help (e : error) (h : bytes) : error :=
  mkError (e_kind e) (e_arg_desc e) (e_input e) (e_source e) (e_context e) (Some h).

(** src/error.rs:186-188 [try_into_help]: [Some h] is [Ok(h)], [None] is
    [Err(self)]. *)
Definition try_into_help (e : error) : option bytes := e_help e.

(** ** Results

    [Panic] makes every panicking path of the code an explicit outcome. *)
Inductive panic_site :=
| PIndex          (** slice index out of bounds *)
| PUnwrap         (** [unwrap] on [None]/[Err] *)
| PUnreachable    (** [unreachable_nounwind], src/runtime.rs:22-24 *)
| POverflow       (** arithmetic overflow of a [u8] *)
| PDefault        (** [expect("invalid default value")], src/runtime.rs:329 *)
| PShape          (** not a Rust panic: the frame chain of the model lost its shape *)
| PFuel.          (** not a Rust panic: the fuel of a model loop ran out *)

Inductive res (A : Type) :=
| Ok (a : A)
| Err (e : error)
| Panic (p : panic_site).
Arguments Ok {A} a.
Arguments Err {A} e.
Arguments Panic {A} p.

(** The [?] operator. *)
Definition bind {A B} (x : res A) (f : A -> res B) : res B :=
  match x with
  | Ok a => f a
  | Err e => Err e
  | Panic p => Panic p
  end.
Notation "'let*' p ':=' x 'in' f" := (bind x (fun p => f))
  (at level 200, p pattern, x at level 100, f at level 200, right associativity).

(** ** [Display for Error], src/error.rs:85-159 *)

(** [{input:?}]: the [Debug] form of an [OsStr] on Unix: quotes, the escapes of
    [char::escape_debug], and [\xNN] for bytes that are not UTF-8.  What is left
    to the version of the standard library is a parameter: whether a single quote
    is escaped, and which scalar values from 128 on are written as numbers
    (those that are not printable or extend a grapheme). *)
Record escapes := mkEscapes { es_single : bool; es_unprintable : N -> bool }.

Definition hex_digit (n : N) : byte :=
  if (n <? 10)%N then n2b (48 + n) else n2b (97 + (n - 10)).
Definition hex_digit_upper (n : N) : byte :=
  if (n <? 10)%N then n2b (48 + n) else n2b (65 + (n - 10)).
(** [{:x}], for numbers of up to six digits. *)
Fixpoint hex_aux (fuel : nat) (c : N) (acc : bytes) : bytes :=
  match fuel with
  | O => acc
  | S fuel =>
      let acc := hex_digit (c mod 16) :: acc in
      if (c / 16 =? 0)%N then acc else hex_aux fuel (c / 16) acc
  end.
Definition hex (c : N) : bytes := hex_aux 6 c [].

Section Display.
Context (esc : escapes).

Definition escape_char (c : N) : bytes :=
  if (c =? 0)%N then bs "\0"
  else if (c =? 9)%N then bs "\t"
  else if (c =? 10)%N then bs "\n"
  else if (c =? 13)%N then bs "\r"
  else if (c =? 34)%N then ["\"; n2b 34]%byte
  else if (c =? 92)%N then bs "\\"
  else if (c =? 39)%N && es_single esc then bs "\'"
  else if ((c <? 32) || (c =? 127))%N || ((128 <=? c)%N && es_unprintable esc c) then
    bs "\u{" ++ hex c ++ bs "}"
  else utf8_encode c.
Definition escape_byte (b : byte) : bytes :=
  bs "\x" ++ [hex_digit_upper (b2n b / 16); hex_digit_upper (b2n b mod 16)].
Fixpoint os_debug_aux (fuel : nat) (s : bytes) : bytes :=
  match fuel with
  | O => []
  | S fuel =>
      let '(cs, r) := utf8_prefix s in
      concat (map escape_char cs) ++
      match r with
      | [] => []
      | _ =>
          let k := invalid_len r in
          concat (map escape_byte (firstn k r)) ++ os_debug_aux fuel (skipn k r)
      end
  end.
Definition c_quote : byte := n2b 34.
Definition os_debug (s : bytes) : bytes :=
  [c_quote] ++ os_debug_aux (S (List.length s)) s ++ [c_quote].

(** src/error.rs:86-143, the message that depends on the kind. *)
Definition error_message (e : error) : bytes :=
  let input := os_debug (match e_input e with Some i => i | None => bs "<unknown>" end) in
  let arg_desc := match e_arg_desc e with Some d => d | None => bs "<unknown argument>" end in
  match e_kind e with
  | MissingArg0 => bs "missing executable argument (argv[0])"
  | UnknownNamedArgument => bs "unexpected argument " ++ input
  | UnknownSubcommand => bs "unrecognized subcommand " ++ input
  | DuplicatedNamedArgument =>
      bs "the argument '" ++ arg_desc ++ bs "' cannot be used multiple times"
  | ExtraPositionalArgument => bs "unexpected argument " ++ input
  | UnexpectedInlineValue =>
      bs "unexpected value " ++ input ++ bs " for '" ++ arg_desc ++ bs "'"
  | MissingValue =>
      bs "a value is required for '" ++ arg_desc ++ bs "' but none was supplied"
  | InvalidValue => bs "invalid value " ++ input ++ bs " for '" ++ arg_desc ++ bs "'"
  | MissingEq =>
      bs "equal sign is needed when assigning values for '" ++ arg_desc ++ bs "'"
  | MissingRequiredArgument =>
      bs "the argument '" ++ arg_desc ++ bs "' is required but not provided"
  | MissingRequiredSubcommand => bs "the subcommand is required but not provided"
  | ConstraintRequired =>
      bs "the argument '" ++ arg_desc
        ++ bs "' is required because some dependency arguments are provided"
  | ConstraintExclusive =>
      bs "the argument '" ++ arg_desc
        ++ bs "' cannot be used with one or more of the other specified arguments"
  | ConstraintConflict =>
      bs "the argument '" ++ arg_desc ++ bs "' cannot be used with some other arguments"
  | Help => []
  | Custom => []
  end.

(** src/error.rs:85-159 [Display::fmt].  [Custom] returns early with the source
    ([unwrap] on its source; [err_custom] is the only constructor of that kind
    and always sets one). *)
Definition error_display (e : error) : bytes :=
  match e_kind e with
  | Custom => match e_source e with Some s => s | None => [] end
  | _ =>
      error_message e
      ++ match e_source e with Some s => bs ": " ++ s | None => [] end
      ++ match e_context e with
         | [] => []
         | c => [c_nl] ++ bs "  " ++ c
         end
      ++ match e_kind e with
         | Help => match e_help e with Some h => h | None => bs "help is not available" end
         | _ => []
         end
  end.

End Display.

(** src/error.rs:79-83 [Debug::fmt], not in the alternate form: the message is
    written as [{:?}] of a [str], which never escapes a single quote. *)
Definition str_debug (esc : escapes) (s : bytes) : bytes :=
  os_debug (mkEscapes false (es_unprintable esc)) s.
Definition error_debug (esc : escapes) (e : error) : bytes :=
  bs "Error { message: " ++ str_debug esc (error_display esc e) ++ bs ", .. }".

(** src/error.rs:73-77 [std::error::Error::source], by its text. *)
Definition error_source (e : error) : option bytes := e_source e.
