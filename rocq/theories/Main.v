(** [Parser::parse]: what a program does with its command line. *)
From Verif Require Import Bytes Utf8 Attrs Refl Error Values Places Help Runtime Heck Decl Derive Generated.

Section Main.
Context (esc : escapes) {V : Type}.

(** The program goes on with a value; or it exits with a status after writing
    something to standard error (nothing is written to standard output); or it
    panics. *)
Inductive outcome :=
| Continues (o : outval V)
| Exits (status : N) (stderr : bytes)
| Panics (p : panic_site).

(** src/lib.rs:67-77 [Parser::parse], where [argv] is [std::env::args_os()].
    [eprintln!] adds a newline.  Simplification: writing to standard error
    succeeds. *)
Definition parse (d : args_decl V) (argv : list bytes) : outcome :=
  match try_parse_from d argv with
  | Ok v => Continues v
  | Err err => Exits 1 (error_display esc err ++ [c_nl])
  | Panic p => Panics p
  end.
End Main.
Arguments outcome : clear implicits.
