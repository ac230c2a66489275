(** C76: no command line puts control characters into an error message. *)
From Verif Require Import Bytes Utf8 Error Values Places Heck Decl Spec Derive Generated Observe Grammar Parts Blame Kit Samples.
From Verif Require Import TextFacts CleanFacts.
Local Open Scope string_scope.
Local Open Scope list_scope.

(** C76: the message is a line without control characters, and for a value enum a
    second one with the possible values; provided that the text of the source
    error, which may come from the value type, has none. *)
Theorem C76_message {V : Type} (esc : escapes) (d : args_decl V) (argv : list bytes) (e : error) :
  valid d -> try_parse_from d argv = Err e -> e_kind e <> Help ->
  (forall t, error_source e = Some t -> Forall (fun b => ~ control b) t) ->
  exists line, Forall (fun b => ~ control b) line /\
    (error_display esc e = line \/
     exists vs, Forall (fun b => ~ control b) vs /\
       error_display esc e = line ++ [c_nl] ++ bs "  [possible values: " ++ vs ++ bs "]").
Proof. exact (message_clean esc d argv e). Qed.
Print Assumptions C76_message.

(** A source error with control characters is what the type of the value said
    about the value. *)
Theorem C76_source {V : Type} (d : args_decl V) (argv0 : bytes) (toks : list bytes) (e : error) (t : bytes) :
  valid d -> try_parse_from d (argv0 :: toks) = Err e -> error_source e = Some t ->
  Forall (fun b => ~ control b) t \/
  exists ad a v p f, In (Occ ad a (Some v)) (seen d toks) /\ In p (pieces a (text_of a v)) /\ e_input e = Some p /\
    (vt_try_from_os (value_of_ty (sa_ty a)) = Some f \/ vt_from_str (value_of_ty (sa_ty a)) = Some f) /\ f p = inr t.
Proof. exact (source_origin d argv0 toks e t). Qed.
Print Assumptions C76_source.

(** [Debug] never has any. *)
Theorem C76_debug (esc : escapes) (e : error) : Forall (fun b => ~ control b) (error_debug esc e).
Proof. exact (debug_clean esc e). Qed.
Print Assumptions C76_debug.

Example C76_example :
  let escape := n2b 27 in
  valid app_ /\
  match try_parse_from app_ [bs "prog"; bs "--mode=" ++ [escape; c_nl; n2b 255]] with
  | Err e => e_kind e <> Help /\ error_source e = Some (bs "invalid utf-8 sequence of 1 bytes from index 2") /\
      error_display any_escapes e =
        bs "invalid value ""\u{1b}\n\xFF"" for '--mode <MODE>': invalid utf-8 sequence of 1 bytes from index 2"
        ++ [c_nl] ++ bs "  [possible values: fast, slow]"
  | _ => False
  end /\
  match try_parse_from app_ [bs "prog"; bs "--no" ++ [escape]] with
  | Err e => e_kind e <> Help /\ error_source e = None /\ error_display any_escapes e = bs "unexpected argument ""--no\u{1b}"""
  | _ => False
  end.
Proof. split; [exact app_valid|]. split; (vm_compute; split; [discriminate|split; reflexivity]). Qed.

(** That the same holds for a request for help is false: the name of the program
    is on the page as it is. *)
Theorem C76_help_refuted : exists (d : args_decl tv) (argv : list bytes) (e : error),
  valid d /\ try_parse_from d argv = Err e /\ e_kind e = Help /\
  forall esc, infix (bs "Usage: " ++ [n2b 27]) (error_display esc e).
Proof.
  exists (struct []), [[n2b 27]; bs "-h"]. eexists. split; [split; vm_compute; reflexivity|].
  split; [vm_compute; reflexivity|]. split; [reflexivity|]. intros esc. exists [], [c_nl; c_nl]. vm_compute. reflexivity.
Qed.
Print Assumptions C76_help_refuted.
