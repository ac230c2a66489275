(** UTF-8, as used by [utf8_chunks], [char_indices], [encode_utf8] and
    [<&str>::try_from(&OsStr)].

    Call sites: src/runtime.rs:521-539 (short option bundles),
    src/values.rs:144, 230 (value parsers), src/runtime.rs:87 (program name).
    The bodies are std's; the byte ranges are those of Unicode Table 3-7. *)
From Verif Require Import Bytes.
Local Open Scope N_scope.

Definition in_range (lo hi : N) (b : byte) : bool := (lo <=? b2n b) && (b2n b <=? hi).
Definition is_cont (b : byte) : bool := in_range 128 191 b.

(** Is [b1] an allowed second byte after the lead byte [b0] of a 3-byte (resp.
    4-byte) sequence? *)
Definition second_ok3 (b0 b1 : byte) : bool :=
  if b2n b0 =? 224 then in_range 160 191 b1
  else if b2n b0 =? 237 then in_range 128 159 b1
  else is_cont b1.
Definition second_ok4 (b0 b1 : byte) : bool :=
  if b2n b0 =? 240 then in_range 144 191 b1
  else if b2n b0 =? 244 then in_range 128 143 b1
  else is_cont b1.

(** The longest valid UTF-8 prefix, decoded into scalar values, and what
    follows it.  This is [utf8_chunks().next()]: [chunk.valid()] is the first
    component and the second one is [bundle.index(chunk.valid().len()..)]
    (src/runtime.rs:521, 539). *)
Fixpoint utf8_prefix (s : bytes) : list N * bytes :=
  match s with
  | [] => ([], [])
  | b0 :: s1 =>
      if b2n b0 <? 128 then
        let '(cs, r) := utf8_prefix s1 in (b2n b0 :: cs, r)
      else
        match s1 with
        | [] => ([], s)
        | b1 :: s2 =>
            if in_range 194 223 b0 then
              if is_cont b1 then
                let '(cs, r) := utf8_prefix s2 in
                ((b2n b0 - 192) * 64 + (b2n b1 - 128) :: cs, r)
              else ([], s)
            else
              match s2 with
              | [] => ([], s)
              | b2 :: s3 =>
                  if in_range 224 239 b0 then
                    if second_ok3 b0 b1 && is_cont b2 then
                      let '(cs, r) := utf8_prefix s3 in
                      ((b2n b0 - 224) * 4096 + (b2n b1 - 128) * 64 + (b2n b2 - 128) :: cs, r)
                    else ([], s)
                  else
                    match s3 with
                    | [] => ([], s)
                    | b3 :: s4 =>
                        if in_range 240 244 b0 && second_ok4 b0 b1
                           && is_cont b2 && is_cont b3 then
                          let '(cs, r) := utf8_prefix s4 in
                          ((b2n b0 - 240) * 262144 + (b2n b1 - 128) * 4096
                           + (b2n b2 - 128) * 64 + (b2n b3 - 128) :: cs, r)
                        else ([], s)
                    end
              end
        end
  end.

(** [char::encode_utf8]: src/runtime.rs:525; [String::from(char)]:
    derive/src/derive_args.rs:277. *)
Definition utf8_encode (c : N) : bytes :=
  if c <? 128 then [n2b c]
  else if c <? 2048 then [n2b (192 + c / 64); n2b (128 + c mod 64)]
  else if c <? 65536 then
    [n2b (224 + c / 4096); n2b (128 + (c / 64) mod 64); n2b (128 + c mod 64)]
  else
    [n2b (240 + c / 262144); n2b (128 + (c / 4096) mod 64);
     n2b (128 + (c / 64) mod 64); n2b (128 + c mod 64)].

(** A Unicode scalar value, i.e. a value of Rust's type [char]. *)
Definition is_scalar (c : N) : bool :=
  (c <? 55296) || ((57344 <=? c) && (c <? 1114112)).

(** Is this byte string a Rust [str]?  ([<&str>::try_from(&OsStr)],
    src/values.rs:144, 230.) *)
Definition utf8_valid (s : bytes) : bool :=
  match snd (utf8_prefix s) with [] => true | _ => false end.

(** Length of the ill-formed part at the start of [s], when [s] does not start
    with a valid sequence: the "maximal subpart" rule of [Utf8Chunks].  Used
    only by [to_string_lossy] (src/runtime.rs:87) and the [Debug] form of
    [OsStr] (src/error.rs:94-108). *)
Definition invalid_len (s : bytes) : nat :=
  match s with
  | b0 :: b1 :: r =>
      if in_range 224 239 b0 && second_ok3 b0 b1 then 2%nat
      else if in_range 240 244 b0 && second_ok4 b0 b1 then
        match r with
        | b2 :: _ => if is_cont b2 then 3%nat else 2%nat
        | [] => 2%nat
        end
      else 1%nat
  | _ => 1%nat
  end.

Definition encode_all (cs : list N) : bytes := concat (map utf8_encode cs).

(** [String::from_utf8_lossy]-style conversion, src/runtime.rs:87.  The fuel is
    the length of the input; every round drops at least one byte. *)
Fixpoint utf8_lossy_aux (fuel : nat) (s : bytes) : bytes :=
  match fuel with
  | O => []
  | S fuel =>
      let '(cs, r) := utf8_prefix s in
      match r with
      | [] => encode_all cs
      | _ => encode_all cs ++ utf8_encode 65533
               ++ utf8_lossy_aux fuel (skipn (invalid_len r) r)
      end
  end.
Definition to_string_lossy (s : bytes) : bytes := utf8_lossy_aux (S (List.length s)) s.
