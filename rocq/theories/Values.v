(** Value parsers: src/values.rs, and the code generated by
    [derive(ValueEnum)]: derive/src/derive_value_enum.rs. *)
From Verif Require Import Bytes Utf8 Refl Error.

(** ** [derive(ValueEnum)] *)

(** A variant after renaming: derive/src/derive_value_enum.rs:81-84.  The
    variant's identifier is represented by its position in the enum. *)
Record ve_variant := mkVariant { vv_name : bytes; vv_ident : nat }.

(** [sort_by] on the names, derive/src/derive_value_enum.rs:66: a stable sort.
    Insertion sort, inserting from the right so that equal keys keep their
    order. *)
Fixpoint insert_by {A} (key : A -> bytes) (x : A) (l : list A) : list A :=
  match l with
  | [] => [x]
  | y :: l' =>
      match bcompare (key x) (key y) with
      | Gt => y :: insert_by key x l'
      | _ => x :: l
      end
  end.
Definition sort_by {A} (key : A -> bytes) (l : list A) : list A :=
  fold_right (insert_by key) [] l.

(** Errors of the macro, derive/src/derive_value_enum.rs:54-60, 67-70. *)
Inductive ve_error := VeControlChar (ident : nat) | VeDuplicated (name : bytes).

(** [windows(2).find(..)] of derive/src/derive_value_enum.rs:67: the first pair
    of equal neighbours. *)
Fixpoint find_adjacent_dup (l : list ve_variant) : option bytes :=
  match l with
  | v :: ((w :: _) as l') =>
      if beqb (vv_name v) (vv_name w) then Some (vv_name v) else find_adjacent_dup l'
  | _ => None
  end.

(** derive/src/derive_value_enum.rs:36-73 [expand_for_enum], on the names that
    result from [value(name)] or the case conversion.  The result is the sorted
    variant list, or the errors. *)
Definition ve_expand (names : list bytes) : list ve_variant + list ve_error :=
  let vs := map (fun '(i, n) => mkVariant n i) (combine (seq 0 (length names)) names) in
  let ok v := negb (existsb is_ascii_control (vv_name v)) in
  let errs1 := map (fun v => VeControlChar (vv_ident v)) (filter (fun v => negb (ok v)) vs) in
  let sorted := sort_by vv_name (filter ok vs) in
  let errs2 := match find_adjacent_dup sorted with Some n => [VeDuplicated n] | None => [] end in
  match errs1 ++ errs2 with
  | [] => inl sorted
  | es => inr es
  end.

(** derive/src/derive_value_enum.rs:109-114: [match __v { "name" => Self::Ident, .. }]. *)
Fixpoint ve_parse (vs : list ve_variant) (s : bytes) : option nat :=
  match vs with
  | [] => None
  | v :: vs' => if beqb s (vv_name v) then Some (vv_ident v) else ve_parse vs' s
  end.

(** derive/src/derive_value_enum.rs:116-121: [match *self { Self::Ident => "name", .. }]. *)
Fixpoint ve_display (vs : list ve_variant) (i : nat) : option bytes :=
  match vs with
  | [] => None
  | v :: vs' => if Nat.eqb i (vv_ident v) then Some (vv_name v) else ve_display vs' i
  end.

(** derive/src/derive_value_enum.rs:95-96 [POSSIBLE_INPUTS_NUL]. *)
Definition ve_possible_nul (vs : list ve_variant) : bytes :=
  concat (map (fun v => vv_name v ++ [c_nul]) vs).

(** derive/src/derive_value_enum.rs:98-99 [NO_UPPER_CASE]. *)
Definition ve_no_upper_case (vs : list ve_variant) : bool :=
  forallb (fun v => forallb (fun b => negb (is_ascii_upper b)) (vv_name v)) vs.

(** src/values.rs:160-176 [Display for PossibleValues]. *)
Fixpoint join_comma (l : list bytes) : bytes :=
  match l with
  | [] => []
  | [x] => x
  | x :: l' => x ++ bs ", " ++ join_comma l'
  end.
Definition possible_values (nul : bytes) : bytes :=
  bs "[possible values: " ++ join_comma (split_terminator c_nul nul []) ++ bs "]".

(** ** Parsers *)

Section Values.
Context {V : Type}.

(** The three [ValueParser] implementations.  The user's conversion functions
    ([TryFrom<&OsStr>], [FromStr]) are arbitrary total functions; their error
    is represented by the text it displays. *)
Inductive value_parser :=
| ValueEnumParser (vs : list ve_variant) (inj : nat -> V)    (** src/values.rs:135-158 *)
| TryFromOsStrParser (f : bytes -> V + bytes)                (** src/values.rs:190-207 *)
| FromStrParser (f : bytes -> V + bytes).                    (** src/values.rs:221-240 *)

(** The text of [Utf8Error] (std), the source error of a value that is not
    UTF-8; src/values.rs:149, 235. *)
Fixpoint nat_digits_aux (fuel : nat) (n : nat) (acc : bytes) : bytes :=
  match fuel with
  | O => acc
  | S fuel =>
      let acc := n2b (48 + N.of_nat (n mod 10)) :: acc in
      if Nat.ltb n 10 then acc else nat_digits_aux fuel (n / 10) acc
  end.
Definition nat_digits (n : nat) : bytes := nat_digits_aux (S n) n [].
Definition utf8_error_text (v : bytes) : bytes :=
  let '(cs, r) := utf8_prefix v in
  let at_ := nat_digits (List.length v - List.length r) in
  let k := invalid_len r in
  (* An ill-formed part that runs into the end of input is "incomplete". *)
  if Nat.leb (List.length r) k &&
     match r with
     | b0 :: _ => in_range 194 244 b0
     | [] => false
     end
  then bs "incomplete utf-8 byte sequence from index " ++ at_
  else bs "invalid utf-8 sequence of " ++ nat_digits k ++ bs " bytes from index " ++ at_.

(** [ValueParser::parse]. *)
Definition vp_parse (p : value_parser) (v : bytes) : res V :=
  match p with
  | ValueEnumParser vs inj =>
      (* src/values.rs:142-157 *)
      let fail := with_context (with_input InvalidValue v) (possible_values (ve_possible_nul vs)) in
      if utf8_valid v then
        match ve_parse vs v with
        | Some i => Ok (inj i)
        | None => Err fail
        end
      else Err (with_source fail (utf8_error_text v))
  | TryFromOsStrParser f =>
      (* src/values.rs:198-206 *)
      match f v with
      | inl x => Ok x
      | inr m => Err (with_source (with_input InvalidValue v) m)
      end
  | FromStrParser f =>
      (* src/values.rs:229-239 *)
      if utf8_valid v then
        match f v with
        | inl x => Ok x
        | inr m => Err (with_source (with_input InvalidValue v) m)
        end
      else Err (with_source (with_input InvalidValue v) (utf8_error_text v))
  end.

(** ** Parser inference

    The traits a value type may implement.  [vt_value_enum] carries the names of
    the variants in the order of declaration, and the embedding of variants
    (numbered in that order) into values; the generated table is [ve_expand] of
    the names.  [vt_variant] tells which variant a value is, for
    [match *self { .. }] in derive/src/derive_value_enum.rs:116-121. *)
Record value_ty := mkValueTy {
  vt_value_enum : option (list bytes * (nat -> V));
  vt_try_from_os : option (bytes -> V + bytes);
  vt_from_str : option (bytes -> V + bytes);
  vt_default : option V;                 (** [impl Default] *)
  vt_display : option (V -> bytes);      (** [impl Display] *)
  vt_variant : V -> nat
}.

(** src/values.rs:105-250: deref-specialization picks [ValueEnum], then
    [TryFrom<&OsStr>], then [FromStr]; otherwise a compile error.  An enum that
    [derive(ValueEnum)] rejects does not compile either. *)
Definition infer_parser (t : value_ty) : option value_parser :=
  match vt_value_enum t with
  | Some (names, inj) =>
      match ve_expand names with
      | inl vs => Some (ValueEnumParser vs inj)
      | inr _ => None
      end
  | None =>
      match vt_try_from_os t with
      | Some f => Some (TryFromOsStrParser f)
      | None =>
          match vt_from_str t with
          | Some f => Some (FromStrParser f)
          | None => None
          end
      end
  end.

(** src/values.rs:64-103: how a default value is written on the help page.
    Deref-specialization picks [ValueEnum::display_value], then [Display];
    otherwise a compile error. *)
Definition infer_display (t : value_ty) : option (V -> bytes) :=
  match vt_value_enum t with
  | Some (names, _) =>
      match ve_expand names with
      | inl vs => Some (fun v => match ve_display vs (vt_variant t v) with Some s => s | None => [] end)
      | inr _ => None
      end
  | None => vt_display t
  end.
End Values.
Arguments value_parser : clear implicits.
Arguments value_ty : clear implicits.
