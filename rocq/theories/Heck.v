(** Case conversion of identifiers.

    /repo delegates to the crate [heck] 0.5 (derive/src/derive_args.rs:395, 430,
    derive/src/derive_subcommand.rs:76, derive/src/common.rs:425-441); its
    source is not in /repo.  This models its [transform] function for ASCII
    input, written from the published crate.  Identifiers with non-ASCII
    characters are not modelled (see [ident_ok] in Derive.v). *)
From Verif Require Import Bytes.

Definition is_alnum (b : byte) : bool := is_ascii_digit b || is_ascii_upper b || is_ascii_lower b.

(** [s.split(|c| !c.is_alphanumeric())]; the reversed current piece in [acc]. *)
Fixpoint split_words (s : bytes) (acc : bytes) : list bytes :=
  match s with
  | [] => [rev acc]
  | x :: s' => if is_alnum x then split_words s' (x :: acc) else rev acc :: split_words s' []
  end.

Inductive word_mode := WBoundary | WLower | WUpper.

(** The inner loop of [transform]: cuts one alphanumeric piece at case changes. *)
Fixpoint seg (mode : word_mode) (cur : bytes) (w : bytes) : list bytes :=
  match w with
  | [] => []
  | c :: w' =>
      match w' with
      | [] => [rev (c :: cur)]
      | next :: _ =>
          let next_mode :=
            if is_ascii_lower c then WLower else if is_ascii_upper c then WUpper else mode in
          match next_mode, is_ascii_upper next with
          | WLower, true => rev (c :: cur) :: seg WBoundary [] w'
          | _, _ =>
              match mode, is_ascii_upper c && is_ascii_lower next with
              | WUpper, true => rev cur :: seg WBoundary [c] w'
              | _, _ => seg next_mode (c :: cur) w'
              end
          end
      end
  end.

Definition words (s : bytes) : list bytes :=
  concat (map (seg WBoundary []) (split_words s [])).

Definition lowercase (s : bytes) : bytes := map ascii_lower s.
Definition uppercase (s : bytes) : bytes := map ascii_upper s.
Definition capitalize (s : bytes) : bytes :=
  match s with [] => [] | x :: s' => ascii_upper x :: lowercase s' end.

Fixpoint join (sep : bytes) (l : list bytes) : bytes :=
  match l with
  | [] => []
  | [x] => x
  | x :: l' => x ++ sep ++ join sep l'
  end.

(** [AsKebabCase], [AsShoutySnekCase] and the other conversions used. *)
Definition kebab_case (s : bytes) : bytes := join (bs "-") (map lowercase (words s)).
Definition snake_case (s : bytes) : bytes := join (bs "_") (map lowercase (words s)).
Definition shouty_snake_case (s : bytes) : bytes := join (bs "_") (map uppercase (words s)).
Definition pascal_case (s : bytes) : bytes := join [] (map capitalize (words s)).
Definition lower_camel_case (s : bytes) : bytes :=
  match words s with
  | [] => []
  | w :: ws => lowercase w ++ join [] (map capitalize ws)
  end.

(** derive/src/common.rs:396-441 [Rename], [Rename::rename]. *)
Inductive rename :=
| CamelCase | KebabCase | PascalCase | ScreamingSnakeCase | SnakeCase | Lower | Upper | Verbatim.
Definition do_rename (r : rename) (s : bytes) : bytes :=
  match r with
  | CamelCase => lower_camel_case s
  | KebabCase => kebab_case s
  | PascalCase => pascal_case s
  | ScreamingSnakeCase => shouty_snake_case s
  | SnakeCase => snake_case s
  | Lower => lowercase s
  | Upper => uppercase s
  | Verbatim => s
  end.

(** derive/src/common.rs:408-423, the [Parse] impl of [Rename]. *)
Definition parse_rename (s : bytes) : option rename :=
  if beqb s (bs "camelCase") then Some CamelCase
  else if beqb s (bs "kebab-case") then Some KebabCase
  else if beqb s (bs "PascalCase") then Some PascalCase
  else if beqb s (bs "SCREAMING_SNAKE_CASE") then Some ScreamingSnakeCase
  else if beqb s (bs "snake_case") then Some SnakeCase
  else if beqb s (bs "lower") then Some Lower
  else if beqb s (bs "UPPER") then Some Upper
  else if beqb s (bs "verbatim") then Some Verbatim
  else None.
